(** FilterMaker.compute_fourier: mass/core/optimal_filtering.py:426-507, with _normalize_signal (612-669) and
    _normalize_5lag_filter (671-690) as far as exceptions and lengths go.  The first part is about any kind of numbers and
    any transforms, so it covers rounding, infinities and not-a-numbers; the second computes with exact reals. *)
From Coq Require Import Reals ZArith Bool List.
From Verif Require Import FtModel FoModel.
Import ListNotations.

Inductive error := ValueErr | NotImplErr | AssertErr.

Section Any.
Variables A C B : Type.
(** numpy.fft.rfft, irfft with a length, and irfft's reading of a real spectrum *)
Variable rft : list A -> list C.
Variable irft : list C -> nat -> list A.
Variable to_c : A -> C.
Variable czero : C.
Variable azero : A.
(** 656-659: subtracting the pretrigger mean and dividing by the maximum *)
Variable scale : list A -> A -> A.
(** 478: division; 481-488: the band limit at entry k, for a spectrum of so many entries *)
Variable ratio : C -> C -> C.
Variable limit : nat -> nat -> C -> C.
(** 685-690: the rescaled filter; 494-507: the rest, once the filter is there *)
Variable rescale : list A -> list A -> list A.
Variable finish : list A -> B.

(** 644-661 without cuts; nothing raises but an empty signal (637-638). *)
Definition normalized (npre : nat) (s : list A) : list A := repeat azero (Nat.min npre (length s)) ++ skipn npre (map (scale s) s).
(** 473-477: numpy's a[:n - 3] and a[-n + 2:] *)
Definition shortened (psd : list A) : list C :=
  let n := length psd in
  let r := irft (map to_c psd) (2 * (n - 1)) in
  rft (firstn (n - 3) r ++ skipn (length r - (n - 2)) r).
(** 478-490 *)
Definition weighted (d : C) (s : list A) (psd : list A) : list C :=
  let S := rft s in let N := shortened psd in
  map (fun k => match k with O => czero | _ => limit (length psd) k (ratio (nth k S d) (nth k N d)) end) (seq 0 (length S)).
(** 671-690: the assertion, and numpy.dot of vectors of different lengths *)
Definition normalize_5lag (asserts : bool) (f s : list A) : error + list A :=
  if asserts && (length s <? length f + 4)%nat then inl AssertErr
  else if forallb (fun i => (Nat.min (length f) (length s - i) =? length f)%nat) (seq 0 5) then inr (rescale f s)
  else inl ValueErr.
(** 456-507.  rfft of nothing raises, and so does irfft of a single number.  Without assertions: python -O. *)
Definition compute_fourier (asserts : bool) (signal : list A) (npre : nat) (noise_psd : option (list A)) (cut_pre cut_post : Z) : error + B :=
  match noise_psd with
  | None => inl ValueErr
  | Some psd =>
      if ((0 <? cut_pre) || (0 <? cut_post))%Z then inl NotImplErr
      else if ((cut_pre <? 0) || (cut_post <? 0))%Z then inl ValueErr
      else match signal with
      | [] => inl ValueErr
      | _ =>
          let s := normalized npre signal in
          let s := firstn (length s - 4) (skipn 2 s) in
          match s with
          | [] => inl ValueErr
          | _ =>
              if negb (length (rft s) + 2 =? length psd)%nat then inl ValueErr
              else let w := weighted czero s psd in
              if (length w =? 1)%nat then inl ValueErr
              else match normalize_5lag asserts (irft w (2 * (length w - 1))) s with
                   | inl e => inl e
                   | inr f => inr (finish f)
                   end
          end
      end
  end.
End Any.

Local Open Scope R_scope.
Definition cdiv (a b : complex) : complex := cmul (real (/ (fst b ^ 2 + snd b ^ 2))) (cmul a (conj b)).
(** 481-488: the frequencies for a spectrum of n entries, not of the n - 2 that are left *)
Definition fourier_limit (dt : R) (fmax f_3db : option R) (n k : nat) (v : complex) : complex :=
  cmul (real (band_gain fmax f_3db (INR k * (1 / 2) / (INR (n - 1) * dt)))) v.
Definition noise_left (psd : list R) : list complex := shortened R complex rfft irfft real psd.
(** 464-491: the filter before it is normalized, of the shortened signal *)
Definition fourier_shape (dt : R) (fmax f_3db : option R) (s psd : list R) : list R :=
  irfft_default (weighted R complex rfft irfft real c0 cdiv (fourier_limit dt fmax f_3db) c0 s psd).
