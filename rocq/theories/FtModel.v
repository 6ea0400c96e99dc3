(** Fourier transforms and what is done with them: band_limit (mass/core/optimal_filtering.py:186-224) and
    filter_signal_lowpass (mass/core/analysis_algorithms.pyx:760-779).  numpy.fft is what it computes: the discrete
    Fourier transform over exact real numbers.  A complex number is a pair. *)
From Coq Require Import Reals ZArith Bool List.
Import ListNotations.
Local Open Scope R_scope.

Notation complex := (R * R)%type.
Definition c0 : complex := (0, 0).
Definition c1 : complex := (1, 0).
Definition cadd (a b : complex) : complex := (fst a + fst b, snd a + snd b).
Definition copp (a : complex) : complex := (- fst a, - snd a).
Definition csub (a b : complex) : complex := cadd a (copp b).
Definition cmul (a b : complex) : complex := (fst a * fst b - snd a * snd b, fst a * snd b + snd a * fst b).
Definition conj (a : complex) : complex := (fst a, - snd a).
Definition real (x : R) : complex := (x, 0).
Fixpoint csum (n : nat) (f : nat -> complex) : complex := match n with O => c0 | S m => cadd (csum m f) (f m) end.

(** exp(2 pi i z / n) *)
Definition wave (n : nat) (z : Z) : complex := let t := 2 * PI * IZR z / INR n in (cos t, sin t).
(** numpy.fft.fft and ifft *)
Definition fft (x : list complex) : list complex :=
  let n := length x in map (fun k => csum n (fun j => cmul (nth j x c0) (conj (wave n (Z.of_nat (j * k)))))) (seq 0 n).
Definition ifft (x : list complex) : list complex :=
  let n := length x in map (fun j => cmul (real (/ INR n)) (csum n (fun k => cmul (nth k x c0) (wave n (Z.of_nat (j * k)))))) (seq 0 n).
(** numpy.fft.rfft: the part of the transform of a real vector that is not redundant. *)
Definition rfft (x : list R) : list complex := firstn (length x / 2 + 1) (fft (map real x)).
(** numpy.fft.irfft with n: what is missing is zero, and the rest of the spectrum is the conjugate of the first part.
    numpy takes imaginary parts at frequency zero and at half the sampling frequency to be zero. *)
Definition extended (x : list complex) (n k : nat) : complex :=
  if (2 * k <=? n)%nat then nth k x c0 else conj (nth (n - k) x c0).
Definition irfft (x : list complex) (n : nat) : list R := map fst (ifft (map (extended x n) (seq 0 n))).

(** Each entry of a spectrum times a number. *)
Definition times (g : nat -> complex) (x : list complex) : list complex := map (fun k => cmul (g k) (nth k x c0)) (seq 0 (length x)).

(** optimal_filtering.py:213-224; the absolute values of the frequencies of fftfreq up to half the sampling frequency *)
Definition frequency (n : nat) (dt : R) (k : nat) : R := INR k / (INR n * dt).
Definition band_gain (fmax f_3db : option R) (f : R) : R :=
  let g := match fmax with Some m => if Rlt_dec m f then 0 else 1 | None => 1 end in
  match f_3db with Some c => g / (1 + (f / c) ^ 2) | None => g end.
(** optimal_filtering.py:205-224 for a vector; None: rfft of nothing raises. *)
Definition band_limit (v : list R) (dt : R) (fmax f_3db : option R) : option (list R) :=
  match fmax, f_3db with
  | None, None => Some v
  | _, _ => match v with
            | [] => None
            | _ => let n := length v in Some (irfft (times (fun k => real (band_gain fmax f_3db (frequency n dt k))) (rfft v)) n)
            end
  end.
(** 208-211: the columns of a matrix, one after another. *)
Fixpoint band_limit_columns (m : list (list R)) (dt : R) (fmax f_3db : option R) : option (list (list R)) :=
  match m with
  | [] => Some []
  | v :: r => match band_limit v dt fmax f_3db, band_limit_columns r dt fmax f_3db with Some a, Some b => Some (a :: b) | _, _ => None end
  end.

(** analysis_algorithms.pyx:772-779.  numpy.arange(0, N/2+1) and arange(N/2-1, 0, -1): N/2 is a float. *)
Definition lowpass_freqs (n : nat) (fs : R) : list R :=
  let up := if Nat.even n then (n / 2 + 1)%nat else (n / 2 + 2)%nat in
  let down := if Nat.even n then (n / 2 - 1)%nat else (n / 2)%nat in
  map (fun x => fs / INR n * x) (map INR (seq 0 up) ++ map (fun i => INR n / 2 - 1 - INR i) (seq 0 down)).
(** A mask of another length than the spectrum raises, and so does the transform of nothing. *)
Definition filter_signal_lowpass (sig : list R) (fs fcut : R) : option (list complex) :=
  let n := length sig in
  match n with
  | O => None
  | _ => let freqs := lowpass_freqs n fs in
         if (length freqs =? n)%nat
         then Some (ifft (times (fun k => if Rlt_dec (nth k freqs 0) fcut then c1 else c0) (fft (map real sig))))
         else None
  end.
