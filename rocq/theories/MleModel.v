(** Line models: mass/calibration/line_models.py.  Real numbers; [None] is an exception, an infinity or not-a-number. *)
From Coq Require Import Reals ZArith List Bool.
Import ListNotations.
Local Open Scope R_scope.

(* ---------- MLEModel._residual, 92-113, and CompositeMLEModel._residual, 216-228 ---------- *)

(** 99-101 and 223-225, for one bin: [y] is the model and [d] the data. *)
Definition r2 (y d : R) : option R :=
  if Rlt_dec 0 d then if Rlt_dec 0 y then Some (y - d + d * ln (d / y)) else None
  else Some (y - d).
(** 109-112 *)
Definition residual (y d : R) : option R :=
  match r2 y d with
  | None => None
  | Some r =>
      let v := if Rlt_dec 0 r then sqrt (2 * r) else 0 in
      Some (if Rlt_dec y d then v * -1 else v)
  end.
(** 226-228: the root of a negative number is not a number. *)
Definition composite_residual (y d : R) : option R :=
  match r2 y d with
  | None => None
  | Some r => if Rlt_dec (2 * r) 0 then None else Some (if Rlt_dec y d then sqrt (2 * r) * -1 else sqrt (2 * r))
  end.
Fixpoint map2 {A B C : Type} (f : A -> B -> option C) (l : list A) (m : list B) : option (list C) :=
  match l, m with
  | [], [] => Some []
  | a :: l', b :: m' => match f a b, map2 f l' m' with Some c, Some r => Some (c :: r) | _, _ => None end
  | _, _ => None
  end.
(** [data] may be missing; 97-98, 221-222. *)
Definition residuals (ys : list R) (data : option (list R)) : option (list R) :=
  match data with None => Some ys | Some ds => map2 residual ys ds end.
Definition composite_residuals (ys : list R) (data : option (list R)) : option (list R) :=
  match data with None => Some ys | Some ds => map2 composite_residual ys ds end.

(* ---------- _scale_add_bg, 76-83 ---------- *)

Fixpoint indexed (i : nat) (f : nat -> R -> R) (l : list R) : list R :=
  match l with [] => [] | v :: t => f i v :: indexed (S i) f t end.
Definition background_at (bg slope : R) (i : nat) : R :=
  let b := if Req_EM_T slope 0 then bg else bg + slope * INR i in
  if Rlt_dec b 0 then 0 else b.
Definition scale_add_bg (spectrum : list R) (integral bg slope : R) : list R :=
  indexed 0 (fun i v => v * integral + background_at bg slope i) spectrum.

(* ---------- _smear_exponential_tail, 12-73 ---------- *)

(** int(), towards zero *)
Definition trunc (r : R) : Z := if Rle_dec 0 r then Int_part r else (- Int_part (- r))%Z.
Definition tiny : R := / 1000000.
(** The filter at frequency zero, 59-65: the weight of the sharp part and those of the tails. *)
Definition lo_weight (frac share : R) : R := let lo := frac - frac * share in if Rlt_dec tiny lo then lo else 0.
Definition hi_weight (frac share : R) : R := let hi := frac * share in if Rlt_dec tiny hi then hi else 0.
(** np.arange(-nlow, nhi + len(x)) * energy_step + x[0]; nlow, nhi >= 0 here. *)
Definition wide (x0 step : R) (nlow nhi len : nat) : list R :=
  map (fun k => (INR k - INR nlow) * step + x0) (seq 0 (nlow + nhi + len)).
Definition nonneg (v : R) : R := if Rlt_dec v 0 then 0 else v.
(** [convolve sharp lo tau_lo hi tau_hi step] is the filtering by Fourier transforms, 55-67: a sum of three parts with
    the given weights and lengths. *)
Definition smear (convolve : R -> R -> R -> R -> R -> R -> list R -> list R) (clean : R -> R) (x : list R) (resolution frac tau share tau_hi : R) : option (list R) :=
  if Rle_dec frac tiny then Some (map clean x)
  else
    match x with
    | x0 :: x1 :: _ =>
        let step := x1 - x0 in
        if Rle_dec step 0 then None
        else
          let nlow := Z.min (10 * Z.of_nat (length x)) (trunc ((resolution + Rmax (tau * 6) tau_hi) / step + / 2)) in
          let nhi := Z.min (10 * Z.of_nat (length x)) (trunc ((resolution + Rmax tau (tau_hi * 6)) / step + / 2)) in
          if ((nlow <? 0) || (nhi <? 0))%Z then None
          else if (100000 <? nlow + nhi + Z.of_nat (length x))%Z then None
          else
            let raw := map clean (wide x0 step (Z.to_nat nlow) (Z.to_nat nhi) (length x)) in
            let smooth := convolve (1 - frac) (lo_weight frac share) tau (hi_weight frac share) tau_hi step raw in
            Some (firstn (length x) (skipn (Z.to_nat nlow) (map nonneg smooth)))
    | _ => None
    end.

(* ---------- GenericLineModel, 251-298 ---------- *)

Definition any_negative (l : list R) : bool := existsb (fun v => if Rlt_dec v 0 then true else false) l.
Definition times (l m : list R) : list R := map (fun p => fst p * snd p) (combine l m).
Definition finish (r energy : list R) (qe : option (R -> R)) : option (list R) :=
  if any_negative r then None else Some (match qe with None => r | Some q => times r (map q energy) end).
Definition energies (bins : list R) (peak_ph dph_de peak_energy : R) : list R := map (fun b => (b - peak_ph) / dph_de + peak_energy) bins.
(** 279-290; [pdf energy fwhm] and [peak_energy] belong to the spectral line. *)
Definition plain_model (pdf : R -> R -> R) (peak_energy : R) (qe : option (R -> R)) (bins : list R) (fwhm peak_ph dph_de integral bg slope : R) : option (list R) :=
  match bins with
  | b0 :: b1 :: _ =>
      if Req_EM_T dph_de 0 then None
      else
        let energy := energies bins peak_ph dph_de peak_energy in
        let spectrum := map (fun e => pdf e fwhm) energy in
        finish (scale_add_bg spectrum (integral * (b1 - b0) / dph_de) bg slope) energy qe
  | _ => None
  end.
(** 257-277; note the products with dph_de in 267-268 and 271. *)
Definition tail_model convolve (pdf : R -> R -> R) (peak_energy : R) (qe : option (R -> R)) (bins : list R) (fwhm peak_ph dph_de integral bg slope tail_frac tail_tau tail_share_hi tail_tau_hi : R) : option (list R) :=
  match bins with
  | b0 :: b1 :: _ =>
      if Req_EM_T dph_de 0 then None
      else
        let energy := energies bins peak_ph dph_de peak_energy in
        match smear convolve (fun e => pdf e fwhm) energy fwhm tail_frac (tail_tau * dph_de) tail_share_hi (tail_tau_hi * dph_de) with
        | None => None
        | Some spectrum => finish (scale_add_bg spectrum (integral * (b1 - b0) * dph_de) bg slope) energy qe
        end
  | _ => None
  end.

(* ---------- GenericLineModel.guess, 316-337 ---------- *)

(** The values given to make_params; lmfit's own limits are not modelled. *)
Record guessed := { g_peak : R; g_background : R; g_integral : R; g_fwhm : R }.
Definition total (l : list R) : R := fold_right Rplus 0 l.
(** data.cumsum() *)
Definition cumsum (l : list R) : list R := map (fun k => total (firstn (S k) l)) (seq 0 (length l)).
(** argmax of truth values: the first that holds, or the first of all *)
Fixpoint first_true (l : list bool) (i : nat) : nat :=
  match l with [] => 0 | true :: _ => i | false :: t => first_true t (S i) end.
(** argmax: the first of the largest *)
Fixpoint argmax (l : list R) : nat :=
  match l with
  | [] => 0
  | v :: t => match t with [] => 0 | _ => if Rlt_dec v (nth (argmax t) t 0) then S (argmax t) else 0 end
  end.
(** 318-321; a division of zeros compares as false *)
Definition percentile (data bins : list R) (p : R) : R :=
  nth (first_true (map (fun c => if Req_EM_T (total data) 0 then false else if Rlt_dec p (c / total data) then true else false) (cumsum data)) 0) bins 0.
Definition mean_of (l : list R) : R := total l / INR (length l).
Definition guess (data bins : list R) (dph : R) : option guessed :=
  match data with
  | [] => None
  | _ =>
      if Req_EM_T dph 0 then None
      else
        let fwhm_arb := 7 / 10 * (percentile data bins (3 / 4) - percentile data bins (1 / 4)) in
        let baseline := if (20 <? length data)%nat then Rmax (mean_of (firstn 10 data)) (1 / INR (length data)) else 1 / 10 in
        let above := total data - baseline * INR (length data) in
        Some {| g_peak := nth (argmax data) bins 0; g_background := baseline;
                g_integral := (if Rlt_dec above 0 then total data else above); g_fwhm := fwhm_arb / dph |}
  end.
