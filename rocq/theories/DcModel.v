(** Drift correction: core/analysis_algorithms.pyx 233-337 and core/channel.py 1715-1740, 2057-2089, 2599-2703.
    Exact real numbers; [None] is an exception or a result that is not a number. *)
From Coq Require Import Reals ZArith Bool List.
Import ListNotations.
Local Open Scope R_scope.

(* ---------- order statistics of numpy ---------- *)

Fixpoint insert (x : R) (l : list R) : list R :=
  match l with [] => [x] | y :: t => if Rle_dec x y then x :: l else y :: insert x t end.
Definition isort (l : list R) : list R := fold_right insert [] l.
(** np.median *)
Definition median (l : list R) : option R :=
  match l with
  | [] => None
  | _ => let n := length l in
         let s := isort l in
         Some (if Nat.even n then (nth (n / 2 - 1) s 0 + nth (n / 2) s 0) / 2 else nth (n / 2) s 0)
  end.
(** np.percentile with linear interpolation *)
Definition percentile (q : R) (l : list R) : option R :=
  match l with
  | [] => None
  | _ => let s := isort l in
         let p := q / 100 * INR (length l - 1) in
         let k := Z.to_nat (Int_part p) in
         Some (nth k s 0 + (p - IZR (Int_part p)) * (nth (S k) s (nth k s 0) - nth k s 0))
  end.

(* ---------- HistogramSmoother, analysis_algorithms.pyx 233-268 ---------- *)

(** int() drops the fraction. *)
Definition truncate (x : R) : Z := if Rle_dec 0 x then Int_part x else (- Int_part (- x))%Z.
(** 251-252 *)
Fixpoint double (fuel : nat) (pow2 wanted : Z) : Z :=
  match fuel with
  | O => pow2
  | S k => if (pow2 <? wanted)%Z then double k (pow2 * 2)%Z wanted else pow2
  end.
Definition wanted_bins (sigma lo hi : R) : Z := truncate ((hi - lo) / (4 / 10 * sigma) + / 2).
(** 246-253 *)
Definition bins (sigma lo hi : R) : nat := Z.to_nat (double (Z.to_nat (wanted_bins sigma lo hi)) 1024 (wanted_bins sigma lo hi)).

Definition total (l : list R) : R := fold_right Rplus 0 l.
(** 257-259; the kernel's transform is used only for a circular convolution. *)
Definition gaussian (sigma step : R) (i : nat) : R := exp (- (1 / 2) * (INR i * step / sigma) ^ 2).
Definition folded (sigma step : R) (n i : nat) : R :=
  match i with O => gaussian sigma step 0 | _ => gaussian sigma step i + gaussian sigma step (n - i) end.
Definition kernel (sigma step : R) (n : nat) : list R :=
  let k := map (folded sigma step n) (seq 0 n) in map (fun v => v / total k) k.

(** np.histogram(values, n, (lo, hi)): equal limits are moved apart by one; the last bin includes its end. *)
Definition in_bin (a b : R) (n i : nat) (v : R) : bool :=
  let h := (b - a) / INR n in
  if Rle_dec (a + INR i * h) v then
    if Rlt_dec v (a + INR (S i) * h) then true
    else if Nat.eqb (S i) n then if Rle_dec v b then true else false else false
  else false.
Definition contents (a b : R) (n : nat) (values : list R) : list R :=
  map (fun i => INR (length (filter (in_bin a b n i) values))) (seq 0 n).
Definition histogram (lo hi : R) (n : nat) (values : list R) : option (list R) :=
  if Rlt_dec hi lo then None
  else if Req_EM_T lo hi then Some (contents (lo - / 2) (hi + / 2) n values)
  else Some (contents lo hi n values).

(** 265-266: product of the transforms of two vectors of the same even length *)
Definition circular (k c : list R) : list R :=
  let n := length c in
  map (fun j => total (map (fun i => nth ((j + n - i) mod n) k 0 * nth i c 0) (seq 0 n))) (seq 0 n).
(** 239-268 *)
Definition smooth (sigma lo hi : R) (values : list R) : option (list R) :=
  if Req_EM_T sigma 0 then None else
  let n := bins sigma lo hi in
  match histogram lo hi n values with
  | None => None
  | Some c => Some (map (fun v => if Rlt_dec v 0 then 0 else v) (circular (kernel sigma ((hi - lo) / INR n) n) c))
  end.
(** 272-289 *)
Definition make_smooth_histogram (values : list R) (sigma limit : R) (upper : option R) : option (list R) :=
  match upper with None => smooth sigma 0 limit values | Some u => smooth sigma limit u values end.

(* ---------- drift_correct, analysis_algorithms.pyx 293-337 ---------- *)

Definition scaled (uncorrected indicator : list R) (slope : R) : list R :=
  map (fun p => fst p * (1 + snd p * slope)) (combine uncorrected indicator).
(** 326-330 *)
Definition entropy (limit : R) (uncorrected indicator : list R) (slope : R) : R :=
  match smooth (/ 2) 0 limit (scaled uncorrected indicator slope) with
  | None => 0
  | Some h => - total (map (fun v => ln v * v) (filter (fun v => if Rlt_dec 0 v then true else false) h))
  end.
Record correction := { slope : R; offset : R }.
(** [brent f] is scipy's minimizer started from 0 and 0.001; the histogram raises for a negative limit. *)
Definition drift_correct (brent : (R -> R) -> R) (indicator uncorrected : list R) (limit : option R) : option correction :=
  match median indicator with
  | None => None
  | Some m =>
      let centred := map (fun v => v - m) indicator in
      match (match limit with Some l => Some l | None => option_map (fun p => 5 / 4 * p) (percentile 99 uncorrected) end) with
      | None => None
      | Some l => if Rlt_dec l 0 then None else Some {| slope := brent (entropy l uncorrected centred); offset := m |}
      end
  end.

(* ---------- MicrocalDataSet.drift_correct, channel.py 1715-1740 ---------- *)

Record dataset := { filt_value : list R; attr_value : list R; pretrig_mean : list R; filt_value_dc : list R; stored : option correction }.
Definition select (g : list bool) (l : list R) : list R := map snd (filter fst (combine g l)).
Definition all_zero (l : list R) : bool := forallb (fun v => if Req_EM_T v 0 then true else false) l.
Definition all_same (a b : list R) : bool := forallb (fun p => if Req_EM_T (fst p) (snd p) then true else false) (combine a b).
(** 1733-1739 *)
Definition apply_correction (c : correction) (uncorrected ptm : list R) : list R :=
  map (fun p => fst p * (1 + (snd p - offset c) * slope c)) (combine uncorrected ptm).
Definition channel_drift_correct (brent : (R -> R) -> R) (good : list bool) (force : bool) (d : dataset) : option dataset :=
  if force || (all_zero (filt_value_dc d) || all_same (filt_value_dc d) (filt_value d)) then
    match drift_correct brent (select good (pretrig_mean d)) (select good (attr_value d)) None with
    | None => None
    | Some c => Some {| filt_value := filt_value d; attr_value := attr_value d; pretrig_mean := pretrig_mean d;
                        filt_value_dc := apply_correction c (attr_value d) (pretrig_mean d); stored := Some c |}
    end
  else Some d.

(* ---------- time_drift_correct, channel.py 2599-2703 ---------- *)

Definition min_of (l : list R) : R := match l with [] => 0 | x :: t => fold_left Rmin t x end.
Definition max_of (l : list R) : R := match l with [] => 0 | x :: t => fold_left Rmax t x end.
Definition normalize (tmin tmax t : R) : R := (t - tmin) / (tmax - tmin) * 2 - 1.
(** Every k-th element: l[::k] *)
Fixpoint strided (fuel k : nat) (l : list R) : list R :=
  match fuel, l with
  | S f, x :: t => x :: strided f k (skipn (k - 1) t)
  | _, _ => []
  end.
Definition stride (k : nat) (l : list R) : list R := strided (length l) k l.
(** 2650-2652 *)
Definition degrees (dtime : R) (n : nat) (sec_per_degree pulses_per_degree : R) (max_degrees : Z) : Z :=
  Z.max (Z.min (truncate (Rmin (dtime / sec_per_degree) (INR n / pulses_per_degree))) max_degrees) 1.
(** 2653-2660 *)
Definition downsampling (n : nat) (ndeg : Z) (pulses_per_degree : R) : Z :=
  let each := INR n / IZR ndeg in
  if Rle_dec (2 * pulses_per_degree) each then truncate (each / pulses_per_degree) else 1%Z.

Definition set_nth (l : list R) (i : nat) (v : R) : list R := firstn i l ++ v :: skipn (S i) l.
(** The sum of coefficients times Legendre polynomials of degree 1, 2, ... *)
Definition polynomial (legendre : nat -> R -> R) (coef : list R) (x : R) : R :=
  total (map (fun i => nth i coef 0 * legendre (S i) x) (seq 0 (length coef))).
(** 2667-2673 *)
Definition cost (entropy : list R -> R) (legendre : nat -> R -> R) (xs ys coef : list R) (i : nat) (p : R) : R :=
  entropy (map (fun xy => snd xy * (1 + polynomial legendre (set_nth coef i p) (fst xy))) (combine xs ys)).
(** 2682-2688; [brent] is scipy's minimizer started from -0.001 and 0.001. *)
Fixpoint fit (brent : (R -> R) -> R) (entropy : list R -> R) (legendre : nat -> R -> R) (xs ys : list R) (i todo : nat) (coef : list R) : list R :=
  match todo with
  | O => coef
  | S k => fit brent entropy legendre xs ys (S i) k (set_nth coef i (brent (cost entropy legendre xs ys coef i)))
  end.

Record time_correction := { tmin : R; tmax : R; coefficients : list R; model : R -> R; training_x : list R; training_y : list R }.
(** 2628-2703.  [entropy] is laplace_entropy at the given width.  The spline of 2691-2692 is tried and dropped, 2695-2699. *)
Definition time_drift_correct (brent : (R -> R) -> R) (entropy : list R -> R) (legendre : nat -> R -> R) (time uncorrected : list R)
  (sec_per_degree pulses_per_degree : R) (max_degrees : Z) (ndeg : option nat) (limit : option (R * R)) : option time_correction :=
  match (match limit with Some l => Some l | None => option_map (fun p => (0, 5 / 4 * p)) (percentile 99 uncorrected) end) with
  | None => None
  | Some (lo, hi) =>
      let used := filter (fun p => if Rlt_dec lo (snd p) then if Rlt_dec (snd p) hi then true else false else false) (combine time uncorrected) in
      let ts := map fst used in let us := map snd used in
      match used with
      | [] => None
      | _ =>
          let t0 := min_of ts in let t1 := max_of ts in
          if Req_EM_T t0 t1 then None
          else if match ndeg with None => if Req_EM_T sec_per_degree 0 then true else if Req_EM_T pulses_per_degree 0 then true else false | Some d => Nat.eqb d 0 end then None
          else
            let deg := match ndeg with Some d => d | None => Z.to_nat (degrees (t1 - t0) (length ts) sec_per_degree pulses_per_degree max_degrees) end in
            let down := match ndeg with Some _ => 1%nat | None => Z.to_nat (downsampling (length ts) (Z.of_nat deg) pulses_per_degree) end in
            let xs := map (normalize t0 t1) (stride down ts) in let ys := stride down us in
            let coef := fit brent entropy legendre xs ys 0 deg (repeat 0 deg) in
            let h1 := entropy ys in
            let h2 := entropy (map (fun xy => snd xy * (1 + polynomial legendre coef (fst xy))) (combine xs ys)) in
            Some {| tmin := t0; tmax := t1; coefficients := coef; training_x := xs; training_y := ys;
                    model := if Rle_dec h2 0 then (fun _ => 0) else if Rlt_dec 0 (h2 - h1) then (fun _ => 0) else polynomial legendre coef |}
      end
  end.

(** channel.py 2073-2084, the computing branch: the caller's limits on the degree are not passed on. *)
Definition channel_time_drift (brent : (R -> R) -> R) (laplace : R -> list R -> R) (legendre : nat -> R -> R) (good : list bool) (timestamp attr : list R)
  (sec_per_degree pulses_per_degree : R) (max_degrees : Z) : option (list R * time_correction) :=
  match median (select good attr) with
  | None => None
  | Some pk =>
      if Req_EM_T pk 0 then None else
      let g := map (fun p => fst p && if Rlt_dec (Rabs (snd p / pk - 1)) (/ 2) then true else false) (combine good attr) in
      let w := Rmax (pk / 3000) 1 in
      match time_drift_correct brent (laplace w) legendre (select g timestamp) (select g attr) 2000 2000 20 None (Some (/ 2 * pk, 2 * pk)) with
      | None => None
      | Some info => Some (map (fun p => snd p * (1 + model info (normalize (tmin info) (tmax info) (fst p)))) (combine timestamp attr), info)
      end
  end.
