(** Robust averages: trimean, median_abs_dev, bisquare_weighted_mean and huber_weighted_mean,
    mass/mathstat/robust.pyx:39-143.  Data are exact rationals.  [None] is an exception or not a number. *)
From Coq Require Import ZArith QArith Qcanon List Bool.
From Verif Require Import QcPre LagModel DerModel QSort.
Import ListNotations.
Local Open Scope Qc_scope.

Definition qtot (l : list Qc) : Qc := fold_right Qcplus 0 l.
Definition qabs (q : Qc) : Qc := if qltb q 0 then - q else q.

(** np.median: the middle value, or the mean of the two middle ones. *)
Definition median (x : list Qc) : option Qc :=
  let n := length x in
  let s := qsort x in
  if Nat.eqb n 0 then None
  else if Nat.odd n then Some (nth (Nat.div n 2) s 0)
  else Some ((nth (Nat.div n 2 - 1) s 0 + nth (Nat.div n 2) s 0) / qz 2).

(** np.percentile(x, 25*j), linear interpolation between the neighbouring order statistics. *)
Definition quartile (j : nat) (x : list Qc) : option Qc :=
  let n := length x in
  let s := qsort x in
  if Nat.eqb n 0 then None
  else
    let k := Nat.div ((n - 1) * j) 4 in
    let f := qz (Z.of_nat (Nat.modulo ((n - 1) * j) 4)) / qz 4 in
    let a := nth k s 0 in
    let b := nth (Nat.min (k + 1) (n - 1)) s 0 in
    Some (a + f * (b - a)).

(** robust.pyx:117-126 *)
Definition trimean (x : list Qc) : option Qc :=
  match quartile 1 x, quartile 2 x, quartile 3 x with
  | Some q1, Some q2, Some q3 => Some (qd 25 100 * (q1 + q3) + qd 5 10 * q2)
  | _, _, _ => None
  end.

(** robust.pyx:130-143 *)
Definition median_abs_dev (x : list Qc) (normalize : bool) : option Qc :=
  match median x with
  | None => None
  | Some m =>
      match median (map (fun v => qabs (v - m)) x) with
      | None => None
      | Some mad => Some (if normalize then mad / qd 674480 1000000 else mad)
      end
  end.

(** (weights*x).sum()/weights.sum(); dividing by zero gives not a number or an infinity, which ends in RuntimeError. *)
Definition weighted (w : Qc -> option Qc) (x : list Qc) : option Qc :=
  match fold_right (fun v acc => match w v, acc with Some a, Some (s, t) => Some (a + s, a * v + t) | _, _ => None end) (Some (0, 0)) x with
  | Some (s, t) => if Qc_eq_dec s 0 then None else Some (t / s)
  | None => None
  end.

(** robust.pyx:65-72 and 105-111: the loop.  A centre that is not a number stays so and the loop ends in RuntimeError. *)
Fixpoint rounds (n : nat) (step : Qc -> option Qc) (tol c : Qc) : option Qc :=
  match n with
  | O => None
  | S n' =>
      match step c with
      | None => None
      | Some c' => if qltb (qabs (c' - c)) tol then Some c' else rounds n' step tol c'
      end
  end.

(** robust.pyx:66-67.  For k <= 0 all weights are zero or not numbers. *)
Definition bisquare_weight (k c v : Qc) : option Qc :=
  if qleb k 0 then None
  else if qltb k (qabs (v - c)) then Some 0
  else let u := 1 - ((v - c) / k) * ((v - c) / k) in Some (u * u).
(** robust.pyx:106-107.  0/0 and negative infinity lead to not a number. *)
Definition huber_weight (k c v : Qc) : option Qc :=
  if Qc_eq_dec v c then (if qltb 0 k then Some 1 else None)
  else let w := k / qabs (v - c) in Some (if qltb 1 w then 1 else w).

(** robust.pyx:60-63, 100-103: the default arguments. *)
Definition start (x : list Qc) (center : option Qc) : option Qc :=
  match center with Some c => Some c | None => median x end.
Definition tolerance (x : list Qc) (tol : option Qc) : option Qc :=
  match tol with
  | Some t => Some t
  | None => match median_abs_dev x true with Some m => Some (qd 1 100000 * m) | None => None end
  end.
Definition bisquare_weighted_mean (x : list Qc) (k : Qc) (center tol : option Qc) : option Qc :=
  match start x center, tolerance x tol with
  | Some c, Some t => rounds 100 (fun c => weighted (bisquare_weight k c) x) t c
  | _, _ => None
  end.
Definition huber_weighted_mean (x : list Qc) (k : Qc) (center tol : option Qc) : option Qc :=
  match start x center, tolerance x tol with
  | Some c, Some t => rounds 100 (fun c => weighted (huber_weight k c) x) t c
  | _, _ => None
  end.
