(** CubicSpline, CubicSplineFunction and LinterpCubicSpline, mass/mathstat/interpolate.py, over the real
    numbers (rounding is not modelled). *)
From Coq Require Import Reals ZArith Bool List.
From Verif Require Import EntModel.
Import ListNotations.
Local Open Scope R_scope.

(** The attributes _x, _y, _y2, yprime1, yprimeN, xstep and ystep; _n is the length of _x. *)
Record spline := mkSpline { kx : list R; ky : list R; ky2 : list R; slope1 : R; slopeN : R; xstep : list R; ystep : list R }.

(** 73-75: argsort.  (Equal values are not in a fixed order, but they lead to a division by zero, which
    the model does not describe.) *)
Fixpoint insert_pair (p : R * R) (l : list (R * R)) : list (R * R) :=
  match l with [] => [p] | q :: t => if rleb (fst p) (fst q) then p :: l else q :: insert_pair p t end.
Definition sort_pairs (l : list (R * R)) : list (R * R) := fold_right insert_pair [] l.

(** [v[1:] - v[:-1]] *)
Fixpoint steps (l : list R) : list R := match l with a :: ((b :: _) as t) => (b - a) :: steps t | _ => [] end.

Section Compute.
Variables (x y : nat -> R) (n : nat).
(** Slope of interval [i], u of line 87 before the differences. *)
Definition chord (i : nat) : R := (y (S i) - y i) / (x (S i) - x i).
(** 90-102: _y2[i] and u[i] after the first loop, [i] from 0 to n - 2. *)
Fixpoint sweep (g0 u0 : R) (i : nat) : R * R :=
  match i with
  | O => (g0, u0)
  | S j =>
      let (g, u) := sweep g0 u0 j in
      let sig := (x (S j) - x j) / (x (S (S j)) - x j) in
      let p := sig * g + 2 in
      ((sig - 1) / p, (6 * (chord (S j) - chord j) / (x (S (S j)) - x j) - sig * u) / p)
  end.
(** 90-96 *)
Definition start (yp : option R) : R * R :=
  match yp with
  | None => (0, 0)
  | Some v => (- (1 / 2), 3 / (x 1%nat - x 0%nat) * (chord 0 - v))
  end.
(** 105-110: the last value of _y2. *)
Definition final (g0 u0 : R) (yp : option R) : R :=
  let (g, u) := sweep g0 u0 (n - 2) in
  let '(qn, un) := match yp with
                   | None => (0, 0)
                   | Some v => (1 / 2, 3 / (x (n - 1)%nat - x (n - 2)%nat) * (v - chord (n - 2)))
                   end in
  (un - qn * u) / (qn * g + 1).
(** 113-114: _y2[n - 1 - m]. *)
Fixpoint back (g0 u0 fin : R) (m : nat) : R :=
  match m with
  | O => fin
  | S k => let (g, u) := sweep g0 u0 (n - 2 - k) in g * back g0 u0 fin k + u
  end.
End Compute.

(** 62-121, the constructor.  [None]: an exception (fewer than two knots, or fewer y than x). *)
Definition make_spline (xs ys : list R) (yp1 ypN : option R) : option spline :=
  if (length ys <? length xs)%nat then None
  else if (length xs <? 2)%nat then None
  else
    let l := sort_pairs (combine xs ys) in
    let kx := map fst l in
    let ky := map snd l in
    let n := length kx in
    let x i := nth i kx 0 in
    let y i := nth i ky 0 in
    let (g0, u0) := start x y yp1 in
    let fin := final x y n g0 u0 ypN in
    let y2 := map (fun k => back x y n g0 u0 fin (n - 1 - k)) (seq 0 n) in
    let m i := nth i y2 0 in
    let s1 := match yp1 with
              | Some v => v
              | None => chord x y 0 - (x 1%nat - x 0%nat) * (m 0%nat / 3 + m 1%nat / 6)
              end in
    let sN := match ypN with
              | Some v => v
              | None => chord x y (n - 2) + (x (n - 1)%nat - x (n - 2)%nat) * (m (n - 2)%nat / 6 + m (n - 1)%nat / 3)
              end in
    Some (mkSpline kx ky y2 s1 sN (steps kx) (steps ky)).

(** [np.searchsorted(l, v)], for [l] in order. *)
Definition searchsorted (l : list R) (v : R) : nat := length (filter (fun a => rltb a v) l).

(** 123-180, [__call__], for one value; [c] is position + 1. *)
Definition low_part (s : spline) (der : Z) (v : R) : R :=
  if (der =? 0)%Z then nth 0 (ky s) 0 + (v - nth 0 (kx s) 0) * slope1 s else if (der =? 1)%Z then slope1 s else 0.
Definition high_part (s : spline) (der : Z) (v : R) : R :=
  let n := length (kx s) in
  if (der =? 0)%Z then nth (n - 1) (ky s) 0 + (v - nth (n - 1) (kx s) 0) * slopeN s else if (der =? 1)%Z then slopeN s else 0.
Definition inner_part (s : spline) (lo : nat) (der : Z) (v : R) : R :=
  let hi := S lo in
  let dx := nth lo (xstep s) 0 in
  let a := (nth hi (kx s) 0 - v) / dx in
  let b := (v - nth lo (kx s) 0) / dx in
  let ylo := nth lo (ky s) 0 in
  let yhi := nth hi (ky s) 0 in
  let mlo := nth lo (ky2 s) 0 in
  let mhi := nth hi (ky2 s) 0 in
  if (der =? 0)%Z then a * ylo + b * yhi + ((a ^ 3 - a) * mlo + (b ^ 3 - b) * mhi) * dx * dx / 6
  else if (der =? 1)%Z then - ylo / dx + yhi / dx + ((- a ^ 2 + 1 / 3) * mlo + (b ^ 2 - 1 / 3) * mhi) * dx / 2
  else if (der =? 2)%Z then a * mlo + b * mhi
  else if (der =? 3)%Z then (- mlo + mhi) * dx
  else 0.
Definition part (s : spline) (c : nat) : Z -> R -> R :=
  if (c =? 0)%nat then low_part s else if (length (kx s) <=? c)%nat then high_part s else inner_part s (c - 1).
Definition spline_at (s : spline) (der : Z) (v : R) : R := part s (searchsorted (kx s) v) der v.

(** 184-207, CubicSplineFunction: a spline and the order of the derivative. *)
Definition spline_function := (spline * Z)%type.
Definition call_function (f : spline_function) (v : R) (der : Z) : R :=
  if (snd f + der >? 3)%Z then 0 else spline_at (fst f) (snd f + der) v.
(** 191-197; the ConstantFunction 0 is [None]. *)
Definition derivative (f : spline_function) (der : Z) : option (option spline_function) :=
  if (snd f + der >? 3)%Z then Some None
  else match make_spline (kx (fst f)) (ky (fst f)) (Some (slope1 (fst f))) (Some (slopeN (fst f))) with
       | Some s => Some (Some (s, snd f + der)%Z)
       | None => None
       end.

(** 210-232, LinterpCubicSpline; [None]: a ValueError. *)
Definition wtsum (fr a b : R) : R := a * fr + b * (1 - fr).
Definition wtsums (fr : R) (a b : list R) : list R := map (fun p => wtsum fr (fst p) (snd p)) (combine a b).
Definition linterp (s1 s2 : spline) (fr : R) : option spline :=
  if negb (length (kx s1) =? length (kx s2))%nat then None
  else if existsb (fun p => rltb (1 / 1000) (Rabs (fst p - snd p))) (combine (kx s1) (kx s2)) then None
  else Some (mkSpline (kx s1) (wtsums fr (ky s1) (ky s2)) (wtsums fr (ky2 s1) (ky2 s2))
                      (wtsum fr (slope1 s1) (slope1 s2)) (wtsum fr (slopeN s1) (slopeN s2))
                      (wtsums fr (xstep s1) (xstep s2)) (wtsums fr (ystep s1) (ystep s2))).
