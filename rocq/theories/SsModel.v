(** Smoothing splines: mass/mathstat/interpolate.py NaturalBsplineBasis 371-434, SmoothingSpline 437-586, SmoothingSplineFunction 589-610.
    Exact rationals.  Vectors of length N are functions on natural numbers; [None] is an exception.  (Division by zero gives 0, as in FITPACK's
    recursion for B-splines; where the code would divide by zero otherwise is said.) *)
From Coq Require Import ZArith QArith Qcanon Bool Arith List.
From Verif Require Import QcPre LagModel.
Import ListNotations.
Local Open Scope Qc_scope.

(** * scipy's splev *)
(** The B-spline of degree [k] that starts at knot [i], on the interval from knot [l] to the next (Cox-de Boor). *)
Fixpoint bas (t : nat -> Qc) (l k i : nat) (x : Qc) : Qc :=
  match k with
  | O => if Nat.eqb i l then 1 else 0
  | S k' => (x - t i) / (t (i + k' + 1)%nat - t i) * bas t l k' i x + (t (i + k' + 2)%nat - x) / (t (i + k' + 2)%nat - t (i + 1)%nat) * bas t l k' (i + 1) x
  end.
(** its derivative of order [d] *)
Fixpoint bder (t : nat -> Qc) (l d k i : nat) (x : Qc) : Qc :=
  match d, k with
  | O, _ => bas t l k i x
  | S _, O => 0
  | S d', S k' => qz (Z.of_nat (k' + 1)) * (bder t l d' k' i x / (t (i + k' + 1)%nat - t i) - bder t l d' k' (i + 1) x / (t (i + k' + 2)%nat - t (i + 1)%nat))
  end.
(** The interval of [x]: the first or last one outside. *)
Fixpoint span (t : nat -> Qc) (fuel l : nat) (x : Qc) : nat :=
  match fuel with O => l | S f => if qleb (t (l + 1)%nat) x then span t f (l + 1) x else l end.
(** N knots and three more at each end, N+2 coefficients, cubic *)
Definition padknots (N : nat) (x : nat -> Qc) (i : nat) : Qc := x (Nat.min (i - 3) (N - 1)).
Definition splev (N : nat) (x : nat -> Qc) (coef : nat -> Qc) (v : Qc) (d : nat) : Qc :=
  let t := padknots N x in qsum (N + 2) (fun i => coef i * bder t (span t (N - 2) 3 v) d 3 i v).

(** * NaturalBsplineBasis *)
Section Basis.
Variable N : nat.
Variable x : nat -> Qc.
Definition unit_at (k i : nat) : Qc := if Nat.eqb i k then 1 else 0.
(** 393-405 *)
Definition lowfpp (i : nat) : Qc := splev N x (unit_at i) (x 0%nat) 2.
Definition hifpp (i : nat) : Qc := splev N x (unit_at (N + 1 - i)) (x (N - 1)%nat) 2.
Definition coef_b (i : nat) : Qc := - lowfpp (i + 1) / lowfpp 0.
Definition coef_e (i : nat) : Qc := - hifpp (i + 1) / hifpp 0.
(** 413-420; an index that is too large raises. *)
Definition basis_coef (id i : nat) : Qc :=
  if Nat.ltb id 2 then (if Nat.eqb i 0 then coef_b id else unit_at (id + 1) i)
  else if Nat.leb (N - 2) id then (if Nat.eqb i (N + 1) then coef_e (N - id - 1) else unit_at (id + 1) i)
  else unit_at (id + 1) i.
Definition basis (v : Qc) (id d : nat) : option Qc := if Nat.ltb id N then Some (splev N x (basis_coef id) v d) else None.
(** 422-427: row i, column j *)
Definition values_matrix (d i j : nat) : Qc := splev N x (basis_coef j) (x i) d.
(** 429-434 *)
Definition expand_coeff (beta : nat -> Qc) (i : nat) : Qc :=
  if Nat.eqb i 0 then beta 0%nat * coef_b 0 + beta 1%nat * coef_b 1
  else if Nat.eqb i (N + 1) then beta (N - 1)%nat * coef_e 0 + beta (N - 2)%nat * coef_e 1
  else beta (i - 1)%nat.

(** * SmoothingSpline *)
(** 497-514, N2 the matrix of second derivatives *)
Definition omega (N2 : nat -> nat -> Qc) (i j : nat) : Qc :=
  qsum (N - 1) (fun k => (N2 (k + 1)%nat i * N2 k j + N2 (k + 1)%nat j * N2 k i) * (x (k + 1)%nat - x k) / qz 6) +
  qsum N (fun k => N2 k i * N2 k j * (x (Nat.min (k + 1) (N - 1)) - x (k - 1)%nat) / qz 3).

Variables y err : nat -> Qc.
Variable N0 : nat -> nat -> Qc.
Variable Om : nat -> nat -> Qc.
(** 523-526, 535: an error of zero divides by zero. *)
Definition lhs (i j : nat) : Qc := qsum N (fun k => N0 k i * (1 / (err k * err k)) * N0 k j).
Definition rhs (i : nat) : Qc := qsum N (fun k => N0 k i * (1 / (err k * err k) * y k)).
Definition matrix (p : Qc) (i j : nat) : Qc := p * (lhs i j - Om i j) + Om i j.
Definition chisq (beta : nat -> Qc) : Qc := qsum N (fun k => ((y k - qsum N (fun j => N0 k j * beta j)) / err k) * ((y k - qsum N (fun j => N0 k j * beta j)) / err k)).
(** np.linalg.solve: [None] for LinAlgError *)
Variable solve : nat -> (nat -> nat -> Qc) -> (nat -> Qc) -> option (nat -> Qc).
Definition best_params (p : Qc) : option (nat -> Qc) := solve N (matrix p) (fun i => p * rhs i).
Definition huge : Qc := Q2Qc (inject_Z (10 ^ 99)).
Definition mincurvature : Qc := Q2Qc (1 # 10 ^ 20).
Definition chisq_difference (target p : Qc) : Qc := match best_params p with None => huge | Some beta => chisq beta - target end.
(** scipy's brentq: a root between the ends; it raises if the values there have the same sign. *)
Variable brentq : (Qc -> Qc) -> Qc -> Qc -> option Qc.
(** 516-549: the coefficients and the value of chi-squared kept *)
Definition smooth (target : Qc) : option ((nat -> Qc) * Qc) :=
  match brentq (chisq_difference target) mincurvature 1 with
  | None => None
  | Some p => match best_params p with None => None | Some beta => Some (beta, chisq beta) end
  end.
End Basis.

(** ** The curve: 551-586.  [xs] are the knots over the scale [scale]; [coef] the N+2 coefficients. *)
Section Curve.
Variable N : nat.
Variable xs : nat -> Qc.
Variable scale : Qc.
Variable coef : nat -> Qc.
(** numpy's poly1d([slope, value]): leading zeros are removed, but one coefficient stays. *)
Definition line (slope value : Qc) : list Qc := if Qc_eq_dec slope 0 then [value] else [slope; value].
Definition line_at (l : list Qc) (u : Qc) : Qc := fold_left (fun acc c => acc * u + c) l 0.
(** 551-557: value and slope at an end, where the curve itself is used *)
Definition end_value (v : Qc) : Qc := splev N xs coef (v * scale / scale) 0.
Definition end_slope (v : Qc) : Qc := splev N xs coef (v * scale / scale) 1 / scale * scale.
Definition lowline : list Qc := line (end_slope (xs 0%nat)) (end_value (xs 0%nat)).
Definition highline : list Qc := line (end_slope (xs (N - 1)%nat)) (end_value (xs (N - 1)%nat)).
Definition beyond (l : list Qc) (u : Qc) (d : nat) : Qc := match d with O => line_at l u | S O => nth 0 l 0 | _ => 0 end.
Fixpoint power (s : Qc) (d : nat) : Qc := match d with O => 1 | S d' => s * power s d' end.
Definition curve (v : Qc) (d : nat) : Qc :=
  let u := v / scale in
  let r := if qltb u (xs 0%nat) then beyond lowline (u - xs 0%nat) d
           else if qltb (xs (N - 1)%nat) u then beyond highline (u - xs (N - 1)%nat) d
           else splev N xs coef u d in
  r / power scale d.
End Curve.

(** ** SmoothingSplineFunction, 589-610.  [fit] makes a spline: the scale, the scaled knots, the coefficients; [data] is (x, y, dy, dx). *)
Section Functions.
Context {D : Type}.
Record spline := mkSpline { sN : nat; sxs : nat -> Qc; sscale : Qc; scoef : nat -> Qc; sdata : D }.
(** the constructor, from x values and the rest *)
Variable fit : nat -> (nat -> Qc) -> D -> option spline.
(** derivative(d): a new spline from the stored x, which is the scaled one; order above 3: the constant 0 *)
Inductive fn := Constant0 | Spl (s : spline) (der : nat).
Definition derivative (f : fn) (d : nat) : option fn :=
  match f with
  | Constant0 => Some Constant0
  | Spl s der => if Nat.ltb 3 (der + d) then Some Constant0 else option_map (fun s' => Spl s' (der + d)) (fit (sN s) (sxs s) (sdata s))
  end.
Definition value (f : fn) (v : Qc) (d : nat) : Qc :=
  match f with Constant0 => 0 | Spl s der => if Nat.ltb 3 (der + d) then 0 else curve (sN s) (sxs s) (sscale s) (scoef s) v (der + d) end.
End Functions.
