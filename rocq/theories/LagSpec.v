(** Five dot products, the least-squares parabola through them, and its vertex. *)
From Coq Require Import QArith Qcanon List.
From Verif Require Import QcPre.
Import ListNotations.
Local Open Scope Qc_scope.

(** The filter applied to the record, starting at sample m. *)
Definition lagged (filter pulse : list Qc) (m : nat) : Qc :=
  qsum (length filter) (fun k => nth k filter 0 * nth (k + m) pulse 0).

Definition poly (a b c x : Qc) : Qc := a + b * x + c * x * x.
Definition sq (x : Qc) : Qc := x * x.
(** Sum of squared distances between y(m) and the parabola at x = m - 2, m = 0..4. *)
Definition misfit (y : nat -> Qc) (a b c : Qc) : Qc :=
  qsum 5 (fun m => sq (y m - poly a b c (Q2Qc (inject_Z (Z.of_nat m - 2))))).
Definition best_parabola (y : nat -> Qc) (a b c : Qc) : Prop :=
  forall a' b' c', misfit y a b c <= misfit y a' b' c'.

(** (x, v) is the vertex of a + b t + c t^2: the value is symmetric around x and the parabola is v + c (t - x)^2. *)
Definition is_vertex (a b c x v : Qc) : Prop :=
  forall t, poly a b c t = v + c * sq (t - x).
