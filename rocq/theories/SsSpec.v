(** What smoothing splines should be. *)
From Coq Require Import ZArith QArith Qcanon List.
From Verif Require Import QcPre LagModel.
Import ListNotations.
Local Open Scope Qc_scope.

Definition increasing (N : nat) (x : nat -> Qc) : Prop := forall i, (i + 1 < N)%nat -> x i < x (i + 1)%nat.
(** Polynomials, the constant first, and their integrals. *)
Fixpoint peval (p : list Qc) (t : Qc) : Qc := match p with [] => 0 | a :: q => a + t * peval q t end.
Fixpoint antider (p : list Qc) (n : nat) : list Qc := match p with [] => [] | a :: q => a / qz (Z.of_nat (n + 1)) :: antider q (n + 1) end.
Definition pintegral (p : list Qc) (a b : Qc) : Qc := peval (0 :: antider p 0) b - peval (0 :: antider p 0) a.
(** The integral from [a] to [b] of a function that is a polynomial there. *)
Definition area (g : Qc -> Qc) (a b v : Qc) : Prop := exists p, (forall t, a <= t <= b -> peval p t = g t) /\ v = pintegral p a b.
(** The integral over all intervals between knots. *)
Definition total_area (N : nat) (x : nat -> Qc) (g : Qc -> Qc) (v : Qc) : Prop :=
  exists I, (forall k, (k + 1 < N)%nat -> area g (x k) (x (k + 1)%nat) (I k)) /\ v = qsum (N - 1) I.
(** Squared distances of a curve from the data, in units of the errors. *)
Definition distance2 (N : nat) (x y err : nat -> Qc) (f : Qc -> Qc) (v : Qc) : Prop := v = qsum N (fun k => ((y k - f (x k)) / err k) * ((y k - f (x k)) / err k)).
(** linear algebra done by others: a solution, if any *)
Definition solves (solve : nat -> (nat -> nat -> Qc) -> (nat -> Qc) -> option (nat -> Qc)) : Prop :=
  forall n M b s, solve n M b = Some s -> forall i, (i < n)%nat -> qsum n (fun j => M i j * s j) = b i.
(** a root, if the ends have different signs *)
Definition finds_root (brentq : (Qc -> Qc) -> Qc -> Qc -> option Qc) : Prop :=
  forall f a b, (forall r, brentq f a b = Some r -> a <= r <= b /\ f r = 0) /\ (0 < f a * f b -> brentq f a b = None).
(** The integral of the square of the second derivative. *)
Definition curvature (N : nat) (x : nat -> Qc) (f2 : Qc -> Qc) (v : Qc) : Prop := total_area N x (fun t => f2 t * f2 t) v.
(** straight between neighbouring knots, both included *)
Definition straight_between (N : nat) (x : nat -> Qc) (f : Qc -> Qc) : Prop :=
  forall k v, (k + 1 < N)%nat -> x k <= v <= x (k + 1)%nat -> (f v - f (x k)) * (x (k + 1)%nat - x k) = (v - x k) * (f (x (k + 1)%nat) - f (x k)).
