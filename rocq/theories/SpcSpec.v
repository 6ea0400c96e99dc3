(** Areas and widths of profiles. *)
From Coq Require Import Reals List.
Import ListNotations.
Local Open Scope R_scope.

(** [f] is the derivative of a function that goes from 0 to 1. *)
Definition unit_area (f : R -> R) : Prop :=
  exists F, (forall x, derivable_pt_lim F x (f x))
  /\ (forall eps, 0 < eps -> exists M, forall x, x < M -> Rabs (F x) < eps)
  /\ (forall eps, 0 < eps -> exists M, forall x, M < x -> Rabs (F x - 1) < eps).
Definition sum (l : list R) : R := fold_right Rplus 0 l.
(** [f] falls to half its height [half] away from [c], where it is highest. *)
Definition half_width (f : R -> R) (c half : R) : Prop :=
  (forall x, f x <= f c) /\ f (c - half) = f c / 2 /\ f (c + half) = f c / 2 /\ forall x y, Rabs (x - c) < Rabs (y - c) -> f y < f x.
