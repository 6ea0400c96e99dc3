(** What drift corrections do, written without reference to the model's functions. *)
From Coq Require Import Reals ZArith Bool List.
Import ListNotations.
Local Open Scope R_scope.

(** How many of the values lie between the limits, both included. *)
Fixpoint within (lo hi : R) (l : list R) : nat :=
  match l with
  | [] => 0%nat
  | v :: t => ((if Rle_dec lo v then if Rle_dec v hi then 1 else 0 else 0) + within lo hi t)%nat
  end.
(** How many are at most, or at least, a number. *)
Fixpoint at_most (x : R) (l : list R) : nat :=
  match l with [] => 0%nat | v :: t => ((if Rle_dec v x then 1 else 0) + at_most x t)%nat end.
Fixpoint at_least (x : R) (l : list R) : nat :=
  match l with [] => 0%nat | v :: t => ((if Rle_dec x v then 1 else 0) + at_least x t)%nat end.
Fixpoint sum (l : list R) : R := match l with [] => 0 | x :: t => x + sum t end.

(** A minimizer that does no worse than a starting point. *)
Definition no_worse_than (start : R) (brent : (R -> R) -> R) : Prop := forall f, f (brent f) <= f start.
