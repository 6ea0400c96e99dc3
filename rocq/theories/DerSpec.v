(** The derivative estimate at one position, and the largest one. *)
From Coq Require Import QArith Qcanon List.
From Verif Require Import QcPre.
Import ListNotations.
Local Open Scope Qc_scope.

(** [c] applied (by convolution) to the [length c] samples of [p] that start at [j]. *)
Definition slope (c p : list Qc) (j : nat) : Qc :=
  qsum (length c) (fun k => nth k c 0 * nth (j + (length c - 1 - k)) p 0).

(** [m] is the largest of the values [v j], j < n. *)
Definition largest (n : nat) (v : nat -> Qc) (m : Qc) : Prop :=
  (exists j, (j < n)%nat /\ m = v j) /\ forall j, (j < n)%nat -> v j <= m.

(** The smaller of two numbers. *)
Definition lesser (a b : Qc) : Qc := if qleb a b then a else b.
