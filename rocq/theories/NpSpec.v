(** What channels made of arrays should be. *)
From Coq Require Import ZArith QArith Qcanon List.
Import ListNotations.

(** The whole part of a number, toward zero *)
Definition whole (q : Qc) (z : Z) : Prop :=
  if Qlt_le_dec (this q) 0 then (this q <= inject_Z z)%Q /\ (inject_Z z - 1 < this q)%Q else (inject_Z z <= this q)%Q /\ (this q < inject_Z z + 1)%Q.
(** The last of a list with a property *)
Definition last_with {A} (p : A -> Prop) (l : list A) (x : A) : Prop := exists l1 l2, l = l1 ++ x :: l2 /\ p x /\ forall y, In y l2 -> ~ p y.
