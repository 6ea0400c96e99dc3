(** What a user expects of the two delays. *)
From Coq Require Import ZArith List.
Import ListNotations.
Local Open Scope Z_scope.

(** [d] is the time since the latest trigger at or before [pt], [none] when there is none. *)
Definition since_last (none : Z) (ts : list Z) (pt d : Z) : Prop :=
  (exists t, In t ts /\ t <= pt /\ (forall u, In u ts -> u <= pt -> u <= t) /\ d = pt - t) \/
  ((forall t, In t ts -> pt < t) /\ d = none).

(** [d] is the time until the earliest trigger after [pt], [none] when there is none. *)
Definition until_next (none : Z) (ts : list Z) (pt d : Z) : Prop :=
  (exists t, In t ts /\ pt < t /\ (forall u, In u ts -> pt < u -> t <= u) /\ d = t - pt) \/
  ((forall t, In t ts -> t <= pt) /\ d = none).

(** Non-decreasing. *)
Definition ascending (l : list Z) : Prop :=
  forall i j x y, (i <= j)%nat -> nth_error l i = Some x -> nth_error l j = Some y -> x <= y.

(** Rows agree, writing [none] for infinity. *)
Definition same_row (none : Z) (r : Z * Z) (r' : option Z * option Z) : Prop :=
  fst r = match fst r' with Some d => d | None => none end /\
  snd r = match snd r' with Some d => d | None => none end.
