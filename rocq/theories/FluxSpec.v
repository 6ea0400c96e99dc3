(** Values that are a slowly varying baseline plus whole flux quanta. *)
From Coq Require Import ZArith QArith Qcanon List.
Import ListNotations.
Local Open Scope Qc_scope.

Definition quanta (k : Z) (q : Qc) : Qc := Q2Qc (inject_Z k) * q.

(** Good value number i is base_i + jumps_i q. *)
Definition jumped (base : list Qc) (jumps : list Z) (q : Qc) (g : list bool) (vals : list Qc) : Prop :=
  forall i v, nth_error vals i = Some v -> nth_error g i = Some true ->
    exists b k, nth_error base i = Some b /\ nth_error jumps i = Some k /\ v = b + quanta k q.

(** The baselines of good values differ by less than w. *)
Definition steady (base : list Qc) (g : list bool) (w : Qc) : Prop :=
  forall i j a b, nth_error g i = Some true -> nth_error g j = Some true ->
    nth_error base i = Some a -> nth_error base j = Some b -> a - b < w.

(** Good values of [out] differ exactly like the baseline. *)
Definition restored (base : list Qc) (g : list bool) (out : list Qc) : Prop :=
  forall i j x y a b, nth_error g i = Some true -> nth_error g j = Some true ->
    nth_error out i = Some x -> nth_error out j = Some y ->
    nth_error base i = Some a -> nth_error base j = Some b -> x - y = a - b.
