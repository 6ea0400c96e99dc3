(** What merging should do. *)
From Coq Require Import ZArith Bool QArith QArith.Qcanon List.
From Verif Require Import LjhModel LjhSpec NameModel MgModel.
Import ListNotations.
Open Scope Z_scope.

(** At [path] is a file of channel [c] in the 2.2 format with records of [n] samples: [ps],
    whose time stamps can be written. *)
Definition holds (fl : bytes -> option Qc) (st : fs) (c : Z) (n : nat) (path : bytes) (ps : list pulse) : Prop :=
  exists f o, st path = Some f /\ is_bytes f /\ ljh_open fl f = Some o /\ v22 o = true /\ nSamples o = n /\
    all_pulses o = ps /\ Forall storable ps /\ ljhfile_channum path = Some c.

(** The file ends after a complete record and its header after a newline. *)
Definition whole (fl : bytes -> option Qc) (f : bytes) : Prop :=
  exists o, ljh_open fl f = Some o /\ ends_in_newline (firstn (hsize o) f) /\
    (length (body o) mod (16 + 2 * nSamples o) = 0)%nat.

(** The two states agree except perhaps at [p]. *)
Definition same_but (p : bytes) (st st' : fs) : Prop := forall q, q <> p -> st' q = st q.
