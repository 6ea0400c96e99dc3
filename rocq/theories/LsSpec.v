(** What a user expects: pulses of a state are those whose time is in it. *)
From Coq Require Import Ascii String Bool ZArith NArith List.
From Verif Require Import LjhModel CutModel StModel StSpec LsModel.
Import ListNotations.

(** Registering only. *)
Definition registers (o : reg_op) : Prop := match o with RegB _ | RegC _ _ _ => True | _ => False end.
(** ASCII text of at most 64 characters. *)
Definition plain_label (b : bytes) : Prop := Forall (fun c => (0 <= c < 128)%Z) b /\ (length b <= 64)%nat.
(** Pulses i with P are the ones selected. *)
Definition selects (sel : list bool) (n : nat) (P : nat -> Prop) : Prop :=
  length sel = n /\ forall i, (i < n)%nat -> (nth_error sel i = Some true <-> P i).
