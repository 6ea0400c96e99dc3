(** When pulses and triggers happened, and where an HDF5 file has room. *)
From Coq Require Import String ZArith QArith Qcanon List.
From Verif Require Import QcPre LagModel HxSpec.
Import ListNotations.

(** Frame n starts n frame periods after the start of the clock; a trigger of count t, with d counts per frame, happens t/d frame periods after. *)
Definition frame_time (period : Qc) (n : Z) : Qc := (qz n * period)%Qc.
Definition trigger_time (period : Qc) (d t : Z) : Qc := (qz t / qz d * period)%Qc.
(** The latest trigger not after the frame, and the first one after it. *)
Definition latest_before (ts : list Z) (p t : Z) : Prop := In t ts /\ (t <= p)%Z /\ forall u, In u ts -> (u <= p)%Z -> (u <= t)%Z.
Definition first_after (ts : list Z) (p t : Z) : Prop := In t ts /\ (p < t)%Z /\ forall u, In u ts -> (p < u)%Z -> (t <= u)%Z.

(** Nothing at or below p, and no dataset above it. *)
Definition room {V : Type} (f : list (list string * option V)) (p : list string) : Prop :=
  (forall q x, ~ has f (p ++ q) x) /\ forall q r v, q <> [] -> p = q ++ r -> ~ has f q (Some v).

(** Two lists of the same length, row by row. *)
Definition rows {A B : Type} (P : A -> B -> Prop) (a : list A) (b : list B) : Prop :=
  length a = length b /\ forall i x y, nth_error a i = Some x -> nth_error b i = Some y -> P x y.
