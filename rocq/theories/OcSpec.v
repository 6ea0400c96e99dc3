(** What line fits, quality checks, calibration plans and alignments should do. *)
From Coq Require Import ZArith QArith Qcanon List.
From Verif Require Import QcPre LagModel LocSpec.
Import ListNotations.
Local Open Scope Qc_scope.

(** Bin edges from [lo] on in steps of [w], all below [hi], and the next one not. *)
Definition stepped (lo hi w : Qc) (e : list Qc) : Prop :=
  (forall i, (i < length e)%nat -> nth i e 0 = lo + qz (Z.of_nat i) * w /\ nth i e 0 < hi) /\
  hi <= lo + qz (Z.of_nat (length e)) * w.

Definition largest (l : list Qc) (m : Qc) : Prop := In m l /\ forall x, In x l -> x <= m.
Definition smallest (l : list Qc) (m : Qc) : Prop := In m l /\ forall x, In x l -> m <= x.

(** Strictly increasing bin edges, and equal steps. *)
Definition increasing (e : list Qc) : Prop := forall i j, (i < j < length e)%nat -> nth i e 0 < nth j e 0.
Definition even_steps (e : list Qc) (w : Qc) : Prop := forall i, (i < length e)%nat -> nth i e 0 = nth 0 e 0 + qz (Z.of_nat i) * w.

(** A warping path between sequences of n and m elements (the contract of fastdtw): from the first elements to the
    last, in each step to the next element of one sequence or of both. *)
Definition warp_step (p q : nat * nat) : Prop :=
  q = (S (fst p), snd p) \/ q = (fst p, S (snd p)) \/ q = (S (fst p), S (snd p)).
Inductive warp : nat * nat -> list (nat * nat) -> nat * nat -> Prop :=
| warp_one p : warp p [p] p
| warp_more p q path r : warp_step p q -> warp q path r -> warp p (p :: path) r.
Definition warping (n m : nat) (path : list (nat * nat)) : Prop := warp (O, O) path ((n - 1)%nat, (m - 1)%nat).

(** The fraction of all counts that lies in the first k bins. *)
Definition fraction (counts : list nat) (k : nat) : Qc := qz (Z.of_nat (list_sum (firstn k counts))) / qz (Z.of_nat (list_sum counts)).
