(** What the summary quantities of a pulse record are. *)
From Coq Require Import ZArith QArith Qcanon List.
From Verif Require Import QcPre LagModel.
Import ListNotations.
Local Open Scope Qc_scope.

Definition total (l : list Qc) : Qc := fold_right Qcplus 0 l.
(** [m] is the arithmetic mean of the samples. *)
Definition mean_is (l : list Z) (m : Qc) : Prop := l <> [] /\ m * qz (Z.of_nat (length l)) = total (map qz l).
(** [v] is the mean square deviation of the samples from [c]. *)
Definition mean_square_is (l : list Z) (c v : Qc) : Prop :=
  l <> [] /\ v * qz (Z.of_nat (length l)) = total (map (fun x => (qz x - c) * (qz x - c)) l).
(** [v] is the largest sample and [i] the first place where it is. *)
Definition first_maximum (l : list Z) (i : nat) (v : Z) : Prop :=
  nth_error l i = Some v /\ (forall x, In x l -> (x <= v)%Z) /\ forall j x, (j < i)%nat -> nth_error l j = Some x -> (x < v)%Z.
Definition least (l : list Z) (v : Z) : Prop := In v l /\ forall x, In x l -> (v <= x)%Z.
(** [z] is the integer nearest to [q], halves going up. *)
Definition nearest (q : Qc) (z : Z) : Prop := qz z - qz 1 / qz 2 <= q /\ q < qz z + qz 1 / qz 2.
(** [z] is the integer part of [q], which is not negative. *)
Definition integer_part (q : Qc) (z : Z) : Prop := qz z <= q /\ q < qz z + 1.
(** The sample exceeds the baseline by more than 4.3 times the rms value whose square is given. *)
Definition rises_early (x : Z) (base ms : Qc) : Prop :=
  base < qz x /\ (qz 43 / qz 10) * (qz 43 / qz 10) * ms < (qz x - base) * (qz x - base).
Definition sample (x : Z) : Prop := (0 <= x <= 65535)%Z.
(** [k] is the first place at or after [from] where the record is above the level. *)
Definition first_crossing (x : list Z) (from : nat) (level : Qc) (k : nat) : Prop :=
  (from <= k)%nat /\ (exists v, nth_error x k = Some v /\ level < qz v) /\
  forall j v, (from <= j < k)%nat -> nth_error x j = Some v -> qz v <= level.
(** The record goes above 10% of the height at [k1], with value [v1], and next above 90% at [k2]; just before that it is [v2]. *)
Definition rising_edge (x : list Z) (from : nat) (base height : Qc) (k1 k2 : nat) (v1 v2 : Z) : Prop :=
  first_crossing x from (base + qz 1 / qz 10 * height) k1 /\ first_crossing x k1 (base + qz 9 / qz 10 * height) k2 /\
  nth_error x k1 = Some v1 /\ nth_error x (k2 - 1) = Some v2.
