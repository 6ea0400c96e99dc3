(** What a user expects of the robust statistics. *)
From Coq Require Import ZArith QArith Qcanon List Permutation.
From Verif Require Import QcPre LagModel QSort.
Import ListNotations.
Local Open Scope Qc_scope.

(** How many data lie in the closed interval. *)
Definition points_in (a b : Qc) (l : list Qc) : nat := qcount (fun v => andb (qleb a v) (qleb v b)) l.

(** [a,b] has endpoints in the data, holds enough of them, and is as short as any such interval. *)
Definition shortest_interval (enough : nat -> Prop) (l : list Qc) (a b : Qc) : Prop :=
  In a l /\ In b l /\ a <= b /\ enough (points_in a b l) /\
  forall a' b', In a' l -> In b' l -> a' <= b' -> enough (points_in a' b' l) -> b - a <= b' - a'.
Definition more_than_half (n c : nat) : Prop := (n < 2 * c)%nat.
Definition at_least_half (n c : nat) : Prop := (n <= 2 * c)%nat.

(** Arithmetic mean of the data in the closed interval. *)
Definition mean_of (l : list Qc) (m : Qc) : Prop := m * qz (Z.of_nat (length l)) = fold_right Qcplus 0 l.
Definition inside (a b : Qc) (l : list Qc) : list Qc := filter (fun v => andb (qleb a v) (qleb v b)) l.

(** Total weight of the data not above [v]. *)
Definition weight_upto (x w : list Qc) (v : Qc) : Qc :=
  fold_right Qcplus 0 (map snd (filter (fun p => qleb (fst p) v) (combine x w))).
Definition total_weight (w : list Qc) : Qc := fold_right Qcplus 0 w.

(** The smallest datum such that the weight of the data up to it is more than half of the total. *)
Definition is_high_median (x w : list Qc) (v : Qc) : Prop :=
  In v x /\ total_weight w < weight_upto x w v + weight_upto x w v /\
  forall y, In y x -> y < v -> weight_upto x w y + weight_upto x w y <= total_weight w.

(** A list of positions that puts the data in order. *)
Definition sorts (idx : list nat) (x : list Qc) : Prop :=
  Permutation idx (seq 0 (length x)) /\ qsorted (map (fun i => nth i x 0) idx).

(** Distances between all pairs of data. *)
Definition dist (a b : Qc) : Qc := if qleb a b then b - a else a - b.
Fixpoint distances (l : list Qc) : list Qc :=
  match l with [] => [] | a :: t => map (dist a) t ++ distances t end.
(** Rank (from zero) used by the Q estimator: (h choose 2) with h = n/2 + 1. *)
Definition q_rank (n : nat) : nat := (Nat.div ((Nat.div n 2 + 1) * Nat.div n 2) 2 - 1)%nat.
