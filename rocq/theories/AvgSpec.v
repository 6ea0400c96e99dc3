(** What the selections should be. *)
From Coq Require Import ZArith QArith Qcanon List.
From Verif Require Import QcPre LagModel QSort Kept FitSpec.
Import ListNotations.
Local Open Scope Qc_scope.

(** The positions of the marked entries, in order. *)
Definition marked (g : list bool) (idx : list nat) : Prop :=
  kept (fun i => nth i g false = true) (seq 0 (length g)) idx.

(** The median: the middle one of the values in order, or the mean of the middle two. *)
Definition is_median (l : list Qc) (m : Qc) : Prop :=
  exists a b, order_statistic ((length l - 1) / 2) l a /\ order_statistic (length l / 2) l b /\ m + m = a + b.

(** Within five percent of [m]. *)
Definition within_5_percent (m v : Qc) : Prop := qz 20 * dist v m < dist m 0.
