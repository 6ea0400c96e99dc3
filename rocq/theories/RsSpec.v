(** Which limit should apply to a pulse. *)
From Coq Require Import ZArith QArith Qcanon List.
From Verif Require Import QcPre LagModel LocSpec.
Import ListNotations.
Local Open Scope Qc_scope.

(** The residuals rs (not none of them) have the robust limit t: median plus n times the sigma that belongs to the median
    absolute deviation of a Gaussian. *)
Definition limit (n : Qc) (rs : list Qc) (t : Qc) : Prop :=
  rs <> [] /\ exists m d, quantile 1 2 rs m /\ quantile 1 2 (map (fun v => magnitude (v - m)) rs) d /\ t = m + n * (d * (qz 100000 / qz 67449)).

(** The residuals of the pulses strictly between lo and hi, in order. *)
Inductive between (lo hi : Qc) : list (Qc * Qc) -> list Qc -> Prop :=
| between_nil : between lo hi [] []
| between_in x r l rs : lo < x -> x < hi -> between lo hi l rs -> between lo hi ((x, r) :: l) (r :: rs)
| between_out x r l rs : x <= lo \/ hi <= x -> between lo hi l rs -> between lo hi ((x, r) :: l) rs.

(** Bin i starts at i times the bin size b. *)
Definition start_of (b : Qc) (i : nat) : Qc := qz (Z.of_nat i) * b.
Definition middle_of (b : Qc) (i : nat) : Qc := (qz (Z.of_nat i) + qz 1 / qz 2) * b.
