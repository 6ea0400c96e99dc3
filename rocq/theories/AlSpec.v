(** What an automatic calibration should do. *)
From Coq Require Import ZArith QArith Qround Qcanon List.
From Verif Require Import QcPre LagModel Kept HistSpec.
Import ListNotations.
Local Open Scope Qc_scope.

(** The value belongs to bin [i] of [n] bins of width [b] from [lo]. *)
Definition in_bin_of (lo b : Qc) (n i : nat) (v : Qc) : Prop :=
  lo + qz (Z.of_nat i) * b <= v /\ (v < lo + qz (Z.of_nat (i + 1)) * b \/ ((i + 1)%nat = n /\ v = lo + qz (Z.of_nat n) * b)).
(** A histogram of regular bins with their middles. *)
Definition binned (ph : list Qc) (lo b : Qc) (n : nat) (counts : list nat) (middles : list Qc) : Prop :=
  length counts = n /\ length middles = n /\
  forall i, (i < n)%nat -> nth_error middles i = Some (lo + qz (Z.of_nat i) * b + b / qz 2) /\
    exists k, nth_error counts i = Some k /\ tally (in_bin_of lo b n i) ph k.
(** [n] is the number of whole widths that fit strictly before [hi]. *)
Definition fits_before (lo hi b : Qc) (n : nat) : Prop := lo + qz (Z.of_nat n) * b < hi /\ hi <= lo + qz (Z.of_nat (n + 1)) * b.
(** Points given to the calibration one after the other, all accepted. *)
Inductive given {A C : Type} (add : C -> Qc -> Qc -> A -> C * bool) : C -> list (Qc * Qc * A) -> C -> Prop :=
  | given_none c : given add c [] c
  | given_one c p e n l c1 c2 : add c p e n = (c1, true) -> given add c1 l c2 -> given add c ((p, e, n) :: l) c2.
