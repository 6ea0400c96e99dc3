(** Proofs about automatic calibration. *)
From Coq Require Import ZArith QArith Qround Qcanon Bool Lia Lqa List Permutation.
From Verif Require Import QcPre QSort LagModel Kept HistSpec HistProofs NameModel FitModel FitSpec FitProofs AsgModel AlModel AlSpec.
Import ListNotations.
Local Open Scope Qc_scope.

Lemma all_fine_spec {A : Type} (l : list (option A)) : match all_fine l with Some r => l = map Some r | None => In None l end.
Proof. induction l as [|[a|] l IH]; cbn; [reflexivity| |now left]. destruct (all_fine l); cbn; [now rewrite IH|now right]. Qed.
Lemma sort_fixed {A : Type} (energy : A -> Qc) l : qsorted (map energy l) -> stable_sort (fun a b => qleb (energy a) (energy b)) l = l.
Proof.
  induction l as [|x l IH]; [reflexivity|]. intros [H S]. unfold stable_sort in *. cbn [fold_right]. rewrite IH by exact S. destruct l as [|y l]; [reflexivity|]. cbn [insert]. assert (E : qleb (energy x) (energy y) = true) by (apply qleb_le, H; now left). now rewrite E.
Qed.
Lemma again {A : Type} (energy : A -> Qc) names : qsorted (map energy names) -> names_and_energies energy names = (names, map energy names).
Proof. intros S. unfold names_and_energies. now rewrite sort_fixed. Qed.
Lemma qz_S n : qz (Z.of_nat (n + 1)) = qz (Z.of_nat n) + 1.
Proof. unfold qz. apply Qc_is_canon. rewrite this_add, !this_Q2Qc. change (this 1) with 1%Q. replace (Z.of_nat (n + 1)) with (Z.of_nat n + 1)%Z by lia. rewrite inject_Z_plus. reflexivity. Qed.
Lemma this_qz z : (this (qz z) == inject_Z z)%Q.
Proof. apply this_Q2Qc. Qed.
(** ceil x = n + 1 *)
Lemma ceiling_between x n : Z.to_nat (Qceiling x) = S n -> (inject_Z (Z.of_nat n) < x /\ x <= inject_Z (Z.of_nat (n + 1)))%Q.
Proof.
  intros H. assert (E : Qceiling x = Z.of_nat (n + 1)) by lia. pose proof (Qceiling_lt x) as L. pose proof (Qle_ceiling x) as U. rewrite E in L, U. split; [|exact U]. replace (Z.of_nat n) with (Z.of_nat (n + 1) - 1)%Z by lia. exact L.
Qed.
Lemma ceiling_before lo hi b n : 0 < b -> Z.to_nat (Qceiling (this ((hi - lo) / b))) = S n -> fits_before lo hi b n.
Proof.
  intros B H. apply ceiling_between in H. destruct H as [L U]. assert (E : ((hi - lo) / b) * b = hi - lo) by (field; intros ->; qlra). set (x := (hi - lo) / b) in *. pose proof (this_qz (Z.of_nat n)) as Q1. pose proof (this_qz (Z.of_nat (n + 1))) as Q2. rewrite <- Q1 in L. rewrite <- Q2 in U. change (qz (Z.of_nat n) < x) in L. change (x <= qz (Z.of_nat (n + 1))) in U. split.
  - assert (P : qz (Z.of_nat n) * b < x * b) by (apply Qcmult_lt_compat_r; assumption). qlra.
  - assert (P : x * b <= qz (Z.of_nat (n + 1)) * b) by (apply Qcmult_le_compat_r; [exact U|apply Qclt_le_weak; exact B]). qlra.
Qed.
Lemma count_spec ph lo b n i : 0 < b -> (i < n)%nat -> tally (in_bin_of lo b n i) ph (count_in ph lo b n i).
Proof.
  intros B L. unfold count_in. apply (kept_tally (in_bin_of lo b n i)). intros v _. unfold in_bin_of, edge_at. rewrite andb_true_iff, orb_true_iff, andb_true_iff, !qleb_le, qltb_lt, Nat.eqb_eq. split.
  - intros [H [T|[E ->]]]; split; try assumption; [now left|]. right. split; [exact E|]. rewrite E. apply Qcle_refl.
  - intros [H [T|[E T]]]; split; try assumption; [now left|]. destruct (Qclt_le_dec v (lo + qz (Z.of_nat (i + 1)) * b)) as [Y|Y]; [now left|]. right. split; [exact E|]. rewrite <- E. apply Qcle_antisym; assumption.
Qed.
