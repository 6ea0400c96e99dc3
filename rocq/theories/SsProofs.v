(** Proofs about smoothing splines. *)
From Coq Require Import ZArith QArith Qcanon Bool Arith Lia Lqa List.
From Verif Require Import QcPre LagModel SsModel SsSpec.
From Verif Require LagProofs SgSpec SgProofs.
Import ListNotations.
Local Open Scope Qc_scope.

Lemma qdiv_0 a : a / 0 = 0.
Proof. unfold Qcdiv. change (/ 0) with 0. ring. Qed.
Lemma mul_nonneg a b : 0 <= a -> 0 <= b -> 0 <= a * b.
Proof. intros A B. replace 0 with (0 * b) by ring. now apply Qcmult_le_compat_r. Qed.
Lemma sub_ne a b : a < b -> b - a <> 0.
Proof. intros L E. qlra. Qed.

(** * Knots and intervals *)
Section Knots.
Variable N : nat.
Variable x : nat -> Qc.
Hypothesis N2 : (2 <= N)%nat.
Hypothesis INC : increasing N x.
Notation t := (padknots N x).
Lemma inc_lt i j : (i < j < N)%nat -> x i < x j.
Proof.
  intros [L B]. induction j as [|j IH]; [lia|]. destruct (Nat.eq_dec i j) as [->|]; [replace (S j) with (j + 1)%nat by lia; apply INC; lia|]. apply Qclt_trans with (x j); [apply IH; lia|replace (S j) with (j + 1)%nat by lia; apply INC; lia].
Qed.
Lemma inc_le i j : (i <= j < N)%nat -> x i <= x j.
Proof. intros [L B]. destruct (Nat.eq_dec i j) as [->|]; [apply Qcle_refl|]. apply Qclt_le_weak, inc_lt. lia. Qed.
Lemma pad k : (k < N)%nat -> t (k + 3) = x k.
Proof. intros L. unfold padknots. f_equal. lia. Qed.
Lemma pad_low i : (i <= 3)%nat -> t i = x 0%nat.
Proof. intros L. unfold padknots. f_equal. lia. Qed.
Lemma pad_high i : (N + 2 <= i)%nat -> t i = x (N - 1)%nat.
Proof. intros L. unfold padknots. f_equal. lia. Qed.
Lemma span_at v k : (k + 2 <= N)%nat -> x k <= v -> k = (N - 2)%nat \/ v < x (k + 1)%nat -> span t (N - 2) 3 v = (k + 3)%nat.
Proof.
  intros K L U. assert (G : forall fuel l, (3 <= l)%nat -> (l + fuel = N + 1)%nat -> (l <= k + 3)%nat -> span t fuel l v = (k + 3)%nat).
  { induction fuel as [|f IH]; intros l L3 LF LK; cbn [span]; [lia|]. assert (T : t (l + 1) = x (l - 2)%nat) by (replace (l + 1)%nat with ((l - 2) + 3)%nat by lia; apply pad; lia). rewrite T. destruct (qleb (x (l - 2)%nat) v) eqn:E.
    - apply qleb_le in E. apply IH; try lia. destruct (Nat.eq_dec l (k + 3)) as [->|]; [|lia]. exfalso. replace (k + 3 - 2)%nat with (k + 1)%nat in E by lia. destruct U as [U|U]; [lia|]. exact (Qclt_not_le _ _ U E).
    - apply qleb_gt in E. destruct (Nat.eq_dec l (k + 3)) as [->|]; [reflexivity|]. exfalso. assert (X : x (l - 2)%nat <= x k) by (apply inc_le; lia). apply (Qclt_not_le _ _ E). eapply Qcle_trans; eassumption. }
  apply G; lia.
Qed.
(** * Linear B-splines *)
Definition hat (l j : nat) (v : Qc) : Qc := bas t l 1 j v.
Lemma hat_eq l j v : hat l j v = (if Nat.eqb j l then (v - t l) / (t (l + 1) - t l) else 0) + (if Nat.eqb (j + 1) l then (t (l + 1) - v) / (t (l + 1) - t l) else 0).
Proof.
  unfold hat. cbn [bas]. replace (j + 0 + 1)%nat with (j + 1)%nat by lia. replace (j + 0 + 2)%nat with (j + 2)%nat by lia. destruct (Nat.eqb_spec j l) as [A|]; destruct (Nat.eqb_spec (j + 1) l) as [E|]; try lia; try (subst l); try replace (j + 1 + 1)%nat with (j + 2)%nat by lia; ring.
Qed.
Lemma step_ne k : (k + 1 < N)%nat -> t (k + 3 + 1) - t (k + 3) <> 0.
Proof. intros L. replace (k + 3 + 1)%nat with ((k + 1) + 3)%nat by lia. rewrite !pad by lia. apply sub_ne, INC. lia. Qed.
Lemma hat_right k j : (k + 1 < N)%nat -> hat (k + 3) j (x (k + 1)%nat) = if Nat.eqb j (k + 3) then 1 else 0.
Proof.
  intros L. rewrite hat_eq. pose proof (step_ne k L) as NE. assert (E : t (k + 3 + 1) = x (k + 1)%nat) by (replace (k + 3 + 1)%nat with ((k + 1) + 3)%nat by lia; apply pad; lia). rewrite <- E. destruct (Nat.eqb_spec j (k + 3)), (Nat.eqb_spec (j + 1) (k + 3)); try lia; try (field; exact NE); ring.
Qed.
Lemma hat_left k j : (k + 1 < N)%nat -> hat (k + 3) j (x k) = if Nat.eqb (j + 1) (k + 3) then 1 else 0.
Proof.
  intros L. rewrite hat_eq. pose proof (step_ne k L) as NE. rewrite <- (pad k) by lia. destruct (Nat.eqb_spec j (k + 3)), (Nat.eqb_spec (j + 1) (k + 3)); try lia; try (field; exact NE); ring.
Qed.
(** second derivatives of cubic B-splines from linear ones *)
Definition d2 (h : nat -> Qc) (i : nat) : Qc :=
  qz 3 * ((qz 2 * (h i / (t (i + 2) - t i) - h (i + 1)%nat / (t (i + 3) - t (i + 1)))) / (t (i + 3) - t i) - (qz 2 * (h (i + 1)%nat / (t (i + 3) - t (i + 1)) - h (i + 2)%nat / (t (i + 4) - t (i + 2)))) / (t (i + 4) - t (i + 1))).
Lemma bder_d2 l i v : bder t l 2 3 i v = d2 (fun j => hat l j v) i.
Proof.
  unfold d2, hat. change (bder t l 2 3 i v) with (qz (Z.of_nat (2 + 1)) * (bder t l 1 2 i v / (t (i + 2 + 1) - t i) - bder t l 1 2 (i + 1) v / (t (i + 2 + 2) - t (i + 1)))).
  change (bder t l 1 2 i v) with (qz (Z.of_nat (1 + 1)) * (bas t l 1 i v / (t (i + 1 + 1) - t i) - bas t l 1 (i + 1) v / (t (i + 1 + 2) - t (i + 1)))).
  change (bder t l 1 2 (i + 1) v) with (qz (Z.of_nat (1 + 1)) * (bas t l 1 (i + 1) v / (t (i + 1 + 1 + 1) - t (i + 1)) - bas t l 1 (i + 1 + 1) v / (t (i + 1 + 1 + 2) - t (i + 1 + 1)))).
  replace (i + 2 + 1)%nat with (i + 3)%nat by lia. replace (i + 2 + 2)%nat with (i + 4)%nat by lia. replace (i + 1 + 1 + 1)%nat with (i + 3)%nat by lia. replace (i + 1 + 1 + 2)%nat with (i + 4)%nat by lia. replace (i + 1 + 1)%nat with (i + 2)%nat by lia. replace (i + 1 + 2)%nat with (i + 3)%nat by lia. reflexivity.
Qed.
Lemma d2_ext h g i : h i = g i -> h (i + 1)%nat = g (i + 1)%nat -> h (i + 2)%nat = g (i + 2)%nat -> d2 h i = d2 g i.
Proof. intros A B C. unfold d2. now rewrite A, B, C. Qed.
Lemma d2_lin h g a b i : d2 (fun j => a * h j + b * g j) i = a * d2 h i + b * d2 g i.
Proof. unfold d2, Qcdiv. ring. Qed.
Lemma d2_zero h i : h i = 0 -> h (i + 1)%nat = 0 -> h (i + 2)%nat = 0 -> d2 h i = 0.
Proof. intros A B C. unfold d2. rewrite A, B, C. unfold Qcdiv. ring. Qed.
Lemma hat_affine k j v : (k + 1 < N)%nat -> let w := (v - x k) / (x (k + 1)%nat - x k) in hat (k + 3) j v = (1 - w) * hat (k + 3) j (x k) + w * hat (k + 3) j (x (k + 1)%nat).
Proof.
  intros L w. rewrite hat_left, hat_right by exact L. rewrite hat_eq. pose proof (step_ne k L) as NE. unfold w. assert (E : t (k + 3 + 1) = x (k + 1)%nat) by (replace (k + 3 + 1)%nat with ((k + 1) + 3)%nat by lia; apply pad; lia). rewrite E, pad in * by lia. destruct (Nat.eqb_spec j (k + 3)), (Nat.eqb_spec (j + 1) (k + 3)); try lia; field; exact NE.
Qed.
(** * Second derivatives of curves *)
Definition on (coef : nat -> Qc) (l : nat) (v : Qc) : Qc := qsum (N + 2) (fun i => coef i * d2 (fun j => hat l j v) i).
Lemma splev_on coef v k : (k + 2 <= N)%nat -> x k <= v -> k = (N - 2)%nat \/ v < x (k + 1)%nat -> splev N x coef v 2 = on coef (k + 3) v.
Proof. intros K L U. unfold splev. rewrite (span_at v k K L U). unfold on. apply qsum_ext. intros i _. now rewrite bder_d2. Qed.
Lemma on_affine coef k v : (k + 1 < N)%nat -> let w := (v - x k) / (x (k + 1)%nat - x k) in on coef (k + 3) v = (1 - w) * on coef (k + 3) (x k) + w * on coef (k + 3) (x (k + 1)%nat).
Proof.
  intros L w. unfold on. rewrite <- !qsum_scale, <- qsum_add. apply qsum_ext. intros i _. rewrite (d2_ext (fun j => hat (k + 3) j v) (fun j => (1 - w) * hat (k + 3) j (x k) + w * hat (k + 3) j (x (k + 1)%nat))) by (apply (hat_affine k _ v L)). rewrite d2_lin. ring.
Qed.
Lemma on_next coef k : (k + 2 < N)%nat -> on coef (k + 3) (x (k + 1)%nat) = on coef (k + 1 + 3) (x (k + 1)%nat).
Proof.
  intros L. unfold on. apply qsum_ext. intros i _. f_equal. apply d2_ext; rewrite hat_right, hat_left by lia; repeat match goal with |- context [Nat.eqb ?a ?b] => destruct (Nat.eqb_spec a b) end; try lia; reflexivity.
Qed.
(** At a knot, the curve's second derivative, from either side. *)
Lemma at_left coef k : (k + 1 < N)%nat -> splev N x coef (x k) 2 = on coef (k + 3) (x k).
Proof. intros L. apply splev_on; [lia|apply Qcle_refl|]. right. apply INC. lia. Qed.
Lemma at_right coef k : (k + 1 < N)%nat -> splev N x coef (x (k + 1)%nat) 2 = on coef (k + 3) (x (k + 1)%nat).
Proof.
  intros L. destruct (Nat.eq_dec k (N - 2)) as [E|NE].
  - apply splev_on; [lia|apply Qclt_le_weak, INC; lia|now left].
  - rewrite at_left by lia. symmetry. apply on_next. lia.
Qed.
(** Between knots it is linear. *)
Lemma between coef k v : (k + 1 < N)%nat -> x k <= v <= x (k + 1)%nat -> let w := (v - x k) / (x (k + 1)%nat - x k) in splev N x coef v 2 = (1 - w) * splev N x coef (x k) 2 + w * splev N x coef (x (k + 1)%nat) 2.
Proof.
  intros L [A B] w. rewrite at_left, at_right by exact L. pose proof (on_affine coef k v L) as H. cbv zeta in H. fold w in H. rewrite <- H. destruct (Qc_eq_dec v (x (k + 1)%nat)) as [->|NE]; [now apply at_right|]. apply splev_on; [lia|exact A|]. right. destruct (Qcle_lt_or_eq _ _ B); [assumption|contradiction].
Qed.
(** * Ends *)
Lemma low_terms i : bder t 3 2 3 i (x 0%nat) = d2 (fun j => if Nat.eqb (j + 1) 3 then 1 else 0) i.
Proof. rewrite bder_d2. pose proof (fun j => hat_left 0 j ltac:(lia)) as H. cbn [Nat.add] in H. apply d2_ext; apply H. Qed.
Lemma high_terms i : bder t (N + 1) 2 3 i (x (N - 1)%nat) = d2 (fun j => if Nat.eqb j (N + 1) then 1 else 0) i.
Proof. rewrite bder_d2. pose proof (fun j => hat_right (N - 2) j ltac:(lia)) as H. replace (N - 2 + 3)%nat with (N + 1)%nat in H by lia. replace (N - 2 + 1)%nat with (N - 1)%nat in H by lia. apply d2_ext; apply H. Qed.
Lemma low_splev coef : splev N x coef (x 0%nat) 2 = qsum (N + 2) (fun i => coef i * d2 (fun j => if Nat.eqb (j + 1) 3 then 1 else 0) i).
Proof. unfold splev. rewrite (span_at (x 0%nat) 0 ltac:(lia) (Qcle_refl _) (or_intror (INC 0%nat ltac:(lia)))). apply qsum_ext. intros i _. f_equal. apply low_terms. Qed.
Lemma high_splev coef : splev N x coef (x (N - 1)%nat) 2 = qsum (N + 2) (fun i => coef i * d2 (fun j => if Nat.eqb j (N + 1) then 1 else 0) i).
Proof. unfold splev. rewrite (span_at (x (N - 1)%nat) (N - 2) ltac:(lia) (inc_le (N - 2) (N - 1) ltac:(lia)) (or_introl eq_refl)). replace (N - 2 + 3)%nat with (N + 1)%nat by lia. apply qsum_ext. intros i _. f_equal. apply high_terms. Qed.
Definition lo2 (i : nat) : Qc := d2 (fun j => if Nat.eqb (j + 1) 3 then 1 else 0) i.
Definition hi2 (i : nat) : Qc := d2 (fun j => if Nat.eqb j (N + 1) then 1 else 0) i.
Lemma lo2_zero i : (3 <= i)%nat -> lo2 i = 0.
Proof. intros L. apply d2_zero; match goal with |- context [Nat.eqb ?a ?b] => destruct (Nat.eqb_spec a b) end; try lia; reflexivity. Qed.
Lemma hi2_zero i : (i + 3 <= N + 1)%nat -> hi2 i = 0.
Proof. intros L. apply d2_zero; match goal with |- context [Nat.eqb ?a ?b] => destruct (Nat.eqb_spec a b) end; try lia; reflexivity. Qed.
Lemma lowfpp_eq i : (i < N + 2)%nat -> lowfpp N x i = lo2 i.
Proof. intros L. unfold lowfpp. rewrite low_splev. rewrite (qsum_only _ i); [unfold unit_at; rewrite Nat.eqb_refl; unfold lo2; ring|exact L|]. intros j _ NE. unfold unit_at. destruct (Nat.eqb_spec j i); [contradiction|ring]. Qed.
Lemma hifpp_eq i : (i <= N + 1)%nat -> hifpp N x i = hi2 (N + 1 - i).
Proof. intros L. unfold hifpp. rewrite high_splev. rewrite (qsum_only _ (N + 1 - i)%nat); [unfold unit_at; rewrite Nat.eqb_refl; unfold hi2; ring|lia|]. intros j _ NE. unfold unit_at. destruct (Nat.eqb_spec j (N + 1 - i)%nat); [contradiction|ring]. Qed.
Lemma lo2_first : lo2 0 = qz 6 / ((x 1%nat - x 0%nat) * (x 1%nat - x 0%nat)).
Proof.
  unfold lo2, d2. cbn [Nat.add Nat.eqb]. rewrite !pad_low by lia. assert (E : t 4 = x 1%nat) by (apply (pad 1); lia). rewrite E. pose proof (sub_ne _ _ (INC 0%nat ltac:(lia))) as NE. cbn [Nat.add] in NE.
  change (qz 6) with (qz 3 * qz 2). replace (x 0%nat - x 0%nat) with 0 by ring. rewrite !qdiv_0. field. exact NE.
Qed.
Lemma hi2_last : hi2 (N + 1) = qz 6 / ((x (N - 1)%nat - x (N - 2)%nat) * (x (N - 1)%nat - x (N - 2)%nat)).
Proof.
  unfold hi2, d2. destruct (Nat.eqb_spec (N + 1) (N + 1)); [|lia]. destruct (Nat.eqb_spec (N + 1 + 1) (N + 1)); [lia|]. destruct (Nat.eqb_spec (N + 1 + 2) (N + 1)); [lia|]. rewrite (pad_high (N + 1 + 1)), (pad_high (N + 1 + 2)), (pad_high (N + 1 + 3)), (pad_high (N + 1 + 4)) by lia.
  assert (E : t (N + 1) = x (N - 2)%nat) by (replace (N + 1)%nat with (N - 2 + 3)%nat by lia; apply pad; lia). rewrite E. pose proof (sub_ne _ _ (INC (N - 2)%nat ltac:(lia))) as NE. replace (N - 2 + 1)%nat with (N - 1)%nat in NE by lia.
  change (qz 6) with (qz 3 * qz 2). replace (x (N - 1)%nat - x (N - 1)%nat) with 0 by ring. rewrite !qdiv_0. field. exact NE.
Qed.
Lemma six_ne a : a <> 0 -> qz 6 / (a * a) <> 0.
Proof. intros H E. assert (X : qz 6 / (a * a) * (a * a) = qz 6) by (field; exact H). rewrite E in X. replace (0 * (a * a)) with 0 in X by ring. discriminate. Qed.
Lemma low_ne : lowfpp N x 0 <> 0.
Proof. rewrite lowfpp_eq by lia. rewrite lo2_first. apply six_ne. exact (sub_ne _ _ (INC 0%nat ltac:(lia))). Qed.
Lemma high_ne : hifpp N x 0 <> 0.
Proof. rewrite hifpp_eq by lia. replace (N + 1 - 0)%nat with (N + 1)%nat by lia. rewrite hi2_last. apply six_ne. pose proof (sub_ne _ _ (INC (N - 2)%nat ltac:(lia))) as NE. now replace (N - 2 + 1)%nat with (N - 1)%nat in NE by lia. Qed.
End Knots.

(** * Curves are linear in their coefficients *)
Lemma splev_sum N x n (beta : nat -> Qc) (c : nat -> nat -> Qc) v d : splev N x (fun i => qsum n (fun id => beta id * c id i)) v d = qsum n (fun id => beta id * splev N x (c id) v d).
Proof.
  unfold splev. cbv zeta. rewrite (qsum_ext n _ (fun id => qsum (N + 2) (fun i => beta id * (c id i * bder (padknots N x) (span (padknots N x) (N - 2) 3 v) d 3 i v)))) by (intros; now rewrite qsum_scale). rewrite <- qsum_swap. apply qsum_ext. intros i _. rewrite <- qsum_scale_r. apply qsum_ext. intros id _. ring.
Qed.
Lemma splev_coef N x c1 c2 v d : (forall i, (i < N + 2)%nat -> c1 i = c2 i) -> splev N x c1 v d = splev N x c2 v d.
Proof. intros E. unfold splev. apply qsum_ext. intros i L. now rewrite E. Qed.

(** * Natural boundary conditions *)
Section Natural.
Variable N : nat.
Variable x : nat -> Qc.
Hypothesis N4 : (4 <= N)%nat.
Hypothesis INC : increasing N x.
Lemma two_terms n f a b : (a < n)%nat -> (b < n)%nat -> a <> b -> (forall i, (i < n)%nat -> i <> a -> i <> b -> f i = 0) -> qsum n f = f a + f b.
Proof.
  intros A B NE Z. rewrite (qsum_ext n f (fun i => (if Nat.eqb i a then f i else 0) + (if Nat.eqb i b then f i else 0))).
  - rewrite qsum_add. rewrite (qsum_only _ a _ A), (qsum_only _ b _ B), !Nat.eqb_refl; [reflexivity| |]; intros i _ H; [destruct (Nat.eqb_spec i b)|destruct (Nat.eqb_spec i a)]; try contradiction; reflexivity.
  - intros i L. destruct (Nat.eqb_spec i a), (Nat.eqb_spec i b); try lia; try ring. rewrite Z by assumption. ring.
Qed.
Lemma natural_low id : (id < N)%nat -> splev N x (basis_coef N x id) (x 0%nat) 2 = 0.
Proof.
  intros L. rewrite (low_splev N x ltac:(lia) INC). fold (lo2 N x). destruct (Nat.ltb_spec id 2) as [S|G].
  - rewrite (two_terms _ _ 0 (id + 1)); [|lia|lia|lia|intros i Li A B; unfold basis_coef, unit_at; destruct (Nat.ltb_spec id 2); [|lia]; destruct (Nat.eqb_spec i 0); [contradiction|]; destruct (Nat.eqb_spec i (id + 1)); [contradiction|ring]].
    change (basis_coef N x id 0 * lo2 N x 0 + basis_coef N x id (id + 1) * lo2 N x (id + 1) = 0). unfold basis_coef, unit_at. destruct (Nat.ltb_spec id 2); [|lia]. destruct (Nat.eqb_spec (id + 1) 0); [lia|]. rewrite !Nat.eqb_refl. unfold coef_b. rewrite !(lowfpp_eq N x ltac:(lia) INC) by lia. pose proof (low_ne N x ltac:(lia) INC) as NE. rewrite (lowfpp_eq N x ltac:(lia) INC) in NE by lia. field. exact NE.
  - apply qsum_zero. intros i Li. change (basis_coef N x id i * lo2 N x i = 0). destruct (le_lt_dec 3 i) as [H|H]; [rewrite lo2_zero by lia; ring|]. unfold basis_coef, unit_at. destruct (Nat.ltb_spec id 2); [lia|]. destruct (Nat.eqb_spec i (id + 1)); [lia|]. destruct (Nat.eqb_spec i (N + 1)); [lia|]. destruct (Nat.leb (N - 2) id); ring.
Qed.
Lemma natural_high id : (id < N)%nat -> splev N x (basis_coef N x id) (x (N - 1)%nat) 2 = 0.
Proof.
  intros L. rewrite (high_splev N x ltac:(lia) INC). destruct (le_lt_dec (N - 2) id) as [G|S].
  - rewrite (two_terms _ _ (N + 1) (id + 1)); [|lia|lia|lia|intros i Li A B; unfold basis_coef, unit_at; destruct (Nat.ltb_spec id 2); [lia|]; destruct (Nat.leb_spec (N - 2) id); [|lia]; destruct (Nat.eqb_spec i (N + 1)); [contradiction|]; destruct (Nat.eqb_spec i (id + 1)); [contradiction|ring]].
    change (basis_coef N x id (N + 1) * hi2 N x (N + 1) + basis_coef N x id (id + 1) * hi2 N x (id + 1) = 0). unfold basis_coef, unit_at. destruct (Nat.ltb_spec id 2); [lia|]. destruct (Nat.leb_spec (N - 2) id); [|lia]. destruct (Nat.eqb_spec (id + 1) (N + 1)); [lia|]. rewrite !Nat.eqb_refl. unfold coef_e. pose proof (high_ne N x ltac:(lia) INC) as NE. rewrite (hifpp_eq N x ltac:(lia) INC) in NE by lia. rewrite !(hifpp_eq N x ltac:(lia) INC) by lia. replace (N + 1 - (N - id - 1 + 1))%nat with (id + 1)%nat by lia. replace (N + 1 - 0)%nat with (N + 1)%nat in * by lia. field. exact NE.
  - apply qsum_zero. intros i Li. change (basis_coef N x id i * hi2 N x i = 0). destruct (le_lt_dec (i + 3) (N + 1)) as [H|H]; [rewrite hi2_zero by lia; ring|]. unfold basis_coef, unit_at. destruct (Nat.eqb_spec i 0); [lia|]. destruct (Nat.eqb_spec i (id + 1)); [lia|]. destruct (Nat.leb_spec (N - 2) id); [lia|]. destruct (Nat.ltb id 2); ring.
Qed.
Lemma expand_sum beta i : (i < N + 2)%nat -> expand_coeff N x beta i = qsum N (fun id => beta id * basis_coef N x id i).
Proof.
  intros L. unfold expand_coeff. destruct (Nat.eqb_spec i 0) as [->|I0].
  - rewrite (two_terms _ _ 0 1); [|lia|lia|lia|intros id Lid A B; unfold basis_coef, unit_at; destruct (Nat.ltb_spec id 2); [lia|]; destruct (Nat.eqb_spec 0 (N + 1)); [lia|]; destruct (Nat.eqb_spec 0 (id + 1)); [lia|]; destruct (Nat.leb (N - 2) id); ring]. reflexivity.
  - destruct (Nat.eqb_spec i (N + 1)) as [->|I1].
    + rewrite (two_terms _ _ (N - 1) (N - 2)); [|lia|lia|lia|intros id Lid A B; unfold basis_coef, unit_at; destruct (Nat.eqb_spec (N + 1) 0); [lia|]; destruct (Nat.eqb_spec (N + 1) (id + 1)); [lia|]; destruct (Nat.leb_spec (N - 2) id); [lia|]; destruct (Nat.ltb id 2); ring].
      unfold basis_coef. destruct (Nat.ltb_spec (N - 1) 2); [lia|]. destruct (Nat.ltb_spec (N - 2) 2); [lia|]. destruct (Nat.leb_spec (N - 2) (N - 1)); [|lia]. destruct (Nat.leb_spec (N - 2) (N - 2)); [|lia]. rewrite !Nat.eqb_refl. replace (N - (N - 1) - 1)%nat with 0%nat by lia. replace (N - (N - 2) - 1)%nat with 1%nat by lia. reflexivity.
    + assert (B : forall id, basis_coef N x id i = unit_at (id + 1) i) by (intros id; unfold basis_coef; destruct (Nat.eqb_spec i 0); [contradiction|]; destruct (Nat.eqb_spec i (N + 1)); [contradiction|]; destruct (Nat.ltb id 2), (Nat.leb (N - 2) id); reflexivity).
      rewrite (qsum_only _ (i - 1)%nat); [rewrite B; unfold unit_at; destruct (Nat.eqb_spec i (i - 1 + 1)); [ring|lia]|lia|]. intros id Lid NE. rewrite B. unfold unit_at. destruct (Nat.eqb_spec i (id + 1)); [lia|ring].
Qed.
Lemma expanded beta v d : splev N x (expand_coeff N x beta) v d = qsum N (fun id => beta id * splev N x (basis_coef N x id) v d).
Proof. rewrite <- splev_sum. apply splev_coef. intros i L. now apply expand_sum. Qed.
End Natural.

(** * The integral *)
Definition linear_between (N : nat) (x : nat -> Qc) (f : Qc -> Qc) : Prop :=
  forall k v, (k + 1 < N)%nat -> x k <= v <= x (k + 1)%nat -> f v = f (x k) + (v - x k) / (x (k + 1)%nat - x k) * (f (x (k + 1)%nat) - f (x k)).
Lemma second_linear N x coef : (2 <= N)%nat -> increasing N x -> linear_between N x (fun v => splev N x coef v 2).
Proof. intros N2 INC k v L B. rewrite (between N x N2 INC coef k v L B). ring. Qed.
Lemma area_linear f g a b : a < b ->
  (forall v, a <= v <= b -> f v = f a + (v - a) / (b - a) * (f b - f a)) -> (forall v, a <= v <= b -> g v = g a + (v - a) / (b - a) * (g b - g a)) ->
  area (fun v => f v * g v) a b ((f b * g a + f a * g b) * (b - a) / qz 6 + (f a * g a + f b * g b) * (b - a) / qz 3).
Proof.
  intros L F G. assert (NE := sub_ne _ _ L). set (sf := (f b - f a) / (b - a)). set (sg := (g b - g a) / (b - a)).
  exists [(f a - a * sf) * (g a - a * sg); (f a - a * sf) * sg + sf * (g a - a * sg); sf * sg]. split.
  - intros v B. rewrite (F v B), (G v B). cbn [peval]. unfold sf, sg. field. exact NE.
  - unfold pintegral. cbn [peval antider Nat.add]. change (qz (Z.of_nat 1)) with (1 : Qc). change (qz (Z.of_nat 2)) with (1 + 1 : Qc). change (qz (Z.of_nat 3)) with (1 + 1 + 1 : Qc). change (qz 3) with (1 + 1 + 1 : Qc). change (qz 6) with ((1 + 1) * (1 + 1 + 1) : Qc). unfold sf, sg. field. repeat split; try exact NE; discriminate.
Qed.
(** the bilinear form behind omega *)
Definition form (N : nat) (x : nat -> Qc) (u w : nat -> Qc) : Qc :=
  qsum (N - 1) (fun k => (u (k + 1)%nat * w k + w (k + 1)%nat * u k) * (x (k + 1)%nat - x k) / qz 6) + qsum N (fun k => u k * w k * (x (Nat.min (k + 1) (N - 1)) - x (k - 1)%nat) / qz 3).
Lemma omega_form N x N2 i j : omega N x N2 i j = form N x (fun k => N2 k i) (fun k => N2 k j).
Proof. reflexivity. Qed.
Lemma form_steps N x u w : (1 <= N)%nat -> form N x u w = qsum (N - 1) (fun k => (u (k + 1)%nat * w k + u k * w (k + 1)%nat) * (x (k + 1)%nat - x k) / qz 6 + (u k * w k + u (k + 1)%nat * w (k + 1)%nat) * (x (k + 1)%nat - x k) / qz 3).
Proof.
  intros L. unfold form. rewrite qsum_add. f_equal; [apply qsum_ext; intros; f_equal; ring|]. destruct N as [|M]; [lia|]. replace (S M - 1)%nat with M by lia.
  rewrite (qsum_ext (S M) _ (fun k => u k * w k * (x (Nat.min (k + 1) M) - x k) / qz 3 + u k * w k * (x k - x (k - 1)%nat) / qz 3)) by (intros; unfold Qcdiv; ring).
  rewrite qsum_add. rewrite (qsum_S_l M (fun k => u k * w k * (x k - x (k - 1)%nat) / qz 3)). cbn [qsum]. replace (Nat.min (M + 1) M) with M by lia. replace (0 - 1)%nat with 0%nat by lia.
  rewrite (qsum_ext M (fun k => u k * w k * (x (Nat.min (k + 1) M) - x k) / qz 3) (fun k => u k * w k * (x (k + 1)%nat - x k) / qz 3)) by (intros k Lk; replace (Nat.min (k + 1) M) with (k + 1)%nat by lia; reflexivity).
  rewrite (qsum_ext M (fun i => u (S i) * w (S i) * (x (S i) - x (S i - 1)%nat) / qz 3) (fun k => u (k + 1)%nat * w (k + 1)%nat * (x (k + 1)%nat - x k) / qz 3)) by (intros k Lk; replace (S k - 1)%nat with k by lia; replace (S k) with (k + 1)%nat by lia; reflexivity).
  rewrite (qsum_ext M (fun i => (u i * w i + u (i + 1)%nat * w (i + 1)%nat) * (x (i + 1)%nat - x i) / qz 3) (fun k => u k * w k * (x (k + 1)%nat - x k) / qz 3 + u (k + 1)%nat * w (k + 1)%nat * (x (k + 1)%nat - x k) / qz 3)) by (intros; unfold Qcdiv; ring).
  rewrite qsum_add. unfold Qcdiv. ring.
Qed.
Lemma form_area N x f g : (1 <= N)%nat -> increasing N x -> linear_between N x f -> linear_between N x g -> total_area N x (fun v => f v * g v) (form N x (fun k => f (x k)) (fun k => g (x k))).
Proof.
  intros L INC F G. rewrite form_steps by exact L. eexists. split; [|reflexivity]. intros k Lk. cbv beta. apply area_linear; [apply INC, Lk|intros; now apply F|intros; now apply G].
Qed.
Lemma form_nonneg N x u : (1 <= N)%nat -> increasing N x -> 0 <= form N x u u.
Proof.
  intros L INC. rewrite form_steps by exact L. apply LagProofs.qsum_nonneg. intros k Lk. assert (P := INC k ltac:(lia)). set (a := u k). set (b := u (k + 1)%nat). set (h := x (k + 1)%nat - x k). assert (H : 0 < h) by (unfold h; qlra). clearbody a b h.
  replace ((b * a + a * b) * h / qz 6 + (a * a + b * b) * h / qz 3) with (h * (Q2Qc (1 # 6)) * (a * a + b * b + (a + b) * (a + b))) by (apply Qc_eq; qc_prep; unfold qz; qc_prep; field).
  apply mul_nonneg; [apply mul_nonneg; [now apply Qclt_le_weak|discriminate]|]. qnra.
Qed.
Lemma form_sum_l N x n (beta : nat -> Qc) (U : nat -> nat -> Qc) w : form N x (fun k => qsum n (fun i => beta i * U k i)) w = qsum n (fun i => beta i * form N x (fun k => U k i) w).
Proof.
  induction n as [|n IH].
  - cbn [qsum]. unfold form. rewrite !qsum_zero; [ring| |]; intros; unfold Qcdiv; ring.
  - cbn [qsum]. rewrite <- IH. unfold form. rewrite Qcmult_plus_distr_r, <- !qsum_scale. match goal with |- ?a1 + ?a2 = ?b1 + ?b2 + (?c1 + ?c2) => replace (b1 + b2 + (c1 + c2)) with ((b1 + c1) + (b2 + c2)) by ring end. rewrite <- !qsum_add. f_equal; apply qsum_ext; intros; unfold Qcdiv; ring.
Qed.
Lemma form_sym N x u w : form N x u w = form N x w u.
Proof. unfold form. f_equal; apply qsum_ext; intros; unfold Qcdiv; ring. Qed.

(** * Minimisation *)
Section Minimum.
Variable N : nat.
Variables y err : nat -> Qc.
Variable N0 : nat -> nat -> Qc.
Variable Om : nat -> nat -> Qc.
Definition at_knots (beta : nat -> Qc) (k : nat) : Qc := qsum N (fun j => N0 k j * beta j).
Definition bending (beta gamma : nat -> Qc) : Qc := qsum N (fun i => beta i * qsum N (fun j => Om i j * gamma j)).
Hypothesis SYM : forall b g, bending b g = bending g b.
Hypothesis PSD : forall b, 0 <= bending b b.
Lemma bending_add b d : bending (fun i => b i + d i) (fun i => b i + d i) = bending b b + qz 2 * bending d b + bending d d.
Proof.
  assert (A : forall a c e, bending a (fun i => c i + e i) = bending a c + bending a e).
  { intros. unfold bending. rewrite <- qsum_add. apply qsum_ext. intros i _. rewrite <- Qcmult_plus_distr_r, <- qsum_add. f_equal. apply qsum_ext. intros. ring. }
  assert (B : forall a c e, bending (fun i => a i + c i) e = bending a e + bending c e).
  { intros. unfold bending. rewrite <- qsum_add. apply qsum_ext. intros. ring. }
  rewrite A, !B, (SYM b d). change (qz 2) with (1 + 1 : Qc). ring.
Qed.
Definition weigh (k : nat) : Qc := 1 / (err k * err k).
Lemma chisq_weigh beta : (forall k, (k < N)%nat -> err k <> 0) -> chisq N y err N0 beta = qsum N (fun k => weigh k * ((y k - at_knots beta k) * (y k - at_knots beta k))).
Proof. intros E. unfold chisq. apply qsum_ext. intros k L. unfold weigh, at_knots. field. now apply E. Qed.
Lemma at_knots_add b d k : at_knots (fun i => b i + d i) k = at_knots b k + at_knots d k.
Proof. unfold at_knots. rewrite <- qsum_add. apply qsum_ext. intros. ring. Qed.
(** the gradient of chi-squared along d *)
Lemma slope_chisq b d : qsum N (fun i => d i * (rhs N y err N0 i - qsum N (fun j => lhs N err N0 i j * b j))) = qsum N (fun k => weigh k * ((y k - at_knots b k) * at_knots d k)).
Proof.
  transitivity (qsum N (fun i => qsum N (fun k => d i * (N0 k i * (weigh k * (y k - at_knots b k)))))).
  - apply qsum_ext. intros i _. rewrite qsum_scale. f_equal. unfold rhs, lhs. rewrite (qsum_ext N (fun j => qsum N (fun k => N0 k i * (1 / (err k * err k)) * N0 k j) * b j) (fun j => qsum N (fun k => N0 k i * weigh k * N0 k j * b j))) by (intros; now rewrite qsum_scale_r). rewrite <- qsum_swap, <- qsum_sub. apply qsum_ext. intros k _. rewrite (qsum_ext N (fun j => N0 k i * weigh k * N0 k j * b j) (fun j => N0 k i * weigh k * (N0 k j * b j))) by (intros; ring). rewrite qsum_scale. fold (at_knots b k). fold (weigh k). ring.
  - rewrite qsum_swap. apply qsum_ext. intros k _. set (r := y k - at_knots b k). unfold at_knots. rewrite <- !qsum_scale. apply qsum_ext. intros. ring.
Qed.
Definition objective (p : Qc) (b : nat -> Qc) : Qc := p * chisq N y err N0 b + (1 - p) * bending b b.
Definition stationary (p : Qc) (b : nat -> Qc) : Prop := forall i, (i < N)%nat -> qsum N (fun j => matrix N err N0 Om p i j * b j) = p * rhs N y err N0 i.
Hypothesis ERR : forall k, (k < N)%nat -> err k <> 0.
Lemma weigh_nonneg k : 0 <= weigh k.
Proof. unfold weigh. replace (1 / (err k * err k)) with ((/ err k) * (/ err k)); [qnra|]. destruct (Qc_eq_dec (err k) 0) as [->|NE]; [reflexivity|field; exact NE]. Qed.
Lemma chisq_nonneg b : 0 <= chisq N y err N0 b.
Proof. unfold chisq. apply LagProofs.qsum_nonneg. intros. qnra. Qed.
Lemma minimal p b : 0 <= p -> p <= 1 -> stationary p b -> forall g, objective p b <= objective p g.
Proof.
  intros P0 P1 ST g. set (d := fun i => g i - b i).
  assert (OG : objective p g = objective p (fun i => b i + d i)).
  { unfold objective. f_equal; f_equal; [unfold chisq|unfold bending]; apply qsum_ext; intros i _; [rewrite (qsum_ext N (fun j => N0 i j * g j) (fun j => N0 i j * (b j + d j))) by (intros; unfold d; ring); reflexivity|]. f_equal; [unfold d; ring|]. apply qsum_ext. intros; unfold d; ring. }
  rewrite OG. unfold objective. rewrite bending_add, !chisq_weigh by exact ERR.
  assert (CH : qsum N (fun k => weigh k * ((y k - at_knots (fun i => b i + d i) k) * (y k - at_knots (fun i => b i + d i) k))) = qsum N (fun k => weigh k * ((y k - at_knots b k) * (y k - at_knots b k))) - qz 2 * qsum N (fun k => weigh k * ((y k - at_knots b k) * at_knots d k)) + qsum N (fun k => weigh k * (at_knots d k * at_knots d k))).
  { rewrite <- qsum_scale, <- qsum_sub, <- qsum_add. apply qsum_ext. intros k _. rewrite at_knots_add. change (qz 2) with (1 + 1 : Qc). ring. }
  rewrite CH.
  assert (Z : p * qsum N (fun k => weigh k * ((y k - at_knots b k) * at_knots d k)) - (1 - p) * bending d b = 0).
  { rewrite <- slope_chisq. unfold bending. rewrite <- !qsum_scale, <- qsum_sub. apply qsum_zero. intros i L. specialize (ST i L). unfold matrix in ST.
    assert (R : p * rhs N y err N0 i = p * qsum N (fun j => lhs N err N0 i j * b j) + (1 - p) * qsum N (fun j => Om i j * b j)) by (rewrite <- ST, <- !qsum_scale, <- qsum_add; apply qsum_ext; intros; ring).
    replace (p * (d i * (rhs N y err N0 i - qsum N (fun j => lhs N err N0 i j * b j))) - (1 - p) * (d i * qsum N (fun j => Om i j * b j))) with (d i * (p * rhs N y err N0 i - (p * qsum N (fun j => lhs N err N0 i j * b j) + (1 - p) * qsum N (fun j => Om i j * b j)))) by ring. rewrite R. ring. }
  assert (W : 0 <= qsum N (fun k => weigh k * (at_knots d k * at_knots d k))) by (apply LagProofs.qsum_nonneg; intros k _; apply mul_nonneg; [apply weigh_nonneg|qnra]).
  pose proof (PSD d) as PD.
  set (A := qsum N (fun k => weigh k * ((y k - at_knots b k) * (y k - at_knots b k)))) in *. set (B := qsum N (fun k => weigh k * ((y k - at_knots b k) * at_knots d k))) in *. set (C := qsum N (fun k => weigh k * (at_knots d k * at_knots d k))) in *. set (E := bending d b) in *. set (F := bending d d) in *. set (G := bending b b).
  assert (P1' : 0 <= 1 - p) by qlra. pose proof (mul_nonneg _ _ P0 W) as U. pose proof (mul_nonneg _ _ P1' PD) as V.
  replace (p * (A - qz 2 * B + C) + (1 - p) * (G + qz 2 * E + F)) with ((p * A + (1 - p) * G) - qz 2 * (p * B - (1 - p) * E) + (p * C + (1 - p) * F)) by ring. rewrite Z. clearbody A B C E F G. clear - U V. qlra.
Qed.
Lemma less_chisq p q b c : 0 <= p -> p < q -> q <= 1 -> stationary p b -> stationary q c -> chisq N y err N0 c <= chisq N y err N0 b.
Proof.
  intros P0 PQ Q1 SB SC. pose proof (minimal p b P0 ltac:(qlra) SB c) as M1. pose proof (minimal q c ltac:(qlra) Q1 SC b) as M2. unfold objective in *.
  set (X := chisq N y err N0 b) in *. set (Y := chisq N y err N0 c) in *. set (U := bending b b) in *. set (V := bending c c) in *. clearbody X Y U V. clear SB SC.
  destruct (Qclt_le_dec X Y) as [L|]; [|assumption]. exfalso.
  pose proof (Qcmult_le_compat_r _ _ (1 - q) M1 ltac:(qlra)) as A. pose proof (Qcmult_le_compat_r _ _ (1 - p) M2 ltac:(qlra)) as B. assert (C : 0 < (q - p) * (Y - X)) by (replace 0 with (0 * (Y - X)) by ring; apply Qcmult_lt_compat_r; qlra). clear M1 M2 L. qnra.
Qed.
End Minimum.

(** * With the matrices of the code *)
Section Fitted.
Variable N : nat.
Variable x : nat -> Qc.
Hypothesis N4 : (4 <= N)%nat.
Hypothesis INC : increasing N x.
Notation f b := (fun v => splev N x (expand_coeff N x b) v).
Notation N2 := (values_matrix N x 2).
Notation Om := (omega N x N2).
Lemma bending_form b g : bending N Om b g = form N x (fun k => splev N x (expand_coeff N x b) (x k) 2) (fun k => splev N x (expand_coeff N x g) (x k) 2).
Proof.
  assert (F : forall c, (fun k => splev N x (expand_coeff N x c) (x k) 2) = (fun k => splev N x (expand_coeff N x c) (x k) 2)) by reflexivity.
  assert (E : forall u w u' w', (forall k, u k = u' k) -> (forall k, w k = w' k) -> form N x u w = form N x u' w') by (intros u w u' w' A B; unfold form; f_equal; apply qsum_ext; intros; rewrite !A, !B; reflexivity).
  rewrite (E _ _ (fun k => qsum N (fun i => b i * N2 k i)) (fun k => qsum N (fun j => g j * N2 k j))) by (intros; apply expanded; assumption).
  rewrite form_sum_l. unfold bending. apply qsum_ext. intros i _. f_equal. rewrite form_sym, form_sum_l. apply qsum_ext. intros j _. rewrite omega_form, form_sym. ring.
Qed.
Lemma bending_sym b g : bending N Om b g = bending N Om g b.
Proof. rewrite !bending_form. apply form_sym. Qed.
Lemma bending_nonneg b : 0 <= bending N Om b b.
Proof. rewrite bending_form. apply form_nonneg; [lia|exact INC]. Qed.
Lemma bending_area b : total_area N x (fun v => splev N x (expand_coeff N x b) v 2 * splev N x (expand_coeff N x b) v 2) (bending N Om b b).
Proof. rewrite bending_form. apply (form_area N x (fun v => splev N x (expand_coeff N x b) v 2) (fun v => splev N x (expand_coeff N x b) v 2)); try lia; try exact INC; apply second_linear; try lia; exact INC. Qed.
Lemma omega_area i j : total_area N x (fun v => splev N x (basis_coef N x i) v 2 * splev N x (basis_coef N x j) v 2) (Om i j).
Proof. rewrite omega_form. apply (form_area N x (fun v => splev N x (basis_coef N x i) v 2) (fun v => splev N x (basis_coef N x j) v 2)); try lia; try exact INC; apply second_linear; try lia; exact INC. Qed.
Lemma chisq_distance y err b : distance2 N x y err (fun v => splev N x (expand_coeff N x b) v 0) (chisq N y err (values_matrix N x 0) b).
Proof.
  unfold distance2, chisq. apply qsum_ext. intros k L. rewrite (expanded N x N4 b (x k) 0). rewrite (qsum_ext N (fun j => values_matrix N x 0 k j * b j) (fun id => b id * splev N x (basis_coef N x id) (x k) 0)) by (intros; unfold values_matrix; ring). reflexivity.
Qed.
End Fitted.

(** * Areas are unique *)
Fixpoint psub (p q : list Qc) : list Qc :=
  match p, q with
  | [], _ => map Qcopp q
  | _ :: _, [] => p
  | a :: p', b :: q' => a - b :: psub p' q'
  end.
Lemma psub_eval p : forall q t, peval (psub p q) t = peval p t - peval q t.
Proof.
  induction p as [|a p IH].
  - induction q as [|b q IHq]; intros t; cbn [psub map peval]; [ring|]. cbn [psub] in IHq. rewrite IHq. cbn [peval]. ring.
  - intros [|b q] t; cbn [psub peval]; [ring|]; rewrite IH; ring.
Qed.
Lemma psub_anti p : forall q n t, peval (antider (psub p q) n) t = peval (antider p n) t - peval (antider q n) t.
Proof.
  induction p as [|a p IH].
  - induction q as [|b q IHq]; intros n t; cbn [psub map antider peval]; [ring|]. cbn [psub] in IHq. rewrite IHq. cbn [peval antider]. unfold Qcdiv. ring.
  - intros [|b q] n t; cbn [psub antider peval]; [ring|]; rewrite IH; unfold Qcdiv; ring.
Qed.
Lemma zero_anti p : Forall (eq 0) p -> forall n t, peval (antider p n) t = 0.
Proof. induction 1 as [|a p A _ IH]; intros n t; cbn [antider peval]; [reflexivity|]. rewrite IH, <- A. unfold Qcdiv. ring. Qed.
Lemma peval_poly p t : SgSpec.poly p t = peval p t.
Proof. induction p as [|a p IH]; [reflexivity|]. cbn [SgSpec.poly peval]. now rewrite IH. Qed.
Definition point (a b : Qc) (i : nat) : Qc := a + (b - a) / qz (Z.of_nat (i + 1)).
Lemma qz_pos i : 0 < qz (Z.of_nat (i + 1)).
Proof. unfold Qclt, qz. rewrite (this_Q2Qc (inject_Z _)). change (this 0) with (inject_Z 0). rewrite <- Zlt_Qlt. lia. Qed.
Lemma qz_inj a b : qz a = qz b -> a = b.
Proof. intros E. apply Qc_eq_this in E. unfold qz in E. rewrite !this_Q2Qc in E. unfold Qeq, inject_Z in E. cbn in E. lia. Qed.
Lemma point_in a b i : a < b -> a <= point a b i <= b.
Proof.
  intros L. pose proof (qz_pos i) as P. assert (G : 1 <= qz (Z.of_nat (i + 1))) by (unfold Qcle, qz; rewrite (this_Q2Qc (inject_Z _)); change (this 1) with (inject_Z 1); rewrite <- Zle_Qle; lia). unfold point. set (z := qz (Z.of_nat (i + 1))) in *. clearbody z. assert (NE : z <> 0) by (intros ->; now apply (Qclt_not_eq _ _ P)).
  set (w := (b - a) / z). assert (W : w * z = b - a) by (unfold w; field; exact NE). clearbody w. assert (W0 : 0 <= w). { destruct (Qclt_le_dec w 0) as [N|]; [|assumption]. exfalso. assert (w * z < 0 * z) by (now apply Qcmult_lt_compat_r). qlra. } split; [qlra|]. assert (0 <= w * (z - 1)) by (apply mul_nonneg; [exact W0|qlra]). qlra.
Qed.
Lemma point_inj a b : a < b -> FinFun.Injective (point a b).
Proof.
  intros L i j E. unfold point in E. pose proof (qz_pos i) as Pi. pose proof (qz_pos j) as Pj. assert (Ni : qz (Z.of_nat (i + 1)) <> 0) by (intros H; rewrite H in Pi; now apply (Qclt_not_eq _ _ Pi)). assert (Nj : qz (Z.of_nat (j + 1)) <> 0) by (intros H; rewrite H in Pj; now apply (Qclt_not_eq _ _ Pj)). pose proof (sub_ne _ _ L) as NE.
  assert (Q : qz (Z.of_nat (i + 1)) = qz (Z.of_nat (j + 1))).
  { set (zi := qz (Z.of_nat (i + 1))) in *. set (zj := qz (Z.of_nat (j + 1))) in *. clearbody zi zj. assert (E' : (b - a) / zi = (b - a) / zj) by (replace ((b - a) / zi) with (a + (b - a) / zi - a) by ring; rewrite E; ring). replace zi with ((b - a) / ((b - a) / zi)) by (field; split; assumption). rewrite E'. field. split; assumption. }
  apply qz_inj in Q. lia.
Qed.
Lemma area_unique g a b v w : a < b -> area g a b v -> area g a b w -> v = w.
Proof.
  intros L (p & P & ->) (q & Q & ->). set (n := length (psub p q)).
  assert (Z : Forall (eq 0) (psub p q)).
  { apply (SgProofs.roots_zero (map (point a b) (seq 0 n))).
    - apply FinFun.Injective_map_NoDup; [now apply point_inj|apply seq_NoDup].
    - rewrite map_length, seq_length. apply Nat.le_refl.
    - intros x I. apply in_map_iff in I as (i & <- & _). rewrite peval_poly, psub_eval. pose proof (point_in a b i L) as B. rewrite (P _ B), (Q _ B). ring. }
  unfold pintegral. cbn [peval]. pose proof (psub_anti p q 0 a) as A. pose proof (psub_anti p q 0 b) as B. rewrite (zero_anti _ Z) in A, B.
  assert (A' : peval (antider p 0) a = peval (antider q 0) a) by (replace (peval (antider p 0) a) with (peval (antider p 0) a - peval (antider q 0) a + peval (antider q 0) a) by ring; rewrite <- A; ring).
  assert (B' : peval (antider p 0) b = peval (antider q 0) b) by (replace (peval (antider p 0) b) with (peval (antider p 0) b - peval (antider q 0) b + peval (antider q 0) b) by ring; rewrite <- B; ring). now rewrite A', B'.
Qed.
Lemma total_area_unique N x g v w : increasing N x -> total_area N x g v -> total_area N x g w -> v = w.
Proof. intros INC (I & P & ->) (J & Q & ->). apply qsum_ext. intros k L. apply (area_unique g (x k) (x (k + 1)%nat)); [apply INC; lia|apply P; lia|apply Q; lia]. Qed.

(** * Smoothing *)
Lemma solved solve N y err N0 Om p b : solves solve -> best_params N y err N0 Om solve p = Some b -> stationary N y err N0 Om p b.
Proof. intros S E i L. exact (S _ _ _ _ E i L). Qed.
Lemma huge_ne : huge <> 0.
Proof. intros H. apply Qc_eq_this in H. vm_compute in H. discriminate. Qed.
Lemma mincurvature_pos : 0 < mincurvature.
Proof. reflexivity. Qed.
Section Smoothing.
Variable N : nat.
Variables y err : nat -> Qc.
Variables N0 Om : nat -> nat -> Qc.
Variable solve : nat -> (nat -> nat -> Qc) -> (nat -> Qc) -> option (nat -> Qc).
Variable brentq : (Qc -> Qc) -> Qc -> Qc -> option Qc.
Hypothesis SOLVE : solves solve.
Hypothesis ROOT : finds_root brentq.
Hypothesis ERR : forall k, (k < N)%nat -> err k <> 0.
Hypothesis SYM : forall b g, bending N Om b g = bending N Om g b.
Hypothesis PSD : forall b, 0 <= bending N Om b b.
Lemma smooth_best target beta c : 0 < target -> (exists g, chisq N y err N0 g = 0) -> smooth N y err N0 Om solve brentq target = Some (beta, c) ->
  c = target /\ chisq N y err N0 beta = target /\ forall g, chisq N y err N0 g <= target -> bending N Om beta beta <= bending N Om g g.
Proof.
  intros T (g0 & G0) E. unfold smooth in E. destruct (brentq (chisq_difference N y err N0 Om solve target) mincurvature 1) as [p|] eqn:EB; [|discriminate]. destruct (proj1 (ROOT _ _ _) p EB) as [[B1 B2] Z]. destruct (best_params N y err N0 Om solve p) as [b|] eqn:EP; [|discriminate]. unfold chisq_difference in Z. rewrite EP in Z. injection E as <- <-.
  assert (C : chisq N y err N0 b = target) by (replace (chisq N y err N0 b) with (chisq N y err N0 b - target + target) by ring; rewrite Z; ring). split; [exact C|]. split; [exact C|]. intros g G. pose proof (solved _ _ _ _ _ _ _ _ SOLVE EP) as ST. pose proof mincurvature_pos as MP. assert (P0 : 0 < p) by (eapply Qclt_le_trans; eassumption).
  pose proof (minimal N y err N0 Om SYM PSD ERR p b ltac:(qlra) B2 ST) as M.
  assert (P1 : p < 1). { destruct (Qcle_lt_or_eq _ _ B2) as [|E1]; [assumption|]. exfalso. pose proof (M g0) as M0. unfold objective in M0. rewrite G0, C in M0. subst p. qlra. }
  specialize (M g). unfold objective in M. rewrite C in M. set (U := bending N Om b b) in *. set (V := bending N Om g g) in *. set (X := chisq N y err N0 g) in *. clearbody U V X. destruct (Qclt_le_dec V U) as [L|]; [|assumption]. exfalso.
  assert (H1 : 0 < (1 - p) * (U - V)) by (replace 0 with (0 * (U - V)) by ring; apply Qcmult_lt_compat_r; qlra). assert (H2 : 0 <= p * (target - X)) by (apply mul_nonneg; qlra). clear L G. qnra.
Qed.
(** A curve without bending that is close enough: no smoothing spline. *)
Lemma smooth_straight target g b1 b2 : bending N Om g g = 0 -> chisq N y err N0 g < target -> best_params N y err N0 Om solve mincurvature = Some b1 -> best_params N y err N0 Om solve 1 = Some b2 ->
  smooth N y err N0 Om solve brentq target = None.
Proof.
  intros G C E1 E2.
  assert (D : forall p b, 0 < p -> p <= 1 -> best_params N y err N0 Om solve p = Some b -> chisq_difference N y err N0 Om solve target p < 0).
  { intros p b P0 P1 E. unfold chisq_difference. rewrite E. pose proof (minimal N y err N0 Om SYM PSD ERR p b ltac:(qlra) P1 (solved _ _ _ _ _ _ _ _ SOLVE E) g) as M. unfold objective in M. rewrite G in M. pose proof (PSD b) as PB. set (X := chisq N y err N0 b) in *. set (Y := chisq N y err N0 g) in *. set (U := bending N Om b b) in *. clearbody X Y U.
    assert (H1 : 0 <= (1 - p) * U) by (apply mul_nonneg; qlra). destruct (Qclt_le_dec Y X) as [L|]; [|qlra]. exfalso. assert (H2 : 0 < p * (X - Y)) by (replace 0 with (0 * (X - Y)) by ring; apply Qcmult_lt_compat_r; qlra). clear - M H1 H2. qnra. }
  pose proof (D _ _ mincurvature_pos ltac:(discriminate) E1) as D1. pose proof (D 1 _ ltac:(reflexivity) (Qcle_refl _) E2) as D2. unfold smooth. rewrite (proj2 (ROOT _ _ _)); [reflexivity|].
  set (u := chisq_difference _ _ _ _ _ _ _ mincurvature) in *. set (w := chisq_difference _ _ _ _ _ _ _ 1) in *. clearbody u w. replace (u * w) with ((- u) * (- w)) by ring. replace 0 with (0 * (- w)) by ring. apply Qcmult_lt_compat_r; qlra.
Qed.
End Smoothing.

(** * The curve outside the knots *)
Section Outside.
Variable N : nat.
Variable xs : nat -> Qc.
Variable scale : Qc.
Variable coef : nat -> Qc.
Hypothesis N1 : (2 <= N)%nat.
Hypothesis INC : increasing N xs.
Hypothesis POS : 0 < scale.
Lemma scale_ne : scale <> 0.
Proof. intros H. rewrite H in POS. now apply (Qclt_not_eq _ _ POS). Qed.
Lemma over v : v * scale / scale = v.
Proof. field. exact scale_ne. Qed.
Lemma lt_over v a : v < a * scale -> v / scale < a.
Proof. intros L. destruct (Qclt_le_dec (v / scale) a) as [|G]; [assumption|]. exfalso. assert (H : a * scale <= v / scale * scale) by (apply Qcmult_le_compat_r; [exact G|now apply Qclt_le_weak]). replace (v / scale * scale) with v in H by (field; exact scale_ne). exact (Qclt_not_le _ _ L H). Qed.
Lemma gt_over v a : a * scale < v -> a < v / scale.
Proof. intros L. destruct (Qclt_le_dec a (v / scale)) as [|G]; [assumption|]. exfalso. assert (H : v / scale * scale <= a * scale) by (apply Qcmult_le_compat_r; [exact G|now apply Qclt_le_weak]). replace (v / scale * scale) with v in H by (field; exact scale_ne). exact (Qclt_not_le _ _ L H). Qed.
Lemma first_last : xs 0%nat < xs (N - 1)%nat.
Proof. apply (inc_lt N xs N1 INC). lia. Qed.
Lemma curve_inside u d : xs 0%nat <= u <= xs (N - 1)%nat -> curve N xs scale coef (u * scale) d = splev N xs coef u d / power scale d.
Proof.
  intros [A B]. unfold curve. cbv zeta. rewrite over. apply qltb_ge in A, B. now rewrite A, B.
Qed.
Lemma line_value s a u : line_at (line s a) u = a + u * s.
Proof. unfold line, line_at. destruct (Qc_eq_dec s 0) as [->|]; cbn [fold_left]; ring. Qed.
Lemma line_head s a : nth 0 (line s a) 0 = if Qc_eq_dec s 0 then a else s.
Proof. unfold line. destruct (Qc_eq_dec s 0); reflexivity. Qed.
Lemma outside_low v d : v < xs 0%nat * scale -> curve N xs scale coef v d = beyond (lowline N xs scale coef) (v / scale - xs 0%nat) d / power scale d.
Proof. intros L. apply lt_over in L. unfold curve. cbv zeta. apply qltb_lt in L. now rewrite L. Qed.
Lemma outside_high v d : xs (N - 1)%nat * scale < v -> curve N xs scale coef v d = beyond (highline N xs scale coef) (v / scale - xs (N - 1)%nat) d / power scale d.
Proof. intros L. apply gt_over in L. unfold curve. cbv zeta. pose proof first_last as F. assert (G : qltb (v / scale) (xs 0%nat) = false) by (apply qltb_ge; apply Qclt_le_weak; eapply Qclt_trans; eassumption). apply qltb_lt in L. now rewrite G, L. Qed.
Lemma slope_at u : end_slope N xs scale coef u = splev N xs coef u 1.
Proof. unfold end_slope. rewrite over. field. exact scale_ne. Qed.
Lemma value_at u : end_value N xs scale coef u = splev N xs coef u 0.
Proof. unfold end_value. now rewrite over. Qed.
Lemma beyond_value e v l : l = line (end_slope N xs scale coef e) (end_value N xs scale coef e) -> xs 0%nat <= e <= xs (N - 1)%nat ->
  beyond l (v / scale - e) 0 / power scale 0 = curve N xs scale coef (e * scale) 0 + (v - e * scale) * curve N xs scale coef (e * scale) 1.
Proof. intros -> B. cbn [beyond]. rewrite line_value, slope_at, value_at, !curve_inside by exact B. cbn [power]. field. repeat split; try exact scale_ne; discriminate. Qed.
Lemma beyond_slope e u l : l = line (end_slope N xs scale coef e) (end_value N xs scale coef e) -> xs 0%nat <= e <= xs (N - 1)%nat ->
  beyond l u 1 / power scale 1 = if Qc_eq_dec (curve N xs scale coef (e * scale) 1) 0 then curve N xs scale coef (e * scale) 0 / scale else curve N xs scale coef (e * scale) 1.
Proof.
  intros -> B. cbn [beyond]. rewrite line_head, slope_at, value_at, !curve_inside by exact B. cbn [power]. pose proof scale_ne as NE.
  assert (NE1 : scale * 1 <> 0) by (replace (scale * 1) with scale by ring; exact NE).
  destruct (Qc_eq_dec (splev N xs coef e 1) 0) as [Z|Z], (Qc_eq_dec (splev N xs coef e 1 / (scale * 1)) 0) as [Y|Y].
  - field. repeat split; try exact NE; discriminate.
  - exfalso. apply Y. rewrite Z. unfold Qcdiv. ring.
  - exfalso. apply Z. replace (splev N xs coef e 1) with (splev N xs coef e 1 / (scale * 1) * (scale * 1)) by (field; repeat split; try exact NE; discriminate). rewrite Y. ring.
  - reflexivity.
Qed.
End Outside.
Lemma power_one d : power 1 d = 1.
Proof. induction d as [|d IH]; [reflexivity|]. cbn [power]. rewrite IH. ring. Qed.
Lemma power_ne s d : s <> 0 -> power s d <> 0.
Proof. intros H. induction d as [|d IH]; cbn [power]; [discriminate|]. intros E. apply Qcmult_integral in E as [E|E]; contradiction. Qed.
Lemma curve_rescaled N xs scale coef v d : 0 < scale -> curve N xs 1 coef v d = power scale d * curve N xs scale coef (v * scale) d.
Proof.
  intros P. pose proof (scale_ne scale P) as NE. unfold curve. cbv zeta. rewrite (over scale P). replace (v / 1) with v by (field; discriminate). rewrite power_one.
  assert (L : forall e, end_slope N xs 1 coef e = end_slope N xs scale coef e) by (intros; rewrite !slope_at by (try exact P; reflexivity); reflexivity).
  assert (V : forall e, end_value N xs 1 coef e = end_value N xs scale coef e) by (intros; rewrite !value_at by (try exact P; reflexivity); reflexivity).
  unfold lowline, highline. rewrite !L, !V. field. repeat split; try (now apply power_ne); discriminate.
Qed.
Lemma splev_ext N x1 x2 c1 c2 v d : (1 <= N)%nat -> (forall i, (i < N)%nat -> x1 i = x2 i) -> (forall i, (i < N + 2)%nat -> c1 i = c2 i) -> splev N x1 c1 v d = splev N x2 c2 v d.
Proof.
  intros N1 X C. assert (T : forall i, padknots N x1 i = padknots N x2 i) by (intros; unfold padknots; apply X; lia).
  assert (SP : forall fuel l, span (padknots N x1) fuel l v = span (padknots N x2) fuel l v) by (induction fuel as [|f IH]; intros l; cbn [span]; [reflexivity|]; rewrite T, IH; reflexivity).
  assert (BA : forall l k i, bas (padknots N x1) l k i v = bas (padknots N x2) l k i v) by (intros l; induction k as [|k IH]; intros i; cbn [bas]; [reflexivity|]; rewrite !T, !IH; reflexivity).
  assert (BD : forall l d k i, bder (padknots N x1) l d k i v = bder (padknots N x2) l d k i v) by (intros l; induction d0 as [|d0 IH]; intros [|k] i; cbn [bder]; try apply BA; try reflexivity; rewrite !T, !IH; reflexivity).
  unfold splev. apply qsum_ext. intros i L. rewrite SP, BD, C by exact L. reflexivity.
Qed.
Lemma curve_ext N x1 x2 s c1 c2 v d : (1 <= N)%nat -> (forall i, (i < N)%nat -> x1 i = x2 i) -> (forall i, (i < N + 2)%nat -> c1 i = c2 i) -> curve N x1 s c1 v d = curve N x2 s c2 v d.
Proof.
  intros N1 X C. pose proof (fun v d => splev_ext N x1 x2 c1 c2 v d N1 X C) as S. unfold curve, lowline, highline, end_slope, end_value. cbv zeta. rewrite !S, !(X 0%nat), !(X (N - 1)%nat) by lia. reflexivity.
Qed.

(** * All natural curves come from the basis *)
Lemma first_three n f : (forall i, (3 <= i < n)%nat -> f i = 0) -> (3 <= n)%nat -> qsum n f = f 0%nat + f 1%nat + f 2%nat.
Proof.
  intros Z L. replace n with (3 + (n - 3))%nat by lia. rewrite qsum_split. rewrite (qsum_zero (n - 3)) by (intros i Li; apply Z; lia). cbn [qsum]. ring.
Qed.
Lemma last_three n f : (forall i, (i + 3 < n)%nat -> f i = 0) -> (3 <= n)%nat -> qsum n f = f (n - 1)%nat + f (n - 2)%nat + f (n - 3)%nat.
Proof.
  intros Z L. replace n with (S (S (S (n - 3)))) at 1 by lia. cbn [qsum]. rewrite qsum_zero by (intros; apply Z; lia). replace (S (S (n - 3))) with (n - 1)%nat by lia. replace (S (n - 3)) with (n - 2)%nat by lia. ring.
Qed.
Lemma natural_expand N x coef : (4 <= N)%nat -> increasing N x -> splev N x coef (x 0%nat) 2 = 0 -> splev N x coef (x (N - 1)%nat) 2 = 0 ->
  forall i, (i < N + 2)%nat -> expand_coeff N x (fun k => coef (k + 1)%nat) i = coef i.
Proof.
  intros N4 INC L H i Li. rewrite (low_splev N x ltac:(lia) INC) in L. rewrite (high_splev N x ltac:(lia) INC) in H.
  change (qsum (N + 2) (fun i => coef i * lo2 N x i) = 0) in L. change (qsum (N + 2) (fun i => coef i * hi2 N x i) = 0) in H.
  rewrite first_three in L by (try lia; intros; rewrite lo2_zero by lia; ring). rewrite last_three in H by (try lia; intros; rewrite hi2_zero by lia; ring).
  unfold expand_coeff. destruct (Nat.eqb_spec i 0) as [->|I0]; [|destruct (Nat.eqb_spec i (N + 1)) as [->|I1]].
  - unfold coef_b. pose proof (low_ne N x ltac:(lia) INC) as NE. rewrite (lowfpp_eq N x ltac:(lia) INC) in NE by lia. rewrite !(lowfpp_eq N x ltac:(lia) INC) by lia. cbn [Nat.add].
    assert (E : coef 0%nat * lo2 N x 0 = - (coef 1%nat * lo2 N x 1 + coef 2%nat * lo2 N x 2)) by (replace (coef 0%nat * lo2 N x 0) with (coef 0%nat * lo2 N x 0 + coef 1%nat * lo2 N x 1 + coef 2%nat * lo2 N x 2 - (coef 1%nat * lo2 N x 1 + coef 2%nat * lo2 N x 2)) by ring; rewrite L; ring).
    replace (coef 0%nat) with (coef 0%nat * lo2 N x 0 / lo2 N x 0) by (field; exact NE). rewrite E. field. exact NE.
  - unfold coef_e. pose proof (high_ne N x ltac:(lia) INC) as NE. rewrite (hifpp_eq N x ltac:(lia) INC) in NE by lia. rewrite !(hifpp_eq N x ltac:(lia) INC) by lia. replace (N + 1 - 0)%nat with (N + 1)%nat in * by lia. replace (N + 1 - (0 + 1))%nat with N by lia. replace (N + 1 - (1 + 1))%nat with (N - 1)%nat by lia. replace (N - 1 + 1)%nat with N by lia. replace (N - 2 + 1)%nat with (N - 1)%nat by lia.
    replace (N + 2 - 1)%nat with (N + 1)%nat in H by lia. replace (N + 2 - 2)%nat with N in H by lia. replace (N + 2 - 3)%nat with (N - 1)%nat in H by lia.
    set (c1 := coef (N + 1)%nat) in *. set (h1 := hi2 N x (N + 1)) in *. set (c2 := coef N) in *. set (h2 := hi2 N x N) in *. set (c3 := coef (N - 1)%nat) in *. set (h3 := hi2 N x (N - 1)) in *. clearbody c1 h1 c2 h2 c3 h3.
    assert (E : c1 * h1 = - (c2 * h2 + c3 * h3)) by (replace (c1 * h1) with (c1 * h1 + c2 * h2 + c3 * h3 - (c2 * h2 + c3 * h3)) by ring; rewrite H; ring).
    replace c1 with (c1 * h1 / h1) by (field; exact NE). rewrite E. field. exact NE.
  - f_equal. lia.
Qed.
