(** Bit-level lemmas on N. *)
From Coq Require Import NArith Bool List Lia.
Import ListNotations.
Local Open Scope N_scope.

Lemma testbit_bit i b : N.testbit (N.shiftl 1 i) b = (i =? b).
Proof. rewrite N.shiftl_1_l. apply N.pow2_bits_eqb. Qed.

Lemma land_bit_zero x i : N.land x (N.shiftl 1 i) = 0 <-> N.testbit x i = false.
Proof.
  split; intros H.
  - assert (E : N.testbit (N.land x (N.shiftl 1 i)) i = false) by (rewrite H; apply N.bits_0).
    rewrite N.land_spec, testbit_bit, N.eqb_refl, andb_true_r in E. exact E.
  - apply N.bits_inj. intros b. rewrite N.land_spec, testbit_bit, N.bits_0.
    destruct (N.eqb_spec i b) as [->|]; [rewrite H; reflexivity | apply andb_false_r].
Qed.

Lemma lt_pow2_bits x n : x < 2 ^ n <-> forall b, N.testbit x b = true -> b < n.
Proof.
  split; intros H.
  - intros b Hb. destruct (N.lt_ge_cases b n) as [L|L]; [exact L|].
    rewrite <- (N.mod_small x (2 ^ n) H), N.mod_pow2_bits_high in Hb by exact L. discriminate.
  - destruct (N.lt_ge_cases x (2 ^ n)) as [L|L]; [exact L|].
    assert (E : x mod 2 ^ n = x).
    { apply N.bits_inj; intros b. destruct (N.lt_ge_cases b n) as [Lb|Lb].
      - apply N.mod_pow2_bits_low; exact Lb.
      - rewrite N.mod_pow2_bits_high by exact Lb.
        destruct (N.testbit x b) eqn:E; [|reflexivity]. apply H in E. lia. }
    rewrite <- E. apply N.mod_lt. apply N.pow_nonzero. lia.
Qed.

Lemma nonzero_bits x : x <> 0 -> exists b, N.testbit x b = true.
Proof. intros H. exists (N.log2 x). apply N.bit_log2. exact H. Qed.

Lemma bits_true_nonzero x b : N.testbit x b = true -> x <> 0.
Proof. intros H ->. rewrite N.bits_0 in H. discriminate. Qed.

Lemma land_zero_bits x y : N.land x y = 0 <-> forall b, N.testbit x b = true -> N.testbit y b = false.
Proof.
  split; intros H.
  - intros b Hb. assert (E : N.testbit (N.land x y) b = false) by (rewrite H; apply N.bits_0).
    rewrite N.land_spec, Hb in E. exact E.
  - apply N.bits_inj. intros b. rewrite N.land_spec, N.bits_0.
    destruct (N.testbit x b) eqn:E; [rewrite (H b E); reflexivity | reflexivity].
Qed.

Lemma add_disjoint x y : N.land x y = 0 -> x + y = N.lor x y.
Proof. intros H. rewrite N.add_nocarry_lxor by exact H. apply N.lxor_lor. exact H. Qed.

Lemma fold_lor_bits (l : list N) acc b :
  N.testbit (fold_left N.lor l acc) b = true <->
  N.testbit acc b = true \/ exists m, In m l /\ N.testbit m b = true.
Proof.
  revert acc; induction l as [|x l IH]; intros acc; cbn [fold_left].
  - split; [tauto | intros [H|[m [[] _]]]; exact H].
  - rewrite IH, N.lor_spec, orb_true_iff. split.
    + intros [[H|H]|[m [Hm Hb]]]; [tauto | right; exists x; cbn; tauto | right; exists m; cbn; tauto].
    + intros [H|[m [[->|Hm] Hb]]]; [tauto | tauto | right; exists m; tauto].
Qed.
