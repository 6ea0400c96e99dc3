From Coq Require Import ZArith QArith Qcanon Bool List Sorted Lia.
From Verif Require Import QcPre QSort LagModel LagProofs ToepModel ToepProofs OptModel OptProofs NoiSpec NoiProofs Kept FitSpec AvgModel AvgSpec.
Import ListNotations.
Open Scope nat_scope.

(** * Positions of marked entries *)

Lemma nonzero_kept g : forall i, kept (fun j => nth (j - i) g false = true) (seq i (length g)) (nonzero_from i g).
Proof.
  induction g as [|b t IH]; intros i; cbn [nonzero_from length seq]; [constructor|].
  assert (K : kept (fun j => nth (j - i) (b :: t) false = true) (seq (S i) (length t)) (nonzero_from (S i) t)).
  { eapply kept_ext; [|apply IH]. intros x X. apply in_seq in X. replace (x - i) with (S (x - S i)) by lia. reflexivity. }
  destruct b; constructor; try exact K; rewrite Nat.sub_diag; cbn; congruence.
Qed.
Lemma nonzero_marked g : marked g (nonzero g).
Proof. unfold marked. eapply kept_ext; [|apply nonzero_kept]. intros x _. cbn beta. now rewrite Nat.sub_0_r. Qed.
Lemma nonzero_in g i : In i (nonzero g) <-> nth i g false = true.
Proof.
  split; intros H.
  - apply (kept_in _ _ _ i (nonzero_marked g)) in H. apply H.
  - apply (in_kept _ _ _ i (nonzero_marked g)); [|exact H]. apply in_seq.
    destruct (Nat.lt_ge_cases i (length g)); [lia|]. rewrite nth_overflow in H by lia. discriminate.
Qed.

Lemma nonzero_ge g : forall i j, In j (nonzero_from i g) -> i <= j.
Proof.
  induction g as [|b t IH]; intros i j; cbn [nonzero_from]; [intros []|].
  destruct b; intros H; [destruct H as [<- | H]; [lia|]|]; apply IH in H; lia.
Qed.
Lemma nonzero_sorted g : forall i, StronglySorted lt (nonzero_from i g).
Proof.
  induction g as [|b t IH]; intros i; cbn [nonzero_from]; [constructor|]. destruct b; [|apply IH].
  constructor; [apply IH|]. apply Forall_forall. intros j J. apply nonzero_ge in J. lia.
Qed.
Lemma nonzero_length g : forall i, length (nonzero_from i g) = length (filter (fun b => b) g).
Proof. induction g as [|b t IH]; intros i; cbn [nonzero_from filter]; [reflexivity|]. destruct b; cbn [length]; now rewrite IH. Qed.
Lemma count_nonzero g : count g = Z.of_nat (length (nonzero g)).
Proof. unfold count, nonzero. now rewrite nonzero_length. Qed.

Lemma sorted_eq (l m : list nat) : StronglySorted lt l -> StronglySorted lt m -> (forall i, In i l <-> In i m) -> l = m.
Proof.
  intros L. revert m. induction L as [|x t L IH X]; intros m M E.
  - destruct m as [|y m]; [reflexivity|]. exfalso. apply (E y). now left.
  - destruct M as [|y u M Y]; [exfalso; apply (E x); now left|].
    rewrite Forall_forall in X, Y.
    assert (x = y).
    { destruct (proj1 (E x) (or_introl eq_refl)) as [H|H]; [congruence|]. apply Y in H.
      destruct (proj2 (E y) (or_introl eq_refl)) as [K|K]; [congruence|]. apply X in K. lia. }
    subst y. f_equal. apply IH; [exact M|]. intros i. split; intros I.
    + pose proof (X i I). destruct (proj1 (E i) (or_intror I)); [lia | assumption].
    + pose proof (Y i I). destruct (proj2 (E i) (or_intror I)); [lia | assumption].
Qed.
Lemma firstn_sorted k (l : list nat) : StronglySorted lt l -> StronglySorted lt (firstn k l).
Proof.
  intros L. revert k. induction L as [|x t L IH X]; intros k; [rewrite firstn_nil; constructor|].
  destruct k as [|k]; [constructor|]. cbn [firstn]. constructor; [apply IH|]. rewrite Forall_forall in *.
  intros y Y. apply X. clear -Y. revert k Y. induction t as [|z t IH]; intros [|k]; cbn; try tauto. intros [H|H]; [now left | right; now apply (IH k)].
Qed.
Lemma sorted_split (l : list nat) : StronglySorted lt l -> forall k i, In i (firstn k l) -> ~ In i (skipn k l).
Proof.
  intros L. induction L as [|x t L IH X]; intros k i; [rewrite firstn_nil; intros []|].
  destruct k as [|k]; [intros []|]. cbn [firstn skipn]. rewrite Forall_forall in X.
  intros [<- | H]; [|now apply IH]. intros C.
  assert (In x t) by (rewrite <- (firstn_skipn k t); apply in_or_app; now right). apply X in H. lia.
Qed.

(** A list of the length of [g] with the first [k] marks of [g]. *)
Lemma first_marks g h k : (forall i, nth i h false = true <-> In i (firstn k (nonzero g))) -> nonzero h = firstn k (nonzero g).
Proof.
  intros H. apply sorted_eq; [apply nonzero_sorted | apply firstn_sorted, nonzero_sorted|].
  intros i. rewrite nonzero_in. apply H.
Qed.

Lemma py_split {A : Type} n (l : list A) : (n < Z.of_nat (length l))%Z ->
  exists k, py_upto n l = firstn k l /\ py_from n l = skipn k l.
Proof. intros _. unfold py_upto, py_from. destruct (0 <=? n)%Z; eexists; split; reflexivity. Qed.

Lemma existsb_eqb i l : existsb (Nat.eqb i) l = true <-> In i l.
Proof.
  rewrite existsb_exists. split; [intros [x [X E]]; apply Nat.eqb_eq in E; now subst | intros H; exists i; split; [exact H | apply Nat.eqb_refl]].
Qed.

Lemma nth_mask (f : nat -> bool) n i : nth i (map f (seq 0 n)) false = (if Nat.ltb i n then f i else false).
Proof.
  destruct (Nat.ltb_spec i n).
  - rewrite (nth_map_in f _ i 0 false) by now rewrite seq_length. now rewrite seq_nth by lia.
  - apply nth_overflow. rewrite map_length, seq_length. lia.
Qed.

Lemma clear_firstn g k : nonzero (clear_at (skipn k (nonzero g)) g) = firstn k (nonzero g).
Proof.
  apply first_marks. intros i. unfold clear_at. rewrite nth_mask.
  assert (S := nonzero_sorted g 0). fold (nonzero g) in S.
  destruct (Nat.ltb_spec i (length g)) as [I|I].
  - rewrite andb_true_iff, negb_true_iff, <- nonzero_in. rewrite <- (firstn_skipn k (nonzero g)) at 1. rewrite in_app_iff.
    split.
    + intros [[H|H] N]; [exact H|]. apply existsb_eqb in H. congruence.
    + intros H. split; [now left|]. apply (sorted_split _ S) in H.
      destruct (existsb (Nat.eqb i) (skipn k (nonzero g))) eqn:E; [|reflexivity]. apply existsb_eqb in E. contradiction.
  - split; [discriminate|]. intros H.
    assert (In i (nonzero g)) by (rewrite <- (firstn_skipn k (nonzero g)); apply in_or_app; now left).
    apply nonzero_in in H0. rewrite nth_overflow in H0 by lia. discriminate.
Qed.

Lemma select_nonzero {A : Type} (d : A) g : forall l i, length g = length l ->
  select g l = map (fun j => nth (j - i) l d) (nonzero_from i g).
Proof.
  induction g as [|b t IH]; intros [|x l] i L; try discriminate; [reflexivity|].
  injection L as L. unfold select. cbn [combine filter fst nonzero_from]. fold (select t l).
  assert (E : map (fun j => nth (j - i) (x :: l) d) (nonzero_from (S i) t) = select t l).
  { rewrite (IH l (S i) L). apply map_ext_in. intros j J. apply nonzero_ge in J. now replace (j - i) with (S (j - S i)) by lia. }
  destruct b; cbn [map snd].
  - rewrite E, Nat.sub_diag. reflexivity.
  - now rewrite E.
Qed.

Lemma clear_length idx g : length (clear_at idx g) = length g.
Proof. unfold clear_at. now rewrite map_length, seq_length. Qed.

Lemma py_upto_all {A : Type} n (l : list A) : (Z.of_nat (length l) <= n)%Z -> py_upto n l = l.
Proof. intros H. unfold py_upto. destruct (Z.leb_spec 0 n); [apply firstn_all2; lia | lia]. Qed.

Lemma first_n_ok {A : Type} (d : A) data g n : length g = length data ->
  exists good, marked g good /\
    first_n_good_pulses data g n = Some (map (fun i => nth i data d) (py_upto n good), py_upto n good).
Proof.
  intros L. exists (nonzero g). split; [apply nonzero_marked|].
  unfold first_n_good_pulses. rewrite L, Nat.eqb_refl. cbn [negb].
  set (g' := if (n <? count g)%Z then _ else g).
  assert (E : nonzero g' = py_upto n (nonzero g)).
  { unfold g'. rewrite count_nonzero. destruct (Z.ltb_spec n (Z.of_nat (length (nonzero g)))) as [H|H].
    - destruct (py_split n (nonzero g) H) as [k [-> ->]]. apply clear_firstn.
    - now rewrite py_upto_all. }
  assert (L' : length g' = length data) by (unfold g'; destruct (n <? count g)%Z; [rewrite clear_length|]; exact L).
  do 2 f_equal; [|exact E]. rewrite (select_nonzero d g' data 0 L'). fold (nonzero g'). rewrite E.
  apply map_ext. intros i. now rewrite Nat.sub_0_r.
Qed.

Lemma marked_unique g a b : marked g a -> marked g b -> a = b.
Proof. apply kept_unique. Qed.

(** * The mask of the average pulse *)

Lemma find_cumsum c g : forall acc i, (acc < c <= acc + count g)%Z ->
  find_eq c i (cumsum acc g) = Some (nth (Z.to_nat (c - acc - 1)) (nonzero_from i g) 0).
Proof.
  induction g as [|b t IH]; intros acc i H; [cbn in H; lia|].
  cbn [cumsum find_eq nonzero_from]. unfold count in H. cbn [filter] in H. destruct b.
  - destruct (Z.eqb_spec (acc + 1) c) as [<-|N].
    + now replace (acc + 1 - acc - 1)%Z with 0%Z by lia.
    + rewrite IH by (unfold count; cbn [length] in H; lia). f_equal.
      replace (Z.to_nat (c - acc - 1)) with (S (Z.to_nat (c - (acc + 1) - 1))) by lia. reflexivity.
  - destruct (Z.eqb_spec acc c); [lia|]. now rewrite IH by (unfold count; lia).
Qed.

Lemma sorted_firstn_in (l : list nat) : StronglySorted lt l -> forall k i, k < length l ->
  In i (firstn (S k) l) <-> In i l /\ i <= nth k l 0.
Proof.
  intros L. induction L as [|x t L IH X]; intros k i K; [cbn in K; lia|]. rewrite Forall_forall in X.
  cbn [firstn]. destruct k as [|k]; cbn [length] in K.
  - cbn [nth firstn In]. split; [intros [<- | []]; split; [now left | lia] | intros [[H|H] J]; [now left|]]. apply X in H. lia.
  - cbn [nth]. change (In i (x :: firstn (S k) t) <-> In i (x :: t) /\ i <= nth k t 0). cbn [In]. rewrite IH by lia.
    split; [intros [<- | [H J]]; [split; [now left|] | split; [now right | exact J]] | tauto].
    assert (In (nth k t 0) t) by (apply nth_In; lia). apply X in H. lia.
Qed.

Lemma stop_firstn m c : (0 < c < count m)%Z ->
  nonzero (map (fun i => nth i m false && Nat.leb i (argmax_eq c (cumsum 0 m))) (seq 0 (length m)))
  = firstn (Z.to_nat c) (nonzero m).
Proof.
  intros H. apply first_marks. intros i. rewrite nth_mask. unfold argmax_eq. rewrite find_cumsum by lia.
  fold (nonzero m). set (k := Z.to_nat (c - 0 - 1)). replace (Z.to_nat c) with (S k) by lia.
  rewrite sorted_firstn_in; [|apply nonzero_sorted | rewrite count_nonzero in H; lia]. rewrite nonzero_in.
  destruct (Nat.ltb_spec i (length m)) as [I|I].
  - rewrite andb_true_iff, Nat.leb_le. reflexivity.
  - split; [discriminate|]. rewrite nth_overflow by lia. intros [C _]. discriminate.
Qed.

Local Open Scope Qc_scope.

Lemma two_nz : qz 2 <> 0. Proof. apply qz_neq. lia. Qed.
Lemma two_times a : (a / qz 2) + (a / qz 2) = a.
Proof.
  assert (E : qz 2 = 1 + 1) by (apply Qc_is_canon; vm_compute; reflexivity).
  transitivity ((1 + 1) * (a / qz 2)); [ring|]. rewrite <- E. field. exact two_nz.
Qed.

Lemma some_inj {A : Type} (a b : A) : Some a = Some b -> a = b. Proof. congruence. Qed.

Lemma median_ok l m : median l = Some m -> is_median l m.
Proof.
  unfold median. set (s := qsort l).
  assert (L : length s = length l) by apply qsort_length.
  destruct s as [|x t] eqn:E; [discriminate|]. rewrite <- E in *. intros H.
  assert (P : (0 < length l)%nat) by (rewrite <- L, E; cbn; lia).
  assert (O : forall k, (k < length l)%nat -> order_statistic k l (nth k s 0)).
  { intros k K. apply (order_statistic_perm k s l); [unfold s; symmetry; apply qsort_perm|].
    apply sorted_order_statistic; [unfold s; apply qsort_sorted | rewrite <- L in K; exact K]. }
  rewrite L in H. destruct (Nat.even (length l)) eqn:V; apply some_inj in H; subst m.
  - exists (nth (length l / 2 - 1) s 0), (nth (length l / 2) s 0).
    apply Nat.even_spec in V. destruct V as [h V]. rewrite V in *.
    replace (2 * h / 2)%nat with h by (rewrite Nat.mul_comm, Nat.div_mul; lia).
    replace ((2 * h - 1) / 2)%nat with (h - 1)%nat by (apply (Nat.div_unique _ _ _ 1); lia).
    split; [apply O; lia | split; [apply O; lia|]]. apply two_times.
  - exists (nth (length l / 2) s 0), (nth (length l / 2) s 0).
    assert (V' : Nat.odd (length l) = true) by (unfold Nat.odd; now rewrite V).
    apply Nat.odd_spec in V'. destruct V' as [h V']. rewrite V' in *.
    replace ((2 * h + 1) / 2)%nat with h by (apply (Nat.div_unique _ _ _ 1); lia).
    replace ((2 * h + 1 - 1) / 2)%nat with h by (apply (Nat.div_unique _ _ _ 0); lia).
    split; [apply O; lia | split; [apply O; lia | reflexivity]].
Qed.

Lemma median_some l : l <> [] -> median l <> None.
Proof.
  intros N. unfold median. destruct (qsort l) as [|x t] eqn:E.
  - exfalso. apply N. destruct l; [reflexivity|]. pose proof (qsort_length (q :: l)) as L. rewrite E in L. discriminate.
  - destruct (Nat.even _); discriminate.
Qed.

Lemma is_median_unique l a b : is_median l a -> is_median l b -> a = b.
Proof.
  intros [x [y (X & Y & E)]] [x' [y' (X' & Y' & E')]].
  rewrite (order_statistic_unique _ _ _ _ X X') in E. rewrite (order_statistic_unique _ _ _ _ Y Y') in E. qlra.
Qed.

Lemma twentieth : qz 20 * Q2Qc (1 # 20) = 1.
Proof. apply Qc_is_canon. vm_compute. reflexivity. Qed.
Lemma qz20_pos : 0 < qz 20. Proof. vm_compute. reflexivity. Qed.

Lemma close_ok med v : close med v = true <-> within_5_percent med v.
Proof.
  unfold close, within_5_percent, qdiv. destruct (Qc_eq_dec med 0) as [Z|N].
  - subst med. split; [discriminate|]. intros H. exfalso.
    unfold dist in H at 2. destruct (Qclt_le_dec 0 0) as [C|_]; [exfalso; qlra|].
    assert (0 <= dist v 0) by (unfold dist; destruct (Qclt_le_dec v 0); qlra). pose proof qz20_pos.
    assert (0 <= qz 20 * dist v 0) by qnra. qlra.
  - rewrite andb_true_iff, !qltb_lt. set (r := v / med).
    assert (V : v = r * med) by (unfold r; field; exact N).
    rewrite V. set (t := Q2Qc (1 # 20)). pose proof twentieth as T. fold t in T. pose proof qz20_pos as P. clearbody t r. clear V v.
    unfold dist. destruct (Qclt_le_dec med 0) as [M|M].
    + split.
      * intros [H1 H2]. destruct (Qclt_le_dec (r * med) med).
        -- assert ((r - 1) * (- med) < t * (- med)) by qnra.
           assert (qz 20 * (med - r * med) = qz 20 * ((r - 1) * (- med))) by ring. 
           assert (qz 20 * ((r - 1) * - med) < qz 20 * (t * - med)) by qnra.
           assert (qz 20 * (t * - med) = - med) by (transitivity ((qz 20 * t) * - med); [ring | rewrite T; ring]). qlra.
        -- assert ((1 - r) * (- med) < t * (- med)) by qnra.
           assert (qz 20 * (r * med - med) = qz 20 * ((1 - r) * (- med))) by ring.
           assert (qz 20 * ((1 - r) * - med) < qz 20 * (t * - med)) by qnra.
           assert (qz 20 * (t * - med) = - med) by (transitivity ((qz 20 * t) * - med); [ring | rewrite T; ring]). qlra.
      * intros H.
        assert (B : forall a, qz 20 * (a * - med) < 0 - med -> a < t).
        { intros a A. destruct (Qclt_le_dec a t) as [|C]; [assumption|]. exfalso.
          assert (qz 20 * (t * - med) = - med) by (transitivity ((qz 20 * t) * - med); [ring | rewrite T; ring]).
          assert (t * - med <= a * - med) by qnra. assert (qz 20 * (t * - med) <= qz 20 * (a * - med)) by qnra. qlra. }
        assert (T0 : 0 < t) by qnra.
        destruct (Qclt_le_dec (r * med) med) as [C|C].
        -- assert (E : r - 1 < t) by (apply B; replace (qz 20 * ((r - 1) * - med)) with (qz 20 * (med - r * med)) by ring; exact H).
           split; [exact E|]. assert (1 - r <= 0); [|qlra]. destruct (Qclt_le_dec 0 (1 - r)); [exfalso; assert (0 < (1 - r) * - med) by qnra; qlra | assumption].
        -- assert (E : 1 - r < t) by (apply B; replace (qz 20 * ((1 - r) * - med)) with (qz 20 * (r * med - med)) by ring; exact H).
           split; [|exact E]. assert (r - 1 <= 0); [|qlra]. destruct (Qclt_le_dec 0 (r - 1)); [exfalso; assert (0 < (r - 1) * - med) by qnra; qlra | assumption].
    + assert (M' : 0 < med) by (destruct (Qcle_lt_or_eq _ _ M) as [|E]; [assumption | exfalso; apply N; symmetry; exact E]).
      split.
      * intros [H1 H2]. destruct (Qclt_le_dec (r * med) med).
        -- assert ((1 - r) * med < t * med) by qnra.
           assert (qz 20 * (med - r * med) = qz 20 * ((1 - r) * med)) by ring.
           assert (qz 20 * ((1 - r) * med) < qz 20 * (t * med)) by qnra.
           assert (qz 20 * (t * med) = med) by (transitivity ((qz 20 * t) * med); [ring | rewrite T; ring]). qlra.
        -- assert ((r - 1) * med < t * med) by qnra.
           assert (qz 20 * (r * med - med) = qz 20 * ((r - 1) * med)) by ring.
           assert (qz 20 * ((r - 1) * med) < qz 20 * (t * med)) by qnra.
           assert (qz 20 * (t * med) = med) by (transitivity ((qz 20 * t) * med); [ring | rewrite T; ring]). qlra.
      * intros H.
        assert (B : forall a, qz 20 * (a * med) < med - 0 -> a < t).
        { intros a A. destruct (Qclt_le_dec a t) as [|C]; [assumption|]. exfalso.
          assert (qz 20 * (t * med) = med) by (transitivity ((qz 20 * t) * med); [ring | rewrite T; ring]).
          assert (t * med <= a * med) by qnra. assert (qz 20 * (t * med) <= qz 20 * (a * med)) by qnra. qlra. }
        assert (T0 : 0 < t) by qnra.
        destruct (Qclt_le_dec (r * med) med) as [C|C].
        -- assert (E : 1 - r < t) by (apply B; replace (qz 20 * ((1 - r) * med)) with (qz 20 * (med - r * med)) by ring; exact H).
           split; [|exact E]. assert (r - 1 <= 0); [|qlra]. destruct (Qclt_le_dec 0 (r - 1)); [exfalso; assert (0 < (r - 1) * med) by qnra; qlra | assumption].
        -- assert (E : r - 1 < t) by (apply B; replace (qz 20 * ((r - 1) * med)) with (qz 20 * (r * med - med)) by ring; exact H).
           split; [exact E|]. assert (1 - r <= 0); [|qlra]. destruct (Qclt_le_dec 0 (1 - r)); [exfalso; assert (0 < (1 - r) * med) by qnra; qlra | assumption].
Qed.

Lemma kept_kept {A : Type} (P Q : A -> Prop) l m r : kept P l m -> kept Q m r -> kept (fun x => P x /\ Q x) l r.
Proof.
  intros K. revert r. induction K as [|x l m Px K IH|x l m Px K IH]; intros r R.
  - inversion R; subst. constructor.
  - inversion R; subst; constructor; auto. tauto.
  - constructor; [tauto | auto].
Qed.

Lemma select_marked {A : Type} (d : A) g l good : length g = length l -> marked g good ->
  select g l = map (fun i => nth i l d) good.
Proof.
  intros L M. rewrite (select_nonzero d g l 0 L). fold (nonzero g). rewrite (marked_unique _ _ _ (nonzero_marked g) M).
  apply map_ext. intros i. now rewrite Nat.sub_0_r.
Qed.

Lemma combine_mask (use : list bool) (f : Qc -> bool) vals i : length use = length vals ->
  nth i (map (fun p => fst p && snd p) (combine (map f vals) use)) false = true <->
  nth i use false = true /\ f (nth i vals 0) = true.
Proof.
  revert vals i. induction use as [|b t IH]; intros [|v vals] i L; try discriminate.
  - cbn. destruct i; split; try discriminate; intros [? _]; discriminate.
  - injection L as L. destruct i as [|i]; cbn [map combine nth].
    + cbn [fst snd]. rewrite andb_true_iff. tauto.
    + now apply IH.
Qed.

Lemma auto_mask_none use vals c : marked use [] -> auto_mask use vals c = None.
Proof.
  intros M. unfold auto_mask. rewrite count_nonzero, (marked_unique _ _ _ (nonzero_marked use) M). reflexivity.
Qed.

Lemma auto_mask_ok use vals c good med sel :
  length use = length vals -> (1 <= c)%Z -> marked use good -> good <> [] ->
  is_median (map (fun i => nth i vals 0) good) med ->
  kept (fun i => within_5_percent med (nth i vals 0)) good sel ->
  (sel = [] -> auto_mask use vals c = None) /\
  (sel <> [] -> exists m, auto_mask use vals c = Some m /\ length m = length use /\ marked m (firstn (Z.to_nat c) sel)).
Proof.
  intros L C M G D K. unfold auto_mask.
  rewrite (count_nonzero use), (marked_unique _ _ _ (nonzero_marked use) M).
  destruct (Z.leb_spec (Z.of_nat (length good)) 0) as [Z|Z]; [destruct good; [contradiction | cbn [length] in Z; lia]|].
  rewrite (select_marked 0 use vals good L M).
  destruct (median (map (fun i => nth i vals 0) good)) as [med'|] eqn:E; [|exfalso; revert E; apply median_some; destruct good; [contradiction | discriminate]].
  apply median_ok in E. assert (med' = med) by apply (is_median_unique _ _ _ E D). subst med'.
  set (mask := map (fun p => fst p && snd p) (combine (map (close med) vals) use)).
  assert (Lm : length mask = length use).
  { unfold mask. rewrite map_length, combine_length, map_length. lia. }
  assert (S : nonzero mask = sel).
  { apply (marked_unique mask); [apply nonzero_marked|]. unfold marked. rewrite Lm.
    eapply kept_ext; [|apply (kept_kept _ _ _ _ _ M K)]. intros i _. cbn beta.
    unfold mask. rewrite (combine_mask use (close med) vals i L), close_ok. reflexivity. }
  rewrite count_nonzero, S. destruct (Z.leb_spec (Z.of_nat (length sel)) 0) as [Y|Y].
  - destruct sel; [|cbn [length] in Y; lia]. split; [reflexivity | contradiction].
  - split; [intros ->; cbn in Y; lia|]. intros _.
    destruct (Z.ltb_spec c (Z.of_nat (length sel))) as [X|X].
    + eexists. split; [reflexivity|]. split; [now rewrite map_length, seq_length|].
      rewrite <- S. rewrite <- stop_firstn by (rewrite count_nonzero, S; lia). apply nonzero_marked.
    + exists mask. split; [reflexivity|]. split; [exact Lm|]. rewrite firstn_all2 by lia. rewrite <- S. apply nonzero_marked.
Qed.

(** * The average pulse *)

Lemma sequence_some {A : Type} (l : list A) : sequence (map Some l) = Some l.
Proof. induction l as [|x t IH]; cbn; [reflexivity|]. now rewrite IH. Qed.
Lemma sequence_in {A : Type} (l : list (option A)) : In None l -> sequence l = None.
Proof. induction l as [|x t IH]; cbn; [intros []|]. intros [-> | H]; [reflexivity|]. rewrite (IH H). now destruct x. Qed.

Lemma vmean_average l : l <> [] -> vmean l = Some (average l).
Proof.
  intros N. unfold vmean, average, total. change (qz (Z.of_nat (length l))) with (qn (length l)).
  unfold qdiv. destruct (Qc_eq_dec (qn (length l)) 0) as [C|_]; [|reflexivity]. exfalso. revert C. apply qn_neq.
  destruct l; [contradiction | discriminate].
Qed.
Lemma vmean_empty : vmean [] = None.
Proof. vm_compute. reflexivity. Qed.

Lemma average_shift l c : l <> [] -> average (map (fun x => x - c) l) = average l - c.
Proof.
  intros N. unfold average. rewrite map_length.
  assert (E : qsum (length l) (fun i => nth i (map (fun x => x - c) l) 0) = qsum (length l) (fun i => nth i l 0) - qn (length l) * c).
  { rewrite <- qsum_const, <- qsum_sub. apply qsum_ext. intros i I. now rewrite (nth_map_in (fun x => x - c) l i 0 0). }
  rewrite E. field. apply qn_neq. destruct l; [contradiction | discriminate].
Qed.

Lemma py_upto_map {A B : Type} (f : A -> B) n l : py_upto n (map f l) = map f (py_upto n l).
Proof. unfold py_upto. rewrite map_length. destruct (0 <=? n)%Z; apply firstn_map. Qed.

Lemma average_pulse_ok ns data mask stored nsamp force idx :
  (force = true \/ Forall (fun x => x = 0) stored) -> length mask = length data -> marked mask idx -> idx <> [] ->
  let mean j := average (map (fun i => nth j (nth i data []) 0) idx) in
  let avg := map mean (seq 0 ns) in
  compute_average_pulse ns data mask stored nsamp false force = Some avg /\
  (py_upto nsamp avg <> [] ->
   let base := average (py_upto nsamp avg) in
   exists r, compute_average_pulse ns data mask stored nsamp true force = Some r /\ length r = ns /\
     (forall j, (j < ns)%nat -> nth j r 0 = mean j - base) /\ average (py_upto nsamp r) = 0).
Proof.
  intros F L M N mean avg. unfold compute_average_pulse.
  assert (S : existsb (fun x => negb (Qc_eq_bool x 0)) stored && negb force = false).
  { destruct F as [-> | F]; [apply andb_false_r|]. apply andb_false_iff. left.
    destruct (existsb _ stored) eqn:E; [|reflexivity]. apply existsb_exists in E. destruct E as [x [X E]].
    rewrite Forall_forall in F. rewrite (F x X) in E. discriminate E. }
  rewrite S, L, Nat.eqb_refl. cbn [negb].
  assert (A : sequence (map (fun j => vmean (map (fun r => nth j r 0) (select mask data))) (seq 0 ns)) = Some avg).
  { unfold avg. rewrite <- sequence_some, map_map. f_equal. apply map_ext. intros j.
    rewrite (select_marked [] mask data idx L M), map_map. apply vmean_average. destruct idx; [contradiction | discriminate]. }
  rewrite A. split; [reflexivity|]. intros Ne. set (base := average (py_upto nsamp avg)).
  rewrite vmean_average by exact Ne. fold base. eexists. split; [reflexivity|].
  assert (La : length avg = ns) by (unfold avg; now rewrite map_length, seq_length).
  split; [now rewrite map_length|]. split.
  - intros j J. rewrite (nth_map_in (fun x => x - base) avg j 0 0) by lia. unfold avg.
    rewrite (nth_map_in mean (seq 0 ns) j 0%nat 0) by now rewrite seq_length. now rewrite seq_nth by lia.
  - rewrite py_upto_map, average_shift by exact Ne. unfold base. ring.
Qed.

Lemma average_pulse_kept ns data mask stored nsamp sub : Exists (fun x => x <> 0) stored ->
  compute_average_pulse ns data mask stored nsamp sub false = Some stored.
Proof.
  intros H. unfold compute_average_pulse. replace (existsb _ stored) with true; [reflexivity|].
  symmetry. apply existsb_exists. apply Exists_exists in H. destruct H as [x [X N]]. exists x. split; [exact X|].
  apply negb_true_iff. destruct (Qc_eq_bool x 0) eqn:E; [|reflexivity]. apply Qc_eq_bool_correct in E. contradiction.
Qed.

Lemma average_pulse_empty ns data mask stored nsamp sub : (0 < ns)%nat -> marked mask [] ->
  length mask = length data -> compute_average_pulse ns data mask stored nsamp sub true = None.
Proof.
  intros P M L. unfold compute_average_pulse. rewrite andb_false_r, L, Nat.eqb_refl. cbn [negb].
  rewrite (select_marked [] mask data [] L M). cbn [map]. rewrite sequence_in; [reflexivity|].
  apply in_map_iff. exists 0%nat. split; [apply vmean_empty | apply in_seq; lia].
Qed.
