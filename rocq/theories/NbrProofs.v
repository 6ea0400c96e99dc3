From Coq Require Import ZArith Lia Bool Sorted String List.
From Verif Require Import NbrModel NbrSpec.
Import ListNotations.
Open Scope Z_scope.

(* ---- the table ---- *)
Lemma table_rectangular : forall m, table m = true <-> rectangular m (columns m).
Proof.
  intros m. unfold table, rectangular. rewrite !andb_true_iff, !Nat.leb_le, forallb_forall. split.
  - intros [[A B] C]. repeat split; auto. intros r Hr. apply Nat.eqb_eq, C, Hr.
  - intros (A & B & C). repeat split; auto. intros r Hr. apply Nat.eqb_eq, C, Hr.
Qed.
Lemma rectangular_columns : forall m k, rectangular m k -> columns m = k.
Proof.
  intros m k (A & B & C). destruct m as [|r m]; [simpl in A; lia|]. simpl. apply C. now left.
Qed.

Lemma position_of_spec : forall m c p, position_of m c = Some p <-> stands_at m c p.
Proof.
  unfold stands_at. induction m as [|[c' q] m IH]; intros c p; simpl.
  - split; [discriminate|]. intros (b & a & E & _). destruct b; discriminate.
  - destruct (Z.eqb_spec c' c).
    + subst. split.
      * intros H. injection H as ->. exists [], m. now split.
      * intros (b & a & E & N). destruct b as [|[c1 q1] b]; simpl in E.
        -- injection E as -> _. reflexivity.
        -- injection E as -> -> ->. exfalso. apply N. now left.
    + rewrite IH. split.
      * intros (b & a & -> & N). exists ((c', q) :: b), a. split; [reflexivity|]. simpl. intros [?|?]; [now apply n|auto].
      * intros (b & a & E & N). destruct b as [|[c1 q1] b]; simpl in E.
        -- injection E as -> _ _. now contradiction n.
        -- injection E as -> -> ->. exists b, a. split; [reflexivity|]. intros X. apply N. now right.
Qed.
Lemma position_of_in : forall m c p, position_of m c = Some p -> In (c, p) m.
Proof. intros m c p H. apply position_of_spec in H. destruct H as (b & a & -> & _). apply in_or_app. right. now left. Qed.
Lemma position_of_some : forall m c, In c (map fst m) <-> exists p, position_of m c = Some p.
Proof.
  induction m as [|[c' q] m IH]; intros c; simpl; [split; [tauto|intros [? ?]; discriminate]|].
  destruct (Z.eqb_spec c' c).
  - split; [intros _; now exists q|intros _; now left].
  - rewrite <- IH. split; [intros [?|?]; [congruence|auto]|auto].
Qed.

(* ---- distances ---- *)
Lemma squared_distance_spec : forall p q, squared_distance p q = distance2 p q.
Proof.
  induction p as [|x p IH]; intros [|y q]; try reflexivity.
  simpl. rewrite IH. unfold distance2, total. simpl. destruct (x - y); lia || reflexivity.
Qed.
Lemma distance2_sym : forall p q, distance2 p q = distance2 q p.
Proof.
  induction p as [|x p IH]; intros [|y q]; try reflexivity.
  specialize (IH q). unfold distance2, total in *. simpl. rewrite IH. ring.
Qed.
Lemma distance2_nonneg : forall p q, 0 <= distance2 p q.
Proof.
  induction p as [|x p IH]; intros [|y q]; try (unfold distance2, total; simpl; lia).
  specialize (IH q). unfold distance2, total in *. simpl. pose proof (Z.square_nonneg (x - y)). lia.
Qed.
Lemma distance2_zero : forall p q, List.length p = List.length q -> (distance2 p q = 0 <-> p = q).
Proof.
  induction p as [|x p IH]; intros [|y q] L; try discriminate; [split; reflexivity|].
  injection L as L. pose proof (distance2_nonneg p q) as N. specialize (IH q L).
  unfold distance2, total in *. simpl. split.
  - intros E. pose proof (Z.square_nonneg (x - y)) as Q. f_equal; [|apply IH; lia].
    assert (Z0 : (x - y) * (x - y) = 0) by lia. apply Z.mul_eq_0 in Z0. lia.
  - intros E. injection E as -> ->. rewrite Z.sub_diag. simpl. now apply IH.
Qed.

(* ---- the sides of the box ---- *)
Lemma zip_length : forall f a b, List.length a = List.length b -> List.length (zip_with f a b) = List.length a.
Proof. intros f. induction a as [|x a IH]; intros [|y b] L; simpl in *; try discriminate; auto. Qed.
Lemma zip_nth : forall f a b i, List.length a = List.length b -> (i < List.length a)%nat ->
  nth i (zip_with f a b) 0 = f (nth i a 0) (nth i b 0).
Proof.
  intros f. induction a as [|x a IH]; intros [|y b] i L H; simpl in *; try discriminate; try lia.
  destruct i; [reflexivity|]. apply IH; lia.
Qed.

Section Extreme.
  Variable f : Z -> Z -> Z.
  Variable R : Z -> Z -> Prop.
  Hypothesis Rrefl : forall x, R x x.
  Hypothesis Rtrans : forall x y z, R x y -> R y z -> R x z.
  Hypothesis fl : forall x y, R x (f x y).
  Hypothesis fr : forall x y, R y (f x y).
  Hypothesis fc : forall x y, f x y = x \/ f x y = y.

  Lemma fold_rows_spec : forall k m acc, List.length acc = k -> (forall r, In r m -> List.length (snd r) = k) ->
    List.length (fold_rows f acc m) = k /\
    forall i, (i < k)%nat ->
      R (nth i acc 0) (nth i (fold_rows f acc m) 0) /\
      (forall r, In r m -> R (nth i (snd r) 0) (nth i (fold_rows f acc m) 0)) /\
      (nth i (fold_rows f acc m) 0 = nth i acc 0 \/ exists r, In r m /\ nth i (fold_rows f acc m) 0 = nth i (snd r) 0).
  Proof.
    intros k m. induction m as [|r m IH]; intros acc L A.
    - simpl. split; [exact L|]. intros i Hi. repeat split; auto. intros r [].
    - assert (Lr : List.length (snd r) = k) by (apply A; now left).
      assert (Lz : List.length (zip_with f acc (snd r)) = k) by (rewrite zip_length; congruence).
      destruct (IH _ Lz (fun r0 H => A r0 (or_intror H))) as [L' N]. simpl. split; [exact L'|].
      intros i Hi. destruct (N i Hi) as (N1 & N2 & N3). rewrite zip_nth in N1, N3 by lia.
      repeat split.
      + eapply Rtrans; [apply fl|exact N1].
      + intros r0 [<- | H0]; [|apply N2, H0]. eapply Rtrans; [apply fr|exact N1].
      + destruct N3 as [E | (r0 & H0 & E)]; [|right; exists r0; split; [now right|exact E]].
        destruct (fc (nth i acc 0) (nth i (snd r) 0)) as [C | C]; rewrite C in E; [now left|].
        right. exists r. split; [now left|exact E].
  Qed.

  Lemma extreme_spec : forall k m, m <> [] -> (forall r, In r m -> List.length (snd r) = k) ->
    List.length (extreme f m) = k /\
    forall i, (i < k)%nat ->
      (forall r, In r m -> R (nth i (snd r) 0) (nth i (extreme f m) 0)) /\
      exists r, In r m /\ nth i (extreme f m) 0 = nth i (snd r) 0.
  Proof.
    intros k [|r m] NE A; [congruence|]. simpl.
    destruct (fold_rows_spec k m (snd r) (A r (or_introl eq_refl)) (fun r0 H => A r0 (or_intror H))) as [L N].
    split; [exact L|]. intros i Hi. destruct (N i Hi) as (N1 & N2 & N3). split.
    - intros r0 [<- | H0]; auto.
    - destruct N3 as [E | (r0 & H0 & E)]; [exists r; split; [now left|exact E]|exists r0; split; [now right|exact E]].
  Qed.
End Extreme.

Lemma max_distances_spec : forall k m, rectangular m k ->
  List.length (max_distances m) = k /\
  forall i, (i < k)%nat ->
    (forall r1 r2, In r1 m -> In r2 m -> nth i (snd r1) 0 - nth i (snd r2) 0 <= nth i (max_distances m) 0) /\
    exists r1 r2, In r1 m /\ In r2 m /\ nth i (max_distances m) 0 = nth i (snd r1) 0 - nth i (snd r2) 0.
Proof.
  intros k m (A & B & C).
  assert (NE : m <> []) by (destruct m; [simpl in A; lia|discriminate]).
  destruct (extreme_spec Z.max Z.le Z.le_refl Z.le_trans Z.le_max_l Z.le_max_r ltac:(intros; lia) k m NE C) as [L1 N1].
  destruct (extreme_spec Z.min (fun x y => y <= x) Z.le_refl (fun x y z a b => Z.le_trans z y x b a) Z.le_min_l Z.le_min_r ltac:(intros; lia) k m NE C) as [L2 N2].
  unfold max_distances. split; [rewrite zip_length; congruence|].
  intros i Hi. rewrite zip_nth by lia. destruct (N1 i Hi) as [U1 (r1 & I1 & E1)]. destruct (N2 i Hi) as [U2 (r2 & I2 & E2)].
  split.
  - intros a b Ha Hb. pose proof (U1 a Ha). pose proof (U2 b Hb). simpl in *. lia.
  - exists r1, r2. repeat split; auto. lia.
Qed.

(* ---- the squared distances of the box ---- *)
Lemma squares_spec : forall d x, In x (squares d) <-> exists k, 0 <= k <= d /\ x = k * k.
Proof.
  intros d x. unfold squares. rewrite in_map_iff. split.
  - intros (i & <- & H). apply in_seq in H. exists (Z.of_nat i). split; [lia|ring].
  - intros (k & Hk & ->). exists (Z.to_nat k). split; [rewrite Z2Nat.id by lia; ring|]. apply in_seq. lia.
Qed.
Lemma combinations_spec : forall ds x, In x (combinations (map squares ds)) <->
  exists ks, Forall2 (fun k d => 0 <= k <= d) ks ds /\ x = total (map (fun a => a * a) ks).
Proof.
  induction ds as [|d ds IH]; intros x.
  - simpl. split.
    + intros [<- | []]. exists []. split; [constructor|reflexivity].
    + intros (ks & F & ->). inversion F; subst. now left.
  - cbn [map combinations]. rewrite in_flat_map. split.
    + intros (s & Hs & H). apply squares_spec in Hs. destruct Hs as (k & Hk & ->).
      apply in_map_iff in H. destruct H as (y & <- & Hy). apply IH in Hy. destruct Hy as (ks & F & ->).
      exists (k :: ks). split; [now constructor|reflexivity].
    + intros (ks & F & ->). inversion F; subst. exists (x * x). split; [apply squares_spec; eauto|].
      apply in_map_iff. eexists. split; [reflexivity|]. apply IH. eauto.
Qed.
Lemma forall2_nth : forall (P : Z -> Z -> Prop) a b, List.length a = List.length b ->
  (forall i, (i < List.length a)%nat -> P (nth i a 0) (nth i b 0)) -> Forall2 P a b.
Proof.
  intros P. induction a as [|x a IH]; intros [|y b] L H; try discriminate; constructor.
  - apply (H 0%nat). simpl. lia.
  - apply IH; [now injection L|]. intros i Hi. apply (H (Datatypes.S i)). simpl. lia.
Qed.
Lemma nth_forall2 : forall (P : Z -> Z -> Prop) a b, Forall2 P a b -> forall i, (i < List.length a)%nat -> P (nth i a 0) (nth i b 0).
Proof.
  intros P a b F. induction F; intros i Hi; simpl in *; [lia|]. destruct i; [assumption|]. apply IHF. lia.
Qed.
Lemma forall2_length : forall {A B : Type} (P : A -> B -> Prop) a b, Forall2 P a b -> List.length a = List.length b.
Proof. induction 1; simpl; auto. Qed.
Lemma dictionary_spec : forall k m, rectangular m k -> forall x,
  In x (combinations (map squares (max_distances m))) <-> possible m k x.
Proof.
  intros k m Hm x. destruct (max_distances_spec k m Hm) as [L N]. rewrite combinations_spec. unfold possible, fits. split.
  - intros (ks & F & ->). pose proof (forall2_length _ _ _ F) as LF. exists ks. split; [|reflexivity]. split; [congruence|].
    intros i Hi. pose proof (nth_forall2 _ _ _ F i ltac:(lia)) as X. simpl in X. split; [lia|].
    destruct (N i Hi) as [_ (r1 & r2 & I1 & I2 & E)]. exists r1, r2. repeat split; auto. lia.
  - intros (ks & [Lk H] & ->). exists ks. split; [|reflexivity]. apply forall2_nth; [congruence|].
    intros i Hi. destruct (H i ltac:(lia)) as [P0 (r1 & r2 & I1 & I2 & E)].
    destruct (N i ltac:(lia)) as [U _]. pose proof (U r1 r2 I1 I2). simpl. lia.
Qed.

(* the distance between two places of the map is one of them *)
Lemma distance_possible : forall k m r1 r2, rectangular m k -> In r1 m -> In r2 m -> possible m k (distance2 (snd r1) (snd r2)).
Proof.
  intros k m r1 r2 (A & B & C) I1 I2.
  exists (map (fun xy => Z.abs (fst xy - snd xy)) (combine (snd r1) (snd r2))). split.
  - assert (LC : List.length (combine (snd r1) (snd r2)) = k) by (rewrite combine_length, (C r1 I1), (C r2 I2); lia).
    split; [rewrite map_length; exact LC|]. intros i Hi.
    assert (E : nth i (map (fun xy => Z.abs (fst xy - snd xy)) (combine (snd r1) (snd r2))) 0
                = Z.abs (nth i (snd r1) 0 - nth i (snd r2) 0)).
    { etransitivity; [exact (map_nth (fun xy => Z.abs (fst xy - snd xy)) (combine (snd r1) (snd r2)) (0, 0) i)|].
      rewrite combine_nth by (rewrite (C r1 I1), (C r2 I2); reflexivity). reflexivity. }
    rewrite E. simpl. split; [lia|].
    destruct (Z.le_ge_cases (nth i (snd r1) 0) (nth i (snd r2) 0)); [exists r2, r1|exists r1, r2]; repeat split; auto; lia.
  - unfold distance2. rewrite map_map. f_equal. apply map_ext. intros [a b]. simpl. lia.
Qed.

(* ---- the place in the dictionary ---- *)
Lemma insert_in : forall l x y, In y (insert_unique x l) <-> y = x \/ In y l.
Proof.
  induction l as [|a l IH]; intros x y; simpl; [intuition|].
  destruct (x <? a); [simpl; intuition|]. destruct (Z.eqb_spec x a).
  - subst. simpl. intuition.
  - simpl. rewrite IH. intuition.
Qed.
Lemma insert_sorted : forall l x, StronglySorted Z.lt l -> StronglySorted Z.lt (insert_unique x l).
Proof.
  induction l as [|a l IH]; intros x H; simpl; [repeat constructor|].
  inversion H; subst. destruct (Z.ltb_spec x a).
  - constructor; [exact H|]. constructor; [assumption|]. eapply Forall_impl; [|exact H3]. simpl. intros. lia.
  - destruct (Z.eqb_spec x a); [exact H|]. constructor; [apply IH; assumption|].
    rewrite Forall_forall in *. intros y Hy. apply insert_in in Hy. destruct Hy as [-> | Hy]; [lia|auto].
Qed.
Lemma unique_in : forall l x, In x (unique l) <-> In x l.
Proof. induction l as [|a l IH]; intros x; simpl; [tauto|]. rewrite insert_in, IH. intuition. Qed.
Lemma unique_sorted : forall l, StronglySorted Z.lt (unique l).
Proof. induction l as [|a l IH]; simpl; [constructor|]. apply insert_sorted, IH. Qed.
Lemma sorted_nodup : forall l, StronglySorted Z.lt l -> NoDup l.
Proof.
  induction 1; constructor; auto. intros X. rewrite Forall_forall in H0. specialize (H0 _ X). lia.
Qed.
Lemma lookup_spec : forall l n d, StronglySorted Z.lt l -> In d l ->
  exists b, lookup l n d = Some (n + Z.of_nat (List.length b)) /\ NoDup b /\ forall x, In x b <-> In x l /\ x < d.
Proof.
  induction l as [|a l IH]; intros n d H Hd; [contradiction|]. inversion H; subst. rewrite Forall_forall in H3. simpl.
  destruct (Z.eqb_spec a d).
  - subst. exists []. simpl. split; [f_equal; lia|]. split; [constructor|]. intros x. split; [contradiction|].
    intros [[-> | X] Y]; [lia|]. specialize (H3 _ X). lia.
  - destruct Hd as [? | Hd]; [contradiction|]. destruct (IH (n + 1) d H2 Hd) as (b & E & ND & Hb).
    exists (a :: b). split; [rewrite E; f_equal; cbn [List.length]; lia|]. split.
    + constructor; [|exact ND]. intros X. apply Hb in X. specialize (H3 _ (proj1 X)). lia.
    + intros x. simpl. rewrite Hb. specialize (H3 _ Hd). split; [intros [-> | X]; tauto|tauto].
Qed.

Lemma place_unique : forall m k d n n', place m k d n -> place m k d n' -> n = n'.
Proof.
  intros m k d n n' (l & N & <- & H) (l' & N' & <- & H'). f_equal. apply Nat.le_antisymm.
  - apply NoDup_incl_length; [exact N|]. intros x X. apply H', H, X.
  - apply NoDup_incl_length; [exact N'|]. intros x X. apply H, H', X.
Qed.
Lemma place_order : forall m k d d' n n', possible m k d -> place m k d n -> place m k d' n' -> d < d' -> n < n'.
Proof.
  intros m k d d' n n' P (l & N & <- & H) (l' & N' & <- & H') Hd.
  assert (X : (List.length (d :: l) <= List.length l')%nat); [|simpl in X; lia].
  apply NoDup_incl_length.
  - constructor; [|exact N]. intros X. apply H in X. lia.
  - intros x [<- | X]; apply H'; [tauto|]. apply H in X. split; [tauto|lia].
Qed.
Lemma dictionary_place : forall k m d, rectangular m k -> possible m k d ->
  exists n, lookup (unique (combinations (map squares (max_distances m)))) 0 d = Some n /\ place m k d n.
Proof.
  intros k m d Hm Hd.
  destruct (lookup_spec (unique (combinations (map squares (max_distances m)))) 0 d (unique_sorted _)) as (b & E & ND & Hb).
  { apply unique_in, (dictionary_spec k); assumption. }
  eexists. split; [exact E|]. exists b. repeat split; auto.
  - destruct (proj1 (Hb x) H) as [X _]. rewrite unique_in in X. apply (dictionary_spec k) in X; assumption.
  - now destruct (proj1 (Hb x) H).
  - intros [X Y]. apply Hb. split; [|exact Y]. apply unique_in, (dictionary_spec k); assumption.
Qed.

(* ---- the list ---- *)
Lemma neighbor_rows_spec : forall k m c0 here, rectangular m k -> In (c0, here) m -> forall rows, incl rows m ->
  exists l, neighbor_rows m (unique (combinations (map squares (max_distances m)))) here rows = Some l /\
            Forall2 (row_right m k here) rows l.
Proof.
  intros k m c0 here Hm Hh. induction rows as [|[c q] rows IH]; intros I; simpl.
  - exists []. split; [reflexivity|constructor].
  - destruct (proj1 (position_of_some m c)) as [p Hp].
    { change c with (fst (c, q)). apply in_map, I. now left. }
    rewrite Hp. destruct (IH (fun x X => I x (or_intror X))) as (l & El & F). rewrite El, squared_distance_spec.
    destruct (dictionary_place k m (distance2 here p) Hm) as (n & En & Pn).
    { apply (distance_possible k m (c0, here) (c, p)); auto. now apply position_of_in. }
    rewrite En. eexists. split; [reflexivity|]. constructor; [|exact F].
    exists p, (distance2 here p), n. repeat split; auto. now apply position_of_spec.
Qed.
Lemma neighbor_list_spec : forall k m c0 here, rectangular m k -> In (c0, here) m ->
  exists l, neighbor_list m here = Some l /\ Forall2 (row_right m k here) m l.
Proof. intros k m c0 here Hm Hh. apply (neighbor_rows_spec k m c0 here Hm Hh m). apply incl_refl. Qed.

(* ---- moving ---- *)
Lemma zip_move : forall f t, (forall x y z, f (x + z) (y + z) = f x y + z) -> forall a b,
  List.length a = List.length t -> List.length b = List.length t ->
  zip_with f (zip_with Z.add a t) (zip_with Z.add b t) = zip_with Z.add (zip_with f a b) t.
Proof.
  intros f t H. induction t as [|z t IH]; intros [|x a] [|y b] L1 L2; try discriminate; [reflexivity|].
  simpl in *. rewrite H, IH by lia. reflexivity.
Qed.
Lemma moved_add : forall t p, map (fun xy => fst xy + snd xy) (combine p t) = zip_with Z.add p t.
Proof. intros t p. revert t. induction p as [|x p IH]; intros [|z t]; try reflexivity. simpl. now rewrite IH. Qed.
Lemma fold_rows_move : forall f t, (forall x y z, f (x + z) (y + z) = f x y + z) -> forall m acc,
  List.length acc = List.length t -> (forall r, In r m -> List.length (snd r) = List.length t) ->
  fold_rows f (zip_with Z.add acc t) (moved t m) = zip_with Z.add (fold_rows f acc m) t /\ List.length (fold_rows f acc m) = List.length t.
Proof.
  intros f t H. induction m as [|r m IH]; intros acc L A; [now split|].
  cbn [moved map fold_rows snd]. rewrite moved_add, zip_move; auto; [|apply A; now left].
  apply IH; [|intros r0 H0; apply A; now right]. rewrite zip_length; [exact L|]. rewrite L. symmetry. apply A. now left.
Qed.
Lemma extreme_move : forall f t m, (forall x y z, f (x + z) (y + z) = f x y + z) -> m <> [] ->
  (forall r, In r m -> List.length (snd r) = List.length t) ->
  extreme f (moved t m) = zip_with Z.add (extreme f m) t /\ List.length (extreme f m) = List.length t.
Proof.
  intros f t [|r m] H NE A; [congruence|]. cbn [moved map extreme snd]. rewrite moved_add.
  apply fold_rows_move; auto; [apply A; now left|intros r0 H0; apply A; now right].
Qed.
Lemma zip_sub_move : forall t a b, List.length a = List.length t -> List.length b = List.length t ->
  zip_with Z.sub (zip_with Z.add a t) (zip_with Z.add b t) = zip_with Z.sub a b.
Proof.
  induction t as [|z t IH]; intros [|x a] [|y b] L1 L2; try discriminate; [reflexivity|].
  simpl in *. rewrite IH by lia. f_equal. lia.
Qed.
Lemma max_distances_move : forall t m, m <> [] -> (forall r, In r m -> List.length (snd r) = List.length t) ->
  max_distances (moved t m) = max_distances m.
Proof.
  intros t m NE A. unfold max_distances.
  destruct (extreme_move Z.max t m ltac:(intros; lia) NE A) as [E1 L1].
  destruct (extreme_move Z.min t m ltac:(intros; lia) NE A) as [E2 L2].
  rewrite E1, E2. now apply zip_sub_move.
Qed.
Lemma squared_distance_move : forall t a b, List.length a = List.length t -> List.length b = List.length t ->
  squared_distance (zip_with Z.add a t) (zip_with Z.add b t) = squared_distance a b.
Proof.
  induction t as [|z t IH]; intros [|x a] [|y b] L1 L2; try discriminate; [reflexivity|].
  cbn [zip_with squared_distance List.length] in *. rewrite IH by lia. f_equal. f_equal. lia.
Qed.
Lemma position_move : forall t m c, position_of (moved t m) c = option_map (fun p => zip_with Z.add p t) (position_of m c).
Proof.
  intros t. induction m as [|[c' q] m IH]; intros c; [reflexivity|].
  cbn [moved map position_of fst snd]. rewrite moved_add. destruct (c' =? c); [reflexivity|apply IH].
Qed.
Lemma rows_move : forall t m dict here, List.length here = List.length t ->
  (forall r, In r m -> List.length (snd r) = List.length t) -> forall rows,
  neighbor_rows (moved t m) dict (zip_with Z.add here t) (moved t rows) = neighbor_rows m dict here rows.
Proof.
  intros t m dict here L A. induction rows as [|[c q] rows IH]; [reflexivity|].
  cbn [moved map neighbor_rows fst snd]. rewrite position_move. destruct (position_of m c) as [p|] eqn:E; [|reflexivity].
  cbn [option_map]. rewrite squared_distance_move; auto.
  - change (map (fun r : Z * list Z => (fst r, map (fun xy : Z * Z => fst xy + snd xy) (combine (snd r) t))) rows) with (moved t rows).
    now rewrite IH.
  - apply position_of_in in E. apply (A (c, p) E).
Qed.
