(** Shorth and high median. *)
From Coq Require Import ZArith QArith Qcanon List Bool Lia Permutation.
From Verif Require Import QcPre LagModel FluxProofs QSort RobModel RobSpec.
Import ListNotations.
Local Open Scope Qc_scope.

Lemma half_half : qz 1 / qz 2 + qz 1 / qz 2 = 1.
Proof. apply Qc_is_canon. vm_compute. reflexivity. Qed.

Lemma argmin_from_ok l : forall i best b,
  let r := argmin_from i best b l in
  (r = best /\ forall a, In a l -> b <= a) \/
  (exists k, r = (i + k)%nat /\ (k < length l)%nat /\ nth k l 0 < b /\ forall a, In a l -> nth k l 0 <= a).
Proof.
  induction l as [|a t IH]; intros i best b; cbn; [left; split; [reflexivity|intros ? []]|].
  destruct (qltb a b) eqn:E.
  - apply qltb_lt in E. right. destruct (IH (S i) i a) as [[-> H] | [k [-> [Hk [H1 H2]]]]].
    + exists O. split; [lia|]. split; [lia|]. split; [exact E|]. intros c [<- | Hc]; [apply Qcle_refl|auto].
    + exists (S k). split; [lia|]. split; [lia|]. cbn. split; [qlra|]. intros c [<- | Hc]; [qlra|auto].
  - apply qltb_ge in E. destruct (IH (S i) best b) as [[-> H] | [k [-> [Hk [H1 H2]]]]].
    + left. split; [reflexivity|]. intros c [<- | Hc]; auto.
    + right. exists (S k). split; [lia|]. split; [lia|]. cbn. split; [exact H1|]. intros c [<- | Hc]; [qlra|auto].
Qed.
Lemma argmin_ok l m : argmin l = Some m -> (m < length l)%nat /\ forall i, (i < length l)%nat -> nth m l 0 <= nth i l 0.
Proof.
  destruct l as [|a t]; cbn; [discriminate|]. intros [= <-].
  destruct (argmin_from_ok t 1 0 a) as [[-> H] | [k [-> [Hk [H1 H2]]]]].
  - split; [lia|]. intros [|i] Hi; [apply Qcle_refl|]. apply H, nth_In. lia.
  - split; [lia|]. intros [|i] Hi; cbn.
    + qlra.
    + apply H2, nth_In. lia.
Qed.
Lemma argmin_none l : argmin l = None <-> l = [].
Proof. destruct l; cbn; split; congruence. Qed.

(** In a sorted list a downward closed test holds for the first elements only. *)
Lemma sorted_count f l : (forall a b, a <= b -> f b = true -> f a = true) -> qsorted l ->
  forall i, (i < length l)%nat -> (f (nth i l 0) = true <-> (i < qcount f l)%nat).
Proof.
  intros Hf. induction l as [|a t IH]; intros Hs i Hi; [cbn in Hi; lia|]. destruct Hs as [Ha Ht].
  rewrite qcount_cons. destruct (f a) eqn:E.
  - destruct i as [|i]; cbn; [rewrite E; split; [lia|reflexivity]|]. cbn in Hi. rewrite (IH Ht i) by lia. lia.
  - rewrite qcount_none.
    + split; [|lia]. intros H. exfalso. destruct i as [|i]; cbn in H; [congruence|].
      assert (f a = true); [|congruence]. apply (Hf a (nth i t 0)); [|exact H]. apply Ha, nth_In. cbn in Hi. lia.
    + intros b Hb. destruct (f b) eqn:Eb; [|reflexivity]. rewrite (Hf a b (Ha b Hb) Eb) in E. discriminate.
Qed.
Lemma lt_closed v a b : a <= b -> qltb b v = true -> qltb a v = true.
Proof. rewrite !qltb_lt. intros. qlra. Qed.
Lemma le_closed v a b : a <= b -> qleb b v = true -> qleb a v = true.
Proof. rewrite !qleb_le. intros. qlra. Qed.

Lemma points_split a b l : a <= b ->
  (points_in a b l + qcount (fun v => qltb v a) l)%nat = qcount (fun v => qleb v b) l.
Proof.
  intros H. unfold points_in. induction l as [|c t IH]; [reflexivity|]. rewrite !qcount_cons.
  destruct (qleb a c) eqn:E1, (qleb c b) eqn:E2, (qltb c a) eqn:E3; cbn [andb]; try lia;
    try apply qleb_le in E1; try apply qleb_gt in E1; try apply qleb_le in E2; try apply qleb_gt in E2;
    try apply qltb_lt in E3; try apply qltb_ge in E3; exfalso; qlra.
Qed.
Lemma points_in_perm a b l l' : Permutation l l' -> points_in a b l = points_in a b l'.
Proof. apply qcount_perm. Qed.

  Lemma nth_skipn (l : list Qc) k i : nth i (skipn k l) 0 = nth (k + i) l 0.
  Proof.
    revert l. induction k as [|k IH]; intros l; [reflexivity|]. destruct l; cbn; [destruct i; reflexivity|apply IH].
  Qed.
  Lemma nth_firstn (l : list Qc) k i : (i < k)%nat -> nth i (firstn k l) 0 = nth i l 0.
  Proof.
    revert l i. induction k as [|k IH]; intros l i H; [lia|]. destruct l; [reflexivity|]. destruct i; [reflexivity|].
    cbn. apply IH. lia.
  Qed.

Section Shorth.
  Variable x : list Qc.
  Let s := qsort x.
  Let n := length x.
  Let each := map (fun p => fst p - snd p) (combine (skipn (n - Nat.div (n + 1) 2) s) (firstn (Nat.div (n + 1) 2) s)).
  Let len : length s = n. Proof. apply qsort_length. Qed.
  Lemma half_split : (n - Nat.div (n + 1) 2)%nat = Nat.div n 2 /\ (Nat.div (n + 1) 2 + Nat.div n 2)%nat = n.
  Proof.
    pose proof (Nat.div_mod (n + 1) 2 ltac:(lia)). pose proof (Nat.div_mod n 2 ltac:(lia)).
    pose proof (Nat.mod_upper_bound (n + 1) 2 ltac:(lia)). pose proof (Nat.mod_upper_bound n 2 ltac:(lia)). lia.
  Qed.
  Lemma each_length : length each = Nat.div (n + 1) 2.
  Proof.
    destruct half_split as [H1 H2]. unfold each. rewrite map_length, combine_length, skipn_length, firstn_length, len. lia.
  Qed.
  Lemma each_nth i : (i < Nat.div (n + 1) 2)%nat -> nth i each 0 = nth (i + Nat.div n 2) s 0 - nth i s 0.
  Proof.
    intros Hi. destruct half_split as [H1 H2]. unfold each.
    rewrite nth_indep with (d' := (fun p : Qc * Qc => fst p - snd p) (0, 0)) by (rewrite map_length, combine_length, skipn_length, firstn_length, len; lia).
    rewrite (map_nth (fun p : Qc * Qc => fst p - snd p) _ (0, 0)), combine_nth by (rewrite skipn_length, firstn_length, len; lia). cbn [fst snd].
    rewrite nth_skipn, nth_firstn by exact Hi. f_equal. f_equal. lia.
  Qed.

  Lemma shorth_shortest m : argmin each = Some m ->
    shortest_interval (more_than_half n) x (nth m s 0) (nth (m + Nat.div n 2) s 0) /\ (m + Nat.div n 2 < n)%nat.
  Proof.
    intros Hm. apply argmin_ok in Hm. destruct Hm as [Hm Hmin]. rewrite each_length in *. destruct half_split as [H1 H2].
    set (h := Nat.div n 2) in *.
    assert (Hs : qsorted s) by apply qsort_sorted.
    pose proof (Nat.div_mod n 2 ltac:(lia)) as Hd. pose proof (Nat.mod_upper_bound n 2 ltac:(lia)) as Hu. fold h in Hd.
    split; [|lia].
    assert (Hab : nth m s 0 <= nth (m + h) s 0) by (apply qsorted_nth; [exact Hs|rewrite len; lia]).
    split; [apply qsort_in, nth_In; fold s; rewrite len; lia|]. split; [apply qsort_in, nth_In; fold s; rewrite len; lia|].
    split; [exact Hab|]. split.
    - unfold more_than_half. rewrite (points_in_perm _ _ x s (qsort_perm x)).
      pose proof (points_split _ _ s Hab) as P.
      assert (m + h < qcount (fun v => qleb v (nth (m + h) s 0%Qc)) s)%nat.
      { apply (sorted_count (fun v => qleb v (nth (m + h) s 0)) s); [apply le_closed|exact Hs|rewrite len; lia|]. apply qleb_le, Qcle_refl. }
      assert (qcount (fun v => qltb v (nth m s 0%Qc)) s <= m)%nat.
      { destruct (Nat.le_gt_cases (qcount (fun v => qltb v (nth m s 0%Qc)) s) m) as [C | C]; [exact C|]. exfalso.
        apply (sorted_count (fun v => qltb v (nth m s 0)) s) in C; [|apply lt_closed|exact Hs|rewrite len; lia].
        apply qltb_lt in C. qlra. }
      lia.
    - intros a' b' Ha Hb Hab' He. unfold more_than_half in He. rewrite (points_in_perm _ _ x s (qsort_perm x)) in He.
      pose proof (points_split _ _ s Hab') as P.
      set (p := qcount (fun v => qltb v a') s) in *. set (q := qcount (fun v => qleb v b') s) in *.
      assert (q <= n)%nat by (rewrite <- len; apply qcount_le).
      assert (Hpq : (p + h < q)%nat) by lia.
      assert (L1 : a' <= nth p s 0).
      { destruct (qltb (nth p s 0) a') eqn:E; [|apply qltb_ge; exact E].
        apply (sorted_count (fun v => qltb v a') s) in E; [|apply lt_closed|exact Hs|rewrite len; lia]. unfold p in E. lia. }
      assert (L2 : nth (p + h) s 0 <= b').
      { apply qleb_le. apply (sorted_count (fun v => qleb v b') s); [apply le_closed|exact Hs|rewrite len; lia|exact Hpq]. }
      specialize (Hmin p ltac:(lia)). rewrite !each_nth in Hmin by lia. fold h in Hmin. qlra.
  Qed.
End Shorth.

Lemma shorth_cases x is_array inplace :
  (inplace = true /\ is_array = false /\ shorth_range x is_array false inplace = (None, x)) \/
  (x = [] /\ (inplace = false \/ is_array = true) /\ shorth_range x is_array false inplace = (None, [])) \/
  (exists a b i, (inplace = false \/ is_array = true) /\
     shortest_interval (more_than_half (length x)) x a b /\
     a = nth i (qsort x) 0 /\ b = nth (i + Nat.div (length x) 2) (qsort x) 0 /\ (i + Nat.div (length x) 2 < length x)%nat /\
     shorth_range x is_array false inplace
     = (Some (mkShorth (b - a) (qmean (firstn (1 + Nat.div (length x) 2) (skipn i (qsort x)))) (qz 1 / qz 2 * (a + b))),
        if inplace then qsort x else x)).
Proof.
  unfold shorth_range. destruct (inplace && negb is_array) eqn:E.
  - left. apply andb_prop in E. destruct E as [-> E]. apply negb_true_iff in E. auto.
  - right. assert (O : inplace = false \/ is_array = true) by (destruct inplace, is_array; cbn in E; auto; discriminate).
    destruct (argmin _) as [m|] eqn:A.
    + right. destruct (shorth_shortest x m A) as [Hs Hm]. exists (nth m (qsort x) 0), (nth (m + Nat.div (length x) 2) (qsort x) 0), m.
      split; [exact O|]. split; [exact Hs|]. split; [reflexivity|]. split; [reflexivity|]. split; [exact Hm|].
      replace (m + (1 + Nat.div (length x) 2) - 1)%nat with (m + Nat.div (length x) 2)%nat by lia. reflexivity.
    + left. apply argmin_none in A. apply (f_equal (@length _)) in A. pose proof (each_length x) as EL. cbv zeta in EL. rewrite EL in A.
      change (length (@nil Qc)) with 0%nat in A. assert (x = []).
      { destruct x as [|a t]; [reflexivity|]. cbn [length] in A.
        pose proof (Nat.div_mod (S (length t) + 1) 2 ltac:(lia)). pose proof (Nat.mod_upper_bound (S (length t) + 1) 2 ltac:(lia)). lia. }
      subst x. split; [reflexivity|]. split; [exact O|]. destruct inplace; reflexivity.
Qed.

(** Weighted sums over sorted positions. *)
Lemma wsum_fold (w : nat -> Qc) l s : fold_left (fun s i => s + w i) l s = s + qtotal (map w l).
Proof.
  revert s. induction l as [|a t IH]; intros s; cbn; [unfold qtotal; cbn; ring|]. rewrite IH. unfold qtotal. cbn. ring.
Qed.
Lemma qtotal_app l l' : qtotal (l ++ l') = qtotal l + qtotal l'.
Proof. unfold qtotal. induction l as [|a t IH]; cbn; [ring|]. rewrite IH. ring. Qed.
Lemma qtotal_seq w n : qtotal (map w (seq 0 n)) = qsum n w.
Proof. induction n as [|n IH]; [reflexivity|]. rewrite seq_S, map_app, qtotal_app, IH. cbn. unfold qtotal. cbn. ring. Qed.
Lemma wsum_ok w a b : (a <= b)%nat -> wsum w a b = qsum b w - qsum a w.
Proof.
  intros H. unfold wsum. rewrite wsum_fold. rewrite <- (qtotal_seq w b), <- (qtotal_seq w a).
  replace b with (a + (b - a))%nat at 2 by lia. rewrite seq_app, map_app, qtotal_app. cbn [Nat.add]. ring.
Qed.
Lemma qsum_nonneg_le w a b : (a <= b)%nat -> (forall i, (i < b)%nat -> 0 <= w i) -> qsum a w <= qsum b w.
Proof.
  induction b as [|b IH]; intros H Hw; [replace a with O by lia; apply Qcle_refl|].
  destruct (Nat.eq_dec a (S b)) as [-> | Ne]; [apply Qcle_refl|]. cbn.
  assert (qsum a w <= qsum b w) by (apply IH; [lia|intros; apply Hw; lia]). assert (0 <= w b) by (apply Hw; lia). qlra.
Qed.

Lemma hm_loop_ok w n half : (forall i, (i < n)%nat -> 0 <= w i) ->
  forall fuel lw rw imin imax it, (imax - imin < fuel)%nat -> (imin < imax <= n)%nat -> (imin <= it < imax)%nat ->
  (imax = S imin -> it = imin) -> (S imin < imax -> imin < it)%nat ->
  lw = qsum imin w -> qsum imin w <= half ->
  exists r, hm_loop fuel w half lw rw imin imax it = Some r /\ (r < n)%nat /\ qsum r w <= half.
Proof.
  intros Hw. induction fuel as [|f IH]; intros lw rw imin imax it Hf Hr Hi He He' Hl Hh; [lia|]. cbn [hm_loop].
  destruct (Nat.leb_spec (imax - imin) 1) as [L | L].
  - exists it. rewrite (He ltac:(lia)). split; [reflexivity|]. split; [lia|exact Hh].
  - specialize (He' ltac:(lia)). rewrite Hl, !wsum_ok by lia.
    replace (qsum imin w + (qsum it w - qsum imin w)) with (qsum it w) by ring.
    destruct (qltb half (qsum it w)) eqn:E1.
    + apply IH; try lia; try reflexivity; try exact Hh.
      * split; [apply Nat.div_le_lower_bound; lia|apply Nat.div_lt_upper_bound; lia].
      * intros ->. replace (imin + S imin)%nat with (1 + imin * 2)%nat by lia. rewrite Nat.div_add by lia. reflexivity.
      * intros H. apply Nat.div_le_lower_bound; lia.
    + apply qltb_ge in E1. destruct (qleb half (rw + (qsum imax w - qsum (it + 1) w))) eqn:E2.
      * apply IH; try lia; try reflexivity; try exact E1.
        -- split; [apply Nat.div_le_lower_bound; lia|apply Nat.div_lt_upper_bound; lia].
        -- intros ->. replace (it + S it)%nat with (1 + it * 2)%nat by lia. rewrite Nat.div_add by lia. reflexivity.
        -- intros H. apply Nat.div_le_lower_bound; lia.
      * exists it. split; [reflexivity|]. split; [lia|exact E1].
Qed.

Lemma qtotal_perm l l' : Permutation l l' -> qtotal l = qtotal l'.
Proof. unfold qtotal. induction 1; cbn; [reflexivity|rewrite IHPermutation; reflexivity|ring|congruence]. Qed.

Lemma hm_position_ok idx weights : idx <> [] -> length weights = length idx ->
  Permutation idx (seq 0 (length idx)) -> (forall i, (i < length idx)%nat -> 0 <= nth i weights 0) ->
  exists r, hm_position idx weights = Some r /\ (r < length idx)%nat /\
    qsum r (fun i => nth (nth i idx 0%nat) weights 0) <= qz 1 / qz 2 * qtotal weights.
Proof.
  intros Hne Hl Hp Hw. unfold hm_position. set (n := length idx) in *.
  assert (Hn : (0 < n)%nat) by (unfold n; destruct idx; [contradiction|cbn; lia]).
  assert (Hin : forall i, (i < n)%nat -> (nth i idx 0 < n)%nat).
  { intros i Hi. assert (In (nth i idx 0%nat) (seq 0 n)) by (apply (Permutation_in _ Hp), nth_In; exact Hi). apply in_seq in H. lia. }
  apply (hm_loop_ok _ n); try lia.
  - intros i Hi. apply Hw. auto.
  - split; [lia|]. apply Nat.div_lt_upper_bound; lia.
  - intros ->. reflexivity.
  - intros H. apply Nat.div_le_lower_bound; lia.
  - reflexivity.
  - cbn.
    assert (0 <= qtotal weights).
    { assert (G : forall l, (forall i, (i < length l)%nat -> 0 <= nth i l 0) -> 0 <= qtotal l).
      { unfold qtotal. induction l as [|a t IH]; intros H; cbn; [apply Qcle_refl|].
        assert (0 <= a) by (apply (H O); cbn; lia). assert (0 <= fold_right Qcplus 0 t) by (apply IH; intros i Hi; apply (H (S i)); cbn; lia). qlra. }
      apply G. rewrite Hl. exact Hw. }
    assert (qz 1 / qz 2 + qz 1 / qz 2 = 1) by exact half_half.
    set (c := qz 1 / qz 2) in *. clearbody c. qnra.
Qed.

(** weight_upto in terms of sorted positions. *)
Lemma combine_nth_seq (x w : list Qc) : length w = length x ->
  combine x w = map (fun i => (nth i x 0, nth i w 0)) (seq 0 (length x)).
Proof.
  revert w. induction x as [|a t IH]; intros w H; [reflexivity|]. destruct w as [|b w]; [discriminate|]. cbn.
  f_equal. rewrite (IH w) by (cbn in H; lia). rewrite <- seq_shift, map_map. reflexivity.
Qed.
Lemma filter_perm A (f : A -> bool) l l' : Permutation l l' -> Permutation (filter f l) (filter f l').
Proof.
  induction 1; cbn; [constructor| | |etransitivity; eassumption].
  - destruct (f x); [constructor|]; assumption.
  - destruct (f x), (f y); try reflexivity. constructor.
Qed.
Lemma weight_upto_positions x w idx v : length w = length x -> Permutation idx (seq 0 (length x)) ->
  weight_upto x w v = qtotal (map (fun p => if qleb (nth (nth p idx 0%nat) x 0) v then nth (nth p idx 0%nat) w 0 else 0) (seq 0 (length idx))).
Proof.
  intros Hl Hp. unfold weight_upto. fold (qtotal (map snd (filter (fun p => qleb (fst p) v) (combine x w)))).
  rewrite (combine_nth_seq x w Hl).
  rewrite (qtotal_perm _ (map snd (filter (fun p => qleb (fst p) v) (map (fun i => (nth i x 0, nth i w 0)) idx))))
    by (apply Permutation_map, filter_perm, Permutation_map, Permutation_sym, Hp).
  replace (map (fun p => if qleb (nth (nth p idx 0%nat) x 0) v then nth (nth p idx 0%nat) w 0 else 0) (seq 0 (length idx)))
    with (map (fun i => if qleb (nth i x 0) v then nth i w 0 else 0) idx).
  - clear. unfold qtotal. induction idx as [|i t IH]; [reflexivity|]. cbn. destruct (qleb (nth i x 0) v); cbn; rewrite IH; ring.
  - clear. induction idx as [|i t IH]; [reflexivity|]. cbn. f_equal. rewrite IH, <- seq_shift, map_map. reflexivity.
Qed.

Lemma sorts_nth idx x : sorts idx x -> forall p q, (p <= q < length x)%nat -> nth (nth p idx 0%nat) x 0 <= nth (nth q idx 0%nat) x 0.
Proof.
  intros [Hp Hs] p q H. assert (L : length idx = length x) by (rewrite (Permutation_length Hp); apply seq_length).
  pose proof (qsorted_nth _ Hs p q) as K. rewrite map_length in K. specialize (K ltac:(lia)).
  assert (G : forall k, (k < length idx)%nat -> nth k (map (fun i => nth i x 0) idx) 0 = nth (nth k idx 0%nat) x 0).
  { intros k Hk. rewrite nth_indep with (d' := nth 0%nat x 0) by (rewrite map_length; exact Hk).
    exact (map_nth (fun i => nth i x 0) idx 0%nat k). }
  rewrite !G in K by lia. exact K.
Qed.

Lemma position_high_median x w idx r : length w = length x -> sorts idx x -> (r < length x)%nat ->
  (forall i, (i < length x)%nat -> 0 <= nth i w 0) ->
  let W := fun i => nth (nth i idx 0%nat) w 0 in
  qsum r W <= qz 1 / qz 2 * qtotal w ->
  (forall y, In y x -> y < nth (nth r idx 0%nat) x 0 -> weight_upto x w y + weight_upto x w y <= total_weight w) /\
  (qz 1 / qz 2 * qtotal w < qsum (S r) W -> is_high_median x w (nth (nth r idx 0%nat) x 0)).
Proof.
  intros Hl Hso Hr Hw W Hle. pose proof Hso as [Hp _].
  assert (L : length idx = length x) by (rewrite (Permutation_length Hp); apply seq_length).
  assert (Hin : forall i, (i < length x)%nat -> (nth i idx 0 < length x)%nat).
  { intros i Hi. assert (In (nth i idx 0%nat) (seq 0 (length x))) by (apply (Permutation_in _ Hp), nth_In; lia). apply in_seq in H. lia. }
  assert (HW : forall i, (i < length x)%nat -> 0 <= W i) by (intros; apply Hw; auto).
  assert (Hhalf : forall t, t <= qz 1 / qz 2 * qtotal w -> t + t <= total_weight w).
  { intros t Ht. change (total_weight w) with (qtotal w). assert (E : qtotal w = qz 1 / qz 2 * qtotal w + qz 1 / qz 2 * qtotal w).
    { assert (qz 1 / qz 2 + qz 1 / qz 2 = 1) by exact half_half. rewrite <- Qcmult_plus_distr_l, H. ring. }
    rewrite E. set (c := qz 1 / qz 2 * qtotal w) in *. clearbody c. qlra. }
  assert (Hhalf' : forall t, qz 1 / qz 2 * qtotal w < t -> total_weight w < t + t).
  { intros t Ht. change (total_weight w) with (qtotal w). assert (E : qtotal w = qz 1 / qz 2 * qtotal w + qz 1 / qz 2 * qtotal w).
    { assert (qz 1 / qz 2 + qz 1 / qz 2 = 1) by exact half_half. rewrite <- Qcmult_plus_distr_l, H. ring. }
    rewrite E. set (c := qz 1 / qz 2 * qtotal w) in *. clearbody c. qlra. }
  assert (A : forall y, In y x -> y < nth (nth r idx 0%nat) x 0 -> weight_upto x w y + weight_upto x w y <= total_weight w).
  { intros y _ Hy. apply Hhalf. eapply Qcle_trans; [|exact Hle]. rewrite (weight_upto_positions x w idx y Hl Hp), L, qtotal_seq.
    replace (length x) with (r + (length x - r))%nat by lia. rewrite qsum_split.
    rewrite (qsum_zero (length x - r)).
    - assert (G : forall m, (m <= length x)%nat -> qsum m (fun i => if qleb (nth (nth i idx 0%nat) x 0) y then nth (nth i idx 0%nat) w 0 else 0) <= qsum m W).
      { induction m as [|m IH]; intros Hm; cbn; [apply Qcle_refl|]. specialize (IH ltac:(lia)). specialize (HW m ltac:(lia)). unfold W in *.
        destruct (qleb (nth (nth m idx 0%nat) x 0) y); qlra. }
      specialize (G r ltac:(lia)). qlra.
    - intros i Hi. destruct (qleb (nth (nth (r + i) idx 0%nat) x 0) y) eqn:E; [|reflexivity]. apply qleb_le in E.
      pose proof (sorts_nth idx x Hso r (r + i) ltac:(lia)). exfalso. qlra. }
  split; [exact A|]. intros Hgt. split; [apply nth_In, Hin; exact Hr|]. split; [|exact A].
  apply Hhalf'. eapply Qclt_le_trans; [exact Hgt|]. rewrite (weight_upto_positions x w idx _ Hl Hp), L, qtotal_seq.
  replace (length x) with (S r + (length x - S r))%nat by lia. rewrite qsum_split.
  set (F := fun p : nat => if qleb (nth (nth p idx 0%nat) x 0) (nth (nth r idx 0%nat) x 0) then nth (nth p idx 0%nat) w 0 else 0).
  assert (E : qsum (S r) W = qsum (S r) F).
  { apply qsum_ext. intros i Hi. unfold F. pose proof (sorts_nth idx x Hso i r ltac:(lia)) as H. apply qleb_le in H. rewrite H. reflexivity. }
  rewrite E. change (qsum (S r) F <= qsum (S r) F + qsum (length x - S r) (fun i => F (S r + i)%nat)).
  assert (0 <= qsum (length x - S r) (fun i => F (S r + i)%nat)).
  { apply (qsum_nonneg_le _ 0 (length x - S r)); [lia|]. intros i Hi. unfold F.
    destruct (qleb _ _); [apply HW; lia|apply Qcle_refl]. }
  qlra.
Qed.

Lemma high_median_lower argsort x w : x <> [] -> length w = length x -> sorts (argsort x) x ->
  (forall i, (i < length x)%nat -> 0 <= nth i w 0) ->
  exists v i, high_median argsort x (Some w) = Some (v, i) /\ nth_error x i = Some v /\
    forall y, In y x -> y < v -> weight_upto x w y + weight_upto x w y <= total_weight w.
Proof.
  intros Hne Hl Hs Hw. set (idx := argsort x) in *. pose proof Hs as [Hp _].
  assert (L : length idx = length x) by (rewrite (Permutation_length Hp); apply seq_length).
  destruct (hm_position_ok idx w) as [r [Hr [Hlt Hle]]].
  - destruct x; [contradiction|]. destruct idx; [discriminate L|discriminate].
  - lia.
  - rewrite L. exact Hp.
  - rewrite L. exact Hw.
  - rewrite L in Hlt. exists (nth (nth r idx 0%nat) x 0), (nth r idx 0%nat).
    unfold high_median, high_median_index. fold idx. rewrite Hr, (nth_error_nth' idx 0%nat) by lia.
    split; [reflexivity|]. split.
    + apply nth_error_nth'. assert (In (nth r idx 0%nat) (seq 0 (length x))) by (apply (Permutation_in _ Hp), nth_In; lia). apply in_seq in H. lia.
    + exact (proj1 (position_high_median x w idx r Hl Hs Hlt Hw Hle)).
Qed.

Lemma qsum_const n c : qsum n (fun _ => c) = qz (Z.of_nat n) * c.
Proof.
  induction n as [|n IH]; [cbn; change (qz 0) with 0; ring|]. cbn [qsum]. rewrite IH.
  replace (Z.of_nat (S n)) with (Z.of_nat n + 1)%Z by lia. rewrite qz_add. change (qz 1) with 1. ring.
Qed.
Lemma qtotal_repeat n c : qtotal (repeat c n) = qz (Z.of_nat n) * c.
Proof.
  induction n as [|n IH]; [cbn; unfold qtotal; cbn; change (qz 0) with 0; ring|]. unfold qtotal in *. cbn [repeat fold_right]. rewrite IH.
  replace (Z.of_nat (S n)) with (Z.of_nat n + 1)%Z by lia. rewrite qz_add. change (qz 1) with 1. ring.
Qed.

Lemma high_median_equal argsort x c : x <> [] -> 0 < c -> sorts (argsort x) x ->
  exists v i, high_median argsort x (Some (repeat c (length x))) = Some (v, i) /\ nth_error x i = Some v /\
    is_high_median x (repeat c (length x)) v.
Proof.
  intros Hne Hc Hs. set (idx := argsort x) in *. set (w := repeat c (length x)). pose proof Hs as [Hp _].
  assert (L : length idx = length x) by (rewrite (Permutation_length Hp); apply seq_length).
  assert (Hl : length w = length x) by apply repeat_length.
  set (n := length x) in *. assert (Hn : (0 < n)%nat) by (unfold n; destruct x; [contradiction|cbn; lia]).
  assert (Hnth : forall i, (i < n)%nat -> nth i w 0 = c).
  { intros i Hi. rewrite nth_indep with (d' := c) by lia. apply nth_repeat. }
  assert (Hin : forall i, (i < n)%nat -> (nth i idx 0 < n)%nat).
  { intros i Hi. assert (In (nth i idx 0%nat) (seq 0 n)) by (apply (Permutation_in _ Hp), nth_In; lia). apply in_seq in H. lia. }
  set (W := fun i => nth (nth i idx 0%nat) w 0).
  assert (HW : forall i, (i < n)%nat -> W i = c) by (intros; apply Hnth; auto).
  assert (HS : forall m, (m <= n)%nat -> qsum m W = qz (Z.of_nat m) * c).
  { intros m Hm. rewrite <- qsum_const. apply qsum_ext. intros. apply HW. lia. }
  pose proof (Nat.div_mod n 2 ltac:(lia)) as Hd. pose proof (Nat.mod_upper_bound n 2 ltac:(lia)) as Hu.
  set (h := Nat.div n 2) in *.
  assert (Hhalf : forall z, (qz z * c <= qz 1 / qz 2 * qtotal w <-> (2 * z <= Z.of_nat n)%Z)).
  { intros z. unfold w. rewrite qtotal_repeat. fold n.
    assert (E : qz 1 / qz 2 * (qz (Z.of_nat n) * c) - qz z * c = c / qz 2 * qz (Z.of_nat n - 2 * z)).
    { rewrite qz_sub, qz_mul. change (qz 1) with 1. field. intro X; discriminate X. }
    assert (Hc2 : 0 < c / qz 2).
    { assert (c / qz 2 + c / qz 2 = c) by (change (qz 2) with (1 + 1); field; intro X; discriminate X).
      set (d := c / qz 2) in *. clearbody d. qlra. }
    set (d := c / qz 2) in *. clearbody d. split; intros H.
    - destruct (Z.le_gt_cases (2 * z) (Z.of_nat n)) as [K | K]; [exact K|]. exfalso.
      assert (qz (Z.of_nat n - 2 * z) < 0) by (change 0 with (qz 0); apply qz_lt; lia).
      set (a := qz (Z.of_nat n - 2 * z)) in *. clearbody a.
      assert (0 <= d * a) by (rewrite <- E; qlra). qnra.
    - assert (0 <= qz (Z.of_nat n - 2 * z)) by (change 0 with (qz 0); apply qz_le; lia).
      set (a := qz (Z.of_nat n - 2 * z)) in *. clearbody a.
      assert (0 <= d * a) by qnra. rewrite <- E in H1. qlra. }
  assert (Hr : hm_position idx w = Some h).
  { unfold hm_position. fold W. rewrite L. fold h. cbn [hm_loop]. rewrite Nat.sub_0_r.
    destruct (Nat.leb_spec n 1) as [K | K]; [reflexivity|].
    rewrite !wsum_ok by lia. rewrite !HS by lia.
    destruct (qltb _ _) eqn:E1.
    - exfalso. apply qltb_lt in E1. assert (qz (Z.of_nat h) * c <= qz 1 / qz 2 * qtotal w) by (apply Hhalf; lia).
      change (qz (Z.of_nat 0)) with 0 in E1. qlra.
    - destruct (qleb _ _) eqn:E2; [|reflexivity]. exfalso. apply qleb_le in E2.
      assert (E3 : 0 + (qz (Z.of_nat n) * c - qz (Z.of_nat (h + 1)) * c) = qz (Z.of_nat n - Z.of_nat (h + 1)) * c) by (rewrite qz_sub; ring).
      rewrite E3 in E2. clear E1 E3. 
      assert (E4 : qz 1 / qz 2 * qtotal w + qz 1 / qz 2 * qtotal w = qz (Z.of_nat n) * c).
      { unfold w. rewrite qtotal_repeat. fold n. change (qz 1) with 1. change (qz 2) with (1 + 1). field. intro X; discriminate X. }
      assert (E5 : qz (Z.of_nat (h + 1)) * c <= qz 1 / qz 2 * qtotal w).
      { rewrite qz_sub in E2. set (a := qz 1 / qz 2 * qtotal w) in *. clearbody a.
        assert (qz (Z.of_nat (h + 1)) * c = qz (Z.of_nat n) * c - (qz (Z.of_nat n) - qz (Z.of_nat (h + 1))) * c) by ring.
        rewrite H, <- E4. set (b := (qz (Z.of_nat n) - qz (Z.of_nat (h + 1))) * c) in *. clearbody b. qlra. }
      apply Hhalf in E5. lia. }
  assert (Hh : (h < n)%nat) by lia.
  exists (nth (nth h idx 0%nat) x 0), (nth h idx 0%nat).
  unfold high_median, high_median_index. fold idx. rewrite Hr, (nth_error_nth' idx 0%nat) by lia.
  split; [reflexivity|]. split; [apply nth_error_nth'; apply Hin; exact Hh|].
  refine (proj2 (position_high_median x w idx h Hl Hs Hh _ _) _).
  - fold n. intros i Hi. rewrite Hnth by exact Hi. qlra.
  - fold W. rewrite HS by lia. apply Hhalf. lia.
  - fold W. rewrite HS by lia. destruct (qleb (qz (Z.of_nat (S h)) * c) (qz 1 / qz 2 * qtotal w)) eqn:E.
    + apply qleb_le in E. apply Hhalf in E. lia.
    + apply qleb_gt in E. exact E.
Qed.
