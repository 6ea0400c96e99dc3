(** The Q estimator: the search loop and the whole function. *)
From Coq Require Import ZArith QArith Qcanon List Bool Lia Permutation.
From Verif Require Import QcPre LagModel FluxProofs QSort RobModel RobSpec RobProofs QscProofs.
Import ListNotations.
Local Open Scope Qc_scope.

Definition lf (rows : list (Z * Z)) (i : nat) : Z := fst (nth i rows (0, 0)%Z).
Definition rf (rows : list (Z * Z)) (i : nat) : Z := snd (nth i rows (0, 0)%Z).

Lemma good_rows_ext x K l r l' r' : (forall i, (i < length x - 1)%nat -> l i = l' i) -> (forall i, (i < length x - 1)%nat -> r i = r' i) ->
  good_rows x K l r -> good_rows x K l' r'.
Proof.
  intros Hl Hr [A B C D E]. constructor.
  - intros i Hi. rewrite <- Hl, <- Hr by exact Hi. auto.
  - intros i j i' j' Hi Hi'. rewrite <- !Hl by assumption. auto.
  - intros i j i' j' Hi Hi'. rewrite <- !Hr by assumption. auto.
  - rewrite <- (zsum_ext _ l l' Hl). exact D.
  - rewrite <- (zsum_ext _ (fun i => r i + 1)%Z (fun i => r' i + 1)%Z); [exact E|]. intros i Hi. rewrite (Hr i Hi). reflexivity.
Qed.

Lemma combine_seq_nth {A} (rows : list A) d i : (i < length rows)%nat -> nth i (combine (seq 0 (length rows)) rows) (O, d) = (i, nth i rows d).
Proof. intros H. rewrite combine_nth by (rewrite seq_length; reflexivity). rewrite seq_nth by exact H. reflexivity. Qed.

Section Loop.
  Variable argsort : list Qc -> list nat.
  Hypothesis Hsort : forall l, sorts (argsort l) l.
  Variable x : list Qc.
  Hypothesis Hs : qsorted x.
  Hypothesis Hn : (2 <= length x)%nat.
  Hypothesis Hbig : (Z.of_nat (length x) <= 65537)%Z.
  Let n := length x.
  Let N := Z.of_nat n.
  Variable k : nat.
  Let K := (Z.of_nat k + zsum (n - 1) (fun i => Z.of_nat i + 1))%Z.

  Lemma choose_ok rows t trow tcol : length rows = (n - 1)%nat -> good_rows x K (lf rows) (rf rows) ->
    choose_trial argsort x rows = Some (t, trow, tcol) ->
    (trow < n - 1)%nat /\ t = dm x trow tcol /\ (0 <= tcol)%Z /\
    ((lf rows trow <= tcol <= rf rows trow)%Z \/ ((rf rows trow < lf rows trow)%Z /\ tcol = (lf rows trow - 1)%Z)).
  Proof.
    intros Hl G. unfold choose_trial. fold n N. set (med := map _ (combine (seq 0 (length rows)) rows)).
    set (weights := map _ rows). destruct (high_median_index (argsort med) weights) as [row|] eqn:E; [|discriminate].
    assert (Lm : length med = (n - 1)%nat) by (unfold med; rewrite map_length, combine_length, seq_length, Hl; lia).
    assert (Hrow : (row < n - 1)%nat).
    { unfold high_median_index in E. destruct (hm_position _ _) as [p|]; [|discriminate]. apply nth_error_In in E.
      destruct (Hsort med) as [P _]. apply (Permutation_in _ P) in E. apply in_seq in E. lia. }
    fold (lf rows row) (rf rows row). set (col := center_index N (lf rows row) (rf rows row)).
    destruct (Z.ltb_spec col 0) as [L | L]; [discriminate|]. intros [= <- <- <-].
    split; [exact Hrow|].
    assert (Hmed : nth row med 0 = zn x col - nth row x 0).
    { unfold med. set (g := fun p : nat * (Z * Z) => zn x (center_index N (fst (snd p)) (snd (snd p))) - nth (fst p) x 0).
      rewrite nth_indep with (d' := g (O, (0, 0)%Z)) by (rewrite map_length, combine_length, seq_length; lia).
      rewrite map_nth, combine_seq_nth by lia. reflexivity. }
    split; [rewrite Hmed, zn_nat by exact L; reflexivity|]. split; [exact L|].
    pose proof (gr_range _ _ _ _ G row Hrow) as R. fold n N in R.
    pose proof (Z.div_mod (lf rows row + rf rows row) 2 ltac:(lia)) as D. pose proof (Z.mod_pos_bound (lf rows row + rf rows row) 2 ltac:(lia)) as M.
    unfold col, center_index. destruct (Z.leb_spec N ((lf rows row + rf rows row) / 2)) as [C | C]; [lia|].
    destruct (Z.le_gt_cases (lf rows row) (rf rows row)) as [C1 | C1]; [left; lia|right; lia].
  Qed.

  Lemma below_eq tc : length tc = (n - 1)%nat ->
    (ztotal tc - u32 (u32 (N - 2) * u32 (N - 1)) / 2)%Z = (zsum (n - 1) (fun i => nth i tc 0%Z + 1) - zsum (n - 1) (fun i => Z.of_nat i + 1))%Z.
  Proof.
    intros Hl. rewrite ztotal_zsum, Hl. unfold u32. unfold N. 
    assert (HN : (2 <= Z.of_nat n <= 65537)%Z) by (unfold n; lia).
    rewrite (Z.mod_small (Z.of_nat n - 2)) by lia. rewrite (Z.mod_small (Z.of_nat n - 1)) by lia. rewrite Z.mod_small by nia.
    pose proof (zsum_index (n - 1)) as I. rewrite (zsum_add (n - 1) (fun i => nth i tc 0%Z) (fun _ => 1%Z)).
    assert (O1 : forall m, zsum m (fun _ => 1%Z) = Z.of_nat m) by (induction m as [|m IH]; [reflexivity|cbn [zsum]; lia]). rewrite O1.
    replace (Z.of_nat (n - 1)) with (Z.of_nat n - 1)%Z in * by lia.
    assert (E : ((Z.of_nat n - 2) * (Z.of_nat n - 1) = (zsum (n - 1) (fun i => Z.of_nat i + 1) - (Z.of_nat n - 1)) * 2)%Z) by nia.
    rewrite E, Z.div_mul by lia. lia.
  Qed.

  Lemma loop_ok : forall passes counter rows q c, length rows = (n - 1)%nat -> good_rows x K (lf rows) (rf rows) ->
    (counter + passes = n + 10)%nat -> (c <= n)%nat ->
    qscale_loop argsort x (Z.of_nat k) passes counter rows = Some (q, c) -> order_statistic k (distances x) q.
  Proof.
    induction passes as [|m IH]; intros counter rows q c Hl G Hp Hc; cbn [qscale_loop].
    - intros [= <- <-]. lia.
    - destruct (choose_trial argsort x rows) as [[[t trow] tcol]|] eqn:E; [|discriminate].
      destruct (choose_ok rows t trow tcol Hl G E) as [Hrow [Ht [Hc0 Hcase]]]. fold n N.
      set (irows := combine (seq 0 (length rows)) rows). set (tc := map (trial_column x t trow tcol) irows).
      assert (Li : length irows = (n - 1)%nat) by (unfold irows; rewrite combine_length, seq_length; lia).
      assert (Lt : length tc = (n - 1)%nat) by (unfold tc; rewrite map_length; exact Li).
      rewrite (below_eq tc Lt). set (S1 := zsum (n - 1) (fun i => Z.of_nat i + 1)%Z) in *.
      assert (Hi : forall i, (i < n - 1)%nat -> nth i irows (O, (0, 0)%Z) = (i, (lf rows i, rf rows i))).
      { intros i Hi. unfold irows. rewrite combine_seq_nth by lia. unfold lf, rf. destruct (nth i rows (0, 0)%Z). reflexivity. }
      assert (Ht1 : forall i, (i < n - 1)%nat -> nth i tc 0%Z = column x t trow tcol (lf rows) (rf rows) i).
      { intros i Hii. unfold tc. rewrite nth_indep with (d' := trial_column x t trow tcol (O, (0, 0)%Z)) by (rewrite map_length; lia).
        rewrite map_nth, Hi by exact Hii. reflexivity. }
      assert (HS : zsum (n - 1) (fun i => nth i tc 0%Z + 1)%Z = zsum (n - 1) (fun i => column x t trow tcol (lf rows) (rf rows) i + 1)%Z).
      { apply zsum_ext. intros i Hii. rewrite Ht1 by exact Hii. reflexivity. }
      rewrite HS. set (T := zsum (n - 1) _).
      assert (HK : K = (Z.of_nat k + S1)%Z) by reflexivity.
      destruct Hcase as [Hin | [Hemp Hcol]].
      + pose proof (column_ok x Hs K (lf rows) (rf rows) trow tcol t Hn G Hrow Hin Ht) as C.
        assert (CT : column x t trow tcol (lf rows) (rf rows) trow = (tcol - 1)%Z) by (unfold column, trial_column; rewrite Nat.eqb_refl; reflexivity).
        destruct (Z.eqb_spec (T - S1) (Z.of_nat k)) as [Eq | Ne].
        * intros [= <- <-]. pose proof (gr_range _ _ _ _ G) as R. fold n N in R.
          apply (rank_of_trial x Hs (column x t trow tcol (lf rows) (rf rows)) t trow k); fold n N; auto.
          -- intros i Hii. destruct (C i Hii) as [A _]. specialize (R i Hii). cbv zeta in A. lia.
          -- intros i j Hii Hj. destruct (C i Hii) as [_ [A _]]. apply A. exact Hj.
          -- intros i j Hii Hj. destruct (C i Hii) as [_ [_ A]]. apply A. exact Hj.
          -- rewrite CT. specialize (R trow Hrow). lia.
          -- rewrite CT. replace (tcol - 1 + 1)%Z with tcol by lia. symmetry. exact Ht.
          -- rewrite <- Eq. unfold T, S1. clear.
             induction (n - 1)%nat as [|m IH]; [reflexivity|]. cbn [zsum]. rewrite IH. lia.
        * destruct (Z.ltb_spec (Z.of_nat k) (T - S1)) as [Lt' | Ge].
          -- apply IH; [rewrite map_length, combine_length; lia| |lia|exact Hc].
             assert (Hnew : forall i, (i < n - 1)%nat ->
               nth i (map (fun p : Z * (Z * Z) => (fst (snd p), if (N <=? fst p)%Z then (N - 1)%Z else fst p)) (combine tc rows)) (0, 0)%Z
               = (lf rows i, column x t trow tcol (lf rows) (rf rows) i)).
             { intros i Hii. set (g := fun p : Z * (Z * Z) => (fst (snd p), if (N <=? fst p)%Z then (N - 1)%Z else fst p)).
               rewrite nth_indep with (d' := g (0, (0, 0))%Z) by (rewrite map_length, combine_length; lia).
               rewrite map_nth, combine_nth by lia. unfold g. cbn [fst snd]. rewrite Ht1 by exact Hii.
               destruct (C i Hii) as [A _]. cbv zeta in A. pose proof (gr_range _ _ _ _ G i Hii) as R. fold n N in R.
               destruct (Z.leb_spec N (column x t trow tcol (lf rows) (rf rows) i)); [lia|reflexivity]. }
             apply (good_rows_ext x K (lf rows) (column x t trow tcol (lf rows) (rf rows))).
             ++ intros i Hii. unfold lf at 2. rewrite Hnew by exact Hii. reflexivity.
             ++ intros i Hii. unfold rf at 2. rewrite Hnew by exact Hii. reflexivity.
             ++ apply (good_right x Hs K); auto. fold n T. lia.
          -- apply IH; [rewrite map_length, combine_length; lia| |lia|exact Hc].
             assert (Hnew : forall i, (i < n - 1)%nat ->
               nth i (map (fun p : Z * (nat * (Z * Z)) => ((fst p + 1 + (if Nat.eqb (fst (snd p)) trow then 1 else 0))%Z, snd (snd (snd p)))) (combine tc irows)) (0, 0)%Z
               = ((column x t trow tcol (lf rows) (rf rows) i + 1 + (if Nat.eqb i trow then 1 else 0))%Z, rf rows i)).
             { intros i Hii. set (g := fun p : Z * (nat * (Z * Z)) => ((fst p + 1 + (if Nat.eqb (fst (snd p)) trow then 1 else 0))%Z, snd (snd (snd p)))).
               rewrite nth_indep with (d' := g (0%Z, (O, (0, 0)%Z))) by (rewrite map_length, combine_length; lia).
               rewrite map_nth, combine_nth by lia. unfold g. cbn [fst snd]. rewrite Ht1, Hi by exact Hii. reflexivity. }
             apply (good_rows_ext x K (fun i => column x t trow tcol (lf rows) (rf rows) i + 1 + (if Nat.eqb i trow then 1 else 0))%Z (rf rows)).
             ++ intros i Hii. unfold lf at 2. rewrite Hnew by exact Hii. reflexivity.
             ++ intros i Hii. unfold rf at 2. rewrite Hnew by exact Hii. reflexivity.
             ++ apply (good_left x Hs K); auto. fold n T. lia.
      + pose proof (column_empty x K (lf rows) (rf rows) trow tcol t G Hrow Hemp Hcol Hc0 Ht) as C.
        assert (HT : T = (zsum (n - 1) (lf rows) - 1)%Z).
        { unfold T. rewrite (zsum_ext _ _ (fun i => lf rows i + (if Nat.eqb i trow then -1 else 0))%Z).
          - rewrite zsum_add, zsum_single by exact Hrow. lia.
          - intros i Hii. rewrite C by exact Hii. destruct (Nat.eqb i trow); lia. }
        pose proof (gr_low _ _ _ _ G) as Low. fold n in Low.
        destruct (Z.eqb_spec (T - S1) (Z.of_nat k)) as [Eq | Ne]; [lia|].
        destruct (Z.ltb_spec (Z.of_nat k) (T - S1)) as [Lt' | Ge]; [lia|].
        apply IH; [rewrite map_length, combine_length; lia| |lia|exact Hc].
        assert (Hnew : forall i, (i < n - 1)%nat ->
          nth i (map (fun p : Z * (nat * (Z * Z)) => ((fst p + 1 + (if Nat.eqb (fst (snd p)) trow then 1 else 0))%Z, snd (snd (snd p)))) (combine tc irows)) (0, 0)%Z
          = (lf rows i, rf rows i)).
        { intros i Hii. set (g := fun p : Z * (nat * (Z * Z)) => ((fst p + 1 + (if Nat.eqb (fst (snd p)) trow then 1 else 0))%Z, snd (snd (snd p)))).
          rewrite nth_indep with (d' := g (0%Z, (O, (0, 0)%Z))) by (rewrite map_length, combine_length; lia).
          rewrite map_nth, combine_nth by lia. unfold g. cbn [fst snd]. rewrite Ht1, Hi, C by exact Hii. cbn [fst snd]. f_equal. destruct (Nat.eqb i trow); lia. }
        apply (good_rows_ext x K (lf rows) (rf rows)); [| |exact G]; intros i Hii.
        * unfold lf at 2. rewrite Hnew by exact Hii. reflexivity.
        * unfold rf at 2. rewrite Hnew by exact Hii. reflexivity.
  Qed.
End Loop.

(** Short data: all distances. *)
Lemma distances_snoc l a : Permutation (distances (l ++ [a])) (distances l ++ map (dist a) l).
Proof.
  induction l as [|b t IH]; cbn; [constructor|]. rewrite map_app. cbn. rewrite <- !app_assoc. apply Permutation_app_head.
  rewrite IH. cbn. rewrite (dist_sym b a). apply Permutation_middle.
Qed.
Lemma all_distances_snoc l a : all_distances (l ++ [a]) = all_distances l ++ map (fun v => a - v) l.
Proof.
  unfold all_distances. rewrite app_length. cbn [length]. destruct l as [|b t]; [reflexivity|].
  replace (length (b :: t) + 1 - 1)%nat with (length t + 1)%nat by (cbn; lia).
  replace (length (b :: t) - 1)%nat with (length t) by (cbn; lia).
  rewrite seq_app, flat_map_app. f_equal.
  - apply flat_map_ext_in || idtac. rewrite !flat_map_concat_map. f_equal. apply map_ext_in. intros j Hj. apply in_seq in Hj.
    rewrite app_nth1 by (cbn; lia). rewrite firstn_app. replace (j - length (b :: t))%nat with O by (cbn; lia). cbn [firstn]. rewrite app_nil_r. reflexivity.
  - cbn [seq flat_map]. rewrite app_nil_r, app_nth2 by (cbn; lia). replace (1 + length t - length (b :: t))%nat with O by (cbn; lia). cbn [nth].
    rewrite firstn_app. replace (1 + length t - length (b :: t))%nat with O by (cbn; lia). cbn [firstn]. rewrite app_nil_r.
    rewrite firstn_all2 by (cbn; lia). reflexivity.
Qed.
Lemma all_distances_perm l : qsorted l -> Permutation (all_distances l) (distances l).
Proof.
  induction l as [|a l IH] using rev_ind; intros Hs; [constructor|]. apply qsorted_app in Hs. destruct Hs as [H1 [_ H2]].
  rewrite all_distances_snoc, distances_snoc. apply Permutation_app; [apply IH; exact H1|].
  replace (map (dist a) l) with (map (fun v => a - v) l); [reflexivity|]. apply map_ext_in. intros v Hv. rewrite dist_sym. unfold dist.
  specialize (H2 v a Hv (or_introl eq_refl)). apply qleb_le in H2. rewrite H2. reflexivity.
Qed.
Lemma distances_length l : (2 * length (distances l) = length l * (length l - 1))%nat.
Proof. induction l as [|a t IH]; [reflexivity|]. cbn [distances]. rewrite app_length, map_length. cbn [length]. nia. Qed.

Lemma target_rank n : target_k n = q_rank n.
Proof. unfold target_k, q_rank. replace (n / 2 + 1 - 1)%nat with (n / 2)%nat by lia. reflexivity. Qed.
Lemma target_bound n : (2 <= n)%nat -> (2 * target_k n + 2 <= n * (n - 1))%nat.
Proof.
  intros H. rewrite target_rank. unfold q_rank. set (h := Nat.div n 2).
  assert (1 <= h <= n - 1)%nat.
  { unfold h. split; [apply Nat.div_le_lower_bound; lia|]. apply Nat.lt_le_pred in H || idtac. assert (n / 2 < n)%nat by (apply Nat.div_lt; lia). lia. }
  pose proof (Nat.div_mod ((h + 1) * h) 2 ltac:(lia)). 
  assert (1 <= (h + 1) * h / 2)%nat by (apply Nat.div_le_lower_bound; nia). nia.
Qed.

Lemma qscale_ok argsort x0 q : (forall l, sorts (argsort l) l) -> (Z.of_nat (length x0) <= 65537)%Z ->
  qscale_statistic argsort x0 = Some q -> order_statistic (q_rank (length x0)) (distances x0) q.
Proof.
  intros Hsort Hbig. unfold qscale_statistic. destruct (Nat.ltb_spec (length x0) 2) as [|Hn]; [discriminate|].
  set (x := qsort x0). assert (Hx : qsorted x) by apply qsort_sorted. assert (Lx : length x = length x0) by apply qsort_length.
  intros H. apply (order_statistic_perm _ (distances x)); [apply distances_perm, Permutation_sym, qsort_perm|]. rewrite <- target_rank.
  pose proof (target_bound (length x0) Hn) as TB. destruct (Nat.leb_spec (length x0) 5) as [Small | Large].
  - injection H as <-. apply (order_statistic_perm _ (qsort (all_distances x))).
    + rewrite <- qsort_perm. apply all_distances_perm, Hx.
    + apply sorted_order_statistic; [apply qsort_sorted|]. rewrite qsort_length, (Permutation_length (all_distances_perm x Hx)).
      pose proof (distances_length x). rewrite Lx in *. nia.
  - destruct (qscale_loop _ _ _ _ _ _) as [[q' c]|] eqn:E; [|discriminate].
    destruct (Nat.ltb_spec (length x0) c) as [|Hc]; [discriminate|]. injection H as ->.
    set (rows := repeat (0, Z.of_nat (length x0) - 1)%Z (length x0 - 1)) in *.
    assert (Hrows : forall i, (i < length x0 - 1)%nat -> nth i rows (0, 0)%Z = (0, Z.of_nat (length x0) - 1)%Z).
    { intros i Hi. rewrite nth_indep with (d' := (0, Z.of_nat (length x0) - 1)%Z) by (unfold rows; rewrite repeat_length; exact Hi). apply nth_repeat. }
    refine (loop_ok argsort Hsort x Hx ltac:(lia) ltac:(lia) (target_k (length x0)) (length x0 + 10) 0 rows q c _ _ _ _ E); rewrite ?Lx; try lia.
    + apply repeat_length.
    + apply (good_rows_ext x _ (fun _ => 0%Z) (fun _ => Z.of_nat (length x0) - 1)%Z).
      * rewrite Lx. intros i Hi. unfold lf. rewrite Hrows by exact Hi. reflexivity.
      * rewrite Lx. intros i Hi. unfold rf. rewrite Hrows by exact Hi. reflexivity.
      * pose proof (zsum_index (length x0 - 1)) as I.
        constructor; rewrite ?Lx; try (intros; lia).
        -- assert (Z0 : forall m, zsum m (fun _ => 0%Z) = 0%Z) by (induction m as [|m IH]; [reflexivity|cbn [zsum]; lia]). rewrite Z0. nia.
        -- assert (Zc : forall m c, zsum m (fun _ => c) = (Z.of_nat m * c)%Z) by (induction m as [|m IH]; intros; [reflexivity|cbn [zsum]; rewrite IH; lia]).
           rewrite Zc. nia.
Qed.

(** The example argsort does sort. *)
Lemma arg_insert_perm key a l : Permutation (a :: l) (arg_insert key a l).
Proof. induction l as [|b t IH]; cbn; [reflexivity|]. destruct (qleb (key a) (key b)); [reflexivity|]. rewrite perm_swap. constructor. exact IH. Qed.
Lemma arg_insert_map key a l : map key (arg_insert key a l) = qinsert (key a) (map key l).
Proof. induction l as [|b t IH]; cbn; [reflexivity|]. destruct (qleb (key a) (key b)); [reflexivity|]. cbn. rewrite IH. reflexivity. Qed.
Lemma argsort_ins_sorts x : sorts (argsort_ins x) x.
Proof.
  unfold sorts, argsort_ins. generalize (seq 0 (length x)) as l. split.
  - induction l as [|a t IH]; cbn; [constructor|]. rewrite <- arg_insert_perm. constructor. exact IH.
  - induction l as [|a t IH]; cbn; [exact I|]. rewrite arg_insert_map. apply qinsert_sorted, IH.
Qed.

Lemma qscale_small_ok argsort x : (2 <= length x <= 5)%nat ->
  exists q, qscale_statistic argsort x = Some q /\ order_statistic (q_rank (length x)) (distances x) q.
Proof.
  intros H. assert (E : exists q, qscale_statistic argsort x = Some q).
  { unfold qscale_statistic. destruct (Nat.ltb_spec (length x) 2); [lia|]. destruct (Nat.leb_spec (length x) 5); [|lia]. eexists. reflexivity. }
  destruct E as [q E]. exists q. split; [exact E|]. 
  assert (E' : qscale_statistic argsort_ins x = Some q).
  { rewrite <- E. unfold qscale_statistic. destruct (Nat.ltb_spec (length x) 2); [lia|]. destruct (Nat.leb_spec (length x) 5); [reflexivity|lia]. }
  apply (qscale_ok argsort_ins x q argsort_ins_sorts ltac:(lia) E').
Qed.
Lemma shorth_scaled : forall n, (2 <= n)%nat -> exists c, 0 < c /\ forall x is_array inplace r after, length x = n ->
  shorth_range x is_array false inplace = (Some r, after) ->
  shorth_range x is_array true inplace = (Some (mkShorth (sh_range r * c) (sh_mean r) (sh_center r)), after).
Proof.
  intros n Hn. set (m := Z.of_nat n).
  exists (/ (qz 2 * (qz 67448 / qz 100000)) * (if Nat.even n then qz (m + 1) / qz m else qz (m + 1) / qz (m - 1))).
  assert (Pz : forall z, (0 < z)%Z -> 0 < qz z) by (intros z Hz; change 0 with (qz 0); apply qz_lt; exact Hz).
  assert (Pd : forall a b, 0 < a -> 0 < b -> 0 < a / b).
  { intros a b Ha Hb. assert (E : a = (a / b) * b) by (field; intros ->; discriminate Hb).
    destruct (qltb 0 (a / b)) eqn:C; [apply qltb_lt; exact C|]. apply qltb_ge in C. exfalso. set (d := a / b) in *. clearbody d. subst a. qnra. }
  split.
  - assert (A : 0 < / (qz 2 * (qz 67448 / qz 100000))) by reflexivity.
    assert (B : 0 < (if Nat.even n then qz (m + 1) / qz m else qz (m + 1) / qz (m - 1))) by (destruct (Nat.even n); apply Pd; apply Pz; lia).
    revert A B. generalize (/ (qz 2 * (qz 67448 / qz 100000))) (if Nat.even n then qz (m + 1) / qz m else qz (m + 1) / qz (m - 1)). intros a b A B. qnra.
  - intros x is_array inplace r after Hl. unfold shorth_range. destruct (inplace && negb is_array); [discriminate|].
    destruct (argmin _) as [i|]; [|discriminate]. intros H. apply pair_equal_spec in H. destruct H as [H <-].
    apply (f_equal (fun o => match o with Some v => v | None => r end)) in H. cbv beta iota in H. subst r. cbn [sh_range sh_mean sh_center].
    rewrite Hl. unfold shorth_normalize. fold m. destruct (Nat.even n).
    + do 3 f_equal. unfold Qcdiv. ring.
    + destruct (Nat.eqb_spec n 1); [lia|]. do 3 f_equal. unfold Qcdiv. ring.
Qed.
