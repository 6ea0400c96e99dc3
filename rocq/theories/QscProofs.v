(** The Q estimator: whenever it returns a value, the value is the right order statistic. *)
From Coq Require Import ZArith QArith Qcanon List Bool Lia Permutation.
From Verif Require Import QcPre LagModel FluxProofs QSort RobModel RobSpec RobProofs.
Import ListNotations.
Local Open Scope Qc_scope.

(** Distances do not depend on the order of the data. *)
Lemma dist_sym a b : dist a b = dist b a.
Proof.
  unfold dist. destruct (qleb a b) eqn:E1, (qleb b a) eqn:E2; try reflexivity.
  - apply qleb_le in E1, E2. qlra.
  - apply qleb_gt in E1, E2. qlra.
Qed.
Lemma distances_perm l l' : Permutation l l' -> Permutation (distances l) (distances l').
Proof.
  induction 1 as [|a l l' P IH|a b l|l l' l'' _ IH _ IH']; cbn; [constructor| | |etransitivity; eassumption].
  - apply Permutation_app; [apply Permutation_map; exact P|exact IH].
  - rewrite (dist_sym b a). constructor. rewrite !app_assoc. apply Permutation_app_tail. apply Permutation_app_comm.
Qed.

(** An element counted by one test and not by the other. *)
Lemma count_gap f g l : (qcount f l < qcount g l)%nat -> exists a, In a l /\ g a = true /\ f a = false.
Proof.
  induction l as [|a t IH]; [cbn; lia|]. rewrite !qcount_cons. intros H.
  destruct (f a) eqn:E1, (g a) eqn:E2; cbn in H;
    first [exists a; split; [left; reflexivity|split; assumption]
          |destruct IH as [b [Hb Hc]]; [lia|exists b; split; [right; exact Hb|exact Hc]]].
Qed.
Lemma order_statistic_counts k l v :
  (qcount (fun x => qltb x v) l <= k < qcount (fun x => qleb x v) l)%nat -> order_statistic k l v.
Proof.
  intros H. split; [|exact H]. destruct (count_gap (fun x => qltb x v) (fun x => qleb x v) l) as [a [Ha [H1 H2]]]; [lia|].
  apply qleb_le in H1. apply qltb_ge in H2. assert (a = v) by qlra. subst a. exact Ha.
Qed.

(** Natural-number sums. *)
Fixpoint nsum (n : nat) (f : nat -> nat) : nat := match n with O => O | S k => (nsum k f + f k)%nat end.
Lemma nsum_S_l n f : nsum (S n) f = (f O + nsum n (fun i => f (S i)))%nat.
Proof. induction n as [|n IH]; [cbn; lia|]. change (nsum (S (S n)) f) with (nsum (S n) f + f (S n))%nat. rewrite IH. cbn. lia. Qed.
Lemma nsum_ext n f g : (forall i, (i < n)%nat -> f i = g i) -> nsum n f = nsum n g.
Proof. induction n as [|n IH]; intros H; cbn; [reflexivity|]. rewrite IH by (intros; apply H; lia). rewrite (H n) by lia. reflexivity. Qed.
Fixpoint zsum (n : nat) (f : nat -> Z) : Z := match n with O => 0%Z | S k => (zsum k f + f k)%Z end.
Lemma zsum_ext n f g : (forall i, (i < n)%nat -> f i = g i) -> zsum n f = zsum n g.
Proof. induction n as [|n IH]; intros H; cbn; [reflexivity|]. rewrite IH by (intros; apply H; lia). rewrite (H n) by lia. reflexivity. Qed.
Lemma zsum_add n f g : zsum n (fun i => f i + g i)%Z = (zsum n f + zsum n g)%Z.
Proof. induction n as [|n IH]; cbn; [reflexivity|]. rewrite IH. lia. Qed.
Lemma zsum_le n f g : (forall i, (i < n)%nat -> f i <= g i)%Z -> (zsum n f <= zsum n g)%Z.
Proof. induction n as [|n IH]; intros H; cbn; [lia|]. specialize (IH ltac:(intros; apply H; lia)). specialize (H n ltac:(lia)). lia. Qed.
Lemma zsum_lt n f g r : (r < n)%nat -> (forall i, (i < n)%nat -> f i <= g i)%Z -> (f r < g r)%Z -> (zsum n f < zsum n g)%Z.
Proof.
  induction n as [|n IH]; intros Hr H Hlt; cbn; [lia|]. destruct (Nat.eq_dec r n) as [-> | Ne].
  - pose proof (zsum_le n f g ltac:(intros; apply H; lia)). lia.
  - specialize (IH ltac:(lia) ltac:(intros; apply H; lia) Hlt). specialize (H n ltac:(lia)). lia.
Qed.
Lemma zsum_single n r c : (r < n)%nat -> zsum n (fun i => if Nat.eqb i r then c else 0%Z) = c.
Proof.
  induction n as [|n IH]; intros H; [lia|]. cbn [zsum]. destruct (Nat.eqb_spec n r) as [-> | Ne].
  - assert (forall m, (m <= r)%nat -> zsum m (fun i => if Nat.eqb i r then c else 0%Z) = 0%Z).
    { induction m as [|m IHm]; intros Hm; [reflexivity|]. cbn [zsum]. rewrite IHm by lia. destruct (Nat.eqb_spec m r); lia. }
    rewrite H0 by lia. lia.
  - rewrite IH by lia. lia.
Qed.
Lemma zsum_nsum n f : zsum n (fun i => Z.of_nat (f i)) = Z.of_nat (nsum n f).
Proof. induction n as [|n IH]; [reflexivity|]. cbn. rewrite IH. lia. Qed.
Lemma zsum_index n : (2 * zsum n (fun i => Z.of_nat i + 1) = Z.of_nat n * (Z.of_nat n + 1))%Z.
Proof. induction n as [|n IH]; [reflexivity|]. cbn [zsum]. lia. Qed.
Lemma ztotal_zsum l : ztotal l = zsum (length l) (fun i => nth i l 0%Z).
Proof.
  induction l as [|a t IH]; [reflexivity|]. cbn [ztotal fold_right length]. fold (ztotal t). rewrite IH.
  assert (G : forall n f, zsum (S n) f = (f O + zsum n (fun i => f (S i)))%Z).
  { induction n as [|n IHn]; intros f; [cbn; lia|]. change (zsum (S (S n)) f) with (zsum (S n) f + f (S n))%Z. rewrite IHn. cbn. lia. }
  rewrite G. reflexivity.
Qed.

(** Counting distances row by row in a sorted list. *)
Lemma count_distances f l : qsorted l ->
  qcount f (distances l) = nsum (length l) (fun i => qcount f (map (fun b => b - nth i l 0) (skipn (S i) l))).
Proof.
  induction l as [|a t IH]; intros Hs; [reflexivity|]. destruct Hs as [Ha Ht]. cbn [distances length].
  rewrite qcount_app, (IH Ht), nsum_S_l. f_equal.
  cbn [nth skipn]. f_equal. apply map_ext_in. intros b Hb. unfold dist. specialize (Ha b Hb). apply qleb_le in Ha. rewrite Ha. reflexivity.
Qed.

  (** if the first [c] entries of a row are the only ones that may pass the test, at most [c] do *)
  Lemma count_upper f (l : list Qc) c : (c <= length l)%nat -> (forall j, (c <= j < length l)%nat -> f (nth j l 0) = false) -> (qcount f l <= c)%nat.
  Proof.
    intros Hc H. rewrite <- (firstn_skipn c l), qcount_app. rewrite (qcount_none f (skipn c l)).
    - pose proof (qcount_le f (firstn c l)). rewrite firstn_length in H0. lia.
    - intros a Ha. apply (In_nth _ _ 0) in Ha. destruct Ha as [k [Hk <-]]. rewrite skipn_length in Hk. rewrite nth_skipn. apply H. lia.
  Qed.
  Lemma count_lower f (l : list Qc) c : (c <= length l)%nat -> (forall j, (j < c)%nat -> f (nth j l 0) = true) -> (c <= qcount f l)%nat.
  Proof.
    intros Hc H. rewrite <- (firstn_skipn c l), qcount_app. rewrite (qcount_all f (firstn c l)).
    - rewrite firstn_length. lia.
    - intros a Ha. apply (In_nth _ _ 0) in Ha. destruct Ha as [k [Hk <-]]. rewrite firstn_length in Hk. rewrite nth_firstn by lia. apply H. lia.
  Qed.

Section Sorted.
  Variable x : list Qc.
  Hypothesis Hs : qsorted x.
  Let n := length x.
  Let N := Z.of_nat n.
  (** entry of the matrix of differences *)
  Definition dm (i : nat) (j : Z) : Qc := nth (Z.to_nat j) x 0 - nth i x 0.
  Lemma dm_mono i j j' : (0 <= j <= j')%Z -> (j' < N)%Z -> dm i j <= dm i j'.
  Proof.
    intros H H'. unfold dm. assert (nth (Z.to_nat j) x 0 <= nth (Z.to_nat j') x 0) by (apply qsorted_nth; [exact Hs|unfold N, n in *; lia]). qlra.
  Qed.

  Definition sub_row (i : nat) (b : Qc) : Qc := b - nth i x 0.
  Lemma row_count_split f i : (i < n)%nat ->
    qcount f (map (sub_row i) x) =
    (qcount f (map (sub_row i) (firstn (S i) x)) + qcount f (map (sub_row i) (skipn (S i) x)))%nat.
  Proof. intros H. rewrite <- qcount_app, <- map_app, firstn_skipn. reflexivity. Qed.

  Lemma nth_row i j : (j < n)%nat -> nth j (map (sub_row i) x) 0 = dm i (Z.of_nat j).
  Proof.
    intros Hj. rewrite nth_indep with (d' := (sub_row i) 0) by (rewrite map_length; exact Hj).
    rewrite (map_nth (sub_row i)). unfold dm. rewrite Nat2Z.id. reflexivity.
  Qed.

  Lemma last_row_empty f : (0 < n)%nat -> nsum n (fun i => qcount f (map (sub_row i) (skipn (S i) x))) =
    nsum (n - 1) (fun i => qcount f (map (sub_row i) (skipn (S i) x))).
  Proof.
    intros H. replace n with (S (n - 1)) at 1 by lia. cbn [nsum]. rewrite (skipn_all2 x) by (unfold n in *; lia). cbn. unfold qcount. cbn. lia.
  Qed.

  (** The counting argument. *)
  Lemma rank_of_trial (tc : nat -> Z) t r k : (2 <= n)%nat ->
    (forall i, (i < n - 1)%nat -> (-1 <= tc i < N)%Z) ->
    (forall i j, (i < n - 1)%nat -> (0 <= j <= tc i)%Z -> dm i j <= t) ->
    (forall i j, (i < n - 1)%nat -> (tc i < j < N)%Z -> t <= dm i j) ->
    (r < n - 1)%nat -> (tc r + 1 < N)%Z -> dm r (tc r + 1) = t ->
    zsum (n - 1) (fun i => tc i - Z.of_nat i)%Z = Z.of_nat k ->
    order_statistic k (distances x) t.
  Proof.
    intros Hn Hr Hle Hge Hrow Hcol Ht Hk. apply order_statistic_counts.
    rewrite !(count_distances _ x Hs). fold sub_row. fold n. rewrite !last_row_empty by lia.
    assert (Low : forall i a, (i < n)%nat -> In a (map (sub_row i) (firstn (S i) x)) -> a <= 0).
    { intros i a Hi Ha. apply in_map_iff in Ha. destruct Ha as [b [<- Hb]]. apply (In_nth _ _ 0) in Hb. destruct Hb as [m [Hm <-]].
      rewrite firstn_length in Hm. rewrite nth_firstn by lia.
      assert (nth m x 0 <= nth i x 0) by (apply qsorted_nth; [exact Hs|unfold n in *; lia]). unfold sub_row. qlra. }
    assert (High : forall i a, (i < n)%nat -> In a (map (sub_row i) (skipn (S i) x)) -> 0 <= a).
    { intros i a Hi Ha. apply in_map_iff in Ha. destruct Ha as [b [<- Hb]]. apply (In_nth _ _ 0) in Hb. destruct Hb as [m [Hm <-]].
      rewrite skipn_length in Hm. rewrite nth_skipn.
      assert (nth i x 0 <= nth (S i + m) x 0) by (apply qsorted_nth; [exact Hs|unfold n in *; lia]). unfold sub_row. qlra. }
    split.
    - destruct (qltb 0 t) eqn:Et.
      + apply qltb_lt in Et. apply Nat2Z.inj_le. rewrite <- Hk, <- zsum_nsum. apply zsum_le. intros i Hi.
        pose proof (row_count_split (fun v => qltb v t) i ltac:(lia)) as S.
        rewrite (qcount_all _ (map _ (firstn (Datatypes.S i) x))) in S.
        2:{ intros a Ha. apply qltb_lt. specialize (Low i a ltac:(lia) Ha). qlra. }
        rewrite map_length, firstn_length in S.
        assert (U : (qcount (fun v => qltb v t) (map (sub_row i) x) <= Z.to_nat (tc i + 1))%nat).
        { specialize (Hr i Hi). apply count_upper; rewrite map_length; fold n; [unfold N in *; lia|].
          intros j Hj. rewrite nth_row by lia. apply qltb_ge. apply Hge; [exact Hi|unfold N; lia]. }
        specialize (Hr i Hi). unfold n in *. lia.
      + apply qltb_ge in Et. assert (Z0 : forall m, (m <= n - 1)%nat -> nsum m (fun i => qcount (fun v => qltb v t) (map (sub_row i) (skipn (S i) x))) = O).
        { induction m as [|m IH]; intros Hm; [reflexivity|]. cbn [nsum]. rewrite IH by lia. rewrite qcount_none; [reflexivity|].
          intros a Ha. apply qltb_ge. specialize (High m a ltac:(lia) Ha). qlra. }
        rewrite Z0 by lia. lia.
    - apply Nat2Z.inj_lt. rewrite <- Hk, <- zsum_nsum. 
      assert (B : forall i, (i < n - 1)%nat -> forall c, (c <= n)%nat -> (forall j, (j < c)%nat -> dm i (Z.of_nat j) <= t) ->
        (Z.of_nat c - Z.of_nat i - 1 <= Z.of_nat (qcount (fun v => qleb v t) (map (sub_row i) (skipn (S i) x))))%Z).
      { intros i Hi c Hc Hj. pose proof (row_count_split (fun v => qleb v t) i ltac:(lia)) as S.
        assert (U : (c <= qcount (fun v => qleb v t) (map (sub_row i) x))%nat).
        { apply count_lower; [rewrite map_length; fold n; lia|]. intros j Hjc. rewrite nth_row by lia. apply qleb_le, Hj, Hjc. }
        pose proof (qcount_le (fun v => qleb v t) (map (sub_row i) (firstn (Datatypes.S i) x))) as L.
        rewrite map_length, firstn_length in L. unfold n in *. lia. }
      apply (zsum_lt _ _ _ r Hrow).
      + intros i Hi. specialize (Hr i Hi). specialize (B i Hi (Z.to_nat (tc i + 1)) ltac:(unfold N in *; lia)).
        assert (E : forall j, (j < Z.to_nat (tc i + 1))%nat -> dm i (Z.of_nat j) <= t) by (intros j Hj; apply Hle; [exact Hi|lia]).
        specialize (B E). lia.
      + specialize (Hr r Hrow). specialize (B r Hrow (Z.to_nat (tc r + 2)) ltac:(unfold N in *; lia)).
        assert (E : forall j, (j < Z.to_nat (tc r + 2))%nat -> dm r (Z.of_nat j) <= t).
        { intros j Hj. rewrite <- Ht. apply dm_mono; lia. }
        specialize (B E). lia.
  Qed.

  (** Bisection. *)
  Lemma zn_nat j : (0 <= j)%Z -> zn x j = nth (Z.to_nat j) x 0.
  Proof. intros H. unfold zn. destruct (Z.ltb_spec j 0); [lia|reflexivity]. Qed.
  Lemma bisect_ok tv : forall fuel ia ib, (0 <= ia < ib)%Z -> (ib < N)%Z -> (ib - ia <= Z.of_nat fuel)%Z ->
    zn x ia <= tv -> tv <= zn x ib ->
    let c := bisect fuel x tv ia ib in (ia <= c < ib)%Z /\ zn x c <= tv /\ tv <= zn x (c + 1).
  Proof.
    induction fuel as [|f IH]; intros ia ib H1 H2 Hf La Lb; [lia|]. cbn [bisect].
    destruct (Z.leb_spec (ib - ia) 1) as [L | L].
    - assert (ib = ia + 1)%Z by lia. subst ib. split; [lia|]. split; assumption.
    - pose proof (Z.div_mod (ib + ia) 2 ltac:(lia)). pose proof (Z.mod_pos_bound (ib + ia) 2 ltac:(lia)).
      set (m := ((ib + ia) / 2)%Z) in *. assert (ia < m < ib)%Z by lia.
      destruct (qltb (zn x m) tv) eqn:E1.
      + apply qltb_lt in E1. destruct (IH m ib) as [A [B C]]; try lia; [qlra|exact Lb|]. split; [lia|]. split; assumption.
      + apply qltb_ge in E1. destruct (qltb tv (zn x m)) eqn:E2.
        * apply qltb_lt in E2. destruct (IH ia m) as [A [B C]]; try lia; [exact La|qlra|]. split; [lia|]. split; assumption.
        * apply qltb_ge in E2. split; [lia|]. replace (m - 1 + 1)%Z with m by lia. split; [|exact E1].
          rewrite zn_nat in * by lia. assert (nth (Z.to_nat (m - 1)) x 0 <= nth (Z.to_nat m) x 0) by (apply qsorted_nth; [exact Hs|unfold N, n in *; lia]). qlra.
  Qed.

  (** The state of the search. *)
  Variable K : Z.
  Record good_rows (l r : nat -> Z) : Prop := {
    gr_range : forall i, (i < n - 1)%nat -> (0 <= l i <= r i + 1)%Z /\ (r i < N)%Z;
    gr_left : forall i j i' j', (i < n - 1)%nat -> (i' < n - 1)%nat -> (0 <= j < l i)%Z -> (l i' <= j' < N)%Z -> dm i j <= dm i' j';
    gr_right : forall i j i' j', (i < n - 1)%nat -> (i' < n - 1)%nat -> (0 <= j <= r i)%Z -> (r i' < j' < N)%Z -> dm i j <= dm i' j';
    gr_low : (zsum (n - 1) l <= K)%Z;
    gr_high : (K < zsum (n - 1) (fun i => r i + 1))%Z }.

  Definition column (t : Qc) (trow : nat) (tcol : Z) (l r : nat -> Z) (i : nat) : Z :=
    trial_column x t trow tcol (i, (l i, r i)).

  Lemma le_sub a b c : a <= b + c <-> a - c <= b. Proof. split; intros; qlra. Qed.
  Lemma ge_sub a b c : b + c <= a <-> b <= a - c. Proof. split; intros; qlra. Qed.

  (** A trial from a non-empty row splits every row. *)
  Lemma column_ok l r trow tcol t : (2 <= n)%nat -> good_rows l r -> (trow < n - 1)%nat -> (l trow <= tcol <= r trow)%Z -> t = dm trow tcol ->
    forall i, (i < n - 1)%nat -> let c := column t trow tcol l r i in
      (l i - 1 <= c <= r i)%Z /\ (forall j, (0 <= j <= c)%Z -> dm i j <= t) /\ (forall j, (c < j < N)%Z -> t <= dm i j).
  Proof.
    intros Hn G Hrow Hcol Ht i Hi. pose proof (gr_range _ _ G i Hi) as Ri. pose proof (gr_range _ _ G trow Hrow) as Rr. subst t.
    unfold column, trial_column. destruct (Nat.eqb_spec i trow) as [-> | Ne].
    - split; [lia|]. split; intros j Hj; apply dm_mono; lia.
    - destruct (Z.ltb_spec (r i) (l i)) as [L | L]; cbn [orb].
      + split; [lia|]. split; intros j Hj.
        * apply (gr_left _ _ G); lia.
        * apply (gr_right _ _ G); lia.
      + destruct (qleb (dm trow tcol + nth i x 0) (zn x (l i))) eqn:E1.
        * apply qleb_le in E1. rewrite zn_nat in E1 by lia. apply ge_sub in E1. fold (dm i (l i)) in E1.
          split; [lia|]. split; intros j Hj.
          -- apply (gr_left _ _ G); lia.
          -- eapply Qcle_trans; [exact E1|]. apply dm_mono; lia.
        * apply qleb_gt in E1. destruct (qleb (zn x (r i)) (dm trow tcol + nth i x 0)) eqn:E2.
          -- apply qleb_le in E2. rewrite zn_nat in E2 by lia. apply le_sub in E2. fold (dm i (r i)) in E2.
             split; [lia|]. split; intros j Hj.
             ++ eapply Qcle_trans; [|exact E2]. apply dm_mono; lia.
             ++ apply (gr_right _ _ G); lia.
          -- apply qleb_gt in E2.
             assert (NE : l i <> r i). { intros C. rewrite C in E1. qlra. }
             destruct (bisect_ok (dm trow tcol + nth i x 0) (length x) (l i) (r i)) as [A [B C]]; try lia; try (unfold N, n in *; lia); [qlra|qlra|].
             set (c := bisect _ _ _ _ _) in *. clearbody c. rewrite zn_nat in B, C by lia. apply le_sub in B. apply ge_sub in C. fold (dm i c) in B. fold (dm i (c + 1)) in C.
             split; [lia|]. split; intros j Hj.
             ++ eapply Qcle_trans; [|exact B]. apply dm_mono; lia.
             ++ eapply Qcle_trans; [exact C|]. apply dm_mono; lia.
  Qed.

  (** A trial taken from an empty row is an entry discarded earlier: no other row moves. *)
  Lemma column_empty l r trow tcol t : good_rows l r -> (trow < n - 1)%nat -> (r trow < l trow)%Z ->
    tcol = (l trow - 1)%Z -> (0 <= tcol)%Z -> t = dm trow tcol ->
    forall i, (i < n - 1)%nat -> column t trow tcol l r i = (l i - 1 - (if Nat.eqb i trow then 1 else 0))%Z.
  Proof.
    intros G Hrow He Hc Hc0 Ht i Hi. unfold column, trial_column. destruct (Nat.eqb_spec i trow) as [-> | Ne]; [lia|].
    pose proof (gr_range _ _ G i Hi) as Ri. destruct (Z.ltb_spec (r i) (l i)) as [L | L]; cbn [orb]; [lia|].
    assert (E : qleb (t + nth i x 0) (zn x (l i)) = true); [|rewrite E; lia].
    apply qleb_le. rewrite zn_nat by lia. apply ge_sub. fold (dm i (l i)). subst t. apply (gr_left _ _ G); lia.
  Qed.

  Lemma good_right l r trow tcol t : (2 <= n)%nat -> good_rows l r -> (trow < n - 1)%nat -> (l trow <= tcol <= r trow)%Z -> t = dm trow tcol ->
    (K < zsum (n - 1) (fun i => column t trow tcol l r i + 1))%Z -> good_rows l (column t trow tcol l r).
  Proof.
    intros Hn G Hrow Hcol Ht Hk. pose proof (column_ok l r trow tcol t Hn G Hrow Hcol Ht) as C. constructor.
    - intros i Hi. destruct (C i Hi) as [A _]. pose proof (gr_range _ _ G i Hi). cbv zeta in A. lia.
    - exact (gr_left _ _ G).
    - intros i j i' j' Hi Hi' Hj Hj'. destruct (C i Hi) as [_ [A _]], (C i' Hi') as [_ [_ B]].
      eapply Qcle_trans; [apply A; exact Hj|apply B; exact Hj'].
    - exact (gr_low _ _ G).
    - exact Hk.
  Qed.
  Lemma good_left l r trow tcol t : (2 <= n)%nat -> good_rows l r -> (trow < n - 1)%nat -> (l trow <= tcol <= r trow)%Z -> t = dm trow tcol ->
    (zsum (n - 1) (fun i => column t trow tcol l r i + 1) < K)%Z ->
    good_rows (fun i => column t trow tcol l r i + 1 + (if Nat.eqb i trow then 1 else 0))%Z r.
  Proof.
    intros Hn G Hrow Hcol Ht Hk. pose proof (column_ok l r trow tcol t Hn G Hrow Hcol Ht) as C.
    assert (CT : column t trow tcol l r trow = (tcol - 1)%Z) by (unfold column, trial_column; rewrite Nat.eqb_refl; reflexivity).
    constructor.
    - intros i Hi. destruct (C i Hi) as [A _]. pose proof (gr_range _ _ G i Hi). cbv zeta in A.
      destruct (Nat.eqb_spec i trow) as [-> | Ne]; lia.
    - intros i j i' j' Hi Hi' Hj Hj'. destruct (C i Hi) as [_ [A _]], (C i' Hi') as [_ [_ B]].
      eapply Qcle_trans with t.
      + destruct (Nat.eqb_spec i trow) as [-> | Ne]; [|apply A; lia]. rewrite CT in Hj. subst t.
        pose proof (gr_range _ _ G trow Hrow). apply dm_mono; lia.
      + apply B. destruct (Nat.eqb i' trow); lia.
    - exact (gr_right _ _ G).
    - rewrite (zsum_add (n - 1) (fun i => column t trow tcol l r i + 1)%Z), zsum_single by exact Hrow. lia.
    - exact (gr_high _ _ G).
  Qed.
End Sorted.
