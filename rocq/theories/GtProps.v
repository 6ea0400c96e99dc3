(* C90: segments, masks and the report of a group; C91: external triggers *)
From Coq Require Import ZArith Bool Lia QArith QArith.Qcanon Lqa String List.
From Verif Require Import QcPre LjhModel LjhSpec LjhProofs LjhEdit ArrModel ArrSpec ArrProofs GtModel GtSpec GtProofs.
Import ListNotations.
Open Scope Z_scope.

(* ---- C90 ---- *)

(* a pulse is in the segment whose range holds it *)
Theorem segment_number : forall n per i s, 0 < per -> 0 <= i < n ->
  (sample2segnum n per i = Some s <-> fst (segnum2sample_range per s) <= i < snd (segnum2sample_range per s)).
Proof.
  intros n per i s P H. unfold sample2segnum, segnum2sample_range. cbn [fst snd].
  destruct (Z.leb_spec n i); [lia|]. destruct (Z.eqb_spec per 0); [lia|].
  pose proof (Z.div_mod i per ltac:(lia)). pose proof (Z.mod_pos_bound i per P). split.
  - intros E. injection E as <-. nia.
  - intros R. f_equal. nia.
Qed.
(* past the end: the last segment *)
Theorem segment_past_end : forall n per i, 0 < n -> n <= i -> sample2segnum n per i = sample2segnum n per (n - 1).
Proof.
  intros n per i N H. unfold sample2segnum. destruct (Z.leb_spec n i); [|lia]. destruct (Z.leb_spec n (n - 1)); [lia|]. reflexivity.
Qed.

(* setting the segment size of a group: when it raises, and what each file then has *)
Theorem group_size_raises : forall size files s,
  snd (group_segment_size size files s) = true <->
  files = [] \/ (exists o, In o files /\ size < Z.of_nat (pulse_size o)) \/
  (exists o o' k k', In o files /\ In o' files /\ holds (Z.of_nat (pulse_size o)) size k /\ holds (Z.of_nat (pulse_size o')) size k' /\ k <> k').
Proof.
  intros size files s. unfold group_segment_size. pose proof (size_loop_spec size files 0) as Sp.
  destruct (size_loop size files 0) as [[m l] r]. destruct Sp as [S1 S2].
  assert (PS : forall o, 0 < Z.of_nat (pulse_size o)) by (intros o; unfold pulse_size; destruct (v22 o); lia).
  destruct r.
  - simpl. split; [|reflexivity]. intros _. right. left. now apply S1.
  - destruct (S2 eq_refl) as [F M]. assert (NB : ~ exists o, In o files /\ size < Z.of_nat (pulse_size o)) by (intros X; apply S1 in X; discriminate).
    destruct l as [|per l].
    + inversion F; subst. simpl. split; auto.
    + destruct files as [|o files]; [inversion F|]. inversion F as [|? ? ? ? [_ HO] F']; subst. cbn [snd].
      assert (AL : forall x k, In x (o :: files) -> holds (Z.of_nat (pulse_size x)) size k -> In k (per :: l)).
      { intros x k Hx Hk. clear - F Hx Hk PS. revert Hx. induction F as [|x' k' files' l' [_ H1] F IH]; intros Hx; [contradiction|destruct Hx as [<- | Hx]].
        - left. eapply holds_unique; [apply PS| |]; eassumption.
        - right. now apply IH. }
      rewrite negb_true_iff. split.
      * intros E. right. right. assert (X : exists k, In k (per :: l) /\ k <> per).
        { clear - E. induction (per :: l) as [|x t IH] in E |- *; [discriminate|]. simpl in E. destruct (Z.eqb_spec per x).
          - simpl in E. destruct (IH E) as (k & I1 & I2). exists k. split; [now right|exact I2].
          - exists x. split; [now left|congruence]. }
        destruct X as (k & Ik & Nk).
        assert (Y : exists x, In x (o :: files) /\ holds (Z.of_nat (pulse_size x)) size k).
        { clear - F Ik. induction F as [|x' k' files' l' [_ H1] F IH]; [contradiction|]. destruct Ik as [<- | Ik].
          - exists x'. split; [now left|exact H1].
          - destruct (IH Ik) as (x & I1 & I2). exists x. split; [now right|exact I2]. }
        destruct Y as (x & Ix & Hx). exists o, x, per, k. repeat split; auto; try apply HO; try apply Hx. now left.
      * intros [X | [X | (x & x' & k & k' & Ix & Ix' & Hk & Hk' & N)]]; [discriminate|tauto|].
        apply not_true_iff_false. intros E. rewrite forallb_forall in E.
        pose proof (E _ (AL _ _ Ix Hk)) as E1. pose proof (E _ (AL _ _ Ix' Hk')) as E2. apply Z.eqb_eq in E1. apply Z.eqb_eq in E2. congruence.
Qed.
Theorem group_size_set : forall size files s s', group_segment_size size files s = (s', false) ->
  exists per, pulses_per_seg s' = Some per /\ 1 <= per /\ n_segments s' = per /\
    forall o, In o files -> holds (Z.of_nat (pulse_size o)) size per.
Proof.
  intros size files s s'. unfold group_segment_size. pose proof (size_loop_spec size files 0) as Sp.
  destruct (size_loop size files 0) as [[m l] r]. destruct Sp as [S1 S2]. destruct r; [discriminate|].
  destruct (S2 eq_refl) as [F M]. destruct l as [|per l]; [discriminate|]. intros E.
  injection E as <- E. apply negb_false_iff in E. exists per. split; [reflexivity|].
  assert (P1 : 1 <= per) by (inversion F as [|? ? ? ? [H _] _]; exact H). split; [exact P1|]. split.
  - cbn [n_segments]. rewrite M. apply fold_max_const; [exact E|lia|discriminate].
  - intros o Ho. change (forallb (Z.eqb per) (per :: l) = true) in E. clear - F E Ho. rewrite forallb_forall in E. revert E F. generalize (per :: l). intros L E F. revert E. induction F as [|x k files' l' [_ H1] F IH]; intros E; [contradiction|].
    destruct Ho as [<- | Ho].
    + rewrite <- (proj1 (Z.eqb_eq _ _) (E k (or_introl eq_refl))) in H1. exact H1.
    + apply IH; [exact Ho|]. intros y Hy. apply E. now right.
Qed.
(* so the number of segments kept by the group is not the number of segments *)
Definition small_file : ljh := mkLjh [] 0 true 2 0 1%Qc 1 0 (repeat 0 60).
Theorem group_n_segments_refuted : exists size files s s' per n, group_segment_size size files s = (s', false) /\
  (forall o, In o files -> set_segment_size o size = Some (per, n)) /\ files <> [] /\ n_segments s' <> n.
Proof.
  exists 20, [small_file], (mkSegments 0 None), (mkSegments 1 (Some 1)), 1, 3.
  split; [vm_compute; reflexivity|]. split; [intros o [<- | []]; vm_compute; reflexivity|]. split; [discriminate|]. simpl. lia.
Qed.

(* a mask is true for the good pulses in the range, the value divided by the gain *)
Theorem mask_right : forall a p r gains ds bads w lo hi masks i gain d m j v g,
  make_masks a p r (Some gains) ds bads = (fst (make_masks a p r (Some gains) ds bads), Some masks) ->
  choose a p r = Some (w, (lo, hi)) ->
  nth_error gains i = Some gain -> nth_error ds i = Some d -> nth_error masks i = Some m ->
  nth_error (vector w d) j = Some v -> nth_error (good d) j = Some g ->
  exists x, nth_error m j = Some x /\ (x = true <-> g = true /\ gain <> 0%Qc /\ within lo hi (v / gain)%Qc).
Proof.
  intros a p r gains ds bads w lo hi masks i gain d m j v g E C Hg Hd Hm Hv HG. unfold make_masks in E. rewrite C in E.
  cbn [fst] in E. injection E as E. subst masks.
  rewrite zip3_nth, Hg, Hd in Hm. injection Hm as <-. rewrite zip3_nth, Hv, HG. eexists. split; [reflexivity|].
  unfold mask1. rewrite andb_true_iff. destruct (Qc_eq_dec gain 0) as [Z0|Z0].
  - split; [intros [X _]; discriminate|intros (_ & X & _); contradiction].
  - rewrite mask_within. tauto.
Qed.
(* without gains: the value itself *)
Theorem mask_no_gains : forall a p r ds bads, make_masks a p r None ds bads = make_masks a p r (Some (repeat 1%Qc (List.length ds))) ds bads.
Proof. reflexivity. Qed.
(* the last of the three ranges given is used; without any it raises *)
Theorem mask_choice : forall a p r x,
  choose a p (Some x) = Some (Rms, x) /\ choose a (Some x) None = Some (Peak, x) /\ choose (Some x) None None = Some (Average, x) /\
  (forall gains ds bads, snd (make_masks a p r gains ds bads) = None <-> a = None /\ p = None /\ r = None).
Proof.
  intros a p r x. split; [reflexivity|]. split; [reflexivity|]. split; [reflexivity|].
  intros gains ds bads. unfold make_masks. cbn [snd].
  destruct a as [[? ?]|], p as [[? ?]|], r as [[? ?]|]; simpl; split; intros H; try discriminate; auto; destruct H as (? & ? & ?); discriminate.
Qed.
(* one mask for each channel that has a gain *)
Theorem masks_number : forall a p r gains ds bads masks, snd (make_masks a p r (Some gains) ds bads) = Some masks ->
  List.length masks = Nat.min (List.length gains) (List.length ds).
Proof.
  intros a p r gains ds bads masks. unfold make_masks. cbn [snd]. destruct (choose a p r) as [[w [lo hi]]|]; [|discriminate].
  intros E. injection E as <-. apply zip3_length.
Qed.
(* channels without pulses are marked bad, whether or not it raises *)
Theorem empty_marked : forall a p r gains ds bads c,
  In c (fst (make_masks a p r gains ds bads)) <-> In c bads \/ exists d, In d ds /\ channum d = c /\ good d = [].
Proof.
  intros a p r gains ds bads c. unfold make_masks, mark_empty. cbn [fst]. rewrite in_app_iff, in_map_iff. split.
  - intros [H | (d & E & H)]; [now left|]. apply filter_In in H. destruct H as [H1 H2]. apply andb_true_iff in H2.
    right. exists d. repeat split; auto. destruct H2 as [_ H2]. apply Nat.eqb_eq in H2. unfold n_pulses in H2. now destruct (good d).
  - intros [H | (d & H1 & E & H2)]; [now left|]. destruct (in_dec Z.eq_dec c bads) as [I|I]; [now left|]. right. exists d. split; [exact E|].
    apply filter_In. split; [exact H1|]. unfold n_pulses. rewrite H2. simpl. rewrite andb_true_r, negb_true_iff.
    apply not_true_iff_false. intros X. apply existsb_exists in X. destruct X as (y & Iy & Ey). apply Z.eqb_eq in Ey. subst. contradiction.
Qed.
(* averages: each good channel once with its own mask, in order *)
Theorem average_good_only : forall (M : Type) (fails : Z -> M -> bool) bads masks channels calls,
  compute_average_pulse fails bads masks channels = (calls, false) ->
  List.length masks = List.length channels /\
  exists ms, masks = map Some ms /\ calls = filter (fun cm => negb (existsb (Z.eqb (fst cm)) bads)) (combine channels ms) /\
             forall c m, In (c, m) calls -> fails c m = false.
Proof.
  intros M fails bads masks channels calls. unfold compute_average_pulse.
  destruct (Nat.eqb_spec (List.length masks) (List.length channels)) as [L|L]; [|discriminate]. simpl. intros H. split; [exact L|].
  destruct (all_some masks) as [ms|] eqn:A; [|discriminate].
  assert (E : masks = map Some ms).
  { clear - A. revert ms A. induction masks as [|[m|] masks IH]; intros ms A; simpl in A; try discriminate.
    - injection A as <-. reflexivity.
    - destruct (all_some masks) as [t|]; [|discriminate]. injection A as <-. simpl. now rewrite (IH t eq_refl). }
  exists ms. split; [exact E|]. subst masks. rewrite map_length in L. clear A.
  revert channels calls L H. induction ms as [|m ms IH]; intros [|c channels] calls L H; try discriminate.
  - injection H as <-. split; [reflexivity|]. intros ? ? [].
  - injection L as L. cbn [average_loop combine filter fst] in *. destruct (existsb (Z.eqb c) bads).
    + simpl. now apply IH.
    + simpl. destruct (fails c m) eqn:F; [discriminate|]. destruct (average_loop fails bads ms channels) as [l r] eqn:EL.
      injection H as <- ->. destruct (IH _ _ L EL) as [I1 I2]. split; [now rewrite I1|].
      intros c' m' [X | X]; [injection X as <- <-; exact F|now apply I2].
Qed.
Theorem average_refused : forall (M : Type) (fails : Z -> M -> bool) bads masks channels,
  List.length masks <> List.length channels \/ In None masks -> compute_average_pulse fails bads masks channels = ([], true).
Proof.
  intros M fails bads masks channels H. unfold compute_average_pulse.
  destruct (Nat.eqb_spec (List.length masks) (List.length channels)) as [L|L]; [|reflexivity]. destruct H as [H | H]; [contradiction|]. simpl.
  replace (all_some masks) with (@None (list M)); [reflexivity|]. symmetry. clear L. induction masks as [|[m|] masks IH]; [contradiction| |reflexivity].
  destruct H as [H | H]; [discriminate|]. simpl. now rewrite (IH H).
Qed.

(* the report of a channel *)
Lemma qz_pos : forall z, 0 < z -> (0 < qz z)%Qc.
Proof. intros z H. unfold qz, Qclt. rewrite !this_Q2Qc. unfold Qlt. simpl. lia. Qed.
Lemma qz_le : forall a b, a <= b -> (qz a <= qz b)%Qc.
Proof. intros a b H. unfold qz, Qcle. rewrite !this_Q2Qc. unfold Qle. simpl. lia. Qed.
Lemma qz_inj : forall a b, qz a = qz b -> a = b.
Proof. intros a b H. apply Qc_eq_this in H. unfold qz in H. rewrite !this_Q2Qc in H. unfold Qeq in H. simpl in H. lia. Qed.
Lemma qdiv_mul : forall a b, b <> 0%Qc -> (a / b * b = a)%Qc.
Proof. intros a b H. field. exact H. Qed.
Theorem report_right : forall g times r, List.length times = List.length g -> report1 g times = Some r ->
  exists i j first last, good_from_to g i j /\ nth_error times i = Some first /\ nth_error times j = Some last /\
    r_pulses r = Z.of_nat j - Z.of_nat i + 1 /\ r_dt r = (last - first)%Qc /\
    (forall rate, r_rate r = Some rate -> (rate * r_dt r = qz (r_pulses r - 1))%Qc) /\ (r_rate r = None <-> r_dt r = 0%Qc) /\
    (r_good r * qz (r_pulses r) = qz 100 * qz (number_good g))%Qc /\
    (0 < r_good r)%Qc /\ (r_good r <= qz 100)%Qc /\
    (r_good r = qz 100 <-> forall k, (i <= k <= j)%nat -> nth_error g k = Some true).
Proof.
  intros g times r L. unfold report1.
  destruct (select g times) as [|first t1] eqn:E1; [discriminate|]. rewrite <- E1.
  destruct (rev (select g times)) as [|last t2] eqn:E2; [discriminate|].
  destruct (rev (select g (seq 0 (List.length g)))) as [|k t3] eqn:E3; [discriminate|]. intros H.
  destruct (select_first g times first t1 L E1) as (i & G1 & T1 & M1 & A).
  destruct (select_last g times last t2 L E2) as (j & G2 & T2 & M2).
  destruct (select_last g (seq 0 (List.length g)) k t3 (seq_length _ _) E3) as (j' & G3 & T3 & M3).
  assert (j' = j) by (pose proof (M3 _ G2); pose proof (M2 _ G3); lia). subst j'.
  assert (k = j).
  { apply nth_error_nth with (d := 0%nat) in T3. rewrite seq_nth in T3; [lia|]. apply nth_error_Some. congruence. }
  subst k. rewrite A in H.
  assert (GF : good_from_to g i j).
  { split; [exact G1|]. split; [exact G2|]. intros k Hk. split; [now apply M1|now apply M2]. }
  destruct (count_bound g i j GF) as [C1 C2]. pose proof (M1 _ G2) as IJ.
  exists i, j, first, last. split; [exact GF|]. split; [exact T1|]. split; [exact T2|].
  assert (R : r = mkReported (Z.of_nat j - Z.of_nat i + 1)
    (if Qc_eq_dec (last - first) 0 then None else Some (qz (Z.of_nat j - Z.of_nat i + 1 - 1) / (last - first))%Qc)
    (last - first) (qz 100 * qz (number_good g) / qz (Z.of_nat j - Z.of_nat i + 1))).
  { unfold number_good. rewrite <- count_filter. congruence. }
  subst r. clear H. cbn [r_pulses r_dt r_rate r_good]. split; [reflexivity|]. split; [reflexivity|].
  assert (NP : 0 < Z.of_nat j - Z.of_nat i + 1) by lia.
  pose proof (qz_pos _ NP) as QP. assert (QN : qz (Z.of_nat j - Z.of_nat i + 1) <> 0%Qc) by (intros X; rewrite X in QP; qlra).
  split; [|split; [|split; [|apply and_assoc; split]]].
  - intros rate. destruct (Qc_eq_dec (last - first) 0) as [Z0|Z0]; [discriminate|]. intros X. injection X as <-. now apply qdiv_mul.
  - destruct (Qc_eq_dec (last - first) 0); split; auto; try discriminate. contradiction.
  - now apply qdiv_mul.
  - assert (B1 : (qz 1 <= qz (number_good g))%Qc) by (apply qz_le; unfold number_good; lia).
    assert (B2 : (qz (number_good g) <= qz (Z.of_nat j - Z.of_nat i + 1))%Qc) by (apply qz_le; unfold number_good; lia).
    assert (H1 : (0 < qz 1)%Qc) by (apply qz_pos; lia). assert (H100 : (0 < qz 100)%Qc) by (apply qz_pos; lia).
    set (N := qz (Z.of_nat j - Z.of_nat i + 1)) in *. set (K := qz (number_good g)) in *. set (h := qz 100) in *.
    pose proof (qdiv_mul (h * K) N QN) as D. set (q := (h * K / N)%Qc) in *.
    clearbody q N K h. revert D QP B1 B2 H1 H100. generalize (qz 1). clear. intros one D QP B1 B2 H1 H100. split.
    + destruct (Qclt_le_dec 0 q) as [X|X]; [exact X|]. exfalso. qnra.
    + destruct (Qclt_le_dec h q) as [X|X]; [|exact X]. exfalso. qnra.
  - assert (H100 : (0 < qz 100)%Qc) by (apply qz_pos; lia). rewrite <- C2. split.
    + intros X. assert (Y : (qz 100 * qz (number_good g) = qz 100 * qz (Z.of_nat j - Z.of_nat i + 1))%Qc) by (rewrite <- X at 2; symmetry; now apply qdiv_mul).
      assert (W : qz (number_good g) = qz (Z.of_nat j - Z.of_nat i + 1)).
      { clear - Y H100. set (a := qz (number_good g)) in *. set (b := qz (Z.of_nat j - Z.of_nat i + 1)) in *. set (h := qz 100) in *. clearbody a b h.
        assert (h <> 0%Qc) by (intros X; rewrite X in H100; qlra).
        rewrite <- (Qcmult_1_l a), <- (Qcmult_1_l b), <- (Qcmult_inv_l h H), <- !Qcmult_assoc. now rewrite Y. }
      apply qz_inj in W. unfold number_good in W. lia.
    + intros X. replace (number_good g) with (Z.of_nat j - Z.of_nat i + 1) by (unfold number_good; lia). field. exact QN.
Qed.
(* it stops with an exception at the first channel without a good pulse *)
Theorem report_stops : forall l, Forall (fun gt => List.length (snd gt) = List.length (fst gt)) l ->
  (snd (report l) = true <-> exists gt, In gt l /\ ~ In true (fst gt)) /\
  (snd (report l) = false -> List.length (fst (report l)) = List.length l).
Proof.
  intros l F. induction F as [|[g times] l H F [I1 I2]]; simpl in *.
  - split; [split; [discriminate|intros (? & [] & _)]|reflexivity].
  - assert (N : report1 g times = None <-> ~ In true g).
    { unfold report1. destruct (select g times) as [|x t] eqn:E1.
      - split; [|reflexivity]. intros _ X. apply In_nth_error in X. destruct X as [k Hk]. exact (proj1 (select_nil g times H) E1 k Hk).
      - destruct (select_first g times x t H E1) as (i & G1 & _). split; [|intros X; exfalso; apply X; eapply nth_error_In; exact G1].
        destruct (rev (x :: t)) as [|y t'] eqn:E2; [apply (f_equal (@List.length Qc)) in E2; rewrite rev_length in E2; discriminate|].
        destruct (rev (select g (seq 0 (List.length g)))) as [|k t3] eqn:E3; [|discriminate].
        intros _ _. assert (X : select g (seq 0 (List.length g)) = []) by (rewrite <- (rev_involutive (select _ _)), E3; reflexivity).
        exact (proj1 (select_nil g _ (seq_length _ _)) X i G1). }
    destruct (report1 g times) as [r|] eqn:E.
    + destruct (report l) as [out raised]. simpl in *. split.
      * rewrite I1. split; [intros (x & X1 & X2); exists x; auto|]. intros (x & [<- | X1] & X2); [|eauto]. apply N in X2. discriminate.
      * intros R. f_equal. now apply I2.
    + simpl. split; [|discriminate]. split; [|reflexivity]. intros _. exists (g, times). split; [now left|]. now apply N.
Qed.

(* ---- C91 ---- *)

(* a binary file: the counts, and the divisions its header names, for the group and every channel *)
Theorem triggers_read : forall x n counts tail frame c s d0,
  ~ In 10 x -> (List.length tail < 8)%nat -> Forall (fun v => - 2 ^ 63 <= v < 2 ^ 63) counts -> n <> 0 ->
  held s = None -> get (ds_divisions s) c = Some d0 ->
  trigger_count (mkFiles None (Some (x ++ bs "(nrow=" ++ py_str n ++ [41; 10] ++ flat_map eight_bytes counts ++ tail))) frame (Some c) s =
  (mkTriggers (Some counts) (Some n) (Some (frame / qz n)%Qc) (set_all n (ds_divisions s)) (set_all (frame / qz n)%Qc (ds_sub_time s)),
   Some counts).
Proof.
  intros x n counts tail frame c s d0 Hx Ht F N Hs Hd. unfold trigger_count, read_counts. rewrite Hs, Hd. cbn [hdf5 binary].
  assert (NL : ~ In 10 (x ++ bs "(nrow=" ++ py_str n ++ [41])).
  { intros X. apply in_app_or in X. destruct X as [X | X]; [now apply Hx|]. apply in_app_or in X. destruct X as [X | X]; [simpl in X; intuition; lia|].
    apply in_app_or in X. destruct X as [X | X]; [now apply py_str_no_newline in X|]. simpl in X. intuition; lia. }
  replace (x ++ bs "(nrow=" ++ py_str n ++ [41; 10] ++ flat_map eight_bytes counts ++ tail)
    with ((x ++ bs "(nrow=" ++ py_str n ++ [41]) ++ 10 :: (flat_map eight_bytes counts ++ tail)).
  2:{ rewrite <- !app_assoc. reflexivity. }
  rewrite take_line_nl by exact NL.
  replace ((x ++ bs "(nrow=" ++ py_str n ++ [41]) ++ [10]) with (x ++ bs "(nrow=" ++ py_str n ++ [41; 10]) by (rewrite <- !app_assoc; reflexivity).
  rewrite nrow_found.
  2:{ unfold py_str. assert (G : forall u, ~ In 40 (of_uint u)).
      { intros u X. pose proof (of_uint_digit u) as D. rewrite Forall_forall in D. specialize (D _ X). discriminate. }
      destruct (Z.to_int n); [apply G|]. intros [X | X]; [lia|]. now apply G in X. }
  rewrite py_int_str, int64s_encoded by assumption. destruct (Z.eqb_spec n 0); [contradiction|]. reflexivity.
Qed.
(* without that the divisions of the first good channel stand *)
Theorem triggers_read_plain : forall x counts tail frame c s d0,
  ~ In 10 x -> (contains (bs "(nrow=") (x ++ [10]) = false \/ nth_error (rev x) 0 <> Some 41) ->
  (List.length tail < 8)%nat -> Forall (fun v => - 2 ^ 63 <= v < 2 ^ 63) counts -> d0 <> 0 ->
  held s = None -> get (ds_divisions s) c = Some d0 ->
  trigger_count (mkFiles None (Some (x ++ 10 :: flat_map eight_bytes counts ++ tail))) frame (Some c) s =
  (mkTriggers (Some counts) (Some d0) (Some (frame / qz d0)%Qc) (ds_divisions s) (set_all (frame / qz d0)%Qc (ds_sub_time s)), Some counts).
Proof.
  intros x counts tail frame c s d0 Hx Hn Ht F N Hs Hd. unfold trigger_count, read_counts. rewrite Hs, Hd. cbn [hdf5 binary].
  rewrite take_line_nl by exact Hx.
  replace (nrow_text (x ++ [10])) with (@None bytes) by (symmetry; destruct Hn; [now apply no_nrow|now apply nrow_missing]).
  rewrite int64s_encoded by assumption. destruct (Z.eqb_spec d0 0); [contradiction|]. reflexivity.
Qed.
(* the HDF5 file comes first, and in it the times with offsets *)
Theorem triggers_hdf5 : forall w t b frame c s d0, d0 <> 0 -> held s = None -> get (ds_divisions s) c = Some d0 ->
  trigger_count (mkFiles (Some (w, t)) b) frame (Some c) s =
  match w, t with
  | Some l, _ | None, Some l =>
      (mkTriggers (Some l) (Some d0) (Some (frame / qz d0)%Qc) (ds_divisions s) (set_all (frame / qz d0)%Qc (ds_sub_time s)), Some l)
  | None, None => (mkTriggers None (Some d0) (sub_time s) (ds_divisions s) (ds_sub_time s), None)
  end.
Proof.
  intros w t b frame c s d0 N Hs Hd. unfold trigger_count, read_counts. rewrite Hs, Hd. cbn [hdf5].
  destruct w as [w|]; [|destruct t as [t|]]; try reflexivity; destruct (Z.eqb_spec d0 0); try contradiction; reflexivity.
Qed.
(* once read, they are not read again *)
Theorem triggers_held : forall fs fs' frame c c' s s' l,
  trigger_count fs frame c s = (s', Some l) -> trigger_count fs' frame c' s' = (s', Some l).
Proof.
  intros fs fs' frame c c' s s' l H. assert (E : held s' = Some l); [|unfold trigger_count; now rewrite E].
  unfold trigger_count in H. destruct (held s) as [l0|] eqn:Hs; [injection H as <- <-; exact Hs|].
  destruct c as [c|]; [|discriminate]. destruct (get (ds_divisions s) c) as [d0|]; [|discriminate].
  destruct (read_counts fs d0) as [[l0 n]|]; [|discriminate]. destruct n as [n|].
  - destruct (n =? 0); [discriminate|]. injection H as <- <-. reflexivity.
  - destruct (d0 =? 0); [discriminate|]. injection H as <- <-. reflexivity.
Qed.
(* triggers and pulses are on one scale of time: seconds are counts times the time of a subframe, the same for every channel *)
Theorem one_time_scale : forall fs frame c s s' secs, held s = None -> trigger_seconds fs frame c s = (s', Some secs) ->
  exists l t, held s' = Some l /\ sub_time s' = Some t /\ secs = map (fun x => qz x * t)%Qc l /\
    forall k v, In (k, v) (ds_sub_time s') -> v = t.
Proof.
  intros fs frame c s s' secs Hs H. unfold trigger_seconds, trigger_count in H. rewrite Hs in H.
  destruct c as [c|]; [|discriminate]. destruct (get (ds_divisions s) c) as [d0|]; [|discriminate].
  destruct (read_counts fs d0) as [[l0 n]|]; [|discriminate].
  assert (G : forall d dd, d <> 0 ->
    (mkTriggers (Some l0) (Some d) (Some (frame / qz d)%Qc) dd (set_all (frame / qz d)%Qc (ds_sub_time s)),
     (if d =? 0 then None else Some (map (fun x => qz x / qz d * frame)%Qc l0))) = (s', Some secs) ->
    exists l t, held s' = Some l /\ sub_time s' = Some t /\ secs = map (fun x => qz x * t)%Qc l /\
    forall k v, In (k, v) (ds_sub_time s') -> v = t).
  { intros d dd N E. destruct (Z.eqb_spec d 0); [contradiction|]. injection E as <- <-. exists l0, (frame / qz d)%Qc. repeat split.
    - apply map_ext. intros x. field. intros X. change 0%Qc with (qz 0) in X. apply qz_inj in X. contradiction.
    - intros k v I. unfold set_all in I. cbn [ds_sub_time] in I. apply in_map_iff in I. destruct I as (q & E & _). now injection E as _ <-. }
  destruct n as [n|].
  - destruct (Z.eqb_spec n 0) as [|N]; [discriminate|]. cbn [divisions] in H. apply (G n (set_all n (ds_divisions s)) N H).
  - destruct (Z.eqb_spec d0 0) as [|N]; [discriminate|]. cbn [divisions] in H. apply (G d0 (ds_divisions s) N H).
Qed.

(* the channels have no such attribute, so the timing cannot be computed *)
Theorem timing_always_raises : forall force bads cs, calc_external_trigger_timing None force bads cs = None.
Proof. intros. unfold calc_external_trigger_timing. now destruct (forallb _ cs). Qed.
(* were it there, with two triggers or more: each good channel with pulses gets three arrays, the third of them the distance
   to the nearest trigger *)
Lemma nearest_rows : forall ts ps rows, ts <> [] -> (forall t p, In t ts -> In p ps -> Z.abs (t - p) <= max_value) ->
  Forall2 (fun pt row => since_last max_value ts pt (fst row) /\ until_next max_value ts pt (snd row)) ps rows ->
  Forall2 (since_last max_value ts) ps (map fst rows) /\ Forall2 (until_next max_value ts) ps (map snd rows) /\
  Forall2 (nearest_of ts) ps (map (fun r => Z.min (fst r) (snd r)) rows).
Proof.
  intros ts ps rows NE B F. induction F as [|p r ps rows [H1 H2] F IH]; simpl; [repeat split; constructor|].
  destruct IH as (I1 & I2 & I3); [intros t q Ht Hq; apply B; [exact Ht|now right]|].
  repeat split; constructor; auto. apply nearest_min; auto. intros t Ht. apply B; [exact Ht|now left].
Qed.
Theorem timing_right : forall a b ts force c,
  ascending (a :: b :: ts) -> ascending (subframes c) -> subframes c <> [] ->
  (forall t p, In t (a :: b :: ts) -> In p (subframes c) -> Z.abs (t - p) <= max_value) ->
  force = true \/ after_last_trigger (timings c) = None \/ until_next_trigger (timings c) = None \/ from_nearest (timings c) = None ->
  (forall l, after_last_trigger (timings c) = Some l \/ until_next_trigger (timings c) = Some l \/ from_nearest (timings c) = Some l -> List.length l = List.length (subframes c)) ->
  exists la lu ln, timing1 (a :: b :: ts) force c =
    (mkChannel (number c) (subframes c) (mkTiming (Some la) (Some lu) (Some ln)), false) /\
    Forall2 (since_last max_value (a :: b :: ts)) (subframes c) la /\
    Forall2 (until_next max_value (a :: b :: ts)) (subframes c) lu /\
    Forall2 (nearest_of (a :: b :: ts)) (subframes c) ln.
Proof.
  intros a b ts force c A1 A2 NE B HF HL. destruct (nearest_ok (subframes c) a b ts NE A2 A1) as (rows & E & F).
  assert (NT : a :: b :: ts <> []) by discriminate. destruct (nearest_rows _ _ _ NT B F) as (F1 & F2 & F3).
  exists (map fst rows), (map snd rows), (map (fun r => Z.min (fst r) (snd r)) rows). split; [|auto].
  unfold timing1. rewrite E.
  assert (PUT : forall old new, (forall l, old = Some l -> List.length l = List.length (subframes c)) -> put (List.length (subframes c)) old new = Some new).
  { intros [l|] new H; simpl; [|reflexivity]. now rewrite (H l eq_refl), Nat.eqb_refl. }
  rewrite !PUT; [|intros l X; apply HL; auto..].
  destruct (after_last_trigger (timings c)), (until_next_trigger (timings c)), (from_nearest (timings c)), force; try reflexivity; destruct HF as [HT | [HT | [HT | HT]]]; discriminate.
Qed.
(* the loop does so for the good channels only, and marks those that fail *)
Theorem timing_channels : forall ts force cs bads,
  NoDup (map number cs) ->
  forall c, In c cs ->
    (In (number c) bads -> In c (fst (timing_loop ts force bads cs))) /\
    (~ In (number c) bads -> In (fst (timing1 ts force c)) (fst (timing_loop ts force bads cs)) /\
      (snd (timing1 ts force c) = true <-> In (number c) (snd (timing_loop ts force bads cs)))).
Proof.
  intros ts force cs.
  assert (EX : forall z l, existsb (Z.eqb z) l = true <-> In z l).
  { intros z l. rewrite existsb_exists. split; [intros (x & I & E); apply Z.eqb_eq in E; now subst|]. intros I. exists z. split; [exact I|apply Z.eqb_refl]. }
  assert (KEEP : forall cs bads z, ~ In z (map number cs) -> (In z (snd (timing_loop ts force bads cs)) <-> In z bads)).
  { clear cs. induction cs as [|x cs IH]; intros bads z N; simpl; [tauto|].
    destruct (existsb (Z.eqb (number x)) bads).
    - specialize (IH bads z). destruct (timing_loop ts force bads cs). simpl in *. apply IH. tauto.
    - destruct (timing1 ts force x) as [x' failed]. specialize (IH (if failed then bads ++ [number x] else bads) z).
      destruct (timing_loop ts force _ cs). simpl in *. rewrite IH by tauto. destruct failed; [|tauto]. rewrite in_app_iff. simpl. tauto. }
  induction cs as [|x cs IH]; intros bads ND c Hc; [contradiction|]. inversion ND as [|? ? N1 N2]; subst. simpl.
  destruct (existsb (Z.eqb (number x)) bads) eqn:EB.
  - apply EX in EB. specialize (IH bads N2 c). specialize (KEEP cs bads (number c)). destruct (timing_loop ts force bads cs) as [l b]. simpl in *.
    destruct Hc as [<- | Hc]; [split; [auto|contradiction]|]. destruct (IH Hc) as [J1 J2]. split; [auto|]. intros X. destruct (J2 X). auto.
  - assert (NB : ~ In (number x) bads) by (intros X; apply EX in X; congruence).
    destruct (timing1 ts force x) as [x' failed] eqn:ET. set (bads' := if failed then bads ++ [number x] else bads).
    specialize (IH bads' N2 c). pose proof (KEEP cs bads' (number x) N1) as KX.
    destruct (timing_loop ts force bads' cs) as [l b]. simpl in *. destruct Hc as [<- | Hc].
    + rewrite ET. simpl. split; [contradiction|]. intros _. split; [now left|]. rewrite KX. unfold bads'. destruct failed; [|split; [discriminate|contradiction]].
      rewrite in_app_iff. simpl. tauto.
    + destruct (IH Hc) as [J1 J2].
      assert (NX : number c <> number x) by (intros X; apply N1; rewrite <- X; now apply in_map).
      assert (IB : In (number c) bads' <-> In (number c) bads).
      { unfold bads'. destruct failed; [|tauto]. rewrite in_app_iff. simpl. intuition congruence. }
      split; [intros X; right; apply J1; tauto|]. intros X. destruct J2 as [J2 J3]; [tauto|]. auto.
Qed.
(* a channel without pulses is marked; one that has all three arrays is left alone unless told *)
Theorem timing_cases : forall ts c a u n,
  (subframes c = [] -> forall force, timings c = mkTiming None None None -> timing1 ts force c = (c, true)) /\
  (timings c = mkTiming (Some a) (Some u) (Some n) -> timing1 ts false c = (c, false)).
Proof.
  intros ts c a u n. split.
  - intros E force T. unfold timing1. rewrite E, T. reflexivity.
  - intros T. unfold timing1. now rewrite T.
Qed.
(* with a single trigger a pulse before it is said to be at the trigger *)
Theorem timing_one_trigger_refuted : exists t c la lu ln, subframes c <> [] /\
  timing1 [t] true c = (mkChannel (number c) (subframes c) (mkTiming (Some la) (Some lu) (Some ln)), false) /\
  ~ Forall2 (nearest_of [t]) (subframes c) ln.
Proof.
  exists 10, (mkChannel 1 [4] (mkTiming None None None)), [max_value], [0], [0]. split; [discriminate|]. split; [reflexivity|].
  intros F. inversion F as [|? ? ? ? [(t & [<- | []] & E) _] _]; subst. discriminate.
Qed.

Print Assumptions segment_number.
Print Assumptions segment_past_end.
Print Assumptions group_size_raises.
Print Assumptions group_size_set.
Print Assumptions group_n_segments_refuted.
Print Assumptions mask_right.
Print Assumptions mask_no_gains.
Print Assumptions mask_choice.
Print Assumptions masks_number.
Print Assumptions empty_marked.
Print Assumptions average_good_only.
Print Assumptions average_refused.
Print Assumptions report_right.
Print Assumptions report_stops.
Print Assumptions triggers_read.
Print Assumptions triggers_read_plain.
Print Assumptions triggers_hdf5.
Print Assumptions triggers_held.
Print Assumptions one_time_scale.
Print Assumptions timing_always_raises.
Print Assumptions timing_right.
Print Assumptions timing_channels.
Print Assumptions timing_cases.
Print Assumptions timing_one_trigger_refuted.

(* ---- examples ---- *)
Example segment_case : sample2segnum 100 30 95 = Some 3 /\ segnum2sample_range 30 3 = (90, 120) /\ sample2segnum 100 30 500 = Some 3.
Proof. repeat split. Qed.
Example group_size_case : group_segment_size 45 [small_file; small_file] (mkSegments 7 (Some 9)) = (mkSegments 2 (Some 2), false).
Proof. vm_compute. reflexivity. Qed.
Definition q (n : Z) : Qc := qz n.
Definition sample_set : dataset := mkDataset 5 [q 1; q 4; q 9] [q 2; q 6; q 8] [q 3; q 3; q 3] [true; true; false].
Example mask_case :
  make_masks (Some (q 0, q 5)) (Some (q 8, q 3)) None None [sample_set] [] = ([], Some [[false; true; false]]) /\
  make_masks (Some (q 0, q 5)) None None (Some [q 2]) [sample_set; mkDataset 7 [] [] [] []] [] = ([7], Some [[true; true; false]]).
Proof. split; vm_compute; reflexivity. Qed.
Example average_case :
  compute_average_pulse (fun _ _ => false) [3] [Some 10; Some 11; Some 12] [1; 3; 5] = ([(1, 10); (5, 12)], false).
Proof. reflexivity. Qed.
Example report_case : exists r, report1 [false; true; false; true; true; false] [q 0; q 10; q 20; q 30; q 40; q 50] = Some r /\
  r_pulses r = 4 /\ r_dt r = q 30 /\ r_good r = q 75.
Proof. eexists. split; [reflexivity|]. split; [reflexivity|]. split; apply Qc_is_canon; reflexivity. Qed.
Example triggers_case :
  snd (trigger_count (mkFiles None (Some (bs "# counts (nrow=8)" ++ [10] ++ flat_map eight_bytes [5; -1] ++ [1; 2]))) (q 1) (Some 3)
         (mkTriggers None None None [(3, 64)] [(3, q 0)])) = Some [5; -1] /\
  divisions (fst (trigger_count (mkFiles None (Some (bs "# counts (nrow=8)" ++ [10] ++ flat_map eight_bytes [5; -1] ++ [1; 2]))) (q 1) (Some 3)
         (mkTriggers None None None [(3, 64)] [(3, q 0)]))) = Some 8.
Proof. split; vm_compute; reflexivity. Qed.
Example timing_case :
  timing1 [10; 20; 40] false (mkChannel 1 [5; 10; 29; 50] (mkTiming None None None)) =
  (mkChannel 1 [5; 10; 29; 50] (mkTiming (Some [max_value; 0; 9; 10]) (Some [5; 10; 11; max_value]) (Some [5; 0; 9; 10])), false).
Proof. vm_compute. reflexivity. Qed.
