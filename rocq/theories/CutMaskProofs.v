(** Proofs about the per-pulse masks (boolean fields), parameter cuts, crashes. *)
From Coq Require Import PeanoNat NArith QArith String Bool List Lia.
From Verif Require Import BitLemmas CutModel CutSpec CutProofs.
Import ListNotations.
Local Open Scope N_scope.

(* ---------- pointwise facts ---------- *)

Lemma or_where_length b bm ws : length (or_where b bm ws) = length ws.
Proof. revert b; induction ws as [|w ws IH]; intros [|x b]; cbn; auto. Qed.

Lemma or_where_nth b bm ws i w x :
  length b = length ws -> nth_error ws i = Some w -> nth_error b i = Some x ->
  nth_error (or_where b bm ws) i = Some (if x then N.lor w bm else w).
Proof.
  revert b i; induction ws as [|w0 ws IH]; intros [|x0 b] i HL; cbn in *; try lia.
  - destruct i; discriminate.
  - destruct i as [|i]; cbn; [intros [= ->] [= ->]; reflexivity|]. apply IH; lia.
Qed.

Lemma lookup_In n d m : lookup n d = Some m -> In (n, m) d.
Proof.
  unfold lookup. destruct (find _ d) as [[n' m']|] eqn:E; cbn; [|discriminate].
  intros [= <-]. apply find_some in E as [H E]. cbn in E. apply String.eqb_eq in E. subst. exact H.
Qed.

Lemma lookup_Some n d : In n (map fst d) -> exists m, lookup n d = Some m.
Proof.
  intros H. apply in_map_iff in H as [p [<- Hp]]. unfold lookup.
  destruct (find (fun q => String.eqb (fst q) (fst p)) d) as [q|] eqn:E; [eexists; reflexivity|].
  apply (find_none _ _ E) in Hp. rewrite String.eqb_refl in Hp. discriminate.
Qed.

Lemma lookup_None n d : ~ In n (map fst d) -> lookup n d = None.
Proof.
  intros H. destruct (lookup n d) as [m|] eqn:E; [|reflexivity]. exfalso. apply H.
  apply lookup_In in E. change n with (fst (n, m)). apply in_map, E.
Qed.

(** The OR of masks: which bits it has. *)
Lemma bool_bit_mask_bits r n ns bm b :
  bool_bit_mask r (n :: ns) = Some bm ->
  (N.testbit bm b = true <-> exists p, In p (bdesc r) /\ In (fst p) (n :: ns) /\ N.testbit (snd p) b = true).
Proof.
  unfold bool_bit_mask. destruct (forallb _ (n :: ns)); [|discriminate]. intros [= <-].
  rewrite fold_lor_bits, N.bits_0. split.
  - intros [C|[m [Hm Hb]]]; [discriminate|]. apply in_map_iff in Hm as [p [<- Hp]].
    apply filter_In in Hp as [Hp Hn]. apply (mem_In (fst p) (n :: ns)) in Hn. eauto.
  - intros [p [Hp [Hn Hb]]]. right. exists (snd p). split; [|exact Hb]. apply in_map.
    apply filter_In. split; [exact Hp | apply (mem_In (fst p) (n :: ns)), Hn].
Qed.

Lemma bool_bit_mask_nil_bits r bm b :
  bool_bit_mask r [] = Some bm ->
  (N.testbit bm b = true <-> exists p, In p (bdesc r) /\ fst p <> ""%string /\ N.testbit (snd p) b = true).
Proof.
  unfold bool_bit_mask. intros [= <-]. rewrite fold_lor_bits, N.bits_0. split.
  - intros [C|[m [Hm Hb]]]; [discriminate|]. apply in_map_iff in Hm as [p [<- Hp]].
    apply filter_In in Hp as [Hp Hn]. apply negb_true_iff, String.eqb_neq in Hn. eauto.
  - intros [p [Hp [Hn Hb]]]. right. exists (snd p). split; [|exact Hb]. apply in_map.
    apply filter_In. split; [exact Hp | apply negb_true_iff, String.eqb_neq, Hn].
Qed.

(** Two boolean slots with different names have disjoint masks. *)
Lemma slots_disj r p q :
  WInv r -> In p (bdesc r) -> In q (bdesc r) -> fst p <> fst q -> disj (snd p) (snd q).
Proof.
  intros HI Hp Hq Hne. apply FOP_disj_In with (l := bdesc r); auto using disj_sym.
  - apply slots_FOP, (wi_slots r HI).
  - congruence.
Qed.

Lemma land_lor_disj w bm m : disj bm m -> N.land (N.lor w bm) m = N.land w m.
Proof.
  intros H. apply N.bits_inj; intros b. rewrite !N.land_spec, N.lor_spec.
  destruct (N.testbit bm b) eqn:E; [rewrite (H b E), !andb_false_r; reflexivity|].
  rewrite orb_false_r. reflexivity.
Qed.

Lemma land_ldiff_disj w bm m : disj bm m -> N.land (N.ldiff w bm) m = N.land w m.
Proof.
  intros H. apply N.bits_inj; intros b. rewrite !N.land_spec, N.ldiff_spec.
  destruct (N.testbit bm b) eqn:E; [rewrite (H b E), !andb_false_r; reflexivity|].
  rewrite andb_true_r. reflexivity.
Qed.

Lemma nth_error_ext {A} (l l' : list A) : (forall i, nth_error l i = nth_error l' i) -> l = l'.
Proof.
  revert l'; induction l as [|a l IH]; intros [|a' l'] H.
  - reflexivity.
  - specialize (H O). discriminate.
  - specialize (H O). discriminate.
  - f_equal; [specialize (H O); cbn in H; congruence | apply IH; intros i; exact (H (S i))].
Qed.

Lemma map_or_where_disj {A} (g : N -> A) b bm ws :
  (forall w, g (N.lor w bm) = g w) -> map g (or_where b bm ws) = map g ws.
Proof.
  intros H. revert b; induction ws as [|w ws IH]; intros [|x b]; cbn; auto.
  rewrite IH. destruct x; [rewrite H|]; reflexivity.
Qed.

(* ---------- C02: cut on a boolean field ---------- *)

(** Being bad for field [n], as [Cuts.bad(n)] reports it. *)
Definition bad_for (r : registry) (n : name) (ws : list N) : option (list bool) := bad r [n] [] ws.

Lemma bad_for_eq r n ws :
  bad_for r n ws = option_map (fun bm => map (fun w => negb (N.land w bm =? 0)) ws) (bool_bit_mask r [n]).
Proof. unfold bad_for, bad. destruct (bool_bit_mask r [n]); reflexivity. Qed.

Lemma bool_bit_mask_registered r n :
  n <> ""%string -> In n (map fst (bdesc r)) -> exists bm, bool_bit_mask r [n] = Some bm.
Proof.
  intros Hn Hin. unfold bool_bit_mask. cbn [forallb].
  replace (existsb _ (bdesc r)) with true; [eexists; reflexivity|]. symmetry.
  apply existsb_exists. apply in_map_iff in Hin as [p [E Hp]]. exists p. split; [exact Hp|].
  rewrite andb_true_iff, negb_true_iff, String.eqb_neq, String.eqb_eq. subst n. auto.
Qed.

Lemma cut_bool_frame r n m ws ws' :
  WInv r -> n <> ""%string -> In n (map fst (bdesc r)) ->
  cut r n (BoolMask m) ws = Some ws' ->
  length ws' = length ws /\
  (exists b b', bad_for r n ws = Some b /\ bad_for r n ws' = Some b' /\
                length m = length b /\ b' = map2 orb m b) /\
  (forall g, g <> n -> bad_for r g ws' = bad_for r g ws) /\
  (forall h, category_codes r h ws' = category_codes r h ws) /\
  (forall sel, select_category r sel ws' = select_category r sel ws).
Proof.
  intros HI Hn Hreg H. unfold cut in H.
  destruct (Nat.eqb (mask_size (BoolMask m)) (length ws)) eqn:ES; [|discriminate].
  apply Nat.eqb_eq in ES. cbn [negb mask_size] in *.
  destruct (lookup_Some _ _ Hreg) as [bm Hbm]. rewrite Hbm in H. cbn [or_mask] in H. injection H as <-.
  apply lookup_In in Hbm.
  split; [apply or_where_length|]. split; [|split; [|split]].
  - destruct (bool_bit_mask_registered r n Hn Hreg) as [M HM].
    exists (map (fun w => negb (N.land w M =? 0)) ws), (map (fun w => negb (N.land w M =? 0)) (or_where m bm ws)).
    rewrite !bad_for_eq, HM. cbn [option_map]. repeat split; [rewrite map_length; exact ES|].
    assert (HMb : exists b, N.testbit bm b = true /\ N.testbit M b = true).
    { pose proof Hbm as Hi. apply In_nth_error in Hi as [i Hi].
      destruct (proj2 (wi_slots r HI) _ _ Hi) as [[C _]|[_ E]]; [cbn in C; congruence|]. cbn [snd] in E.
      exists (N.of_nat i). split; [rewrite E; unfold bit; rewrite testbit_bit; apply N.eqb_refl|].
      apply (proj2 (bool_bit_mask_bits r n [] M (N.of_nat i) HM)). exists (n, bm). cbn [fst snd In]. repeat split; auto.
      rewrite E; unfold bit; rewrite testbit_bit; apply N.eqb_refl. }
    clear HM Hbm Hreg HI. revert m ES. induction ws as [|w ws IH]; intros [|x m] ES; cbn in *; try lia; [reflexivity|].
    f_equal; [|apply IH; lia]. destruct x; [|reflexivity].
    rewrite orb_true_l. apply negb_true_iff, N.eqb_neq.
    destruct HMb as [b [Hb1 Hb2]]. apply (bits_true_nonzero _ b).
    rewrite N.land_spec, N.lor_spec, Hb1, Hb2, orb_true_r. reflexivity.
  - intros g Hg. rewrite !bad_for_eq. destruct (bool_bit_mask r [g]) as [M|] eqn:HM; [|reflexivity].
    cbn [option_map]. f_equal. apply map_or_where_disj. intros w. rewrite land_lor_disj; [reflexivity|].
    intros b Hb. destruct (N.testbit M b) eqn:T; [|reflexivity].
    apply (bool_bit_mask_bits r g [] M b HM) in T as [p [Hp [[Ep|[]] Hpb]]].
    rewrite (slots_disj r (n, bm) p HI Hbm Hp) in Hpb; [discriminate | cbn; congruence | exact Hb].
  - intros h. unfold category_codes. destruct (lookup h (cdesc r)) as [M|] eqn:HM; [|reflexivity].
    f_equal. apply map_or_where_disj. intros w. rewrite land_lor_disj; [reflexivity|].
    apply lookup_In in HM. apply (wi_bc r HI _ _ Hbm HM).
  - intros sel. unfold select_category. destruct (select_bits r sel 0 0) as [[M tgt]|] eqn:HM; [|reflexivity].
    f_equal. apply map_or_where_disj. intros w. rewrite land_lor_disj; [reflexivity|].
    assert (G : forall sel bm0 t0 M tgt, disj bm bm0 -> select_bits r sel bm0 t0 = Some (M, tgt) -> disj bm M).
    { clear - HI Hbm. induction sel as [|[f c] sel IH]; cbn; intros bm0 t0 M tgt Hd.
      - intros [= <- <-]. exact Hd.
      - destruct (lookup f (cdesc r)) as [mf|] eqn:Ef; [|discriminate].
        destruct (find _ (clist r)) as [[e code]|]; [|discriminate].
        apply IH. intros b Hb. rewrite N.lor_spec, (Hd b Hb). cbn.
        apply lookup_In in Ef. exact (wi_bc r HI _ _ Hbm Ef b Hb). }
    eapply G; [|exact HM]. intros b _. apply N.bits_0.
Qed.

(** The call succeeds exactly for a registered name and a vector of the right length. *)
Lemma cut_bool_ok r n m ws :
  In n (map fst (bdesc r)) -> length m = length ws -> exists ws', cut r n (BoolMask m) ws = Some ws'.
Proof.
  intros Hreg HL. unfold cut. cbn [mask_size]. rewrite (proj2 (Nat.eqb_eq _ _) HL). cbn [negb].
  destruct (lookup_Some _ _ Hreg) as [bm ->]. cbn. eauto.
Qed.

(* ---------- C03 ---------- *)

(** What [good] should mean for one pulse: no selected boolean field has its bit set. *)
Definition passes (r : registry) (names : list name) (w : N) : Prop :=
  forall p b, In p (bdesc r) -> fst p <> ""%string -> (names = [] \/ In (fst p) names) ->
              N.testbit (snd p) b = true -> N.testbit w b = false.

Lemma empty_slot_zero r p : WInv r -> In p (bdesc r) -> fst p = ""%string -> snd p = 0.
Proof.
  intros HI Hp E. apply In_nth_error in Hp as [i Hi].
  destruct (proj2 (wi_slots r HI) _ _ Hi) as [[_ Z]|[C _]]; [exact Z | congruence].
Qed.

Lemma mask_passes r names bm w :
  WInv r -> bool_bit_mask r names = Some bm -> (N.land w bm =? 0) = true <-> passes r names w.
Proof.
  intros HI HM. rewrite N.eqb_eq, N.land_comm, land_zero_bits. destruct names as [|n ns].
  - split.
    + intros H p b Hp Hn _ Hb. apply H. apply (bool_bit_mask_nil_bits r bm b HM). eauto.
    + intros H b Hb. apply (bool_bit_mask_nil_bits r bm b HM) in Hb as [p [Hp [Hn Hb]]].
      apply (H p b Hp Hn); auto.
  - split.
    + intros H p b Hp Hn [C|Hin] Hb; [discriminate|]. apply H.
      apply (bool_bit_mask_bits r n ns bm b HM). eauto.
    + intros H b Hb. apply (bool_bit_mask_bits r n ns bm b HM) in Hb as [p [Hp [Hn Hb]]].
      apply (H p b Hp); auto. intros C. rewrite (empty_slot_zero r p HI Hp C), N.bits_0 in Hb. discriminate.
Qed.

Lemma map2_nth {A B C} (f : A -> B -> C) l l' i :
  nth_error (map2 f l l') i =
  match nth_error l i, nth_error l' i with Some a, Some b => Some (f a b) | _, _ => None end.
Proof.
  revert l' i; induction l as [|a l IH]; intros [|b l'] i; cbn.
  - destruct i; reflexivity.
  - destruct i; reflexivity.
  - destruct i; cbn; [reflexivity | destruct (nth_error l i); reflexivity].
  - destruct i; cbn; [reflexivity | apply IH].
Qed.

Lemma map2_length {A B C} (f : A -> B -> C) l l' : length l = length l' -> length (map2 f l l') = length l.
Proof. revert l'; induction l as [|a l IH]; intros [|b l'] H; cbn in *; auto; try lia. Qed.

Lemma select_length r sel ws s : select_category r sel ws = Some s -> length s = length ws.
Proof.
  unfold select_category. destruct (select_bits r sel 0 0) as [[bm t]|]; [|discriminate].
  intros [= <-]. apply map_length.
Qed.

Lemma good_bad_none r names sel ws : good r names sel ws = None <-> bad r names sel ws = None.
Proof.
  unfold good, bad. destruct (bool_bit_mask r names); [|tauto].
  destruct sel; [split; discriminate|]. destruct (select_category r (p :: sel) ws); cbn; split; discriminate || tauto.
Qed.

Lemma good_bad_spec r names sel ws g b :
  WInv r -> good r names sel ws = Some g -> bad r names sel ws = Some b ->
  length g = length ws /\ length b = length ws /\
  exists s, select_category r sel ws = Some s /\
  forall i w si, nth_error ws i = Some w -> nth_error s i = Some si ->
    exists gi bi, nth_error g i = Some gi /\ nth_error b i = Some bi /\
      (gi = true <-> si = true /\ passes r names w) /\
      (bi = true <-> si = true /\ ~ passes r names w).
Proof.
  intros HI Hg Hb. unfold good, bad in *.
  destruct (bool_bit_mask r names) as [bm|] eqn:HM; [|discriminate].
  pose proof (fun w => mask_passes r names bm w HI HM) as HP.
  assert (Hsel0 : select_category r [] ws = Some (map (fun _ => true) ws)).
  { unfold select_category. cbn. f_equal. apply map_ext. intros w. rewrite N.land_0_r. reflexivity. }
  assert (E : exists s, select_category r sel ws = Some s /\ 
     g = map2 andb (map (fun w => N.land w bm =? 0) ws) s /\
     b = map2 andb (map (fun w => negb (N.land w bm =? 0)) ws) s).
  { destruct sel as [|x sel].
    - exists (map (fun _ => true) ws). split; [exact Hsel0|]. injection Hg as <-. injection Hb as <-.
      clear. split; (induction ws as [|w ws IH]; cbn; [reflexivity|]; rewrite andb_true_r; f_equal; exact IH).
    - destruct (select_category r (x :: sel) ws) as [s|]; [|discriminate].
      injection Hg as <-. injection Hb as <-. eauto. }
  destruct E as [s [Hs [-> ->]]]. pose proof (select_length _ _ _ _ Hs) as HL.
  rewrite !map2_length by (rewrite map_length; lia). rewrite !map_length. repeat split; auto.
  exists s. split; [exact Hs|]. intros i w si Hw Hsi.
  exists ((N.land w bm =? 0) && si), (negb (N.land w bm =? 0) && si).
  rewrite !map2_nth, !nth_error_map, Hw, Hsi. cbn [option_map]. repeat split; auto.
  - rewrite andb_true_iff in *. tauto.
  - apply HP. rewrite andb_true_iff in *. tauto.
  - rewrite andb_true_iff. intros [A B]. split; [apply HP; exact B | exact A].
  - rewrite andb_true_iff in *. tauto.
  - rewrite andb_true_iff, negb_true_iff in *. intros C. apply HP in C. destruct H. congruence.
  - rewrite andb_true_iff, negb_true_iff. intros [A B]. split; [|exact A].
    destruct (N.land w bm =? 0) eqn:T; [exfalso; apply B, HP, T | reflexivity].
Qed.

(* ---------- C05 ---------- *)

Lemma clear_cut_spec r names ws ws' :
  WInv r -> clear_cut r names ws = Some ws' ->
  length ws' = length ws /\
  (forall i w', nth_error ws' i = Some w' -> passes r names w') /\
  (forall g, names <> [] -> ~ In g names -> g <> ""%string -> bad_for r g ws' = bad_for r g ws) /\
  (forall h, category_codes r h ws' = category_codes r h ws) /\
  (forall q, In q (cdesc r) -> map (field_bits q) ws' = map (field_bits q) ws) /\
  clear_cut r names ws' = Some ws'.
Proof.
  intros HI H. unfold clear_cut in H.
  destruct (bool_bit_mask r names) as [bm|] eqn:HM; [|discriminate]. injection H as <-.
  assert (HB : forall b, N.testbit bm b = true -> exists p, In p (bdesc r) /\ (names = [] \/ In (fst p) names) /\ N.testbit (snd p) b = true).
  { intros b Hb. destruct names as [|n ns].
    - apply (bool_bit_mask_nil_bits r bm b HM) in Hb as [p [Hp [_ Hb]]]. eauto.
    - apply (bool_bit_mask_bits r n ns bm b HM) in Hb as [p [Hp [Hn Hb]]]. eauto. }
  assert (HC : forall q, In q (cdesc r) -> disj bm (snd q)).
  { intros q Hq b Hb. destruct (HB b Hb) as [p [Hp [_ Hpb]]]. exact (wi_bc r HI p q Hp Hq b Hpb). }
  repeat split.
  - apply map_length.
  - intros i w' Hw'. rewrite nth_error_map in Hw'. destruct (nth_error ws i) as [w|]; [|discriminate].
    cbn in Hw'. injection Hw' as <-. apply (mask_passes r names bm _ HI HM). apply N.eqb_eq.
    rewrite N.land_comm. apply land_zero_bits. intros b Hb. rewrite N.ldiff_spec, Hb. apply andb_false_r.
  - intros g Hne Hg Hg0. rewrite !bad_for_eq. destruct (bool_bit_mask r [g]) as [M|] eqn:HMg; [|reflexivity].
    cbn [option_map]. f_equal. rewrite map_map. apply map_ext. intros w. rewrite land_ldiff_disj; [reflexivity|].
    intros b Hb. destruct (N.testbit M b) eqn:T; [|reflexivity].
    apply (bool_bit_mask_bits r g [] M b HMg) in T as [p [Hp [[Ep|[]] Hpb]]].
    destruct (HB b Hb) as [q [Hq [[C|Hqn] Hqb]]]; [congruence|].
    rewrite (slots_disj r q p HI Hq Hp) in Hpb; [discriminate | intros C; congruence | exact Hqb].
  - intros h. unfold category_codes. destruct (lookup h (cdesc r)) as [M|] eqn:E; [|reflexivity].
    f_equal. rewrite map_map. apply map_ext. intros w. rewrite land_ldiff_disj; [reflexivity|].
    apply lookup_In in E. exact (HC _ E).
  - intros q Hq. rewrite map_map. apply map_ext. intros w. unfold field_bits. apply land_ldiff_disj, HC, Hq.
  - unfold clear_cut. rewrite HM. cbn [option_map]. f_equal. rewrite map_map. apply map_ext. intros w.
    apply N.bits_inj; intros b. rewrite !N.ldiff_spec. destruct (N.testbit w b), (N.testbit bm b); reflexivity.
Qed.

(** clear_cut only fails on an unregistered name. *)
Lemma clear_cut_fails r names ws :
  clear_cut r names ws = None <-> exists n, In n names /\ (n = ""%string \/ ~ In n (map fst (bdesc r))).
Proof.
  unfold clear_cut. destruct names as [|n ns].
  - cbn. split; [discriminate | intros [n [[] _]]].
  - unfold bool_bit_mask.
    destruct (forallb (fun m => existsb (fun p => negb (String.eqb (fst p) "") && String.eqb (fst p) m) (bdesc r)) (n :: ns)) eqn:E; cbn [option_map].
    + split; [discriminate|]. intros [m [Hm Hbad]]. rewrite forallb_forall in E. apply E in Hm.
      apply existsb_exists in Hm as [p [Hp He]]. rewrite andb_true_iff, negb_true_iff, String.eqb_neq, String.eqb_eq in He.
      destruct He as [H1 H2]. destruct Hbad as [C|C]; [congruence|]. exfalso. apply C. rewrite <- H2. apply in_map, Hp.
    + split; [intros _|reflexivity].
      assert (G : ~ forall m, In m (n :: ns) -> existsb (fun p => negb (String.eqb (fst p) "") && String.eqb (fst p) m) (bdesc r) = true).
      { intros C. apply forallb_forall in C. congruence. }
      clear E.
      enough (K : forall l, (exists m, In m l /\ (m = ""%string \/ ~ In m (map fst (bdesc r)))) \/
         (forall m, In m l -> existsb (fun p => negb (String.eqb (fst p) "") && String.eqb (fst p) m) (bdesc r) = true)).
      { destruct (K (n :: ns)) as [K1|K1]; [exact K1 | exfalso; auto]. }
      induction l as [|m l [[m' [H1 H2]]|IH]]; [right; intros m [] | left; exists m'; cbn; tauto |].
      destruct (string_dec m "") as [->|Hm]; [left; exists ""%string; cbn; tauto|].
      destruct (in_dec string_dec m (map fst (bdesc r))) as [Hi|Hi]; [|left; exists m; cbn; tauto].
      right. intros x [<-|Hx]; [|auto]. apply in_map_iff in Hi as [p [Ep Hp]].
      apply existsb_exists. exists p. split; [exact Hp|].
      rewrite andb_true_iff, negb_true_iff, String.eqb_neq, String.eqb_eq. subst m. auto.
Qed.
