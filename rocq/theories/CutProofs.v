(** Proofs about the cut-field registry. *)
From Coq Require Import PeanoNat NArith String Bool List Lia Permutation.
From Verif Require Import BitLemmas CutModel CutSpec.
Import ListNotations.
Local Open Scope N_scope.

(* ---------- generic ---------- *)

Lemma set_nth_length {A} i (x : A) l : length (set_nth i x l) = length l.
Proof. revert i; induction l as [|h t IH]; destruct i; cbn; auto. Qed.

Lemma set_nth_eq {A} i (x : A) l : (i < length l)%nat -> nth_error (set_nth i x l) i = Some x.
Proof.
  revert i; induction l as [|h t IH]; intros [|i] H; cbn in *; try lia; [reflexivity|].
  apply IH; lia.
Qed.

Lemma set_nth_neq {A} i j (x : A) l : i <> j -> nth_error (set_nth i x l) j = nth_error l j.
Proof.
  revert i j; induction l as [|h t IH]; intros [|i] [|j] H; cbn; try reflexivity; try congruence.
  apply IH; congruence.
Qed.

Lemma mem_In n l : mem n l = true <-> In n l.
Proof.
  unfold mem. rewrite existsb_exists. split.
  - intros [x [Hx E]]. apply String.eqb_eq in E. subst; exact Hx.
  - intros H. exists n. split; [exact H | apply String.eqb_refl].
Qed.

Lemma in_names_In n d : in_names n d = true <-> In n (map fst d).
Proof.
  unfold in_names. rewrite existsb_exists, in_map_iff. split.
  - intros [x [Hx E]]. apply String.eqb_eq in E. exists x; split; [symmetry; exact E|exact Hx].
  - intros [x [E Hx]]. exists x. split; [exact Hx | apply String.eqb_eq; symmetry; exact E].
Qed.

Lemma substring_all n s : (String.length s <= n)%nat -> substring 0 n s = s.
Proof.
  revert n; induction s as [|a s IH]; intros [|n] H; cbn in *; try reflexivity; try lia.
  rewrite IH by lia. reflexivity.
Qed.

Lemma store64_short n : short n -> store64 n = n.
Proof. apply substring_all. Qed.

Lemma store64_nonempty n : n <> ""%string -> store64 n <> ""%string.
Proof. destruct n; [congruence|]. unfold store64; cbn. discriminate. Qed.

Lemma range32_In i : In i range32 <-> i < 32.
Proof.
  unfold range32. rewrite in_map_iff. split.
  - intros [k [<- H]]. apply in_seq in H. lia.
  - intros H. exists (N.to_nat i). split; [apply N2Nat.id | apply in_seq; lia].
Qed.

Lemma lowest_available_spec f p :
  lowest_available f = Some p -> p < 32 /\ N.testbit f p = false.
Proof.
  unfold lowest_available. intros H. apply find_some in H as [Hin He].
  split; [apply range32_In; exact Hin|].
  apply N.eqb_eq in He. apply land_bit_zero. exact He.
Qed.

Lemma find_seq_first (f : N -> bool) n p :
  find f (map N.of_nat (seq 0 n)) = Some p -> forall q, q < p -> f q = false.
Proof.
  enough (G : forall s, find f (map N.of_nat (seq s n)) = Some p ->
              forall q, N.of_nat s <= q < p -> f q = false).
  { intros H q Hq. apply (G O H q). cbn. lia. }
  induction n as [|n IH]; intros s; cbn [seq map find]; [discriminate|].
  destruct (f (N.of_nat s)) eqn:E.
  - intros [= <-] q Hq. lia.
  - intros H q Hq. destruct (N.eq_dec q (N.of_nat s)) as [->|Hne]; [exact E|].
    apply (IH (S s) H). lia.
Qed.

Lemma lowest_available_least f p q :
  lowest_available f = Some p -> q < p -> N.testbit f q = true.
Proof.
  intros H Hq. unfold lowest_available, range32 in H.
  pose proof (find_seq_first _ _ _ H q Hq) as E. cbv beta in E.
  apply N.eqb_neq in E. destruct (N.testbit f q) eqn:T; [reflexivity|].
  exfalso. apply E. apply land_bit_zero. exact T.
Qed.

(** No free bit means all 32 bits are set. *)
Lemma lowest_available_none f : lowest_available f = None -> forall b, b < 32 -> N.testbit f b = true.
Proof.
  intros H b Hb. pose proof (find_none _ _ H b (proj2 (range32_In b) Hb)) as E. cbv beta in E.
  apply N.eqb_neq in E. destruct (N.testbit f b) eqn:T; [reflexivity|].
  exfalso. apply E, land_bit_zero, T.
Qed.

(* ---------- the invariant ---------- *)

Definition slot_ok (i : nat) (p : name * N) : Prop :=
  (fst p = ""%string /\ snd p = 0) \/ (fst p <> ""%string /\ snd p = bit (N.of_nat i)).

Definition slots_ok (d : list (name * N)) : Prop :=
  length d = 32%nat /\ forall i p, nth_error d i = Some p -> slot_ok i p.

Definition disj (m m' : N) : Prop := forall b, N.testbit m b = true -> N.testbit m' b = false.

Lemma disj_sym m m' : disj m m' -> disj m' m.
Proof. intros H b Hb. destruct (N.testbit m b) eqn:E; [rewrite (H b E) in Hb; discriminate | reflexivity]. Qed.

Definition covered (m u : N) : Prop := forall b, N.testbit m b = true -> N.testbit u b = true.

(** Weak invariant: holds for any names. *)
Record WInv (r : registry) : Prop := {
  wi_slots : slots_ok (bdesc r);
  wi_used : used r < 2 ^ 32;
  wi_bcov : forall p, In p (bdesc r) -> covered (snd p) (used r);
  wi_ccov : forall p, In p (cdesc r) -> covered (snd p) (used r);
  wi_cnz : forall p, In p (cdesc r) -> snd p <> 0;
  wi_bc : forall p q, In p (bdesc r) -> In q (cdesc r) -> disj (snd p) (snd q);
  wi_cc : ForallOrdPairs (fun p q => disj (snd p) (snd q)) (cdesc r)
}.

Lemma covered_lor_l m u x : covered m u -> covered m (N.lor u x).
Proof. intros H b Hb. rewrite N.lor_spec, (H b Hb). reflexivity. Qed.

Lemma lor_lt x y n : x < 2 ^ n -> y < 2 ^ n -> N.lor x y < 2 ^ n.
Proof.
  rewrite !lt_pow2_bits. intros Hx Hy b Hb. rewrite N.lor_spec, orb_true_iff in Hb.
  destruct Hb; auto.
Qed.

Lemma bit_lt p n : p < n -> bit p < 2 ^ n.
Proof. intros H. apply lt_pow2_bits. intros b Hb. unfold bit in Hb. rewrite testbit_bit in Hb. apply N.eqb_eq in Hb. lia. Qed.

Lemma ldiff_lt x y n : x < 2 ^ n -> N.ldiff x y < 2 ^ n.
Proof. rewrite !lt_pow2_bits. intros Hx b Hb. rewrite N.ldiff_spec, andb_true_iff in Hb. apply Hx; tauto. Qed.

Lemma set_nth_slots d p n :
  slots_ok d -> p < 32 -> n <> ""%string ->
  slots_ok (set_nth (N.to_nat p) (n, bit p) d).
Proof.
  intros [HL H] Hp Hn. split; [rewrite set_nth_length; exact HL|].
  intros i q Hq. destruct (Nat.eq_dec (N.to_nat p) i) as [<-|Hne].
  - rewrite set_nth_eq in Hq by lia. injection Hq as <-. right. cbn. rewrite N2Nat.id. auto.
  - rewrite set_nth_neq in Hq by exact Hne. auto.
Qed.

Lemma set_nth_In {A} i (x : A) l y : In y (set_nth i x l) -> y = x \/ In y l.
Proof.
  revert i; induction l as [|h t IH]; intros [|i]; cbn; try tauto.
  - intros [H|H]; [left; congruence | tauto].
  - intros [H|H]; [tauto|]. destruct (IH _ H); tauto.
Qed.

(** When every slot is named, every bit is used. *)
Lemma all_named_full d u :
  slots_ok d -> (forall p, In p d -> covered (snd p) u) ->
  ~ In ""%string (map fst d) -> forall b, b < 32 -> N.testbit u b = true.
Proof.
  intros [HL H] Hc Hn b Hb.
  destruct (nth_error d (N.to_nat b)) as [p|] eqn:E.
  - pose proof (nth_error_In _ _ E) as Hin.
    destruct (H _ _ E) as [[He _]|[_ Hm]].
    + exfalso. apply Hn. rewrite <- He. apply in_map. exact Hin.
    + apply (Hc _ Hin). rewrite Hm, N2Nat.id. unfold bit. rewrite testbit_bit. apply N.eqb_refl.
  - apply nth_error_None in E. lia.
Qed.

(** The state threaded through the registration loop. *)
Record LInv (d cd : list (name * N)) (u : N) : Prop := {
  li_slots : slots_ok d;
  li_used : u < 2 ^ 32;
  li_bcov : forall p, In p d -> covered (snd p) u;
  li_ccov : forall p, In p cd -> covered (snd p) u;
  li_bc : forall p q, In p d -> In q cd -> disj (snd p) (snd q)
}.

Lemma reg_bool_loop_inv new d cd u d' u' :
  LInv d cd u -> (forall n, In n new -> n <> ""%string) ->
  reg_bool_loop new d u = Some (d', u') -> LInv d' cd u'.
Proof.
  revert d u; induction new as [|n new IH]; intros d u HI Hne; cbn [reg_bool_loop].
  - intros [= <- <-]. exact HI.
  - destruct (lowest_available u) as [p|] eqn:E; [|discriminate].
    apply lowest_available_spec in E as [Hp Hf]. intros H.
    eapply IH; [|intros m Hm; apply Hne; cbn; tauto | exact H].
    destruct HI as [H1 H2 H3 H4 H5]. split.
    + apply set_nth_slots; auto. apply store64_nonempty, Hne. cbn; tauto.
    + apply lor_lt; [exact H2 | apply bit_lt; exact Hp].
    + intros q Hq. apply set_nth_In in Hq as [->|Hq].
      * cbn [snd]. intros b Hb. rewrite N.lor_spec, Hb. apply orb_true_r.
      * apply covered_lor_l; auto.
    + intros q Hq. apply covered_lor_l; auto.
    + intros q q' Hq Hq'. apply set_nth_In in Hq as [->|Hq]; [|auto].
      cbn [snd]. intros b Hb. unfold bit in Hb. rewrite testbit_bit in Hb.
      apply N.eqb_eq in Hb; subst b.
      destruct (N.testbit (snd q') p) eqn:T; [|reflexivity].
      rewrite (H4 _ Hq' _ T) in Hf. discriminate.
Qed.

Lemma filter_new_nonempty names r d' u' :
  WInv r ->
  reg_bool_loop (filter (fun n => negb (in_names n (bdesc r))) names) (bdesc r) (used r) = Some (d', u') ->
  forall n, In n (filter (fun n => negb (in_names n (bdesc r))) names) -> n <> ""%string.
Proof.
  intros HI HL n Hn ->. apply filter_In in Hn as [Hin Hf].
  apply negb_true_iff in Hf.
  assert (Hno : ~ In ""%string (map fst (bdesc r))).
  { intros C. apply in_names_In in C. congruence. }
  assert (Hfull := all_named_full _ _ (wi_slots r HI) (wi_bcov r HI) Hno).
  destruct (filter (fun n => negb (in_names n (bdesc r))) names) as [|x xs] eqn:E.
  - clear HL. assert (C : In ""%string (filter (fun n => negb (in_names n (bdesc r))) names))
      by (apply filter_In; split; [exact Hin | rewrite Hf; reflexivity]).
    rewrite E in C. destruct C.
  - cbn [reg_bool_loop] in HL. destruct (lowest_available (used r)) as [p|] eqn:Ep; [|discriminate].
    apply lowest_available_spec in Ep as [Hp Hb]. rewrite (Hfull p Hp) in Hb. discriminate.
Qed.

Lemma register_boolean_winv names r r' :
  WInv r -> register_boolean names r = Some r' -> WInv r'.
Proof.
  intros HI. unfold register_boolean.
  destruct (reg_bool_loop _ (bdesc r) (used r)) as [[d u]|] eqn:E; [|discriminate].
  intros [= <-]. pose proof (filter_new_nonempty _ _ _ _ HI E) as Hne.
  assert (HL : LInv (bdesc r) (cdesc r) (used r)) by (destruct HI; split; auto).
  destruct (reg_bool_loop_inv _ _ _ _ _ _ HL Hne E) as [H1 H2 H3 H4 H5].
  destruct HI. split; cbn; auto.
Qed.

(* -- unregister boolean -- *)

Lemma clear_fold_bits names d acc b :
  N.testbit (fold_left (fun c p => if mem (fst p) names then N.lor c (snd p) else c) d acc) b = true <->
  N.testbit acc b = true \/ exists p, In p d /\ In (fst p) names /\ N.testbit (snd p) b = true.
Proof.
  revert acc; induction d as [|x d IH]; intros acc; cbn [fold_left].
  - split; [tauto | intros [H|[p [[] _]]]; exact H].
  - rewrite IH. destruct (mem (fst x) names) eqn:E.
    + apply mem_In in E. rewrite N.lor_spec, orb_true_iff. split.
      * intros [[H|H]|[p H]]; [tauto | right; exists x; cbn; tauto | right; exists p; cbn; tauto].
      * intros [H|[p [[->|Hp] [Hn Hb]]]]; [tauto | tauto | right; exists p; tauto].
    + split; intros [H|[p H]]; [tauto | right; exists p; cbn; tauto | tauto |].
      destruct H as [[->|Hp] [Hn Hb]]; [apply mem_In in Hn; congruence | right; exists p; tauto].
Qed.

Lemma unregister_boolean_winv names r r' :
  WInv r -> unregister_boolean names r = Some r' -> WInv r'.
Proof.
  intros HI. unfold unregister_boolean.
  destruct (forallb (fun n => negb (String.eqb n "") && in_names n (bdesc r)) names) eqn:EF; [|discriminate]. intros [= <-].
  destruct HI as [[HL Hs] H2 H3 H4 H5 H6 H7].
  set (clear := fold_left _ (bdesc r) 0).
  assert (Hclear : forall b, N.testbit clear b = true ->
            exists p, In p (bdesc r) /\ In (fst p) names /\ N.testbit (snd p) b = true).
  { intros b Hb. unfold clear in Hb. apply clear_fold_bits in Hb as [Hb|Hb]; [rewrite N.bits_0 in Hb; discriminate | exact Hb]. }
  split; cbn [bdesc cdesc clist used].
  - split; [rewrite map_length; exact HL|]. intros i p Hp.
    rewrite nth_error_map in Hp. destruct (nth_error (bdesc r) i) as [q|] eqn:E; [|discriminate].
    cbn in Hp. injection Hp as <-. destruct (mem (fst q) names); [left; auto | apply Hs; exact E].
  - apply ldiff_lt; exact H2.
  - intros p Hp b Hb. apply in_map_iff in Hp as [q [Hq Hqin]].
    destruct (mem (fst q) names) eqn:Em; [subst p; cbn [snd] in Hb; rewrite N.bits_0 in Hb; discriminate|].
    subst p. rewrite N.ldiff_spec, (H3 _ Hqin _ Hb). cbn [andb]. apply negb_true_iff.
    destruct (N.testbit clear b) eqn:Ec; [|reflexivity].
    destruct (Hclear _ Ec) as [p [Hpin [Hpn Hpb]]].
    apply In_nth_error in Hpin as [i Hi]. apply In_nth_error in Hqin as [j Hj].
    destruct (Hs _ _ Hi) as [[_ Hz]|[_ Hz]]; rewrite Hz in Hpb; [rewrite N.bits_0 in Hpb; discriminate|].
    destruct (Hs _ _ Hj) as [[_ Hz']|[_ Hz']]; rewrite Hz' in Hb; [rewrite N.bits_0 in Hb; discriminate|].
    unfold bit in *. rewrite testbit_bit in *. apply N.eqb_eq in Hb. apply N.eqb_eq in Hpb.
    assert (i = j) by lia. subst j. rewrite Hi in Hj. injection Hj as ->.
    apply mem_In in Hpn. congruence.
  - intros p Hp b Hb. rewrite N.ldiff_spec, (H4 _ Hp _ Hb). cbn [andb]. apply negb_true_iff.
    destruct (N.testbit clear b) eqn:Ec; [|reflexivity].
    destruct (Hclear _ Ec) as [q [Hqin [_ Hqb]]].
    rewrite (H6 _ _ Hqin Hp _ Hqb) in Hb. discriminate.
  - exact H5.
  - intros p q Hp Hq. apply in_map_iff in Hp as [x [Hx Hxin]].
    destruct (mem (fst x) names); subst p.
    + intros b Hb. cbn [snd] in Hb. rewrite N.bits_0 in Hb. discriminate.
    + apply H6; assumption.
  - exact H7.
Qed.

(* -- register categorical -- *)

Lemma FOP_app {A} (R : A -> A -> Prop) l l' :
  ForallOrdPairs R (l ++ l') <->
  ForallOrdPairs R l /\ ForallOrdPairs R l' /\ (forall x y, In x l -> In y l' -> R x y).
Proof.
  induction l as [|a l IH]; cbn.
  - split; [intros H; repeat split; [constructor | exact H | intros x y []] | tauto].
  - split.
    + intros H. inversion H as [|? ? Ha Hl]; subst. apply IH in Hl as [H1 [H2 H3]].
      rewrite Forall_app in Ha. destruct Ha as [Ha1 Ha2].
      repeat split; [constructor; assumption | assumption |].
      intros x y [->|Hx] Hy; [eapply Forall_forall in Ha2; eauto | auto].
    + intros [H1 [H2 H3]]. inversion H1 as [|? ? Ha Hl]; subst. constructor.
      * rewrite Forall_app. split; [assumption | apply Forall_forall; intros y Hy; apply H3; auto].
      * apply IH. repeat split; auto.
Qed.

Lemma FOP_filter {A} (R : A -> A -> Prop) f l :
  ForallOrdPairs R l -> ForallOrdPairs R (filter f l).
Proof.
  induction 1 as [|a l Ha Hl IH]; cbn; [constructor|].
  destruct (f a); [|exact IH]. constructor; [|exact IH].
  apply Forall_forall. intros x Hx. apply filter_In in Hx as [Hx _].
  eapply Forall_forall in Ha; eauto.
Qed.

(** What [pick_bits] returns: the masks are single bits at strictly decreasing positions. *)
Record picked (flags : N) (ps : list N) (bm low : N) (masks : list N) : Prop := {
  pk_masks : masks = map bit (rev ps);
  pk_sorted : ForallOrdPairs N.lt ps;
  pk_free : forall p, In p ps -> p < 32 /\ N.testbit flags p = false;
  pk_bm : forall b, N.testbit bm b = true <-> In b ps;
  pk_least : forall p q, In p ps -> q < p -> N.testbit flags q = true \/ In q ps;
  pk_low : low = match ps with [] => 31 | p :: _ => p end
}.

Lemma pick_bits_spec k flags : forall ps0 bm0 low0 masks0 bm low masks,
  picked flags ps0 bm0 low0 masks0 ->
  pick_bits k flags bm0 low0 masks0 = Some (bm, low, masks) ->
  exists ps, length ps = (length ps0 + k)%nat /\ picked flags ps bm low masks.
Proof.
  induction k as [|k IH]; intros ps0 bm0 low0 masks0 bm low masks HP; cbn [pick_bits].
  - intros [= <- <- <-]. exists ps0. rewrite Nat.add_0_r. auto.
  - destruct (lowest_available (N.lor flags bm0)) as [p|] eqn:E; [|discriminate].
    intros H. destruct HP as [Hm Hs Hf Hb Hl Hlow].
    pose proof (lowest_available_spec _ _ E) as [Hp Hpf].
    pose proof (fun q => lowest_available_least _ _ q E) as Hmin.
    rewrite N.lor_spec in Hpf. apply orb_false_iff in Hpf as [Hpf1 Hpf2].
    assert (Hnin : ~ In p ps0) by (intros C; apply Hb in C; congruence).
    assert (Hlt : forall a, In a ps0 -> a < p).
    { intros a Ha. destruct (N.lt_trichotomy a p) as [L|[->|G]]; [exact L|tauto|].
      destruct (Hl _ _ Ha G); [congruence | tauto]. }
    destruct (IH (ps0 ++ [p]) (N.lor bm0 (bit p)) (N.min p low0) (bit p :: masks0) bm low masks) as [ps [HL HP]].
    + split.
      * rewrite rev_app_distr, Hm. reflexivity.
      * apply FOP_app. repeat split; [exact Hs | repeat constructor |].
        intros x y Hx [<-|[]]; auto.
      * intros q Hq. apply in_app_iff in Hq as [Hq|[<-|[]]]; auto.
      * intros b. rewrite N.lor_spec, orb_true_iff, in_app_iff, Hb. unfold bit.
        rewrite testbit_bit, N.eqb_eq. cbn. tauto.
      * intros a q Ha Hq. rewrite in_app_iff. apply in_app_iff in Ha as [Ha|[<-|[]]].
        -- destruct (Hl _ _ Ha Hq); tauto.
        -- specialize (Hmin q Hq). rewrite N.lor_spec, orb_true_iff, Hb in Hmin. tauto.
      * rewrite Hlow. destruct ps0 as [|a t]; cbn [app].
        -- apply N.min_l. lia.
        -- apply N.min_r. apply N.lt_le_incl, Hlt. cbn; auto.
    + exact H.
    + exists ps. split; [|exact HP]. rewrite HL, app_length. cbn. lia.
Qed.

Lemma pick_bits_0 k flags bm low masks :
  pick_bits k flags 0 31 [] = Some (bm, low, masks) ->
  exists ps, length ps = k /\ picked flags ps bm low masks.
Proof.
  intros H. apply (pick_bits_spec k flags [] 0 31 [] bm low masks) in H; [exact H|].
  split; cbn; try tauto; try reflexivity; [constructor|].
  intros b. split; [discriminate | tauto].
Qed.

Lemma num_bits_loop_ge fuel nb len : (nb <= num_bits_loop fuel nb len)%nat.
Proof.
  revert nb; induction fuel as [|f IH]; intros nb; cbn [num_bits_loop];
  destruct (N.shiftl 1 (N.of_nat nb) <? len); try lia.
  specialize (IH (S nb)). lia.
Qed.

Lemma num_bits_loop_spec fuel nb len :
  len <= 2 ^ (N.of_nat (nb + fuel)) -> len <= 2 ^ N.of_nat (num_bits_loop fuel nb len).
Proof.
  revert nb; induction fuel as [|f IH]; intros nb H; cbn [num_bits_loop];
  rewrite N.shiftl_1_l; destruct (N.ltb_spec (2 ^ N.of_nat nb) len) as [L|L]; try exact L.
  - rewrite Nat.add_0_r in H. exact H.
  - apply IH. replace (S nb + f)%nat with (nb + S f)%nat by lia. exact H.
Qed.

Lemma num_bits_pos n : (1 <= num_bits n)%nat.
Proof. apply num_bits_loop_ge. Qed.

Lemma num_bits_enough n : N.of_nat n <= 2 ^ N.of_nat (num_bits n).
Proof.
  apply num_bits_loop_spec.
  assert (G : forall k, N.of_nat k <= 2 ^ N.of_nat k).
  { induction k as [|k IH]; [cbn; lia|].
    rewrite Nat2N.inj_succ, N.pow_succ_r' by lia. pose proof (N.pow_nonzero 2 (N.of_nat k)). lia. }
  etransitivity; [apply G|]. apply N.pow_le_mono_r; lia.
Qed.

Lemma register_categorical_winv f cs d r r' :
  WInv r -> register_categorical f cs d r = Some r' -> WInv r'.
Proof.
  intros HI. unfold register_categorical.
  destruct (in_names f (cdesc r)); [intros [= <-]; exact HI|].
  unfold plan_categorical.
  destruct (pick_bits _ (used r) 0 31 []) as [[[bm low] masks]|] eqn:E; [|discriminate].
  intros [= <-]. apply pick_bits_0 in E as [ps [HL [Hm Hs Hf Hb Hl Hlow]]].
  destruct HI as [H1 H2 H3 H4 H5 H6 H7].
  assert (Hfree : forall b, N.testbit bm b = true -> N.testbit (used r) b = false).
  { intros b Hbm. apply Hb in Hbm. apply Hf; exact Hbm. }
  split; cbn [bdesc cdesc clist used]; auto.
  - apply lor_lt; [exact H2|]. apply lt_pow2_bits. intros b Hbm. apply Hb in Hbm. apply Hf; exact Hbm.
  - intros p Hp. apply covered_lor_l; auto.
  - intros p Hp. apply in_app_iff in Hp as [Hp|[<-|[]]]; [apply covered_lor_l; auto|].
    intros b Hbm. cbn [snd] in Hbm. rewrite N.lor_spec, Hbm. apply orb_true_r.
  - intros p Hp. apply in_app_iff in Hp as [Hp|[<-|[]]]; [auto|]. cbn [snd].
    destruct ps as [|p ps]; [exfalso; pose proof (num_bits_pos (length (category_order cs d))) as Hnb; rewrite <- HL in Hnb; cbn in Hnb; lia|].
    apply (bits_true_nonzero _ p). apply Hb. cbn; auto.
  - intros p q Hp Hq. apply in_app_iff in Hq as [Hq|[<-|[]]]; [auto|]. cbn [snd].
    intros b Hbp. destruct (N.testbit bm b) eqn:T; [|reflexivity].
    apply Hfree in T. rewrite (H3 _ Hp _ Hbp) in T. discriminate.
  - apply FOP_app. repeat split; [exact H7 | repeat constructor |].
    intros p q Hp [<-|[]]. cbn [snd]. intros b Hbp.
    destruct (N.testbit bm b) eqn:T; [|reflexivity].
    apply Hfree in T. rewrite (H4 _ Hp _ Hbp) in T. discriminate.
Qed.

Lemma FOP_disj_In (R : N -> N -> Prop) (l : list (name * N)) p q :
  (forall x y, R x y -> R y x) ->
  ForallOrdPairs (fun p q => R (snd p) (snd q)) l -> In p l -> In q l -> p <> q -> R (snd p) (snd q).
Proof.
  intros Hsym H Hp Hq Hne. destruct (ForallOrdPairs_In H p q Hp Hq) as [E|[E|E]]; auto. contradiction.
Qed.

Lemma unregister_categorical_winv f r r' :
  WInv r -> unregister_categorical f r = Some r' -> WInv r'.
Proof.
  intros HI. unfold unregister_categorical.
  destruct (find (fun p => String.eqb (fst p) f) (cdesc r)) as [[n clear]|] eqn:E; [|discriminate]. intros [= <-].
  apply find_some in E as [Hin Hn]. cbn [fst] in Hn. apply String.eqb_eq in Hn. subst n.
  destruct HI as [H1 H2 H3 H4 H5 H6 H7].
  split; cbn [bdesc cdesc clist used]; auto.
  - apply ldiff_lt; exact H2.
  - intros p Hp b Hb. rewrite N.ldiff_spec, (H3 _ Hp _ Hb). cbn [andb].
    apply negb_true_iff. apply (H6 _ _ Hp Hin _ Hb).
  - intros p Hp b Hb. apply filter_In in Hp as [Hp Hpn].
    rewrite N.ldiff_spec, (H4 _ Hp _ Hb). cbn [andb]. apply negb_true_iff.
    refine (FOP_disj_In disj (cdesc r) p (f, clear) disj_sym H7 Hp Hin _ b Hb).
    intros ->. cbn [fst] in Hpn. rewrite String.eqb_refl in Hpn. discriminate.
  - intros p Hp. apply filter_In in Hp as [Hp _]. auto.
  - intros p q Hp Hq. apply filter_In in Hq as [Hq _]. auto.
  - apply FOP_filter. exact H7.
Qed.

Lemma try_op_winv o r r' : WInv r -> try_op o r = Some r' -> WInv r'.
Proof.
  destruct o; cbn [try_op]; [apply register_boolean_winv | apply unregister_boolean_winv
    | apply register_categorical_winv | apply unregister_categorical_winv].
Qed.

Lemma step_winv o r : WInv r -> WInv (step r o).
Proof. intros H. unfold step. destruct (try_op o r) eqn:E; [eapply try_op_winv; eauto | exact H]. Qed.

Lemma run_winv ops r : WInv r -> WInv (run ops r).
Proof. revert r; induction ops as [|o ops IH]; cbn; intros r H; [exact H | apply IH, step_winv, H]. Qed.

Lemma repeat_nth_error {A} (x : A) n i y : nth_error (repeat x n) i = Some y -> y = x.
Proof. intros H. apply nth_error_In in H. apply repeat_spec in H. exact H. Qed.

Lemma empty_winv : WInv empty_registry.
Proof.
  split; cbn [empty_registry bdesc cdesc used]; try solve [intros ? []].
  - split; [apply repeat_length|]. intros i p Hp. apply repeat_nth_error in Hp. subst p. left; auto.
  - reflexivity.
  - intros p Hp b Hb. apply repeat_spec in Hp. subst p. cbn [snd] in Hb. rewrite N.bits_0 in Hb. discriminate.
  - intros p q _ [].
  - constructor.
Qed.

(* ---------- from the invariant to the specification ---------- *)

Lemma slots_FOP (d : list (name * N)) :
  slots_ok d -> ForallOrdPairs (fun p q => disj (snd p) (snd q)) d.
Proof.
  intros [_ H].
  enough (G : forall s, (forall i p, nth_error d i = Some p -> slot_ok (s + i) p) ->
              ForallOrdPairs (fun p q => disj (snd p) (snd q)) d) by (apply (G O); exact H).
  clear H. induction d as [|x d IH]; intros s H; constructor.
  - apply Forall_forall. intros y Hy. apply In_nth_error in Hy as [j Hj].
    intros b Hb. destruct (H O x eq_refl) as [[_ E]|[_ E]]; rewrite E in Hb; [rewrite N.bits_0 in Hb; discriminate|].
    destruct (H (S j) y Hj) as [[_ E']|[_ E']]; rewrite E'; [apply N.bits_0|].
    unfold bit in *. rewrite testbit_bit in *. apply N.eqb_eq in Hb. apply N.eqb_neq. lia.
  - apply (IH (S s)). intros i p Hp. replace (S s + i)%nat with (s + S i)%nat by lia. apply H. exact Hp.
Qed.

Lemma winv_fields_FOP r : WInv r -> ForallOrdPairs (fun p q => disj (snd p) (snd q)) (fields r).
Proof.
  intros [H1 H2 H3 H4 H5 H6 H7]. unfold fields. apply FOP_app. repeat split.
  - apply FOP_filter, slots_FOP, H1.
  - exact H7.
  - intros x y Hx Hy. apply filter_In in Hx as [Hx _]. auto.
Qed.

Lemma FOP_nth {A} (R : A -> A -> Prop) l i j x y :
  ForallOrdPairs R l -> (i < j)%nat -> nth_error l i = Some x -> nth_error l j = Some y -> R x y.
Proof.
  intros H. revert i j; induction H as [|a l Ha Hl IH]; intros i j Hij Hx Hy; [destruct i; discriminate|].
  destruct j as [|j]; [lia|]. destruct i as [|i]; cbn in *.
  - injection Hx as ->. apply nth_error_In in Hy. eapply Forall_forall in Ha; eauto.
  - apply (IH i j); auto; lia.
Qed.

Lemma winv_covered r p : WInv r -> In p (fields r) -> covered (snd p) (used r).
Proof.
  intros HI Hp. unfold fields in Hp. apply in_app_iff in Hp as [Hp|Hp].
  - apply filter_In in Hp as [Hp _]. apply (wi_bcov r HI); exact Hp.
  - apply (wi_ccov r HI); exact Hp.
Qed.

Lemma winv_disjoint r : WInv r -> disjoint_fields r.
Proof.
  intros HI. split; [|split].
  - intros f Hf. unfold fields in Hf. apply in_app_iff in Hf as [Hf|Hf].
    + apply filter_In in Hf as [Hf Hn]. apply In_nth_error in Hf as [i Hi].
      destruct (proj2 (wi_slots r HI) _ _ Hi) as [[E _]|[_ E]].
      * exfalso. apply negb_true_iff, String.eqb_neq in Hn. exact (Hn E).
      * exists (N.of_nat i). unfold owns. rewrite E. unfold bit. rewrite testbit_bit. apply N.eqb_refl.
    + apply nonzero_bits. apply (wi_cnz r HI). exact Hf.
  - intros f b Hf Ho. apply (winv_covered r f HI Hf) in Ho.
    apply (proj1 (lt_pow2_bits (used r) 32) (wi_used r HI)). exact Ho.
  - intros i j f g b Hi Hj Hf Hg.
    pose proof (winv_fields_FOP r HI) as HF.
    destruct (Nat.lt_trichotomy i j) as [L|[E|L]]; [|exact E|].
    + pose proof (FOP_nth _ _ _ _ _ _ HF L Hi Hj b Hf) as C. unfold owns in Hg. cbv beta in C. congruence.
    + pose proof (FOP_nth _ _ _ _ _ _ HF L Hj Hi b Hg) as C. unfold owns in Hf. cbv beta in C. congruence.
Qed.

Lemma winv_covers r : WInv r -> used_covers r.
Proof. intros HI f b Hf Ho. exact (winv_covered r f HI Hf b Ho). Qed.

(* ---------- exactness of the used word, for names that fit ---------- *)

Definition exact (r : registry) : Prop :=
  forall b, N.testbit (used r) b = true ->
            exists p, In p (bdesc r ++ cdesc r) /\ N.testbit (snd p) b = true.

Record XInv (r : registry) : Prop := {
  xi_w : WInv r;
  xi_exact : exact r;
  xi_nodup : NoDup (map fst (cdesc r))
}.

Lemma set_nth_keep {A} i (x : A) l y :
  In y l -> nth_error l i = Some y \/ In y (set_nth i x l).
Proof.
  revert i; induction l as [|h t IH]; intros [|i]; cbn; try tauto.
  - intros [->|H]; tauto.
  - intros [->|H]; [tauto|]. destruct (IH i H); tauto.
Qed.

Lemma set_nth_has {A} i (x : A) l : (i < length l)%nat -> In x (set_nth i x l).
Proof. intros H. eapply nth_error_In, set_nth_eq, H. Qed.

Lemma reg_bool_loop_exact new d cd u d' u' :
  LInv d cd u -> (forall n, In n new -> n <> ""%string) ->
  (forall b, N.testbit u b = true -> exists p, In p (d ++ cd) /\ N.testbit (snd p) b = true) ->
  reg_bool_loop new d u = Some (d', u') ->
  forall b, N.testbit u' b = true -> exists p, In p (d' ++ cd) /\ N.testbit (snd p) b = true.
Proof.
  revert d u; induction new as [|n new IH]; intros d u HI Hne HX; cbn [reg_bool_loop].
  - intros [= <- <-]. exact HX.
  - destruct (lowest_available u) as [p|] eqn:E; [|discriminate].
    intros H.
    assert (HI1 : LInv (set_nth (N.to_nat p) (store64 n, bit p) d) cd (N.lor u (bit p))).
    { apply (reg_bool_loop_inv [n] d cd u); auto.
      - intros m [<-|[]]. apply Hne; cbn; auto.
      - cbn [reg_bool_loop]. rewrite E. reflexivity. }
    apply lowest_available_spec in E as [Hp Hf].
    eapply IH; [exact HI1 | intros m Hm; apply Hne; cbn; tauto | | exact H].
    intros b Hb. rewrite N.lor_spec, orb_true_iff in Hb. destruct Hb as [Hb|Hb].
    + destruct (HX b Hb) as [q [Hq Hqb]]. apply in_app_iff in Hq as [Hq|Hq].
      * destruct (set_nth_keep (N.to_nat p) (store64 n, bit p) d q Hq) as [C|Hq'].
        -- exfalso. destruct HI as [[_ Hs] _ Hbc _ _].
           pose proof (Hbc q Hq b Hqb).
           destruct (Hs _ _ C) as [[_ Z]|[_ Z]]; rewrite Z in Hqb; [rewrite N.bits_0 in Hqb; discriminate|].
           unfold bit in Hqb. rewrite testbit_bit, N2Nat.id in Hqb. apply N.eqb_eq in Hqb. subst b. congruence.
        -- exists q. rewrite in_app_iff. tauto.
      * exists q. rewrite in_app_iff. tauto.
    + exists (store64 n, bit p). split; [|exact Hb]. apply in_app_iff. left.
      apply set_nth_has. destruct HI as [[HL _] _ _ _ _]. lia.
Qed.

Lemma register_boolean_xinv names r r' :
  XInv r -> register_boolean names r = Some r' -> XInv r'.
Proof.
  intros [HW HX HN] H. pose proof (register_boolean_winv _ _ _ HW H) as HW'.
  unfold register_boolean in H.
  destruct (reg_bool_loop _ (bdesc r) (used r)) as [[d u]|] eqn:E; [|discriminate].
  injection H as <-. split; [exact HW'| |exact HN].
  unfold exact; cbn [bdesc cdesc used].
  eapply reg_bool_loop_exact; [| exact (filter_new_nonempty _ _ _ _ HW E) | exact HX | exact E].
  destruct HW; split; auto.
Qed.

Lemma unregister_boolean_xinv names r r' :
  XInv r -> unregister_boolean names r = Some r' -> XInv r'.
Proof.
  intros [HW HX HN] H. pose proof (unregister_boolean_winv _ _ _ HW H) as HW'.
  unfold unregister_boolean in H.
  destruct (forallb (fun n => negb (String.eqb n "") && in_names n (bdesc r)) names) eqn:EF; [|discriminate]. injection H as <-.
  split; [exact HW' | | exact HN].
  intros b Hb. cbn [bdesc cdesc used] in *. rewrite N.ldiff_spec, andb_true_iff in Hb.
  destruct Hb as [Hb Hc]. apply negb_true_iff in Hc.
  destruct (HX b Hb) as [p [Hp Hpb]]. apply in_app_iff in Hp as [Hp|Hp].
  - exists p. split; [|exact Hpb]. apply in_app_iff. left. apply in_map_iff. exists p.
    split; [|exact Hp]. destruct (mem (fst p) names) eqn:Em; [|reflexivity].
    exfalso. apply mem_In in Em.
    assert (T : N.testbit (fold_left (fun c p => if mem (fst p) names then N.lor c (snd p) else c) (bdesc r) 0) b = true)
      by (apply clear_fold_bits; right; exists p; tauto).
    congruence.
  - exists p. rewrite in_app_iff. tauto.
Qed.

Lemma register_categorical_xinv f cs d r r' :
  short f -> XInv r -> register_categorical f cs d r = Some r' -> XInv r'.
Proof.
  intros Hsh [HW HX HN] H. pose proof (register_categorical_winv _ _ _ _ _ HW H) as HW'.
  unfold register_categorical in H.
  destruct (in_names f (cdesc r)) eqn:EN; [injection H as <-; split; assumption|].
  unfold plan_categorical in H.
  destruct (pick_bits _ (used r) 0 31 []) as [[[bm low] masks]|] eqn:E; [|discriminate].
  injection H as <-. split; [exact HW'| |]; cbn [cdesc].
  - intros b Hb. cbn [bdesc cdesc used] in *. rewrite N.lor_spec, orb_true_iff in Hb.
    destruct Hb as [Hb|Hb].
    + destruct (HX b Hb) as [p [Hp Hpb]]. exists p. rewrite !in_app_iff in *. tauto.
    + exists (store64 f, bm). rewrite !in_app_iff. cbn. tauto.
  - rewrite map_app. cbn [map fst]. rewrite (store64_short f Hsh).
    assert (Hni : ~ In f (map fst (cdesc r))) by (intros C; apply in_names_In in C; congruence).
    apply NoDup_Add with (a := f) (l := map fst (cdesc r)); [|tauto].
    rewrite <- (app_nil_r (map fst (cdesc r))) at 1. apply Add_app.
Qed.

Lemma NoDup_fst_eq {A B} (l : list (A * B)) p q :
  NoDup (map fst l) -> In p l -> In q l -> fst p = fst q -> p = q.
Proof.
  induction l as [|x l IH]; cbn; [tauto|]. intros H Hp Hq E. inversion H as [|? ? Hx Hl]; subst.
  destruct Hp as [->|Hp], Hq as [->|Hq]; auto.
  - exfalso. apply Hx. rewrite E. apply in_map, Hq.
  - exfalso. apply Hx. rewrite <- E. apply in_map, Hp.
Qed.

Lemma NoDup_map_filter {A B} (g : A -> B) f l : NoDup (map g l) -> NoDup (map g (filter f l)).
Proof.
  induction l as [|x l IH]; cbn; [auto|]. intros H. inversion H as [|? ? Hx Hl]; subst.
  destruct (f x); cbn; [|auto]. constructor; [|auto].
  intros C. apply Hx. apply in_map_iff in C as [y [<- Hy]]. apply filter_In in Hy as [Hy _].
  apply in_map, Hy.
Qed.

Lemma unregister_categorical_xinv f r r' :
  XInv r -> unregister_categorical f r = Some r' -> XInv r'.
Proof.
  intros [HW HX HN] H. pose proof (unregister_categorical_winv _ _ _ HW H) as HW'.
  unfold unregister_categorical in H.
  destruct (find (fun p => String.eqb (fst p) f) (cdesc r)) as [[n clear]|] eqn:E; [|discriminate].
  injection H as <-. apply find_some in E as [Hin Hn]. cbn [fst] in Hn. apply String.eqb_eq in Hn. subst n.
  split; [exact HW'| |]; cbn [cdesc].
  - intros b Hb. cbn [bdesc cdesc used] in *. rewrite N.ldiff_spec, andb_true_iff in Hb.
    destruct Hb as [Hb Hc]. destruct (HX b Hb) as [p [Hp Hpb]]. exists p. split; [|exact Hpb].
    rewrite in_app_iff in *. destruct Hp as [Hp|Hp]; [tauto|]. right. apply filter_In. split; [exact Hp|].
    destruct (String.eqb (fst p) f) eqn:Ef; [|reflexivity]. apply String.eqb_eq in Ef.
    rewrite (NoDup_fst_eq _ p (f, clear) HN Hp Hin Ef) in Hpb. cbn [snd] in Hpb.
    rewrite Hpb in Hc. discriminate.
  - apply NoDup_map_filter, HN.
Qed.

Lemma step_xinv o r : op_short o -> XInv r -> XInv (step r o).
Proof.
  intros Ho H. unfold step. destruct (try_op o r) as [r'|] eqn:E; [|exact H].
  destruct o; cbn [try_op op_short] in *.
  - eapply register_boolean_xinv; eauto.
  - eapply unregister_boolean_xinv; eauto.
  - apply (register_categorical_xinv field cats default r r' (proj1 Ho) H E).
  - eapply unregister_categorical_xinv; eauto.
Qed.

Lemma run_xinv ops r : Forall op_short ops -> XInv r -> XInv (run ops r).
Proof.
  revert r; induction ops as [|o ops IH]; cbn; intros r Ho H; [exact H|].
  inversion Ho; subst. apply IH; [assumption | apply step_xinv; assumption].
Qed.

Lemma empty_xinv : XInv empty_registry.
Proof.
  split; [exact empty_winv | | constructor].
  intros b Hb. cbn [empty_registry used] in Hb. rewrite N.bits_0 in Hb. discriminate.
Qed.

Lemma xinv_used_exact r : XInv r -> used_exact r.
Proof.
  intros [HW HX HN] b. split.
  - intros Hb. destruct (HX b Hb) as [p [Hp Hpb]]. exists p. split; [|exact Hpb].
    unfold fields. rewrite in_app_iff in *. destruct Hp as [Hp|Hp]; [left|tauto].
    apply filter_In. split; [exact Hp|]. apply negb_true_iff, String.eqb_neq. intros C.
    apply In_nth_error in Hp as [i Hi].
    destruct (proj2 (wi_slots r HW) _ _ Hi) as [[_ Z]|[Z _]]; [|tauto].
    rewrite Z, N.bits_0 in Hpb. discriminate.
  - intros [p [Hp Hpb]]. exact (winv_covered r p HW Hp b Hpb).
Qed.
