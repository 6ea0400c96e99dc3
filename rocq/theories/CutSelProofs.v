(** Selecting categories of several fields is the intersection of the single selections. *)
From Coq Require Import NArith String Bool Lia List.
From Verif Require Import BitLemmas CutModel CutSpec CutProofs CutMaskProofs CutHistProofs CutCatProofs.
Import ListNotations.
Local Open Scope N_scope.

Definition sel_ok (r : registry) (ws : list N) (fc : name * name) (m t : N) : Prop :=
  In (fst fc, m) (cdesc r) /\ N.land t m = t /\
  select_category r [fc] ws = Some (map (fun w => N.land w m =? t) ws).

Lemma select_one r ws f c m e :
  CInv r -> lookup f (cdesc r) = Some m ->
  find (fun e => String.eqb (fst (fst e)) f && String.eqb (snd (fst e)) c) (clist r) = Some e ->
  sel_ok r ws (f, c) m (w32 (N.shiftl (snd e) (lowest_bit m))).
Proof.
  intros HI Hm He. pose proof (lookup_In _ _ _ Hm) as Hin. destruct (ci_desc r HI f m Hin) as [ps [cats HD]].
  pose proof (find_some _ _ He) as [Hel Hef]. rewrite andb_true_iff, !String.eqb_eq in Hef. destruct Hef as [Hf Hc].
  destruct (proj1 (entry_iff r f m ps cats HD e) (conj Hel Hf)) as [k [c' [Hk ->]]]. cbn [fst snd] in *. subst c'.
  assert (E : w32 (N.shiftl (N.shiftr (pattern ps k) (lowest_bit m)) (lowest_bit m)) = pattern ps k).
  { unfold pattern. rewrite (low_spread r f m ps cats HD). apply w32_small, (pattern_lt r f m ps cats HD k). }
  rewrite E. split; [exact Hin|]. split; [apply (pattern_in_mask r f m ps cats HD)|].
  apply (select_known r f m ps cats (ci_x r HI) Hin HD k c ws Hk).
Qed.

Lemma land_lor_split w bm tgt m t :
  N.land tgt bm = tgt -> N.land t m = t -> disj bm m ->
  (N.land w (N.lor bm m) =? N.lor tgt t) = (N.land w bm =? tgt) && (N.land w m =? t).
Proof.
  intros H1 H2 HD. apply eq_true_iff_eq. rewrite andb_true_iff, !N.eqb_eq. split.
  - intros H. assert (B : forall b, N.testbit (N.land w (N.lor bm m)) b = N.testbit (N.lor tgt t) b) by (rewrite H; reflexivity).
    split; apply N.bits_inj; intros b; specialize (B b); rewrite N.land_spec, !N.lor_spec in B; rewrite N.land_spec;
      assert (T1 : N.testbit tgt b = N.testbit tgt b && N.testbit bm b) by (rewrite <- N.land_spec, H1; reflexivity);
      assert (T2 : N.testbit t b = N.testbit t b && N.testbit m b) by (rewrite <- N.land_spec, H2; reflexivity);
      specialize (HD b); destruct (N.testbit w b), (N.testbit bm b), (N.testbit m b), (N.testbit tgt b), (N.testbit t b);
      cbn in *; try congruence; specialize (HD eq_refl); congruence.
  - intros [A B]. rewrite N.land_lor_distr_r, A, B. reflexivity.
Qed.

Lemma select_bits_split r ws : CInv r -> forall sel bm tgt M T,
  NoDup (map fst sel) -> N.land tgt bm = tgt ->
  (forall f m, In f (map fst sel) -> In (f, m) (cdesc r) -> disj bm m) ->
  select_bits r sel bm tgt = Some (M, T) ->
  exists mts, Forall2 (fun fc mt => sel_ok r ws fc (fst mt) (snd mt)) sel mts /\
    forall w, (N.land w M =? T) = (N.land w bm =? tgt) && forallb (fun mt => N.land w (fst mt) =? snd mt) mts.
Proof.
  intros HI. induction sel as [|[f c] sel IH]; intros bm tgt M T HN Ht Hd; cbn [select_bits].
  - intros [= <- <-]. exists []. split; [constructor|]. intros w. cbn. rewrite andb_true_r. reflexivity.
  - destruct (lookup f (cdesc r)) as [m|] eqn:Em; [|discriminate].
    destruct (find _ (clist r)) as [e|] eqn:Ee; [|discriminate]. destruct e as [nm code].
    pose proof (select_one r ws f c m _ HI Em Ee) as HS. cbn [snd] in HS. destruct HS as [Hin [Htm Hsel]].
    cbn [fst] in Hin. cbn [map fst] in HN. inversion HN as [|? ? Hnf HN']; subst. intros H.
    assert (Hdm : disj bm m) by (apply (Hd f m); [cbn; auto | exact Hin]).
    destruct (IH _ _ _ _ HN') with (5 := H) as [mts [HF HE]] || (apply IH in H as [mts [HF HE]]; [|exact HN'| |]).
    + exists ((m, w32 (N.shiftl code (lowest_bit m))) :: mts). split; [constructor; [split; [exact Hin|]; auto | exact HF]|].
      intros w. rewrite HE, land_lor_split by auto. cbn [forallb fst snd]. rewrite andb_assoc. reflexivity.
    + apply N.bits_inj; intros b. rewrite N.land_spec, !N.lor_spec.
      assert (T1 : N.testbit tgt b = N.testbit tgt b && N.testbit bm b) by (rewrite <- N.land_spec, Ht; reflexivity).
      set (t := w32 (N.shiftl code (lowest_bit m))) in *.
      assert (T2 : N.testbit t b = N.testbit t b && N.testbit m b) by (rewrite <- N.land_spec, Htm; reflexivity).
      destruct (N.testbit tgt b), (N.testbit bm b), (N.testbit t b), (N.testbit m b); cbn in *; congruence.
    + intros g m' Hg Hin' b Hb. rewrite N.lor_spec, orb_true_iff in Hb. destruct Hb as [Hb|Hb].
      * apply (Hd g m'); [cbn; auto | exact Hin' | exact Hb].
      * refine (FOP_disj_In disj (cdesc r) (f, m) (g, m') disj_sym (wi_cc r (xi_w r (ci_x r HI))) Hin Hin' _ b Hb).
        intros C. congruence.
Qed.

Lemma select_intersection r sel ws s :
  CInv r -> NoDup (map fst sel) -> select_category r sel ws = Some s ->
  length s = length ws /\
  (forall fc, In fc sel -> exists sf, select_category r [fc] ws = Some sf /\ length sf = length ws) /\
  forall i, (i < length ws)%nat ->
    (nth_error s i = Some true <->
     forall fc sf, In fc sel -> select_category r [fc] ws = Some sf -> nth_error sf i = Some true).
Proof.
  intros HI HN. unfold select_category at 1. destruct (select_bits r sel 0 0) as [[M T]|] eqn:E; [|discriminate]. intros [= <-].
  apply (select_bits_split r ws HI) in E as [mts [HF HE]]; [|exact HN | reflexivity | intros f m _ _ b Hb; rewrite N.bits_0 in Hb; discriminate].
  assert (HL : forall fc, In fc sel -> exists m t, In (m, t) mts /\ select_category r [fc] ws = Some (map (fun w => N.land w m =? t) ws)).
  { clear -HF. induction HF as [|fc [m t] sel mts [_ [_ H]] HF IH]; [intros fc []|]. intros fc' [<-|Hin].
    - exists m, t. cbn. auto.
    - destruct (IH fc' Hin) as [m' [t' [A B]]]. exists m', t'. cbn. auto. }
  assert (HR : forall m t, In (m, t) mts -> exists fc, In fc sel /\ select_category r [fc] ws = Some (map (fun w => N.land w m =? t) ws)).
  { clear -HF. induction HF as [|fc [m t] sel mts [_ [_ H]] HF IH]; [intros m t []|]. intros m' t' [E|Hin].
    - injection E as <- <-. exists fc. cbn. auto.
    - destruct (IH m' t' Hin) as [fc' [A B]]. exists fc'. cbn. auto. }
  split; [apply map_length|]. split.
  - intros fc Hfc. destruct (HL fc Hfc) as [m [t [_ ->]]]. eexists. split; [reflexivity | apply map_length].
  - intros i Hi. destruct (nth_error ws i) as [w|] eqn:Ew; [|apply nth_error_None in Ew; lia].
    rewrite (map_nth_error _ _ _ Ew). rewrite HE, N.land_0_r, N.eqb_refl, andb_true_l. split.
    + intros [= H] fc sf Hfc Hsf. rewrite forallb_forall in H. destruct (HL fc Hfc) as [m [t [Hmt Hs]]].
      rewrite Hs in Hsf. injection Hsf as <-. rewrite (map_nth_error _ _ _ Ew). f_equal. apply (H (m, t) Hmt).
    + intros H. f_equal. apply forallb_forall. intros [m t] Hmt. destruct (HR m t Hmt) as [fc [Hfc Hs]].
      specialize (H fc _ Hfc Hs). rewrite (map_nth_error _ _ _ Ew) in H. injection H as H. exact H.
Qed.

Lemma select_intersection_history ops sel ws s :
  Forall op_short ops -> NoDup (map fst sel) ->
  let r := run ops init_registry in
  select_category r sel ws = Some s ->
  length s = length ws /\
  (forall fc, In fc sel -> exists sf, select_category r [fc] ws = Some sf /\ length sf = length ws) /\
  forall i, (i < length ws)%nat ->
    (nth_error s i = Some true <->
     forall fc sf, In fc sel -> select_category r [fc] ws = Some sf -> nth_error sf i = Some true).
Proof. intros Ho HN r. apply select_intersection; [apply run_cinv; [exact Ho | exact init_cinv] | exact HN]. Qed.
