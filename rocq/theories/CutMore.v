(** Ranges without limits, values that are not numbers, fields unregistered while no pulse is cut, and crashes in registrations. *)
From Coq Require Import PeanoNat NArith QArith String Bool List Lia.
From Verif Require Import BitLemmas CutModel CutSpec CutProofs CutMaskProofs CutHistProofs CutCatProofs CutRefute CutMoreSpec.
Import ListNotations.
Local Open Scope N_scope.

(* ---------- C06 ---------- *)

Lemma cut_parameter_beyond r data a b n ws :
  In n (map fst (bdesc r)) -> length data = length ws ->
  exists v, cut_parameter r data (Some (OneRange a b)) n ws = cut r n (BoolMask v) ws /\ marks (beyond a b) data v.
Proof.
  intros Hn HL. exists (map (one_range_mark a b) data). split; [apply cut_parameter_one; assumption|].
  apply marks_map. intros x _. unfold one_range_mark, beyond. rewrite orb_true_iff. split.
  - intros [H|H]; [left|right]; (destruct a as [a|] || idtac); (destruct b as [b|] || idtac); try discriminate; eexists; split; try reflexivity; apply xle_spec, H.
  - intros [[v [-> H]]|[v [-> H]]]; [left|right]; apply xle_spec, H.
Qed.

Lemma ranges_loop_after l data g : forall f inv, (forall x, g x = true -> f x = false) ->
  ranges_loop l data (Some (map g data)) (map f data) inv =
  Some (map (fun x => f x && negb (existsb (fun e => elt_mark e x) (filter limited l))) data, inv || existsb is_invert l).
Proof.
  assert (M : forall f g, map2 (fun i c : bool => if i then false else c) (map g data) (map f data) = map (fun x => f x && negb (g x)) data).
  { clear. intros f g. induction data as [|x d IH]; cbn; [reflexivity|]. rewrite IH. destruct (g x), (f x); reflexivity. }
  revert g. induction l as [|e l IH]; intros g f inv Hg; cbn [ranges_loop].
  - rewrite orb_false_r. f_equal. f_equal. apply map_ext. intros x. cbn. rewrite andb_true_r. reflexivity.
  - destruct e as [a b|]; [|rewrite IH by exact Hg; cbn [filter limited existsb is_invert elt_mark orb]; rewrite orb_true_r; reflexivity].
    assert (S : forall h, ranges_loop l data (Some (map h data)) (map (fun x => f x && negb (h x)) data) inv =
      Some (map (fun x => f x && negb (h x) && negb (existsb (fun e => elt_mark e x) (filter limited l))) data, inv || existsb is_invert l)).
    { intros h. apply IH. intros x ->. apply andb_false_r. }
    destruct a as [a|], b as [b|]; rewrite M; cbn [filter limited existsb is_invert elt_mark orb].
    + rewrite S. f_equal. f_equal. apply map_ext. intros x. rewrite negb_orb, andb_assoc. reflexivity.
    + rewrite S. f_equal. f_equal. apply map_ext. intros x. rewrite negb_orb, andb_assoc. reflexivity.
    + rewrite S. f_equal. f_equal. apply map_ext. intros x. rewrite negb_orb, andb_assoc. reflexivity.
    + rewrite S. f_equal. f_equal. apply map_ext. intros x. destruct (g x) eqn:E; [rewrite (Hg x E); reflexivity|cbn; rewrite andb_true_r; reflexivity].
Qed.

Lemma ranges_loop_any l data : forall inv,
  ranges_loop l data None (map (fun _ => true) data) inv =
  if starts_unlimited l then None
  else Some (map (fun x => negb (existsb (fun e => elt_mark e x) (filter limited l))) data, inv || existsb is_invert l).
Proof.
  assert (M : forall g, map2 (fun i c : bool => if i then false else c) (map g data) (map (fun _ => true) data) = map (fun x => negb (g x)) data).
  { clear. intros g. induction data as [|x d IH]; cbn; [reflexivity|]. rewrite IH. destruct (g x); reflexivity. }
  induction l as [|e l IH]; intros inv; cbn [ranges_loop starts_unlimited].
  - rewrite orb_false_r. reflexivity.
  - destruct e as [a b|]; [|rewrite IH; destruct (starts_unlimited l); [reflexivity|]; cbn [filter limited existsb is_invert elt_mark orb]; rewrite orb_true_r; reflexivity].
    destruct a as [a|], b as [b|]; [| | |reflexivity]; rewrite M; cbn [filter limited existsb is_invert elt_mark orb];
      rewrite ranges_loop_after by (intros x ->; reflexivity); f_equal; f_equal; apply map_ext; intros x; rewrite negb_orb; reflexivity.
Qed.

Lemma limited_has l : Forall has_limit (filter limited l).
Proof. apply Forall_forall. intros e He. apply filter_In in He as [_ He]. destruct e as [[a|] [b|]|]; cbn in *; try discriminate; exact I. Qed.
Lemma cut_parameter_ranges_any r data l n ws :
  In n (map fst (bdesc r)) -> l <> [] ->
  if starts_unlimited l then cut_parameter r data (Some (Ranges l)) n ws = None
  else exists v, cut_parameter r data (Some (Ranges l)) n ws = cut r n (BoolMask v) ws /\
    marks (fun x => if existsb is_invert l then in_some_range (filter limited l) x else ~ in_some_range (filter limited l) x) data v.
Proof.
  intros Hn Hl. unfold cut_parameter. rewrite (proj2 (in_names_In n (bdesc r)) Hn). cbn [negb].
  destruct l as [|e l]; [congruence|]. rewrite ranges_loop_any. destruct (starts_unlimited (e :: l)); [reflexivity|].
  eexists. split; [reflexivity|]. cbn [orb].
  pose proof (fun x => elt_mark_spec (filter limited (e :: l)) x (limited_has _)) as S.
  destruct (existsb is_invert (e :: l)).
  - rewrite map_map. apply marks_map. intros x _. rewrite negb_involutive. apply S.
  - apply marks_map. intros x _. rewrite negb_true_iff, <- S. destruct (existsb _ (filter limited (e :: l))); split; congruence.
Qed.

(* ---------- C07 ---------- *)

Lemma map_const_In {A B} (f : A -> B) c (l : list A) : map f l = map (fun _ => c) l -> forall a, In a l -> f a = c.
Proof. induction l as [|x l IH]; cbn; [tauto|]. intros [= H1 H2] a [<-|H]; auto. Qed.

Lemma lowest_bit_least m b : N.testbit m b = true -> b < 32 -> lowest_bit m <= b.
Proof.
  intros Hb Hlt. unfold lowest_bit. destruct (find _ range32) as [p|] eqn:E.
  - destruct (N.le_gt_cases p b) as [|C]; [assumption|]. pose proof (find_seq_first _ _ _ E b C) as X. cbv beta in X. congruence.
  - exfalso. pose proof (find_none _ _ E b (proj2 (range32_In b) Hlt)) as X. cbv beta in X. congruence.
Qed.

Lemma unreg_clean o s : (exists ns, o = UnregB ns) \/ (exists f, o = UnregC f) ->
  clean_event s (Reg o) -> WS s -> Forall (fun w => covered w (used (step (fst s) o))) (snd s).
Proof.
  destruct s as [r ws]. cbn [fst snd]. intros Ho Hc [HI Hw]. cbn [fst snd] in *. unfold step. destruct (try_op o r) as [r'|] eqn:E; [|exact Hw].
  destruct Ho as [[ns ->]|[f ->]]; cbn [try_op] in E.
  - unfold unregister_boolean in E. destruct (forallb _ ns) eqn:F; [|discriminate]. injection E as <-. cbn [used].
    rewrite Forall_forall in Hw |- *. intros w Hin b Hb. rewrite N.ldiff_spec, (Hw w Hin b Hb). cbn [andb]. apply negb_true_iff.
    match goal with |- ?x = false => destruct x eqn:T; [|reflexivity] end. exfalso.
    apply clear_fold_bits in T as [T|[p [Hp [Hn T]]]]; [rewrite N.bits_0 in T; discriminate|].
    pose proof (Hc (fst p) Hn) as Hbad. cbn [fst snd] in Hbad. rewrite bad_for_eq in Hbad.
    destruct (bool_bit_mask r [fst p]) as [bm|] eqn:Eb; [|discriminate]. cbn [option_map] in Hbad. injection Hbad as Hbad.
    pose proof (map_const_In _ _ _ Hbad w Hin) as Z. cbv beta in Z. apply negb_false_iff, N.eqb_eq in Z. rewrite N.land_comm in Z.
    rewrite (proj1 (land_zero_bits bm w) Z b) in Hb; [discriminate|].
    apply (bool_bit_mask_bits r (fst p) [] bm b Eb). exists p. cbn; auto.
  - unfold unregister_categorical in E. destruct (find (fun p => String.eqb (fst p) f) (cdesc r)) as [[n clear]|] eqn:F; [|discriminate]. injection E as <-. cbn [used].
    rewrite Forall_forall in Hw |- *. intros w Hin b Hb. rewrite N.ldiff_spec, (Hw w Hin b Hb). cbn [andb]. apply negb_true_iff.
    destruct (N.testbit clear b) eqn:T; [|reflexivity]. exfalso.
    unfold clean_event, category_codes, lookup in Hc. cbn [fst snd] in Hc. rewrite F in Hc. cbn [option_map snd] in Hc. injection Hc as Hc.
    pose proof (map_const_In _ _ _ Hc w Hin) as Z. cbv beta in Z.
    apply find_some in F as [F _]. assert (Hlt : b < 32) by (apply (proj1 (lt_pow2_bits _ _) (wi_used r HI)), (wi_ccov r HI _ F), T).
    pose proof (lowest_bit_least clear b T Hlt) as L.
    assert (X : N.testbit (N.shiftr (N.land w clear) (lowest_bit clear)) (b - lowest_bit clear) = true).
    { rewrite N.shiftr_spec by lia. replace (b - lowest_bit clear + lowest_bit clear) with b by lia. rewrite N.land_spec, Hb, T. reflexivity. }
    rewrite Z, N.bits_0 in X. discriminate.
Qed.

Lemma clean_step s e : clean_event s e -> WS s -> WS (cut_step s e).
Proof.
  intros Hc HW. destruct e as [[ns|ns|f cs d|f]|f m|f bd|ns]; try (apply cut_step_WS; [exact I|exact HW]).
  - destruct s as [r ws]. split; cbn [cut_step fst snd]; [apply step_winv, HW|]. apply (unreg_clean (UnregB ns) (r, ws)); eauto.
  - destruct s as [r ws]. split; cbn [cut_step fst snd]; [apply step_winv, HW|]. apply (unreg_clean (UnregC f) (r, ws)); eauto.
Qed.
Lemma clean_run es : forall s, clean_history es s -> WS s -> WS (run_cuts es s).
Proof. induction es as [|e es IH]; cbn; intros s H HW; [exact HW|]. apply IH; [apply H|apply clean_step; [apply H|exact HW]]. Qed.
Lemma no_unregister_clean es : forall s, Forall no_unregister es -> clean_history es s.
Proof.
  induction es as [|e es IH]; cbn; intros s H; [exact I|]. inversion H as [|? ? He Hes]; subst. split; [|apply IH, Hes].
  destruct e as [[]| | |]; cbn in *; tauto.
Qed.

Lemma fresh_clean es n0 names n :
  clean_history es (init_registry, repeat 0 n0) ->
  let s := run_cuts es (init_registry, repeat 0 n0) in
  forall r', register_boolean names (fst s) = Some r' -> In n names -> short n -> n <> ""%string ->
  ~ In n (map fst (bdesc (fst s))) ->
  bad_for r' n (snd s) = Some (map (fun _ => false) (snd s)).
Proof.
  intros Hes s r' H Hn Hs Hne Hnew.
  assert (HW : WS s).
  { apply clean_run; [exact Hes|]. split; cbn [fst snd].
    - apply init_winv.
    - apply Forall_forall. intros w Hw b Hb. apply repeat_spec in Hw. subst w. rewrite N.bits_0 in Hb. discriminate. }
  destruct HW as [HI Hw]. eapply fresh_field; eauto.
  unfold register_boolean in H.
  destruct (reg_bool_loop _ (bdesc (fst s)) (used (fst s))) as [[d u]|] eqn:E; [|discriminate].
  injection H as <-. cbn [bdesc].
  eapply (reg_bool_loop_registers _ _ (cdesc (fst s)) _ _ _ n); [| exact (filter_new_nonempty _ _ _ _ HI E) | exact E | | exact Hs].
  - destruct HI; split; auto.
  - apply filter_In. split; [exact Hn|]. apply negb_true_iff. destruct (in_names n (bdesc (fst s))) eqn:C; [|reflexivity].
    apply in_names_In in C. tauto.
Qed.

(* ---------- C08 ---------- *)

Lemma harmless_winv es : forall r, Forall harmless_crash es -> WInv r -> WInv (run_events es r).
Proof.
  induction es as [|e es IH]; cbn; intros r Hn H; [exact H|].
  inversion Hn as [|? ? He Hes]; subst. apply IH; [assumption|]. destruct e as [o|o k]; cbn [event_step].
  - apply step_winv, H.
  - destruct o as [ns|ns|f cs d|f]; cbn [harmless_crash] in He.
    + pose proof (step_winv (RegB ns) r H) as S. unfold step in S. unfold crash_states. destruct (try_op _ r) as [r1|]; [|destruct k as [|k]; [exact H|destruct k; exact H]].
      destruct k as [|[|[|k]]]; [exact H|lia|exact S|]. destruct k; exact H.
    + destruct (nth_default_In k (crash_states (UnregB ns) r) r) as [->|Hin]; [exact H|]. apply (unregister_crash_winv (UnregB ns) r); [exact I|exact H|exact Hin].
    + pose proof (step_winv (RegC f cs d) r H) as S. unfold step in S. unfold crash_states. destruct (try_op _ r) as [r1|]; [|destruct k as [|k]; [exact H|destruct k; exact H]].
      destruct k as [|[|[|[|k]]]]; [exact H|apply winv_clist, H|lia|exact S|]. destruct k; exact H.
    + destruct (nth_default_In k (crash_states (UnregC f) r) r) as [->|Hin]; [exact H|]. apply (unregister_crash_winv (UnregC f) r); [exact I|exact H|exact Hin].
Qed.

(** What is left of the invariant when boolean fields may be missing from the used word. *)
Definition loose_slot (i : nat) (p : name * N) : Prop := snd p = bit (N.of_nat i) \/ (fst p = ""%string /\ snd p = 0).
Record OInv (r : registry) : Prop := {
  oi_length : length (bdesc r) = 32%nat;
  oi_slots : forall i p, nth_error (bdesc r) i = Some p -> loose_slot i p;
  oi_used : used r < 2 ^ 32;
  oi_ccov : forall p, In p (cdesc r) -> covered (snd p) (used r);
  oi_cnz : forall p, In p (cdesc r) -> snd p <> 0;
  oi_bc : forall p q, In p (bdesc r) -> In q (cdesc r) -> disj (snd p) (snd q);
  oi_cc : ForallOrdPairs (fun p q => disj (snd p) (snd q)) (cdesc r) }.

Lemma winv_oinv r : WInv r -> OInv r.
Proof. intros [[L S] H2 H3 H4 H5 H6 H7]. split; auto. intros i p Hp. destruct (S i p Hp) as [H|[_ H]]; [right; exact H|left; exact H]. Qed.

Lemma loose_slots_FOP (d : list (name * N)) :
  (forall i p, nth_error d i = Some p -> loose_slot i p) -> ForallOrdPairs (fun p q => disj (snd p) (snd q)) d.
Proof.
  intros H.
  enough (G : forall s, (forall i p, nth_error d i = Some p -> loose_slot (s + i) p) ->
              ForallOrdPairs (fun p q => disj (snd p) (snd q)) d) by (apply (G O); exact H).
  clear H. induction d as [|x d IH]; intros s H; constructor.
  - apply Forall_forall. intros y Hy. apply In_nth_error in Hy as [j Hj].
    intros b Hb. destruct (H O x eq_refl) as [E|[_ E]]; rewrite E in Hb; [|rewrite N.bits_0 in Hb; discriminate].
    destruct (H (S j) y Hj) as [E'|[_ E']]; rewrite E'; [|apply N.bits_0].
    unfold bit in *. rewrite testbit_bit in *. apply N.eqb_eq in Hb. apply N.eqb_neq. lia.
  - apply (IH (S s)). intros i p Hp. replace (S s + i)%nat with (s + S i)%nat by lia. apply H. exact Hp.
Qed.

Lemma oinv_disjoint r : OInv r -> disjoint_fields r.
Proof.
  intros [HL Hs Hu Hc Hz Hbc Hcc]. split; [|split].
  - intros f Hf. unfold fields in Hf. apply in_app_iff in Hf as [Hf|Hf].
    + apply filter_In in Hf as [Hf Hn]. apply In_nth_error in Hf as [i Hi].
      destruct (Hs _ _ Hi) as [E|[E _]].
      * exists (N.of_nat i). unfold owns. rewrite E. unfold bit. rewrite testbit_bit. apply N.eqb_refl.
      * exfalso. apply negb_true_iff, String.eqb_neq in Hn. exact (Hn E).
    + apply nonzero_bits, Hz, Hf.
  - intros f b Hf Ho. unfold fields in Hf. apply in_app_iff in Hf as [Hf|Hf].
    + apply filter_In in Hf as [Hf Hn]. apply In_nth_error in Hf as [i Hi]. unfold owns in Ho.
      assert (Li : (i < 32)%nat) by (rewrite <- HL; apply nth_error_Some; congruence).
      destruct (Hs _ _ Hi) as [E|[_ E]]; rewrite E in Ho; [|rewrite N.bits_0 in Ho; discriminate].
      unfold bit in Ho. rewrite testbit_bit in Ho. apply N.eqb_eq in Ho. lia.
    + apply (proj1 (lt_pow2_bits (used r) 32) Hu), (Hc _ Hf), Ho.
  - assert (HF : ForallOrdPairs (fun p q => disj (snd p) (snd q)) (fields r)).
    { unfold fields. apply FOP_app. split; [|split].
      - apply FOP_filter, loose_slots_FOP, Hs.
      - exact Hcc.
      - intros x y Hx Hy. apply filter_In in Hx as [Hx _]. auto. }
    intros i j f g b Hi Hj Hf Hg.
    destruct (Nat.lt_trichotomy i j) as [L|[E|L]]; [|exact E|].
    + pose proof (FOP_nth _ _ _ _ _ _ HF L Hi Hj b Hf) as C. unfold owns in Hg. cbv beta in C. congruence.
    + pose proof (FOP_nth _ _ _ _ _ _ HF L Hj Hi b Hg) as C. unfold owns in Hf. cbv beta in C. congruence.
Qed.

(** The loop over new names, for descriptions and used word apart. *)
Record oloop (d cd : list (name * N)) (u : N) : Prop := {
  ol_length : length d = 32%nat;
  ol_slots : forall i p, nth_error d i = Some p -> loose_slot i p;
  ol_used : u < 2 ^ 32;
  ol_ccov : forall p, In p cd -> covered (snd p) u;
  ol_bc : forall p q, In p d -> In q cd -> disj (snd p) (snd q) }.
Lemma loop_loose new cd : forall d u d' u', oloop d cd u -> reg_bool_loop new d u = Some (d', u') -> oloop d' cd u'.
Proof.
  induction new as [|n new IH]; intros d u d' u' H; cbn [reg_bool_loop]; [intros [= <- <-]; exact H|].
  destruct (lowest_available u) as [p|] eqn:E; [|discriminate]. apply lowest_available_spec in E as [Hp Hf]. apply IH.
  destruct H as [H1 H2 H3 H4 H5]. split.
  - rewrite set_nth_length. exact H1.
  - intros i q Hq. destruct (Nat.eq_dec (N.to_nat p) i) as [<-|Hne].
    + rewrite set_nth_eq in Hq by lia. injection Hq as <-. left. cbn [snd]. rewrite N2Nat.id. reflexivity.
    + rewrite set_nth_neq in Hq by exact Hne. auto.
  - apply lor_lt; [exact H3|apply bit_lt; exact Hp].
  - intros q Hq. apply covered_lor_l; auto.
  - intros q q' Hq Hq'. apply set_nth_In in Hq as [->|Hq]; [|auto].
    cbn [snd]. intros b Hb. unfold bit in Hb. rewrite testbit_bit in Hb. apply N.eqb_eq in Hb; subst b.
    destruct (N.testbit (snd q') p) eqn:T; [|reflexivity]. rewrite (H4 _ Hq' _ T) in Hf. discriminate.
Qed.

Lemma register_boolean_oinv ns r r' : OInv r -> register_boolean ns r = Some r' ->
  OInv r' /\ OInv (mkReg (bdesc r') (cdesc r) (clist r) (used r)).
Proof.
  intros [H1 H2 H3 H4 H5 H6 H7]. unfold register_boolean. destruct (reg_bool_loop _ (bdesc r) (used r)) as [[d u]|] eqn:E; [|discriminate].
  intros [= <-]. assert (L : oloop d (cdesc r) u) by (eapply loop_loose; [split; eassumption|exact E]). destruct L as [L1 L2 L3 L4 L5]. split; split; cbn [bdesc cdesc used clist]; auto.
Qed.
Lemma unregister_boolean_oinv ns r r' : OInv r -> unregister_boolean ns r = Some r' ->
  OInv r' /\ OInv (mkReg (bdesc r') (cdesc r) (clist r) (used r)).
Proof.
  intros [H1 H2 H3 H4 H5 H6 H7]. unfold unregister_boolean. destruct (forallb _ ns); [|discriminate]. intros [= <-].
  set (clear := fold_left _ (bdesc r) 0). set (d := map _ (bdesc r)).
  assert (D1 : length d = 32%nat) by (unfold d; rewrite map_length; exact H1).
  assert (D2 : forall i p, nth_error d i = Some p -> loose_slot i p).
  { intros i p Hp. unfold d in Hp. rewrite nth_error_map in Hp. destruct (nth_error (bdesc r) i) as [q|] eqn:E; [|discriminate].
    cbn in Hp. injection Hp as <-. destruct (mem (fst q) ns); [right; auto | apply H2; exact E]. }
  assert (D3 : forall p q, In p d -> In q (cdesc r) -> disj (snd p) (snd q)).
  { intros p q Hp Hq. apply in_map_iff in Hp as [x [Hx Hxin]]. destruct (mem (fst x) ns); subst p.
    - intros b Hb. cbn [snd] in Hb. rewrite N.bits_0 in Hb. discriminate.
    - apply H6; assumption. }
  split; split; cbn [bdesc cdesc used clist]; auto.
  - apply ldiff_lt; exact H3.
  - intros p Hp b Hb. rewrite N.ldiff_spec, (H4 _ Hp _ Hb). cbn [andb]. apply negb_true_iff.
    destruct (N.testbit clear b) eqn:Ec; [|reflexivity].
    unfold clear in Ec. apply clear_fold_bits in Ec as [Ec|[q [Hq [_ Hqb]]]]; [rewrite N.bits_0 in Ec; discriminate|].
    rewrite (H6 _ _ Hq Hp _ Hqb) in Hb. discriminate.
Qed.
Lemma unregister_categorical_oinv f r r' : OInv r -> unregister_categorical f r = Some r' ->
  OInv r' /\ forall cl, OInv (mkReg (bdesc r) (cdesc r') cl (used r)).
Proof.
  intros [H1 H2 H3 H4 H5 H6 H7]. unfold unregister_categorical.
  destruct (find (fun p => String.eqb (fst p) f) (cdesc r)) as [[n clear]|] eqn:E; [|discriminate]. intros [= <-].
  apply find_some in E as [Hin Hn]. cbn [fst] in Hn. apply String.eqb_eq in Hn. subst n.
  split; [|intros cl]; split; cbn [bdesc cdesc used clist]; auto.
  - apply ldiff_lt; exact H3.
  - intros p Hp b Hb. apply filter_In in Hp as [Hp Hpn].
    rewrite N.ldiff_spec, (H4 _ Hp _ Hb). cbn [andb]. apply negb_true_iff.
    refine (FOP_disj_In disj (cdesc r) p (f, clear) disj_sym H7 Hp Hin _ b Hb).
    intros ->. cbn [fst] in Hpn. rewrite String.eqb_refl in Hpn. discriminate.
  - intros p Hp. apply filter_In in Hp as [Hp _]. auto.
  - intros p q Hp Hq. apply filter_In in Hq as [Hq _]. auto.
  - apply FOP_filter. exact H7.
  - intros p Hp. apply filter_In in Hp as [Hp _]. auto.
  - intros p Hp. apply filter_In in Hp as [Hp _]. auto.
  - intros p q Hp Hq. apply filter_In in Hq as [Hq _]. auto.
  - apply FOP_filter. exact H7.
Qed.

Lemma oinv_step e r : no_categorical e -> OInv r -> OInv (event_step r e).
Proof.
  intros Hn H.
  assert (G : forall o, (forall f cs d, o <> RegC f cs d) -> OInv (step r o) /\ forall r', In r' (crash_states o r) -> OInv r').
  { intros o Ho. unfold step, crash_states. destruct (try_op o r) as [r1|] eqn:E; [|split; [exact H|intros r' [<-|[]]; exact H]].
    destruct o as [ns|ns|f cs d|f]; cbn [try_op] in E; [| |exfalso; eapply Ho; reflexivity|].
    - destruct (register_boolean_oinv _ _ _ H E) as [A B]. split; [exact A|]. intros r' [<-|[<-|[<-|[]]]]; assumption.
    - destruct (unregister_boolean_oinv _ _ _ H E) as [A B]. split; [exact A|]. intros r' [<-|[<-|[<-|[]]]]; assumption.
    - destruct (unregister_categorical_oinv _ _ _ H E) as [A B]. split; [exact A|]. intros r' [<-|[<-|[<-|[<-|[]]]]]; auto. }
  destruct e as [o|o k]; cbn [event_step].
  - apply G. intros f cs d ->. exact Hn.
  - destruct (nth_default_In k (crash_states o r) r) as [->|Hin]; [exact H|]. apply (G o); [|exact Hin]. intros f cs d ->. exact Hn.
Qed.
Lemma oinv_run es : forall r, Forall no_categorical es -> OInv r -> OInv (run_events es r).
Proof. induction es as [|e es IH]; cbn; intros r Hn H; [exact H|]. inversion Hn; subst. apply IH; [assumption|apply oinv_step; assumption]. Qed.

Lemma boolean_crashes es es' : Forall harmless_crash es -> Forall no_categorical es' -> disjoint_fields (run_events (es ++ es') init_registry).
Proof.
  intros H1 H2. unfold run_events. rewrite fold_left_app. apply oinv_disjoint.
  apply (oinv_run es' (run_events es init_registry) H2), winv_oinv, harmless_winv; [exact H1|apply init_winv].
Qed.
