(** Parameter cuts, histories of cuts, crashes. *)
From Coq Require Import PeanoNat NArith QArith String Bool List Lia Lqa.
From Verif Require Import BitLemmas CutModel CutSpec CutProofs CutMaskProofs.
Import ListNotations.
Local Open Scope N_scope.

(* ---------- C06: specification ---------- *)

(** The order of the extended numbers, NaN being unordered. *)
Definition xlt (x y : xval) : Prop :=
  match x, y with
  | NaN, _ | _, NaN => False
  | Fin a, Fin b => (a < b)%Q
  | NegInf, Fin _ | NegInf, PosInf | Fin _, PosInf => True
  | _, _ => False
  end.
Definition is_num (x : xval) : Prop := x <> NaN.
Definition xleq (x y : xval) : Prop := is_num x /\ is_num y /\ ~ xlt y x.
Definition lim_num (a : option xval) : Prop := match a with Some v => is_num v | None => True end.

Definition in_open (a b : option xval) (x : xval) : Prop :=
  match a with Some a => xlt a x | None => True end /\
  match b with Some b => xlt x b | None => True end.
Definition in_closed (a b : option xval) (x : xval) : Prop :=
  match a with Some a => xleq a x | None => True end /\
  match b with Some b => xleq x b | None => True end.

Definition has_limit (e : range_elt) : Prop :=
  match e with Pair None None => False | _ => True end.
Definition in_some_range (l : list range_elt) (x : xval) : Prop :=
  exists a b, In (Pair a b) l /\ in_closed a b x.

(** Two vectors of equal length, related pointwise: [v] holds exactly where [P] does. *)
Definition marks (P : xval -> Prop) (data : list xval) (v : list bool) : Prop :=
  length v = length data /\
  forall i x c, nth_error data i = Some x -> nth_error v i = Some c -> (c = true <-> P x).

(* ---------- proofs ---------- *)

Lemma xle_spec x y : xle x y = true <-> xleq x y.
Proof.
  unfold xleq, is_num. destruct x as [| |a|], y as [| |b|]; cbn; split; intros H;
    try discriminate; try (repeat split; (congruence || tauto));
    try (exfalso; tauto); try (destruct H as [H1 [H2 H3]]; exfalso; tauto).
  - apply Qle_bool_iff in H. repeat split; try discriminate. intros C. lra.
  - apply Qle_bool_iff. destruct H as [_ [_ H]]. destruct (Qlt_le_dec b a); [tauto | assumption].
Qed.

Lemma xle_nlt x y : is_num x -> is_num y -> (xle x y = true <-> ~ xlt y x).
Proof. intros Hx Hy. rewrite xle_spec. unfold xleq. tauto. Qed.

Lemma or_where_map_or {A} (f g : A -> bool) (d : list A) bm ws :
  or_where (map g d) bm (or_where (map f d) bm ws) = or_where (map (fun x => f x || g x) d) bm ws.
Proof.
  revert ws; induction d as [|x d IH]; intros [|w ws]; cbn; try reflexivity.
  rewrite IH. f_equal. destruct (f x), (g x); cbn; auto.
  rewrite <- N.lor_assoc, N.lor_diag. reflexivity.
Qed.

Lemma or_where_false {A} (d : list A) bm ws : or_where (map (fun _ => false) d) bm ws = ws.
Proof. revert ws; induction d as [|x d IH]; intros [|w ws]; cbn; try reflexivity. rewrite IH. reflexivity. Qed.

Definition one_range_mark (a b : option xval) (x : xval) : bool :=
  match a with Some a => xle x a | None => false end || match b with Some b => xle b x | None => false end.

Lemma cut_parameter_one r data a b n ws :
  In n (map fst (bdesc r)) -> length data = length ws ->
  cut_parameter r data (Some (OneRange a b)) n ws = cut r n (BoolMask (map (one_range_mark a b) data)) ws.
Proof.
  intros Hn HL. unfold cut_parameter. rewrite (proj2 (in_names_In n (bdesc r)) Hn). cbn [negb].
  destruct (lookup_Some _ _ Hn) as [bm Hbm].
  assert (HC : forall f ws, length data = length ws -> cut r n (BoolMask (map f data)) ws = Some (or_where (map f data) bm ws)).
  { intros f ws0 HL0. unfold cut. cbn [mask_size]. rewrite map_length, (proj2 (Nat.eqb_eq _ _) HL0), Hbm. reflexivity. }
  assert (H2 : forall f g, match cut r n (BoolMask (map f data)) ws with
     | Some ws1 => cut r n (BoolMask (map g data)) ws1 | None => None end = cut r n (BoolMask (map (fun x => f x || g x) data)) ws).
  { intros f g. rewrite (HC f ws HL), (HC (fun x => f x || g x) ws HL), (HC g) by (rewrite or_where_length; exact HL). rewrite or_where_map_or. reflexivity. }
  destruct a as [a|], b as [b|]; cbn [truthy].
  - destruct (_ && _); [reflexivity|]. apply H2.
  - rewrite andb_false_r, !HC by exact HL. f_equal. f_equal. apply map_ext. intros x. unfold one_range_mark. rewrite orb_false_r. reflexivity.
  - cbn [andb]. reflexivity.
  - cbn [andb]. rewrite HC by exact HL. unfold one_range_mark. cbn [orb]. rewrite or_where_false. reflexivity.
Qed.

Lemma marks_map f P data :
  (forall x, In x data -> (f x = true <-> P x)) -> marks P data (map f data).
Proof.
  intros H. split; [apply map_length|]. intros i x c Hx Hc. rewrite nth_error_map, Hx in Hc.
  injection Hc as <-. apply H. eapply nth_error_In, Hx.
Qed.

Lemma one_range_marks a b data :
  lim_num a -> lim_num b -> Forall is_num data ->
  marks (fun x => ~ in_open a b x) data (map (one_range_mark a b) data).
Proof.
  intros Ha Hb Hd. apply marks_map. intros x Hx. rewrite Forall_forall in Hd. specialize (Hd x Hx).
  unfold one_range_mark, in_open. destruct a as [a|], b as [b|]; cbn [lim_num] in *;
    rewrite orb_true_iff, ?xle_nlt by assumption.
  - destruct (xle x a) eqn:E1, (xle b x) eqn:E2; try rewrite xle_nlt in E1 by assumption; try rewrite xle_nlt in E2 by assumption; try tauto.
    assert (~ ~ xlt a x) by (intros C; apply xle_nlt in C; congruence || assumption).
    assert (~ ~ xlt x b) by (intros C; apply xle_nlt in C; congruence || assumption). tauto.
  - intuition discriminate.
  - intuition discriminate.
  - intuition discriminate.
Qed.

(* ranges *)

Definition elt_mark (e : range_elt) (x : xval) : bool :=
  match e with
  | Pair (Some a) (Some b) => xle a x && xle x b
  | Pair (Some a) None => xle a x
  | Pair None (Some b) => xle x b
  | _ => false
  end.
Definition is_invert (e : range_elt) : bool := match e with Invert => true | _ => false end.

Lemma ranges_loop_spec l data index f inv :
  Forall has_limit l ->
  ranges_loop l data index (map f data) inv =
  Some (map (fun x => f x && negb (existsb (fun e => elt_mark e x) l)) data, inv || existsb is_invert l).
Proof.
  intros H. revert index f inv. induction H as [|e l He Hl IH]; intros index f inv; cbn [ranges_loop existsb].
  - rewrite orb_false_r. f_equal. f_equal. apply map_ext. intros x. cbn. rewrite andb_true_r. reflexivity.
  - assert (M : forall g, map2 (fun i c : bool => if i then false else c) (map g data) (map f data) = map (fun x => f x && negb (g x)) data).
    { intros g. clear. induction data as [|x d IH]; cbn; [reflexivity|]. rewrite IH. destruct (g x), (f x); reflexivity. }
    destruct e as [a b|]; [|rewrite IH; cbn [is_invert elt_mark orb]; rewrite orb_true_r; reflexivity].
    destruct a as [a|], b as [b|]; cbn [has_limit] in He; try tauto;
      rewrite M, IH; cbn [is_invert elt_mark orb]; f_equal; f_equal; apply map_ext; intros x;
      rewrite negb_orb, <- andb_assoc; reflexivity.
Qed.

Lemma elt_mark_spec l x :
  Forall has_limit l ->
  existsb (fun e => elt_mark e x) l = true <-> in_some_range l x.
Proof.
  intros H. rewrite existsb_exists. unfold in_some_range, in_closed. rewrite Forall_forall in H. split.
  - intros [e [He Hm]]. destruct e as [a b|]; [|discriminate]. exists a, b. split; [exact He|].
    destruct a, b; cbn in Hm; rewrite ?andb_true_iff, ?xle_spec in Hm; try tauto; discriminate.
  - intros [a [b [He Hin]]]. exists (Pair a b). split; [exact He|]. specialize (H _ He).
    destruct a, b; cbn in *; rewrite ?andb_true_iff, ?xle_spec; tauto.
Qed.

Lemma cut_parameter_ranges r data l n ws :
  In n (map fst (bdesc r)) -> l <> [] -> Forall has_limit l ->
  exists v, cut_parameter r data (Some (Ranges l)) n ws = cut r n (BoolMask v) ws /\
    marks (fun x => if existsb is_invert l then in_some_range l x else ~ in_some_range l x) data v.
Proof.
  intros Hn Hl HL. unfold cut_parameter. rewrite (proj2 (in_names_In n (bdesc r)) Hn). cbn [negb].
  destruct l as [|e l]; [congruence|].
  rewrite (ranges_loop_spec (e :: l) data None (fun _ => true) false HL).
  eexists. split; [reflexivity|]. cbn [orb].
  destruct (existsb is_invert (e :: l)).
  - rewrite map_map. apply marks_map. intros x _. cbn [andb]. rewrite negb_involutive. apply elt_mark_spec, HL.
  - apply marks_map. intros x _. cbn [andb]. rewrite negb_true_iff, <- (elt_mark_spec (e :: l) x HL).
    destruct (existsb _ (e :: l)); split; congruence.
Qed.

(* ---------- C07 ---------- *)

Lemma or_at_within l bm u ws ws' :
  covered bm u -> Forall (fun w => covered w u) ws -> or_at l bm ws = Some ws' -> Forall (fun w => covered w u) ws'.
Proof.
  intros Hb Hw. unfold or_at. destruct (forallb _ l); [|discriminate]. intros [= <-].
  apply Forall_forall. intros w Hin. apply in_map_iff in Hin as [[i w0] [<- Hin]]. cbn [fst snd].
  assert (Hw0 : In w0 ws).
  { clear -Hin. revert Hin. generalize 0. induction ws as [|x ws IH]; cbn; intros n H; [tauto|].
    destruct H as [H|H]; [injection H as _ ->; tauto | right; eapply IH, H]. }
  rewrite Forall_forall in Hw. specialize (Hw _ Hw0).
  destruct (existsb _ l); [|exact Hw]. intros b Hbb. rewrite N.lor_spec, orb_true_iff in Hbb. destruct Hbb; auto.
Qed.

Lemma or_where_within m bm u ws :
  covered bm u -> Forall (fun w => covered w u) ws -> Forall (fun w => covered w u) (or_where m bm ws).
Proof.
  intros Hb Hw. revert m. induction Hw as [|w ws Hw0 Hws IH]; intros [|x m]; cbn; try (constructor; auto; fail).
  constructor; [|apply IH]. destruct x; [|exact Hw0]. intros b Hbb. rewrite N.lor_spec, orb_true_iff in Hbb. destruct Hbb; auto.
Qed.

Lemma cut_within r f m ws ws' :
  WInv r -> Forall (fun w => covered w (used r)) ws -> cut r f m ws = Some ws' ->
  Forall (fun w => covered w (used r)) ws'.
Proof.
  intros HI Hw. unfold cut. destruct (negb _); [discriminate|].
  destruct (lookup f (bdesc r)) as [bm|] eqn:E.
  - apply lookup_In in E. pose proof (wi_bcov r HI _ E) as Hc. cbn [snd] in Hc.
    destruct m as [m|l]; cbn [or_mask].
    + intros [= <-]. apply or_where_within; assumption.
    + apply or_at_within; assumption.
  - destruct (lookup f (cdesc r)) as [bm|] eqn:E2; [|discriminate]. intros [= <-].
    apply lookup_In in E2. pose proof (wi_ccov r HI _ E2) as Hc. cbn [snd] in Hc.
    apply Forall_forall. intros w Hin. apply in_map_iff in Hin as [[w0 v] [<- Hin]].
    apply in_combine_l in Hin. rewrite Forall_forall in Hw. specialize (Hw _ Hin). cbn [fst snd].
    intros b Hb. unfold set_category in Hb. rewrite N.lor_spec, N.ldiff_spec, N.land_spec, orb_true_iff, !andb_true_iff in Hb.
    destruct Hb as [[Hb _]|[_ Hb]]; auto.
Qed.

Lemma clear_within r names ws ws' :
  Forall (fun w => covered w (used r)) ws -> clear_cut r names ws = Some ws' ->
  Forall (fun w => covered w (used r)) ws'.
Proof.
  unfold clear_cut. destruct (bool_bit_mask r names); [|discriminate]. intros Hw [= <-].
  apply Forall_forall. intros w Hin. apply in_map_iff in Hin as [w0 [<- Hin]]. rewrite Forall_forall in Hw.
  intros b Hb. rewrite N.ldiff_spec, andb_true_iff in Hb. apply (Hw _ Hin). tauto.
Qed.

(** Every slot of the new table is an old slot or holds a bit that was free. *)
Lemma reg_bool_loop_new new d u d' u' :
  reg_bool_loop new d u = Some (d', u') ->
  covered u u' /\ forall p, In p d' -> In p d \/ exists q, snd p = bit q /\ N.testbit u q = false.
Proof.
  revert d u; induction new as [|n new IH]; intros d u; cbn [reg_bool_loop].
  - intros [= <- <-]. split; [intros b Hb; exact Hb | auto].
  - destruct (lowest_available u) as [q|] eqn:E; [|discriminate]. intros H.
    apply lowest_available_spec in E as [Hq Hf]. apply IH in H as [H1 H2]. split.
    + intros b Hb. apply H1. rewrite N.lor_spec, Hb. reflexivity.
    + intros p Hp. destruct (H2 p Hp) as [Hin|[q' [E' Hf']]].
      * apply set_nth_In in Hin as [->|Hin]; [right; exists q; auto | auto].
      * right. exists q'. split; [exact E'|]. rewrite N.lor_spec, orb_false_iff in Hf'. tauto.
Qed.

Definition no_unregister (e : cut_event) : Prop :=
  match e with Reg (UnregB _) | Reg (UnregC _) => False | _ => True end.

Definition WS (s : registry * list N) : Prop :=
  WInv (fst s) /\ Forall (fun w => covered w (used (fst s))) (snd s).

Lemma step_grows o r : (forall ns, o <> UnregB ns) -> (forall f, o <> UnregC f) -> covered (used r) (used (step r o)).
Proof.
  intros H1 H2. unfold step. destruct (try_op o r) as [r'|] eqn:E; [|intros b Hb; exact Hb].
  destruct o as [ns|ns|f cs d|f]; cbn [try_op] in E; try (exfalso; eapply H1; reflexivity); try (exfalso; eapply H2; reflexivity).
  - unfold register_boolean in E. destruct (reg_bool_loop _ _ _) as [[d u]|] eqn:EL; [|discriminate].
    injection E as <-. apply reg_bool_loop_new in EL. apply EL.
  - unfold register_categorical in E. destruct (in_names _ _); [injection E as <-; intros b Hb; exact Hb|].
    unfold plan_categorical in E. destruct (pick_bits _ _ _ _ _) as [[[bm low] masks]|]; [|discriminate].
    injection E as <-. cbn [used]. intros b Hb. rewrite N.lor_spec, Hb. reflexivity.
Qed.

Lemma cut_step_WS s e : no_unregister e -> WS s -> WS (cut_step s e).
Proof.
  destruct s as [r ws]. intros He [HI Hw]; cbn [fst snd] in *. destruct e as [o|f m|f bd|ns]; cbn [cut_step]; split; cbn [fst snd]; auto.
  - apply step_winv, HI.
  - eapply Forall_impl; [|exact Hw]. intros w Hc b Hb. apply step_grows.
    + intros ns ->. exact He.
    + intros f ->. exact He.
    + apply Hc, Hb.
  - destruct (cut r f m ws) eqn:E; cbn [keep]; [eapply cut_within; eauto | exact Hw].
  - unfold cut_categorical. destruct (label_loop _ _ _ _); [|exact Hw]. destruct (labels_ok _ _ _ _); [|exact Hw].
    destruct (cut r f _ ws) eqn:E; cbn [keep]; [eapply cut_within; eauto | exact Hw].
  - destruct (clear_cut r ns ws) eqn:E; cbn [keep]; [eapply clear_within; eauto | exact Hw].
Qed.

Lemma run_cuts_WS es s : Forall no_unregister es -> WS s -> WS (run_cuts es s).
Proof.
  revert s; induction es as [|e es IH]; cbn; intros s Hn H; [exact H|].
  inversion Hn; subst. apply IH; [assumption | apply cut_step_WS; assumption].
Qed.

Lemma fresh_field r names r' n ws :
  WInv r -> Forall (fun w => covered w (used r)) ws ->
  register_boolean names r = Some r' -> In n names -> short n -> n <> ""%string ->
  ~ In n (map fst (bdesc r)) ->
  In n (map fst (bdesc r')) -> bad_for r' n ws = Some (map (fun _ => false) ws).
Proof.
  intros HI Hw H Hn Hs Hne Hnew Hreg. rewrite bad_for_eq.
  destruct (bool_bit_mask_registered r' n Hne Hreg) as [M HM]. rewrite HM. cbn [option_map]. f_equal.
  apply map_ext_in. intros w Hin. apply negb_false_iff, N.eqb_eq. rewrite N.land_comm. apply land_zero_bits.
  intros b Hb. apply (bool_bit_mask_bits r' n [] M b HM) in Hb as [p [Hp [[Ep|[]] Hpb]]].
  unfold register_boolean in H. destruct (reg_bool_loop _ (bdesc r) (used r)) as [[d u]|] eqn:E; [|discriminate].
  injection H as <-. cbn [bdesc] in Hp. apply reg_bool_loop_new in E as [_ E].
  destruct (E p Hp) as [C|[q [Eq Hf]]].
  - exfalso. apply Hnew. rewrite Ep. apply in_map, C.
  - rewrite Eq in Hpb. unfold bit in Hpb. rewrite testbit_bit in Hpb. apply N.eqb_eq in Hpb. subst b.
    destruct (N.testbit w q) eqn:T; [|reflexivity]. rewrite Forall_forall in Hw. rewrite (Hw _ Hin q T) in Hf. discriminate.
Qed.

(** A successful registration registers every name given. *)
Lemma reg_bool_loop_registers new d cd u d' u' n :
  LInv d cd u -> (forall m, In m new -> m <> ""%string) ->
  reg_bool_loop new d u = Some (d', u') -> In n new -> short n -> In n (map fst d').
Proof.
  intros HI Hne H Hn Hs.
  assert (Keep : forall new d u d' u' n, LInv d cd u -> (forall m, In m new -> m <> ""%string) ->
    reg_bool_loop new d u = Some (d', u') -> n <> ""%string -> In n (map fst d) -> In n (map fst d')).
  { clear. induction new as [|m new IH]; intros d u d' u' n HI Hne H Hn Hin; cbn [reg_bool_loop] in H.
    - injection H as <- <-. exact Hin.
    - destruct (lowest_available u) as [q|] eqn:E; [|discriminate].
      assert (HI1 : LInv (set_nth (N.to_nat q) (store64 m, bit q) d) cd (N.lor u (bit q))).
      { apply (reg_bool_loop_inv [m] d cd u); auto.
        - intros x [<-|[]]. apply Hne; cbn; auto.
        - cbn [reg_bool_loop]. rewrite E. reflexivity. }
      eapply (IH _ _ _ _ _ HI1); [intros x Hx; apply Hne; cbn; tauto | exact H | exact Hn |].
      apply in_map_iff in Hin as [p [Ep Hp]].
      destruct (set_nth_keep (N.to_nat q) (store64 m, bit q) d p Hp) as [C|Hp']; [|rewrite <- Ep; apply in_map, Hp'].
      exfalso. apply lowest_available_spec in E as [Hq Hf].
      destruct HI as [[_ Hsl] _ Hbc _ _]. destruct (Hsl _ _ C) as [[Z _]|[_ Z]]; [congruence|].
      rewrite N2Nat.id in Z. rewrite (Hbc p Hp q) in Hf; [discriminate|]. rewrite Z. unfold bit. rewrite testbit_bit. apply N.eqb_refl. }
  revert d u HI H. induction new as [|m new IH]; intros d u HI H; [destruct Hn|]. cbn [reg_bool_loop] in H.
  destruct (lowest_available u) as [q|] eqn:E; [|discriminate].
  assert (HI1 : LInv (set_nth (N.to_nat q) (store64 m, bit q) d) cd (N.lor u (bit q))).
  { apply (reg_bool_loop_inv [m] d cd u); auto.
    - intros x [<-|[]]. apply Hne; cbn; auto.
    - cbn [reg_bool_loop]. rewrite E. reflexivity. }
  destruct Hn as [->|Hn].
  - apply (Keep new _ _ d' u' n HI1); [intros x Hx; apply Hne; cbn; tauto | exact H | apply Hne; cbn; auto |].
    apply lowest_available_spec in E as [Hq _]. rewrite (store64_short n Hs).
    change n with (fst (n, bit q)) at 1. apply in_map, set_nth_has. rewrite (proj1 (li_slots _ _ _ HI)). lia.
  - eapply IH; [intros x Hx; apply Hne; cbn; tauto | exact Hn | exact HI1 | exact H].
Qed.

Lemma fresh_history es n0 names n :
  Forall no_unregister es ->
  let s := run_cuts es (init_registry, repeat 0 n0) in
  forall r', register_boolean names (fst s) = Some r' -> In n names -> short n -> n <> ""%string ->
  ~ In n (map fst (bdesc (fst s))) ->
  bad_for r' n (snd s) = Some (map (fun _ => false) (snd s)).
Proof.
  intros Hes s r' H Hn Hs Hne Hnew.
  assert (HW : WS s).
  { apply run_cuts_WS; [exact Hes|]. split; cbn [fst snd].
    - unfold init_registry. apply run_winv, empty_winv.
    - apply Forall_forall. intros w Hw b Hb. apply repeat_spec in Hw. subst w. rewrite N.bits_0 in Hb. discriminate. }
  destruct HW as [HI Hw]. eapply fresh_field; eauto.
  unfold register_boolean in H.
  destruct (reg_bool_loop _ (bdesc (fst s)) (used (fst s))) as [[d u]|] eqn:E; [|discriminate].
  injection H as <-. cbn [bdesc].
  eapply (reg_bool_loop_registers _ _ (cdesc (fst s)) _ _ _ n); [| exact (filter_new_nonempty _ _ _ _ HI E) | exact E | | exact Hs].
  - destruct HI; split; auto.
  - apply filter_In. split; [exact Hn|]. apply negb_true_iff. destruct (in_names n (bdesc (fst s))) eqn:C; [|reflexivity].
    apply in_names_In in C. tauto.
Qed.

(* ---------- C08 ---------- *)

Definition is_unregister (o : reg_op) : Prop := match o with UnregB _ | UnregC _ => True | _ => False end.
Definition crash_only_in_unregister (e : event) : Prop :=
  match e with Call _ => True | Crash o _ => is_unregister o end.

Lemma winv_clist r cl : WInv r -> WInv (mkReg (bdesc r) (cdesc r) cl (used r)).
Proof. intros [H1 H2 H3 H4 H5 H6 H7]. split; auto. Qed.

Lemma unregister_crash_winv o r r' : is_unregister o -> WInv r -> In r' (crash_states o r) -> WInv r'.
Proof.
  intros Ho HI. unfold crash_states. destruct (try_op o r) as [r1|] eqn:E; [|intros [<-|[]]; exact HI].
  pose proof (try_op_winv _ _ _ HI E) as HI1.
  destruct o as [|ns| |f]; cbn [is_unregister] in Ho; try tauto; cbn [try_op] in E.
  - intros [<-|[<-|[<-|[]]]]; auto.
    unfold unregister_boolean in E. destruct (forallb _ ns); [|discriminate]. injection E as <-.
    destruct HI as [H1 H2 H3 H4 H5 H6 H7], HI1 as [K1 K2 K3 K4 K5 K6 K7]. cbn [bdesc cdesc used] in *. split; cbn [bdesc cdesc used]; auto.
    intros p Hp b Hb. specialize (K3 p Hp b Hb). rewrite N.ldiff_spec, andb_true_iff in K3. tauto.
  - assert (G : WInv (mkReg (bdesc r) (cdesc r1) (clist r) (used r))).
    { unfold unregister_categorical in E. destruct (find (fun p => String.eqb (fst p) f) (cdesc r)) as [[n clear]|]; [|discriminate].
      injection E as <-. cbn [cdesc]. destruct HI as [H1 H2 H3 H4 H5 H6 H7]. split; cbn [bdesc cdesc used]; auto.
      - intros p Hp. apply filter_In in Hp as [Hp _]. auto.
      - intros p Hp. apply filter_In in Hp as [Hp _]. auto.
      - intros p q Hp Hq. apply filter_In in Hq as [Hq _]. auto.
      - apply FOP_filter, H7. }
    intros [<-|[<-|[<-|[<-|[]]]]]; auto. exact (winv_clist _ (clist r1) G).
Qed.

Lemma nth_default_In {A} k (l : list A) d : nth k l d = d \/ In (nth k l d) l.
Proof. destruct (nth_in_or_default k l d); tauto. Qed.

Lemma events_winv es r : Forall crash_only_in_unregister es -> WInv r -> WInv (run_events es r).
Proof.
  revert r; induction es as [|e es IH]; cbn; intros r Hn H; [exact H|].
  inversion Hn as [|? ? He Hes]; subst. apply IH; [assumption|]. destruct e as [o|o k]; cbn [event_step].
  - apply step_winv, H.
  - destruct (nth_default_In k (crash_states o r) r) as [->|Hin]; [exact H|].
    eapply unregister_crash_winv; eauto.
Qed.

(** The state found right after any single crash: fields are still disjoint. *)
Lemma crash_once_disjoint o r r' : WInv r -> In r' (crash_states o r) -> disjoint_fields r'.
Proof.
  intros HI Hin.
  assert (G : forall b c l l' u u', WInv (mkReg b c l u) -> disjoint_fields (mkReg b c l' u')).
  { intros b c l l' u u' H. exact (winv_disjoint _ H). }
  unfold crash_states in Hin. destruct (try_op o r) as [r1|] eqn:E; [|destruct Hin as [<-|[]]; apply winv_disjoint, HI].
  pose proof (try_op_winv _ _ _ HI E) as HI1.
  assert (Hsame : match o with RegB _ | UnregB _ => cdesc r1 = cdesc r | _ => bdesc r1 = bdesc r end).
  { destruct o as [ns|ns|f cs d|f]; cbn [try_op] in E.
    - unfold register_boolean in E. destruct (reg_bool_loop _ _ _) as [[d u]|]; [|discriminate]. injection E as <-. reflexivity.
    - unfold unregister_boolean in E. destruct (forallb _ ns); [|discriminate]. injection E as <-. reflexivity.
    - unfold register_categorical in E. destruct (in_names _ _); [injection E as <-; reflexivity|].
      destruct (plan_categorical _ _ _ _) as [[[cl cd] u]|]; [|discriminate]. injection E as <-. reflexivity.
    - unfold unregister_categorical in E. destruct (find _ (cdesc r)) as [[n c]|]; [|discriminate]. injection E as <-. reflexivity. }
  destruct r as [rb rc rl ru], r1 as [sb sc sl su]. cbn [bdesc cdesc clist used] in *.
  destruct o; subst; cbn [In] in Hin;
    repeat (destruct Hin as [<-|Hin]; [first [exact (G _ _ _ _ _ _ HI) | exact (G _ _ _ _ _ _ HI1)]|]); tauto.
Qed.
