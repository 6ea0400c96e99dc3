(** Categorical fields: codes, assignment, selection. *)
From Coq Require Import PeanoNat NArith String Bool List Lia.
From Verif Require Import BitLemmas CutModel CutSpec CutProofs CutMaskProofs.
Import ListNotations.
Local Open Scope N_scope.

(* ---------- spreading the digits of a number over chosen bit positions ---------- *)

Fixpoint spread (ps : list N) (j : nat) (i : N) : N :=
  match ps with
  | [] => 0
  | p :: t => bit p * N.b2n (N.testbit i (N.of_nat j)) + spread t (S j) i
  end.

Lemma spread_bits ps : forall j i b,
  ForallOrdPairs N.lt ps ->
  (N.testbit (spread ps j i) b = true <->
   exists k, nth_error ps k = Some b /\ N.testbit i (N.of_nat (j + k)) = true).
Proof.
  induction ps as [|p t IH]; intros j i b HS; cbn [spread].
  - rewrite N.bits_0. split; [discriminate | intros [[|k] [H _]]; discriminate].
  - inversion HS as [|? ? Hp Ht]; subst.
    assert (HD : N.land (bit p * N.b2n (N.testbit i (N.of_nat j))) (spread t (S j) i) = 0).
    { apply land_zero_bits. intros b' Hb'. destruct (N.testbit (spread t (S j) i) b') eqn:T; [|reflexivity].
      apply IH in T as [k [Hk _]]; [|exact Ht]. apply nth_error_In in Hk.
      eapply Forall_forall in Hp; [|exact Hk].
      destruct (N.testbit i (N.of_nat j)); cbn [N.b2n] in Hb'.
      - rewrite N.mul_1_r in Hb'. unfold bit in Hb'. rewrite testbit_bit in Hb'. apply N.eqb_eq in Hb'. lia.
      - rewrite N.mul_0_r, N.bits_0 in Hb'. discriminate. }
    rewrite add_disjoint, N.lor_spec, orb_true_iff, (IH (S j) i b Ht) by exact HD. split.
    + intros [H|[k [Hk Hb]]].
      * exists O. rewrite Nat.add_0_r. destruct (N.testbit i (N.of_nat j)) eqn:T; cbn [N.b2n] in H.
        -- rewrite N.mul_1_r in H. unfold bit in H. rewrite testbit_bit in H. apply N.eqb_eq in H. subst b. auto.
        -- rewrite N.mul_0_r, N.bits_0 in H. discriminate.
      * exists (S k). split; [exact Hk|]. replace (j + S k)%nat with (S j + k)%nat by lia. exact Hb.
    + intros [[|k] [Hk Hb]]; cbn in Hk.
      * left. injection Hk as ->. rewrite Nat.add_0_r in Hb. rewrite Hb. cbn [N.b2n]. rewrite N.mul_1_r.
        unfold bit. rewrite testbit_bit. apply N.eqb_refl.
      * right. exists k. split; [exact Hk|]. replace (S j + k)%nat with (j + S k)%nat by lia. exact Hb.
Qed.

Lemma fold_right_add_app l l' : fold_right N.add 0 (l ++ l') = fold_right N.add 0 l + fold_right N.add 0 l'.
Proof. induction l as [|x l IH]; cbn; [reflexivity|]. rewrite IH. lia. Qed.

Lemma fold_right_add_rev l : fold_right N.add 0 (rev l) = fold_right N.add 0 l.
Proof. induction l as [|x l IH]; cbn; [reflexivity|]. rewrite fold_right_add_app, IH. cbn. lia. Qed.

Lemma combine_app {A B} (l1 l2 : list A) (m1 m2 : list B) :
  length l1 = length m1 -> combine (l1 ++ l2) (m1 ++ m2) = combine l1 m1 ++ combine l2 m2.
Proof. revert m1; induction l1 as [|a l1 IH]; intros [|b m1] H; cbn in *; try lia; auto. f_equal. apply IH. lia. Qed.

Lemma combine_rev {A B} (l : list A) (m : list B) :
  length l = length m -> combine (rev l) (rev m) = rev (combine l m).
Proof.
  revert m; induction l as [|a l IH]; intros [|b m] H; cbn in *; try lia; [reflexivity|].
  rewrite combine_app by (rewrite !rev_length; lia). rewrite IH by lia. reflexivity.
Qed.

Lemma code_of_spread ps low nb i :
  length ps = nb -> code_of (map bit (rev ps)) low nb i = N.shiftr (spread ps 0 i) low.
Proof.
  intros HL. unfold code_of, digits. f_equal.
  rewrite !map_rev, combine_rev by (rewrite !map_length, seq_length; exact HL).
  rewrite map_rev, fold_right_add_rev. subst nb. generalize O. induction ps as [|p t IH]; intros j; cbn [length seq map combine fold_right spread fst snd]; [reflexivity|].
  rewrite IH. reflexivity.
Qed.

Lemma sorted_head_least p t q : ForallOrdPairs N.lt (p :: t) -> In q (p :: t) -> p <= q.
Proof.
  intros H [->|Hq]; [lia|]. inversion H as [|? ? Hp _]; subst. eapply Forall_forall in Hp; [|exact Hq]. lia.
Qed.

Lemma shiftl_shiftr_spread p t i :
  ForallOrdPairs N.lt (p :: t) -> N.shiftl (N.shiftr (spread (p :: t) 0 i) p) p = spread (p :: t) 0 i.
Proof.
  intros HS. apply N.bits_inj; intros b. destruct (N.lt_ge_cases b p) as [L|L].
  - rewrite N.shiftl_spec_low by exact L. symmetry. destruct (N.testbit (spread (p :: t) 0 i) b) eqn:T; [|reflexivity].
    apply spread_bits in T as [k [Hk _]]; [|exact HS]. apply nth_error_In in Hk.
    pose proof (sorted_head_least _ _ _ HS Hk). lia.
  - rewrite N.shiftl_spec_high', N.shiftr_spec' by exact L. f_equal. lia.
Qed.

Lemma spread_lt32 ps i : ForallOrdPairs N.lt ps -> (forall p, In p ps -> p < 32) -> spread ps 0 i < 2 ^ 32.
Proof.
  intros HS H. apply lt_pow2_bits. intros b Hb. apply spread_bits in Hb as [k [Hk _]]; [|exact HS].
  apply H. eapply nth_error_In, Hk.
Qed.

Lemma w32_small x : x < 2 ^ 32 -> w32 x = x.
Proof. intros H. unfold w32. apply N.mod_small, H. Qed.

Lemma FOP_lt_NoDup ps : ForallOrdPairs N.lt ps -> NoDup ps.
Proof.
  induction 1 as [|p t Hp Ht IH]; constructor; [|exact IH].
  intros C. eapply Forall_forall in Hp; [|exact C]. lia.
Qed.

Lemma spread_inj ps i i' :
  ForallOrdPairs N.lt ps -> i < 2 ^ N.of_nat (length ps) -> i' < 2 ^ N.of_nat (length ps) ->
  spread ps 0 i = spread ps 0 i' -> i = i'.
Proof.
  intros HS Hi Hi' E. pose proof (FOP_lt_NoDup ps HS) as HN.
  enough (G : forall x y, x < 2 ^ N.of_nat (length ps) -> spread ps 0 x = spread ps 0 y ->
              forall b, N.testbit x b = true -> N.testbit y b = true).
  { apply N.bits_inj; intros b. destruct (N.testbit i b) eqn:T1, (N.testbit i' b) eqn:T2; try reflexivity.
    - rewrite (G i i' Hi E b T1) in T2. discriminate.
    - rewrite (G i' i Hi' (eq_sym E) b T2) in T1. discriminate. }
  clear i i' Hi Hi' E. intros x y Hx E b Hb.
  pose proof (proj1 (lt_pow2_bits _ _) Hx b Hb) as Hlt.
  destruct (nth_error ps (N.to_nat b)) as [p|] eqn:Hp; [|apply nth_error_None in Hp; lia].
  assert (T : N.testbit (spread ps 0 x) p = true).
  { apply spread_bits; [exact HS|]. exists (N.to_nat b). split; [exact Hp|]. cbn [Nat.add]. rewrite N2Nat.id. exact Hb. }
  rewrite E in T. apply spread_bits in T as [k [Hk Hkb]]; [|exact HS].
  assert (k = N.to_nat b).
  { apply (proj1 (NoDup_nth_error ps) HN); [apply nth_error_Some; congruence | congruence]. }
  subst k. cbn [Nat.add] in Hkb. rewrite N2Nat.id in Hkb. exact Hkb.
Qed.

Lemma find_first_unique (f : N -> bool) n p :
  p < N.of_nat n -> f p = true -> (forall q, q < p -> f q = false) ->
  find f (map N.of_nat (seq 0 n)) = Some p.
Proof.
  intros Hp Hf Hm.
  enough (G : forall s, N.of_nat s <= p < N.of_nat (s + n) -> find f (map N.of_nat (seq s n)) = Some p).
  { apply (G O). cbn. lia. }
  clear Hp. induction n as [|n IH]; intros s Hs; [lia|]. cbn [seq map find].
  destruct (N.eq_dec (N.of_nat s) p) as [->|Hne]; [rewrite Hf; reflexivity|].
  rewrite Hm by lia. apply IH. lia.
Qed.

Lemma lowest_bit_head m p t :
  ForallOrdPairs N.lt (p :: t) -> p < 32 -> (forall b, N.testbit m b = true <-> In b (p :: t)) ->
  lowest_bit m = p.
Proof.
  intros HS Hp Hb. unfold lowest_bit, range32. rewrite (find_first_unique _ 32 p); [reflexivity | lia | |].
  - apply Hb. cbn; auto.
  - intros q Hq. destruct (N.testbit m q) eqn:T; [|reflexivity]. apply Hb in T.
    pose proof (sorted_head_least _ _ _ HS T). lia.
Qed.

(* ---------- the order of categories ---------- *)

Lemma dedupe_acc l acc :
  NoDup acc ->
  let r := fold_left (fun acc c => if mem c acc then acc else acc ++ [c]) l acc in
  NoDup r /\ (forall x, In x r <-> In x acc \/ In x l).
Proof.
  revert acc; induction l as [|c l IH]; intros acc HN; cbn [fold_left].
  - split; [exact HN | intros x; cbn; tauto].
  - destruct (mem c acc) eqn:E.
    + destruct (IH acc HN) as [H1 H2]. split; [exact H1|]. intros x. rewrite H2. apply mem_In in E. cbn.
      split; [tauto | intros [H|[<-|H]]; tauto].
    + assert (HN' : NoDup (acc ++ [c])).
      { apply NoDup_Add with (a := c) (l := acc).
        - rewrite <- (app_nil_r acc) at 1. apply Add_app.
        - split; [exact HN|]. intros C. apply mem_In in C. congruence. }
      destruct (IH _ HN') as [H1 H2]. split; [exact H1|]. intros x. rewrite H2, in_app_iff. cbn. tauto.
Qed.

Lemma remove_first_spec x l : NoDup l -> NoDup (remove_first x l) /\ (forall y, In y (remove_first x l) <-> In y l /\ y <> x).
Proof.
  induction l as [|h t IH]; intros HN; cbn [remove_first].
  - split; [constructor | intros y; cbn; tauto].
  - inversion HN as [|? ? Hh Ht]; subst. destruct (IH Ht) as [H1 H2]. destruct (String.eqb_spec x h) as [->|Hne].
    + split; [exact Ht|]. intros y. cbn. split.
      * intros Hy. split; [tauto | intros ->; tauto].
      * intros [[->|Hy] Hn]; tauto.
    + split.
      * constructor; [rewrite H2; tauto | exact H1].
      * intros y. cbn. rewrite H2. split; [intros [->|[A B]]; split; auto | tauto].
Qed.

Lemma category_order_spec cs d :
  NoDup (category_order cs d) /\ hd_error (category_order cs d) = Some d /\
  forall x, In x (category_order cs d) <-> x = d \/ In x cs.
Proof.
  unfold category_order, dedupe.
  destruct (dedupe_acc cs [] (NoDup_nil _)) as [HN HI].
  set (l := fold_left _ cs []) in *. cbn zeta in *.
  destruct (remove_first_spec d l HN) as [RN RI].
  destruct (mem d l) eqn:E.
  - split; [constructor; [rewrite RI; tauto | exact RN]|]. split; [reflexivity|].
    intros x. cbn [In]. rewrite RI, HI. cbn [In]. destruct (string_dec x d); intuition congruence.
  - split; [constructor; [intros C; apply mem_In in C; congruence | exact HN]|]. split; [reflexivity|].
    intros x. cbn [In]. rewrite HI. cbn [In]. intuition congruence.
Qed.

(* ---------- the invariant on the category list ---------- *)

Definition entries (r : registry) (f : name) : list (name * name * N) :=
  filter (fun e => String.eqb (fst (fst e)) f) (clist r).

(** Field [f] with mask [m]: its bit positions and categories. *)
Record described (r : registry) (f : name) (m : N) (ps : list N) (cats : list name) : Prop := {
  ds_sorted : ForallOrdPairs N.lt ps;
  ds_lt : forall p, In p ps -> p < 32;
  ds_bits : forall b, N.testbit m b = true <-> In b ps;
  ds_len : length ps = num_bits (length cats);
  ds_nodup : NoDup cats;
  ds_ne : cats <> [];
  ds_entries : entries r f =
     map (fun ic => (f, snd ic, N.shiftr (spread ps 0 (fst ic)) (lowest_bit m))) (number_from 0 cats)
}.

Record CInv (r : registry) : Prop := {
  ci_x : XInv r;
  ci_desc : forall f m, In (f, m) (cdesc r) -> exists ps cats, described r f m ps cats;
  ci_none : forall f, ~ In f (map fst (cdesc r)) -> entries r f = []
}.

Lemma number_from_map {A B} (g : A -> B) i l :
  number_from i (map g l) = map (fun ic => (fst ic, g (snd ic))) (number_from i l).
Proof. revert i; induction l as [|a l IH]; intros i; cbn; [reflexivity|]. rewrite IH. reflexivity. Qed.

Lemma filter_all {A} (f : A -> bool) l : (forall x, In x l -> f x = true) -> filter f l = l.
Proof.
  induction l as [|a l IH]; intros H; cbn; [reflexivity|]. rewrite (H a) by (cbn; auto). f_equal. apply IH. intros x Hx. apply H. cbn; auto.
Qed.
Lemma filter_none {A} (f : A -> bool) l : (forall x, In x l -> f x = false) -> filter f l = [].
Proof.
  induction l as [|a l IH]; intros H; cbn; [reflexivity|]. rewrite (H a) by (cbn; auto). apply IH. intros x Hx. apply H. cbn; auto.
Qed.

Lemma described_entries_eq r r' f m ps cats :
  entries r' f = entries r f -> described r f m ps cats -> described r' f m ps cats.
Proof. intros E [H1 H2 H3 H4 H5 H6 H7]. split; auto. rewrite E. exact H7. Qed.

Local Opaque category_order.

(** What a successful registration adds. *)
Lemma register_new_described f cs d r r' :
  short f -> Forall short cs -> short d -> CInv r ->
  ~ In f (map fst (cdesc r)) -> register_categorical f cs d r = Some r' ->
  exists bm ps, cdesc r' = cdesc r ++ [(f, bm)] /\ described r' f bm ps (category_order cs d) /\
    (forall g, g <> f -> entries r' g = entries r g).
Proof.
  intros Hf Hcs Hd HI Hnew H. unfold register_categorical in H.
  destruct (in_names f (cdesc r)) eqn:EN; [apply in_names_In in EN; tauto|].
  unfold plan_categorical in H.
  destruct (pick_bits _ (used r) 0 31 []) as [[[bm low] masks]|] eqn:E; [|discriminate].
  apply pick_bits_0 in E as [ps [HL [Hm Hs Hfr Hb Hl Hlow]]]. injection H as <-.
  destruct (category_order_spec cs d) as [ON [OH OI]].
  assert (Hne : ps <> []).
  { intros ->. pose proof (num_bits_pos (length (category_order cs d))) as P. rewrite <- HL in P. cbn in P. lia. }
  destruct ps as [|p t]; [congruence|].
  assert (Hp32 : p < 32) by (apply Hfr; cbn; auto).
  exists bm, (p :: t). cbn [cdesc]. rewrite (store64_short f Hf). split; [reflexivity|]. split.
  - split; auto.
    + intros q Hq. apply Hfr, Hq.
    + intros C. rewrite C in OH. discriminate.
    + unfold entries. cbn [clist]. rewrite filter_app.
      change (filter (fun e => String.eqb (fst (fst e)) f) (clist r)) with (entries r f).
      rewrite (ci_none r HI f Hnew). cbn [app]. rewrite filter_all.
      * unfold new_categories. apply map_ext_in. intros [i c] Hic. cbn [fst snd].
        rewrite (store64_short f Hf), Hm, (code_of_spread (p :: t) low _ i HL), (lowest_bit_head bm p t Hs Hp32 Hb), Hlow.
        assert (Hc : In c (category_order cs d)).
        { clear -Hic. revert Hic. generalize 0. induction (category_order cs d) as [|a l IH]; cbn; intros n H; [tauto|].
          destruct H as [H|H]; [injection H as _ ->; tauto | right; eapply IH, H]. }
        rewrite (store64_short c); [reflexivity|]. apply OI in Hc as [->|Hc]; [exact Hd|]. eapply Forall_forall in Hcs; eauto.
      * intros e He. apply in_map_iff in He as [ic [<- _]]. cbn [fst]. rewrite (store64_short f Hf). apply String.eqb_refl.
  - intros g Hg. unfold entries. cbn [clist]. rewrite filter_app, (filter_none _ (new_categories _ _ _ _ _)); [apply app_nil_r|].
    intros e He. apply in_map_iff in He as [ic [<- _]]. cbn [fst]. rewrite (store64_short f Hf). apply String.eqb_neq. congruence.
Qed.

Lemma register_boolean_same names r r' :
  register_boolean names r = Some r' -> cdesc r' = cdesc r /\ clist r' = clist r.
Proof.
  unfold register_boolean. destruct (reg_bool_loop _ _ _) as [[d u]|]; [|discriminate]. intros [= <-]. auto.
Qed.
Lemma unregister_boolean_same names r r' :
  unregister_boolean names r = Some r' -> cdesc r' = cdesc r /\ clist r' = clist r.
Proof.
  unfold unregister_boolean. destruct (forallb _ _); [|discriminate]. intros [= <-]. auto.
Qed.

Lemma CInv_same r r' :
  XInv r' -> cdesc r' = cdesc r -> clist r' = clist r -> CInv r -> CInv r'.
Proof.
  intros HX Ec El [_ Hd Hn]. assert (Ee : forall f, entries r' f = entries r f) by (intros f; unfold entries; rewrite El; reflexivity).
  split; [exact HX | |].
  - rewrite Ec. intros f m Hf. destruct (Hd f m Hf) as [ps [cats H]]. exists ps, cats. eapply described_entries_eq; eauto.
  - rewrite Ec. intros f Hf. rewrite Ee. auto.
Qed.

Lemma filter_filter {A} (f g : A -> bool) l : filter f (filter g l) = filter (fun x => g x && f x) l.
Proof. induction l as [|a l IH]; cbn; [reflexivity|]. destruct (g a); cbn; [destruct (f a); rewrite IH; reflexivity | exact IH]. Qed.

Lemma unregister_entries f r r' g :
  unregister_categorical f r = Some r' ->
  (g <> f -> entries r' g = entries r g) /\ (g = f -> entries r' g = []) /\
  (forall m, In (g, m) (cdesc r') <-> In (g, m) (cdesc r) /\ g <> f).
Proof.
  unfold unregister_categorical. destruct (find _ (cdesc r)) as [[n clear]|]; [|discriminate]. intros [= <-].
  unfold entries. cbn [clist cdesc]. rewrite filter_filter. repeat split.
  - intros Hg. apply filter_ext_in. intros e _. destruct (String.eqb_spec (fst (fst e)) g) as [->|]; [|apply andb_false_r].
    rewrite (proj2 (String.eqb_neq g f) Hg). reflexivity.
  - intros ->. apply filter_none. intros e _. destruct (String.eqb (fst (fst e)) f); reflexivity.
  - apply filter_In in H as [H _]. exact H.
  - apply filter_In in H as [_ H]. cbn [fst] in H. apply negb_true_iff, String.eqb_neq in H. exact H.
  - intros [H1 H2]. apply filter_In. split; [exact H1|]. cbn [fst]. apply negb_true_iff, String.eqb_neq, H2.
Qed.

Lemma step_cinv o r : op_short o -> CInv r -> CInv (step r o).
Proof.
  intros Ho HI. pose proof (step_xinv o r Ho (ci_x r HI)) as HX. unfold step in *.
  destruct (try_op o r) as [r'|] eqn:E; [|exact HI].
  destruct o as [ns|ns|f cs d|f]; cbn [try_op op_short] in *.
  - destruct (register_boolean_same _ _ _ E). eapply CInv_same; eauto.
  - destruct (unregister_boolean_same _ _ _ E). eapply CInv_same; eauto.
  - destruct Ho as [Hf [Hcs Hd]].
    destruct (in_names f (cdesc r)) eqn:EN.
    + unfold register_categorical in E. rewrite EN in E. injection E as <-. exact HI.
    + assert (Hnew : ~ In f (map fst (cdesc r))) by (intros C; apply in_names_In in C; congruence).
      destruct (register_new_described f cs d r r' Hf Hcs Hd HI Hnew E) as [bm [ps [Ec [HD He]]]].
      split; [exact HX | |]; rewrite Ec.
      * intros g m Hg. apply in_app_iff in Hg as [Hg|[Hg|[]]].
        -- destruct (ci_desc r HI g m Hg) as [ps' [cats' H']]. exists ps', cats'.
           eapply described_entries_eq; [|exact H']. apply He. intros ->. apply Hnew. change f with (fst (f, m)). apply in_map, Hg.
        -- injection Hg as <- <-. eauto.
      * intros g Hg. rewrite map_app, in_app_iff in Hg. cbn in Hg. rewrite He by (intros ->; tauto). apply (ci_none r HI). tauto.
  - split; [exact HX | |].
    + intros g m Hg. destruct (unregister_entries f r r' g E) as [H1 [H2 H3]]. apply H3 in Hg as [Hg Hne].
      destruct (ci_desc r HI g m Hg) as [ps' [cats' H']]. exists ps', cats'. eapply described_entries_eq; [|exact H']. auto.
    + intros g Hg. destruct (unregister_entries f r r' g E) as [H1 [H2 H3]].
      destruct (string_dec g f) as [->|Hne]; [auto|]. rewrite H1 by exact Hne. apply (ci_none r HI).
      intros C. apply Hg. apply in_map_iff in C as [[g' m] [<- Hm]]. cbn [fst] in *. change g' with (fst (g', m)). apply in_map. apply H3. auto.
Qed.

Lemma run_cinv ops r : Forall op_short ops -> CInv r -> CInv (run ops r).
Proof.
  revert r; induction ops as [|o ops IH]; cbn; intros r Ho H; [exact H|].
  inversion Ho; subst. apply IH; [assumption | apply step_cinv; assumption].
Qed.

Lemma empty_cinv : CInv empty_registry.
Proof. split; [exact empty_xinv | intros f m [] | reflexivity]. Qed.

Lemma init_ops_short : Forall op_short [RegB builtin_boolean; RegC "calibration"%string ["in"; "out"]%string "in"%string].
Proof. repeat constructor; unfold short; cbn; lia. Qed.

Lemma init_cinv : CInv init_registry.
Proof. apply run_cinv; [exact init_ops_short | exact empty_cinv]. Qed.

(* ---------- persistence of a field's description ---------- *)

Definition not_unreg (f : name) (o : reg_op) : Prop := o <> UnregC f.

Lemma step_keeps o r f m ps cats :
  op_short o -> CInv r -> not_unreg f o -> In (f, m) (cdesc r) -> described r f m ps cats ->
  In (f, m) (cdesc (step r o)) /\ described (step r o) f m ps cats.
Proof.
  intros Ho HI Hu Hin HD. unfold step. destruct (try_op o r) as [r'|] eqn:E; [|auto].
  destruct o as [ns|ns|g cs d|g]; cbn [try_op op_short] in *.
  - destruct (register_boolean_same _ _ _ E) as [E1 E2]. rewrite E1. split; [exact Hin|].
    eapply described_entries_eq; [|exact HD]. unfold entries. rewrite E2. reflexivity.
  - destruct (unregister_boolean_same _ _ _ E) as [E1 E2]. rewrite E1. split; [exact Hin|].
    eapply described_entries_eq; [|exact HD]. unfold entries. rewrite E2. reflexivity.
  - destruct Ho as [Hf [Hcs Hd]]. destruct (in_names g (cdesc r)) eqn:EN.
    + unfold register_categorical in E. rewrite EN in E. injection E as <-. auto.
    + assert (Hnew : ~ In g (map fst (cdesc r))) by (intros C; apply in_names_In in C; congruence).
      destruct (register_new_described g cs d r r' Hf Hcs Hd HI Hnew E) as [bm [ps' [Ec [HD' He]]]].
      rewrite Ec, in_app_iff. split; [auto|]. eapply described_entries_eq; [|exact HD]. apply He.
      intros ->. apply Hnew. change g with (fst (g, m)). apply in_map, Hin.
  - destruct (unregister_entries g r r' f E) as [H1 [H2 H3]].
    assert (f <> g) by (intros ->; apply Hu; reflexivity).
    split; [apply H3; auto|]. eapply described_entries_eq; [|exact HD]. auto.
Qed.

Lemma run_keeps ops r f m ps cats :
  Forall op_short ops -> Forall (not_unreg f) ops -> CInv r -> In (f, m) (cdesc r) -> described r f m ps cats ->
  In (f, m) (cdesc (run ops r)) /\ described (run ops r) f m ps cats.
Proof.
  revert r; induction ops as [|o ops IH]; cbn; intros r Ho Hu HI Hin HD; [auto|].
  inversion Ho; inversion Hu; subst.
  destruct (step_keeps o r f m ps cats) as [H1' H2']; auto. apply IH; auto. apply step_cinv; auto.
Qed.

(** End to end: after a successful registration of a new field, and until it is unregistered,
    the registry describes it with the given categories, the default coming first. *)
Lemma registered_described ops f cs d ops' r0 :
  CInv r0 -> Forall op_short ops -> op_short (RegC f cs d) -> Forall op_short ops' ->
  Forall (not_unreg f) ops' ->
  ~ In f (map fst (cdesc (run ops r0))) ->
  try_op (RegC f cs d) (run ops r0) <> None ->
  let r := run (ops ++ RegC f cs d :: ops') r0 in
  CInv r /\ exists m ps, In (f, m) (cdesc r) /\ described r f m ps (category_order cs d).
Proof.
  intros HI Ho Hr Ho' Hu Hnew Hok r.
  assert (Er : r = run ops' (step (run ops r0) (RegC f cs d))).
  { unfold r, run. rewrite fold_left_app. reflexivity. }
  assert (HI1 : CInv (run ops r0)) by (apply run_cinv; assumption).
  assert (HI2 : CInv (step (run ops r0) (RegC f cs d))) by (apply step_cinv; assumption).
  split; [rewrite Er; apply run_cinv; assumption|]. rewrite Er. clear Er r.
  unfold step in *. destruct (try_op (RegC f cs d) (run ops r0)) as [r1|] eqn:E; [|congruence].
  cbn [try_op] in E. destruct Hr as [Hf [Hcs Hd]].
  destruct (register_new_described f cs d _ _ Hf Hcs Hd HI1 Hnew E) as [bm [ps [Ec [HD _]]]].
  exists bm, ps. apply run_keeps; auto. rewrite Ec. apply in_app_iff. cbn; auto.
Qed.

(* ---------- codes by category ---------- *)

Lemma number_from_In {A} (l : list A) n i x :
  In (i, x) (number_from n l) <-> exists k, nth_error l k = Some x /\ i = n + N.of_nat k.
Proof.
  revert n; induction l as [|a l IH]; intros n; cbn [number_from In].
  - split; [tauto | intros [[|k] [H _]]; discriminate].
  - rewrite IH. split.
    + intros [H|[k [Hk ->]]]; [injection H as <- <-; exists O; cbn; split; [reflexivity | lia]|].
      exists (S k). cbn. split; [exact Hk | lia].
    + intros [[|k] [Hk ->]]; cbn in Hk; [left; injection Hk as ->; f_equal; lia|].
      right. exists k. split; [exact Hk | lia].
Qed.

Section Field.
  Context (r : registry) (f : name) (m : N) (ps : list N) (cats : list name).
  Hypothesis HX : XInv r.
  Hypothesis Hin : In (f, m) (cdesc r).
  Hypothesis HD : described r f m ps cats.

  (** The bits that stand for category number k. *)
  Definition pattern (k : nat) : N := spread ps 0 (N.of_nat k).

  Lemma ps_cons : exists p t, ps = p :: t.
  Proof.
    destruct ps as [|p t] eqn:E; [|eauto]. exfalso.
    pose proof (num_bits_pos (length cats)) as P. rewrite <- (ds_len _ _ _ _ _ HD) in P. cbn in P. lia.
  Qed.

  Lemma low_spread i : N.shiftl (N.shiftr (spread ps 0 i) (lowest_bit m)) (lowest_bit m) = spread ps 0 i.
  Proof.
    destruct ps_cons as [p [t ->]]. destruct HD as [H1 H2 H3 H4 H5 H6 H7].
    rewrite (lowest_bit_head m p t H1 (H2 p (or_introl eq_refl)) H3). apply shiftl_shiftr_spread, H1.
  Qed.

  Lemma pattern_lt k : pattern k < 2 ^ 32.
  Proof. apply spread_lt32; apply HD. Qed.

  Lemma pattern_in_mask k : N.land (pattern k) m = pattern k.
  Proof.
    apply N.bits_inj; intros b. rewrite N.land_spec. destruct (N.testbit (pattern k) b) eqn:T; [|reflexivity].
    apply spread_bits in T as [j [Hj _]]; [|apply HD]. apply nth_error_In in Hj.
    apply (ds_bits _ _ _ _ _ HD) in Hj. rewrite Hj. reflexivity.
  Qed.

  Lemma pattern_inj k k' : (k < length cats)%nat -> (k' < length cats)%nat -> pattern k = pattern k' -> k = k'.
  Proof.
    intros Hk Hk' E. pose proof (num_bits_enough (length cats)) as P. rewrite <- (ds_len _ _ _ _ _ HD) in P.
    apply spread_inj in E; [lia | apply HD | lia | lia].
  Qed.

  Lemma pattern_0 : pattern 0 = 0.
  Proof.
    apply N.bits_inj; intros b. rewrite N.bits_0. destruct (N.testbit (pattern 0) b) eqn:T; [|reflexivity].
    apply spread_bits in T as [j [_ Hj]]; [|apply HD]. change (N.of_nat 0) with 0 in Hj. rewrite N.bits_0 in Hj. discriminate.
  Qed.

  (** every entry of the category list for f *)
  Lemma entry_iff e :
    In e (clist r) /\ fst (fst e) = f <->
    exists k c, nth_error cats k = Some c /\ e = (f, c, N.shiftr (pattern k) (lowest_bit m)).
  Proof.
    assert (HE : In e (clist r) /\ fst (fst e) = f <-> In e (entries r f)).
    { unfold entries. rewrite filter_In, String.eqb_eq. tauto. }
    rewrite HE, (ds_entries _ _ _ _ _ HD), in_map_iff. split.
    - intros [[i c] [<- H]]. apply number_from_In in H as [k [Hk ->]]. exists k, c. split; [exact Hk|].
      cbn [fst snd]. rewrite N.add_0_l. reflexivity.
    - intros [k [c [Hk ->]]]. exists (N.of_nat k, c). split; [reflexivity|]. apply number_from_In. exists k. split; [exact Hk | lia].
  Qed.

  Lemma nodup_cats k k' c : nth_error cats k = Some c -> nth_error cats k' = Some c -> k = k'.
  Proof.
    intros H H'. apply (proj1 (NoDup_nth_error cats) (ds_nodup _ _ _ _ _ HD)); [apply nth_error_Some; congruence | congruence].
  Qed.

  Definition is_entry (c : name) (e : name * name * N) : bool :=
    String.eqb (fst (fst e)) f && String.eqb (snd (fst e)) c.

  Lemma find_entry (l : list (name * name * N)) k c :
    (forall e, In e l <-> In e (clist r)) -> nth_error cats k = Some c ->
    find (is_entry c) l = Some (f, c, N.shiftr (pattern k) (lowest_bit m)).
  Proof.
    intros Hl Hk. destruct (find (is_entry c) l) as [e|] eqn:E.
    - apply find_some in E as [He Hc]. unfold is_entry in Hc. rewrite andb_true_iff, !String.eqb_eq in Hc. destruct Hc as [H1 H2].
      apply Hl in He. destruct (proj1 (entry_iff e) (conj He H1)) as [k' [c' [Hk' ->]]]. cbn in H2. subst c'.
      rewrite (nodup_cats _ _ _ Hk Hk'). reflexivity.
    - exfalso. assert (He : In (f, c, N.shiftr (pattern k) (lowest_bit m)) l).
      { apply Hl. apply entry_iff. eauto. }
      apply (find_none _ _ E) in He. unfold is_entry in He. cbn in He. rewrite !String.eqb_refl in He. discriminate.
  Qed.

  Lemma category_code_known k c :
    nth_error cats k = Some c -> category_code r f c = Some (N.shiftr (pattern k) (lowest_bit m)).
  Proof.
    intros Hk. unfold category_code. pose proof (find_entry (rev (clist r)) k c (fun e => iff_sym (in_rev (clist r) e)) Hk) as E.
    unfold is_entry in E. rewrite E. reflexivity.
  Qed.

  Lemma category_code_unknown c : ~ In c cats -> category_code r f c = None.
  Proof.
    intros Hc. unfold category_code. destruct (find _ (rev (clist r))) as [e|] eqn:E; [|reflexivity]. exfalso.
    apply find_some in E as [He Hm]. rewrite andb_true_iff, !String.eqb_eq in Hm. destruct Hm as [H1 H2].
    apply in_rev in He. destruct (proj1 (entry_iff e) (conj He H1)) as [k [c' [Hk ->]]]. cbn in H2. subst c'.
    apply Hc. eapply nth_error_In, Hk.
  Qed.

  Lemma lookup_f : lookup f (cdesc r) = Some m.
  Proof.
    assert (Hf : In f (map fst (cdesc r))) by (change f with (fst (f, m)); apply in_map, Hin).
    destruct (lookup_Some _ _ Hf) as [m' E]. rewrite E. apply lookup_In in E.
    pose proof (NoDup_fst_eq _ _ _ (xi_nodup r HX) E Hin eq_refl) as Ep. congruence.
  Qed.

  Lemma select_known k c ws :
    nth_error cats k = Some c ->
    select_category r [(f, c)] ws = Some (map (fun w => N.land w m =? pattern k) ws).
  Proof.
    intros Hk. unfold select_category. cbn [select_bits]. rewrite lookup_f.
    pose proof (find_entry (clist r) k c (fun e => iff_refl _) Hk) as E. unfold is_entry in E. rewrite E.
    rewrite !N.lor_0_l. unfold pattern. rewrite low_spread. fold (pattern k). rewrite (w32_small (pattern k) (pattern_lt k)). reflexivity.
  Qed.

  (* ----- assigning labels ----- *)

  Definition code (k : nat) : N := N.shiftr (pattern k) (lowest_bit m).

  Lemma code_inj k k' : (k < length cats)%nat -> (k' < length cats)%nat -> code k = code k' -> k = k'.
  Proof.
    intros Hk Hk' E. apply pattern_inj; auto. unfold code in E.
    pose proof (low_spread (N.of_nat k)) as A. pose proof (low_spread (N.of_nat k')) as B.
    fold (pattern k) in A. fold (pattern k') in B. rewrite E in A. congruence.
  Qed.

  Lemma set_category_spec w k :
    N.land (set_category m (lowest_bit m) w (code k)) m = pattern k.
  Proof.
    unfold set_category, code, pattern. rewrite low_spread. fold (pattern k). rewrite (w32_small _ (pattern_lt k)).
    rewrite pattern_in_mask. apply N.bits_inj; intros b.
    rewrite N.land_spec, N.lor_spec, N.ldiff_spec. pose proof (pattern_in_mask k) as P.
    assert (Pb : N.testbit (pattern k) b && N.testbit m b = N.testbit (pattern k) b) by (rewrite <- N.land_spec, P; reflexivity).
    destruct (N.testbit w b), (N.testbit m b), (N.testbit (pattern k) b); cbn in *; congruence.
  Qed.

  Lemma set_category_frame w v g : disj m g -> N.land (set_category m (lowest_bit m) w v) g = N.land w g.
  Proof.
    intros H. unfold set_category. apply N.bits_inj; intros b.
    rewrite !N.land_spec, N.lor_spec, N.ldiff_spec, N.land_spec.
    destruct (N.testbit m b) eqn:E; [rewrite (H b E), !andb_false_r; reflexivity|].
    rewrite andb_true_r, andb_false_r, orb_false_r. reflexivity.
  Qed.
End Field.

(* ---------- cut_categorical ---------- *)

Definition assigned (bd : list (name * list bool)) (c : name) (i : nat) : Prop :=
  exists b, In (c, b) bd /\ nth_error b i = Some true.
Definition unassigned (bd : list (name * list bool)) (i : nat) : Prop :=
  forall c, ~ assigned bd c i.

Lemma assign_where_spec b v l l' :
  assign_where b v l = Some l' ->
  length b = length l /\ length l' = length l /\
  forall i x, nth_error l i = Some x ->
    nth_error l' i = Some (match nth_error b i with Some true => v | _ => x end).
Proof.
  revert l l'; induction b as [|y b IH]; intros [|w l] l'; cbn [assign_where]; try discriminate.
  - intros [= <-]. repeat split. intros [|i] x; discriminate.
  - destruct (assign_where b v l) as [t|] eqn:E; [|discriminate]. cbn. intros [= <-].
    destruct (IH _ _ E) as [H1 [H2 H3]]. cbn. repeat split; [lia|lia|].
    intros [|i] x; cbn; [intros [= ->]; destruct y; reflexivity | apply H3].
Qed.

Lemma assign_where_ok b v l : length b = length l -> exists l', assign_where b v l = Some l'.
Proof.
  revert l; induction b as [|y b IH]; intros [|w l] H; cbn in *; try lia; [eauto|].
  destruct (IH l) as [l' ->]; [lia|]. cbn. eauto.
Qed.

Lemma label_loop_spec r f bd l l' :
  label_loop r f bd l = Some l' ->
  length l' = length l /\
  (forall c b, In (c, b) bd -> length b = length l /\ exists v, category_code r f c = Some v) /\
  forall i x, nth_error l i = Some x ->
    (unassigned bd i /\ nth_error l' i = Some x) \/
    (exists c v, assigned bd c i /\ category_code r f c = Some v /\ nth_error l' i = Some v).
Proof.
  revert l; induction bd as [|[c b] bd IH]; intros l; cbn [label_loop].
  - intros [= <-]. split; [reflexivity|]. split; [intros c b []|]. intros i x Hx. left. split; [|exact Hx]. intros c [b [[] _]].
  - destruct (category_code r f c) as [v|] eqn:EC; [|discriminate].
    destruct (assign_where b v l) as [l1|] eqn:EA; [|discriminate]. intros H.
    apply IH in H as [H1 [H2 H3]]. apply assign_where_spec in EA as [A1 [A2 A3]]. split; [lia|]. split.
    + intros c' b' [E|Hin]; [injection E as <- <-; eauto|]. destruct (H2 c' b' Hin). split; [lia | assumption].
    + intros i x Hx. specialize (A3 i x Hx). destruct (H3 i _ A3) as [[Hu Hl]|[c' [v' [Ha [Hc Hl]]]]].
      * destruct (nth_error b i) as [[|]|] eqn:Eb.
        -- right. exists c, v. repeat split; auto. exists b. cbn; auto.
        -- left. split; [|exact Hl]. intros c' [b' [[E|Hin] Hb']]; [injection E as <- <-; congruence|]. apply (Hu c'). exists b'. auto.
        -- left. split; [|exact Hl]. intros c' [b' [[E|Hin] Hb']]; [injection E as <- <-; congruence|]. apply (Hu c'). exists b'. auto.
      * right. exists c', v'. repeat split; auto. destruct Ha as [b' [Hin Hb']]. exists b'. cbn; auto.
Qed.

Lemma labels_ok_spec r f bd l :
  labels_ok r f bd l = true ->
  forall c i v x, assigned bd c i -> category_code r f c = Some v -> nth_error l i = Some x -> x = v.
Proof.
  intros H c i v x [b [Hin Hb]] Hc Hx. unfold labels_ok in H. rewrite forallb_forall in H. specialize (H _ Hin). cbn [fst snd] in H.
  rewrite Hc in H. unfold all_where in H. rewrite forallb_forall in H.
  assert (Hp : In (true, x) (combine b l)).
  { clear -Hb Hx. revert l i Hb Hx; induction b as [|y b IH]; intros [|w l] [|i]; cbn; try discriminate.
    - intros [= ->] [= ->]. auto.
    - intros H1 H2. right. eapply IH; eauto. }
  specialize (H _ Hp). cbn in H. apply N.eqb_eq in H. exact H.
Qed.

Lemma map2_combine_nth {A B C} (g : A * B -> C) l l' i a b :
  nth_error l i = Some a -> nth_error l' i = Some b -> nth_error (map g (combine l l')) i = Some (g (a, b)).
Proof.
  revert l' i; induction l as [|x l IH]; intros [|y l'] [|i]; cbn; try discriminate.
  - intros [= ->] [= ->]. reflexivity.
  - apply IH.
Qed.

Lemma nth_error_same_length {A B} (l : list A) (l' : list B) i a :
  length l = length l' -> nth_error l i = Some a -> exists b, nth_error l' i = Some b.
Proof.
  intros HL H. destruct (nth_error l' i) as [b|] eqn:E; [eauto|]. apply nth_error_None in E.
  assert (i < length l)%nat by (apply nth_error_Some; congruence). lia.
Qed.

(** The main statement for one described field. *)
Lemma cut_categorical_spec r f m ps cats d bd ws ws' :
  XInv r -> In (f, m) (cdesc r) -> described r f m ps cats -> hd_error cats = Some d ->
  ~ In f (map fst (bdesc r)) ->
  cut_categorical r f bd ws = Some ws' ->
  length ws' = length ws /\
  (forall c b, In (c, b) bd -> In c cats /\ length b = length ws) /\
  (forall c c' i, (i < length ws)%nat -> assigned bd c i -> assigned bd c' i -> c = c') /\
  (forall c, In c cats -> exists sel, select_category r [(f, c)] ws' = Some sel /\ length sel = length ws /\
      forall i, (i < length ws)%nat ->
        (nth_error sel i = Some true <-> assigned bd c i \/ (c = d /\ unassigned bd i))) /\
  (forall g, In g (fields r) -> fst g <> f -> map (field_bits g) ws' = map (field_bits g) ws).
Proof.
  intros HX Hin HD Hd Hnb H. unfold cut_categorical in H.
  destruct (label_loop r f bd (repeat 0 (length ws))) as [l|] eqn:EL; [|discriminate].
  destruct (labels_ok r f bd l) eqn:EO; [|discriminate].
  apply label_loop_spec in EL as [L1 [L2 L3]]. rewrite repeat_length in L1.
  assert (Hknown : forall c b, In (c, b) bd -> In c cats).
  { intros c b Hcb. destruct (in_dec string_dec c cats) as [Hc|Hc]; [exact Hc|]. exfalso.
    destruct (L2 c b Hcb) as [_ [v Hv]]. rewrite (category_code_unknown r f m ps cats HD c Hc) in Hv. discriminate. }
  unfold cut in H. cbn [mask_size as_uint32] in H. rewrite (proj2 (Nat.eqb_eq _ _) L1) in H. cbn [negb] in H.
  rewrite (lookup_None f (bdesc r) Hnb), (lookup_f r f m HX Hin) in H. injection H as <-.
  assert (HL' : length (map (fun wv => set_category m (lowest_bit m) (fst wv) (snd wv)) (combine ws l)) = length ws).
  { rewrite map_length, combine_length. lia. }
  split; [exact HL'|].
  split. { intros c b Hcb. split; [eapply Hknown, Hcb|]. destruct (L2 c b Hcb) as [E _]. rewrite repeat_length in E. exact E. }
  (* the label of pulse i *)
  assert (HC : forall c i, (i < length ws)%nat -> assigned bd c i -> exists k, nth_error cats k = Some c /\ nth_error l i = Some (code m ps k)).
  { intros c i Hi Ha. pose proof Ha as [b [Hcb Hb]]. pose proof (Hknown _ _ Hcb) as Hc. apply In_nth_error in Hc as [k Hk].
    exists k. split; [exact Hk|]. destruct (nth_error l i) as [x|] eqn:Ex; [|apply nth_error_None in Ex; lia].
    f_equal. eapply (labels_ok_spec r f bd l EO c i); eauto. apply (category_code_known r f m ps cats HD k c Hk). }
  assert (H0 : nth_error cats 0 = Some d) by (destruct cats; cbn in *; congruence).
  assert (HU : forall i, (i < length ws)%nat -> unassigned bd i -> nth_error l i = Some (code m ps 0)).
  { intros i Hi Hu. assert (E0 : nth_error (repeat 0 (length ws)) i = Some 0) by (apply nth_error_repeat, Hi).
    destruct (L3 i 0 E0) as [[_ E]|[c [v [Ha _]]]]; [|destruct (Hu c Ha)].
    rewrite E. f_equal. unfold code. rewrite (pattern_0 r f m ps cats HD). symmetry. apply N.shiftr_0_l. }
  split. { intros c c' i Hi Ha Ha'. destruct (HC c i Hi Ha) as [k [Hk Ek]]. destruct (HC c' i Hi Ha') as [k' [Hk' Ek']].
    rewrite Ek in Ek'. injection Ek' as E. apply (code_inj r f m ps cats HD) in E; [subst k'; congruence | |]; apply nth_error_Some; congruence. }
  split.
  - intros c Hc. apply In_nth_error in Hc as [k Hk].
    exists (map (fun w => N.land w m =? pattern ps k) (map (fun wv => set_category m (lowest_bit m) (fst wv) (snd wv)) (combine ws l))).
    rewrite (select_known r f m ps cats HX Hin HD k c _ Hk). split; [reflexivity|]. split; [rewrite map_length; exact HL'|].
    intros i Hi. destruct (nth_error ws i) as [w|] eqn:Ew; [|apply nth_error_None in Ew; lia].
    assert (HV : exists c' k', nth_error cats k' = Some c' /\ nth_error l i = Some (code m ps k') /\
             (assigned bd c' i \/ (c' = d /\ unassigned bd i))).
    { assert (E0 : nth_error (repeat 0 (length ws)) i = Some 0) by (apply nth_error_repeat, Hi).
      destruct (L3 i 0 E0) as [[Hu _]|[c' [v [Ha _]]]].
      - exists d, O. split; [exact H0|]. split; [apply HU; assumption | auto].
      - destruct (HC c' i Hi Ha) as [k' [Hk' Ek']]. exists c', k'. auto. }
    destruct HV as [c' [k' [Hk' [Ek' Hwhy]]]].
    rewrite nth_error_map, (map2_combine_nth _ ws l i w (code m ps k') Ew Ek'). cbn [option_map fst snd].
    rewrite (set_category_spec r f m ps cats HD w k').
    assert (Eq : Some (pattern ps k' =? pattern ps k) = Some true <-> c = c').
    { split.
      - intros [= E]. apply N.eqb_eq in E. apply (pattern_inj r f m ps cats HD) in E; [subst; congruence | |]; apply nth_error_Some; congruence.
      - intros ->. rewrite (nodup_cats r f m ps cats HD _ _ _ Hk Hk'), N.eqb_refl. reflexivity. }
    rewrite Eq. split.
    + intros ->. exact Hwhy.
    + assert (Huniq : forall x, assigned bd x i -> x = c').
      { intros x Hx. destruct (HC x i Hi Hx) as [kx [Hkx Ekx]]. rewrite Ek' in Ekx. injection Ekx as E.
        apply (code_inj r f m ps cats HD) in E; [subst kx; congruence | |]; apply nth_error_Some; congruence. }
      intros [Ha|[-> Hu]]; [auto|]. destruct Hwhy as [Ha|[-> _]]; [destruct (Hu _ Ha) | reflexivity].
  - intros g Hg Hgf. assert (Hdisj : disj m (snd g)).
    { unfold fields in Hg. apply in_app_iff in Hg as [Hg|Hg].
      - apply filter_In in Hg as [Hg _]. apply disj_sym. apply (wi_bc r (xi_w r HX) g (f, m) Hg Hin).
      - apply (FOP_disj_In disj (cdesc r) (f, m) g disj_sym (wi_cc r (xi_w r HX)) Hin Hg). intros E. subst g. cbn in Hgf. congruence. }
    rewrite map_map. clear -Hdisj L1. revert l L1; induction ws as [|w ws IH]; intros [|x l] L1; cbn in *; try lia; [reflexivity|].
    f_equal; [apply set_category_frame, Hdisj | apply IH; lia].
Qed.

(** Conversely: known categories, right lengths and no conflict suffice. *)
Lemma cut_categorical_total r f m ps cats bd ws :
  XInv r -> In (f, m) (cdesc r) -> described r f m ps cats -> ~ In f (map fst (bdesc r)) ->
  (forall c b, In (c, b) bd -> In c cats /\ length b = length ws) ->
  (forall c c' i, (i < length ws)%nat -> assigned bd c i -> assigned bd c' i -> c = c') ->
  exists ws', cut_categorical r f bd ws = Some ws'.
Proof.
  intros HX Hin HD Hnb Hok Hnc. unfold cut_categorical.
  assert (HL : forall bd l, length l = length ws -> (forall c b, In (c, b) bd -> In c cats /\ length b = length ws) -> exists l', label_loop r f bd l = Some l').
  { clear Hok Hnc bd. induction bd as [|[c b] bd IH]; intros l Hl Hok; cbn [label_loop]; [eauto|].
    destruct (Hok c b (or_introl eq_refl)) as [Hc Hb]. apply In_nth_error in Hc as [k Hk].
    rewrite (category_code_known r f m ps cats HD k c Hk).
    destruct (assign_where_ok b (N.shiftr (pattern ps k) (lowest_bit m)) l) as [l1 E1]; [lia|]. rewrite E1.
    apply IH; [|intros c' b' H'; apply Hok; cbn; auto]. apply assign_where_spec in E1. lia. }
  destruct (HL bd (repeat 0 (length ws)) (repeat_length _ _) Hok) as [l E]. rewrite E.
  apply label_loop_spec in E as [L1 [L2 L3]]. rewrite repeat_length in L1.
  assert (EO : labels_ok r f bd l = true).
  { unfold labels_ok. apply forallb_forall. intros [c b] Hcb. cbn [fst snd].
    destruct (L2 c b Hcb) as [_ [v Hv]]. rewrite Hv. unfold all_where. apply forallb_forall. intros [y x] Hyx. cbn [fst snd].
    destruct y; [|reflexivity]. cbn [implb]. apply N.eqb_eq.
    destruct (In_nth_error _ _ Hyx) as [i Hi].
    assert (Hbi : nth_error b i = Some true /\ nth_error l i = Some x).
    { clear -Hi. revert l i Hi; induction b as [|y b IH]; intros [|w l] [|i]; cbn; try discriminate; [intros [= -> ->]; auto | apply IH]. }
    destruct Hbi as [Hb Hx]. assert (Hilt : (i < length ws)%nat) by (rewrite <- L1; apply nth_error_Some; congruence).
    assert (Ha : assigned bd c i) by (exists b; auto).
    destruct (L3 i 0 (nth_error_repeat 0 Hilt)) as [[Hu _]|[c' [v' [Ha' [Hc' Hl']]]]]; [destruct (Hu c Ha)|].
    rewrite (Hnc c c' i Hilt Ha Ha') in Hv. congruence. }
  rewrite EO. unfold cut. cbn [mask_size]. rewrite (proj2 (Nat.eqb_eq _ _) L1). cbn [negb].
  rewrite (lookup_None f (bdesc r) Hnb), (lookup_f r f m HX Hin). eauto.
Qed.
