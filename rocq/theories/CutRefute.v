(** Witnesses, and the lemmas of the cut development lifted to reachable registries. *)
From Coq Require Import PeanoNat NArith QArith String Bool List Lia Lqa.
From Verif Require Import BitLemmas CutModel CutSpec CutProofs CutMaskProofs CutHistProofs CutCatProofs.
Import ListNotations.
Local Open Scope N_scope.

Lemma init_winv : WInv init_registry.
Proof. apply run_winv, empty_winv. Qed.

Lemma fields_disjoint_any_history ops :
  disjoint_fields (run ops init_registry) /\ used_covers (run ops init_registry).
Proof. pose proof (run_winv ops _ init_winv). split; [apply winv_disjoint | apply winv_covers]; assumption. Qed.

Lemma used_exact_history ops : Forall op_short ops -> used_exact (run ops init_registry).
Proof. intros H. apply xinv_used_exact, run_xinv; [exact H | apply init_cinv]. Qed.

Definition long_name : name := String.concat "" (repeat "a"%string 65).
Definition trunc_name : name := String.concat "" (repeat "a"%string 64).
Definition leak_ops : list reg_op :=
  [RegC long_name ["x"]%string "u"%string; RegC long_name ["x"]%string "u"%string; UnregC trunc_name].

Lemma used_leak : exists ops, ~ used_exact (run ops init_registry).
Proof.
  exists leak_ops. intros H. destruct (proj1 (H 18)) as [f [Hf Ho]]; [vm_compute; reflexivity|].
  unfold owns in Ho. vm_compute in Hf.
  repeat (destruct Hf as [<-|Hf]; [vm_compute in Ho; discriminate|]). exact Hf.
Qed.

Lemma boolean_cut_history ops n m ws ws' :
  let r := run ops init_registry in
  n <> ""%string -> In n (map fst (bdesc r)) ->
  cut r n (BoolMask m) ws = Some ws' ->
  length ws' = length ws /\
  (exists b b', bad_for r n ws = Some b /\ bad_for r n ws' = Some b' /\
                length m = length b /\ b' = map2 orb m b) /\
  (forall g, g <> n -> bad_for r g ws' = bad_for r g ws) /\
  (forall h, category_codes r h ws' = category_codes r h ws) /\
  (forall sel, select_category r sel ws' = select_category r sel ws).
Proof. intros r Hn Hr H. apply (cut_bool_frame r n m); auto. apply run_winv, init_winv. Qed.

Lemma good_bad_history ops names sel ws g b :
  let r := run ops init_registry in
  good r names sel ws = Some g -> bad r names sel ws = Some b ->
  length g = length ws /\ length b = length ws /\
  exists s, select_category r sel ws = Some s /\
  forall i w si, nth_error ws i = Some w -> nth_error s i = Some si ->
    exists gi bi, nth_error g i = Some gi /\ nth_error b i = Some bi /\
      (gi = true <-> si = true /\ passes r names w) /\
      (bi = true <-> si = true /\ ~ passes r names w).
Proof. intros r Hg Hb. apply (good_bad_spec r); auto. apply run_winv, init_winv. Qed.

Lemma clear_cut_history ops names ws ws' :
  let r := run ops init_registry in
  clear_cut r names ws = Some ws' ->
  length ws' = length ws /\
  (forall i w', nth_error ws' i = Some w' -> passes r names w') /\
  (forall g, names <> [] -> ~ In g names -> g <> ""%string -> bad_for r g ws' = bad_for r g ws) /\
  (forall h, category_codes r h ws' = category_codes r h ws) /\
  (forall q, In q (cdesc r) -> map (field_bits q) ws' = map (field_bits q) ws) /\
  clear_cut r names ws' = Some ws'.
Proof. intros r H. apply clear_cut_spec; auto. apply run_winv, init_winv. Qed.

Lemma categorical_history ops f cs d ops' bd ws ws' :
  Forall op_short ops -> op_short (RegC f cs d) -> Forall op_short ops' -> Forall (not_unreg f) ops' ->
  ~ In f (map fst (cdesc (run ops init_registry))) ->
  try_op (RegC f cs d) (run ops init_registry) <> None ->
  let r := run (ops ++ RegC f cs d :: ops') init_registry in
  ~ In f (map fst (bdesc r)) ->
  cut_categorical r f bd ws = Some ws' ->
  length ws' = length ws /\
  (forall c b, In (c, b) bd -> (c = d \/ In c cs) /\ length b = length ws) /\
  (forall c c' i, (i < length ws)%nat -> assigned bd c i -> assigned bd c' i -> c = c') /\
  (forall c, c = d \/ In c cs -> exists sel, select_category r [(f, c)] ws' = Some sel /\ length sel = length ws /\
      forall i, (i < length ws)%nat ->
        (nth_error sel i = Some true <-> assigned bd c i \/ (c = d /\ unassigned bd i))) /\
  (forall g, In g (fields r) -> fst g <> f -> map (field_bits g) ws' = map (field_bits g) ws).
Proof.
  intros Ho Hr Ho' Hu Hnew Hok r Hnb H.
  destruct (registered_described ops f cs d ops' init_registry init_cinv Ho Hr Ho' Hu Hnew Hok) as [HC [m [ps [Hin HD]]]].
  destruct (category_order_spec cs d) as [_ [OH OI]].
  destruct (cut_categorical_spec _ f m ps _ d bd ws ws' (ci_x _ HC) Hin HD OH Hnb H) as [K1 [K2 [K3 [K4 K5]]]].
  split; [exact K1|]. split; [intros c b Hcb; rewrite <- OI; exact (K2 c b Hcb)|]. split; [exact K3|].
  split; [intros c Hc; apply K4, OI, Hc | exact K5].
Qed.

Lemma categorical_total_history ops f cs d ops' bd ws :
  Forall op_short ops -> op_short (RegC f cs d) -> Forall op_short ops' -> Forall (not_unreg f) ops' ->
  ~ In f (map fst (cdesc (run ops init_registry))) ->
  try_op (RegC f cs d) (run ops init_registry) <> None ->
  let r := run (ops ++ RegC f cs d :: ops') init_registry in
  ~ In f (map fst (bdesc r)) ->
  (forall c b, In (c, b) bd -> (c = d \/ In c cs) /\ length b = length ws) ->
  (forall c c' i, (i < length ws)%nat -> assigned bd c i -> assigned bd c' i -> c = c') ->
  exists ws', cut_categorical r f bd ws = Some ws'.
Proof.
  intros Ho Hr Ho' Hu Hnew Hok r Hnb Hk Hc.
  destruct (registered_described ops f cs d ops' init_registry init_cinv Ho Hr Ho' Hu Hnew Hok) as [HC [m [ps [Hin HD]]]].
  destruct (category_order_spec cs d) as [_ [OH OI]].
  apply (cut_categorical_total _ f m ps _ bd ws (ci_x _ HC) Hin HD Hnb); [|exact Hc].
  intros c b Hcb. rewrite OI. apply Hk, Hcb.
Qed.

Lemma categorical_shadowed : exists ops f bd ws ws',
  let r := run ops init_registry in
  Forall op_short ops /\ In f (map fst (cdesc r)) /\
  cut_categorical r f bd ws = Some ws' /\
  exists c i, assigned bd c i /\ (i < length ws)%nat /\
    select_category r [(f, c)] ws' = Some (map (fun _ => false) ws).
Proof.
  exists [RegC "f" ["x"; "y"] "x"; RegB ["f"]]%string, "f"%string,
         [("y", [false; true])]%string, [0; 0], [262144; 262144].
  intros r. split; [repeat constructor; unfold short; cbn; lia|]. split; [apply (proj1 (in_names_In _ _)); vm_compute; reflexivity|]. split; [vm_compute; reflexivity|].
  exists "y"%string, 1%nat. split; [exists [false; true]; cbn; auto|]. split; [cbn; lia | vm_compute; reflexivity].
Qed.

Lemma cut_parameter_one_spec r data a b n ws :
  In n (map fst (bdesc r)) -> length data = length ws ->
  lim_num a -> lim_num b -> Forall is_num data ->
  exists v, cut_parameter r data (Some (OneRange a b)) n ws = cut r n (BoolMask v) ws /\
            marks (fun x => ~ in_open a b x) data v.
Proof.
  intros Hn HL Ha Hb Hd. exists (map (one_range_mark a b) data).
  split; [apply cut_parameter_one; assumption | apply one_range_marks; assumption].
Qed.

(** The lower limit [a'] is no higher than [a]; a missing limit is the widest. *)
Definition wider_low (a' a : option xval) : Prop :=
  match a', a with None, _ => True | Some x, Some y => xleq x y | Some _, None => False end.
Definition wider_high (b' b : option xval) : Prop :=
  match b', b with None, _ => True | Some x, Some y => xleq y x | Some _, None => False end.

Lemma xle_trans x y z : xle x y = true -> xle y z = true -> xle x z = true.
Proof.
  destruct x as [| |a|], y as [| |b|], z as [| |c|]; cbn; try congruence.
  rewrite !Qle_bool_iff. intros; lra.
Qed.

Lemma one_range_mark_mono a b a' b' x :
  wider_low a' a -> wider_high b' b -> one_range_mark a' b' x = true -> one_range_mark a b x = true.
Proof.
  unfold one_range_mark. rewrite !orb_true_iff. intros Ha Hb [H|H].
  - left. destruct a' as [a'|]; [|discriminate]. destruct a as [a|]; cbn in Ha; [|tauto].
    apply xle_spec in Ha. eapply xle_trans; eauto.
  - right. destruct b' as [b'|]; [|discriminate]. destruct b as [b|]; cbn in Hb; [|tauto].
    apply xle_spec in Hb. eapply xle_trans; eauto.
Qed.

Lemma widening_marks_less r data a b a' b' n ws ws1 ws2 :
  WInv r -> n <> ""%string -> In n (map fst (bdesc r)) -> length data = length ws ->
  wider_low a' a -> wider_high b' b ->
  cut_parameter r data (Some (OneRange a b)) n ws = Some ws1 ->
  cut_parameter r data (Some (OneRange a' b')) n ws = Some ws2 ->
  forall i v1 v2, option_map (fun l => nth_error l i) (bad_for r n ws1) = Some (Some v1) ->
                  option_map (fun l => nth_error l i) (bad_for r n ws2) = Some (Some v2) ->
                  v2 = true -> v1 = true.
Proof.
  intros HI Hne Hn HL Ha Hb H1 H2 i v1 v2 E1 E2 Hv.
  rewrite cut_parameter_one in H1, H2 by assumption.
  destruct (cut_bool_frame _ _ _ _ _ HI Hne Hn H1) as [_ [[p [p1 [P1 [P2 [P3 P4]]]]] _]].
  destruct (cut_bool_frame _ _ _ _ _ HI Hne Hn H2) as [_ [[q [q1 [Q1 [Q2 [Q3 Q4]]]]] _]].
  rewrite P1 in Q1. injection Q1 as <-. rewrite P2 in E1. rewrite Q2 in E2. cbn in E1, E2. injection E1 as E1. injection E2 as E2.
  subst p1 q1. rewrite map2_nth, nth_error_map in E1, E2.
  destruct (nth_error data i) as [x|]; cbn in *; [|discriminate]. destruct (nth_error p i) as [y|]; [|discriminate].
  injection E1 as <-. injection E2 as <-. rewrite orb_true_iff in *. destruct Hv as [Hv|Hv]; [left|tauto].
  eapply one_range_mark_mono; eauto.
Qed.

Lemma nan_not_marked : exists r data a b n ws ws',
  cut_parameter r data (Some (OneRange a b)) n ws = Some ws' /\
  bad_for r n ws' = Some [false] /\ (forall x, In x data -> ~ in_open a b x) /\ data <> [].
Proof.
  exists init_registry, [NaN], (Some (Fin 1)), (Some (Fin 2)), "energy"%string, [0], [0].
  split; [vm_compute; reflexivity|]. split; [vm_compute; reflexivity|]. split; [|discriminate]. intros x [<-|[]] [C _]. exact C.
Qed.

Lemma unbounded_element : exists r data n ws,
  In n (map fst (bdesc r)) /\ length data = length ws /\
  cut_parameter r data (Some (Ranges [Pair None None])) n ws = None.
Proof.
  exists init_registry, [Fin 1], "energy"%string, [0].
  split; [apply (proj1 (in_names_In _ _)); vm_compute; reflexivity|]. split; [reflexivity | vm_compute; reflexivity].
Qed.

Lemma stale_bit : exists es n r',
  let s := run_cuts es (init_registry, [0]) in
  ~ In n (map fst (bdesc (fst s))) /\ register_boolean [n] (fst s) = Some r' /\
  bad_for r' n (snd s) = Some [true].
Proof.
  exists [Reg (RegB ["a"]); Cut "a" (BoolMask [true]); Reg (UnregB ["a"])]%string, "b"%string.
  eexists. intros s. split; [intros C; apply (proj2 (in_names_In _ _)) in C; vm_compute in C; discriminate|]. split; vm_compute; reflexivity.
Qed.

Lemma crash_breaks : exists es, ~ disjoint_fields (run_events es init_registry).
Proof.
  exists [Crash (RegB ["a"]) 1; Call (RegC "c" ["x"; "y"] "x")]%string.
  intros [_ [_ H]].
  specialize (H 16%nat 18%nat ("a"%string, 131072) ("c"%string, 131072) 17).
  enough (16 = 18)%nat by discriminate. apply H; vm_compute; reflexivity.
Qed.

Lemma crash_once_history ops o r' :
  In r' (crash_states o (run ops init_registry)) -> disjoint_fields r'.
Proof. apply crash_once_disjoint, run_winv, init_winv. Qed.

Lemma unregister_crashes_safe es :
  Forall crash_only_in_unregister es ->
  disjoint_fields (run_events es init_registry) /\ used_covers (run_events es init_registry).
Proof. intros H. pose proof (events_winv es _ H init_winv). split; [apply winv_disjoint | apply winv_covers]; assumption. Qed.
