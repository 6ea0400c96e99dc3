From Coq Require Import QArith Qcanon Ascii String Bool Lia List.
From Verif Require Import QcPre HcModel HcSpec HcProofs.
Import ListNotations.
Local Open Scope Qc_scope.

(** * C121: composite models of lines of highly charged ions *)
(** All lines of a composite model have the width and the scale of the peak, and see the same energy at every pulse height. *)
Theorem one_energy_scale ms bg pn c env : composite_model ms bg pn = Some c -> obeys env (body c) ->
  forall l, In l (comps (body c)) -> is_line l = true ->
    env (cprefix l ++ t "fwhm")%list = env (peak_prefix c ++ t "fwhm")%list /\ env (cprefix l ++ t "dph_de")%list = env (peak_prefix c ++ t "dph_de")%list /\
    (env (peak_prefix c ++ t "dph_de")%list <> 0 -> forall ph,
       energy_at env l ph = (ph - env (peak_prefix c ++ t "peak_ph")%list) / env (peak_prefix c ++ t "dph_de")%list + peak_energy c).
Proof.
  intros H OB l I L. destruct (composite_inv ms bg pn c H) as (_ & ND & C & pk & k & N & P & E & HH & _). rewrite C in I.
  set (ls := filter is_line (flat_map comps ms)) in *. assert (IL : In l ls) by (now apply filter_In).
  rewrite (split_at ls k pk N) in IL. apply in_app_or in IL. rewrite P, E.
  destruct (body c) as [cs hs]. cbn [hints] in HH. subst hs. unfold energy_at.
  assert (G : In l (firstn k ls ++ skipn (k + 1) ls) \/ l = pk) by (rewrite in_app_iff; destruct IL as [IL|[<- | IL]]; tauto).
  destruct G as [G| ->]; [|repeat split; trivial].
  assert (NDO : NoDup (map cprefix (firstn k ls ++ skipn (k + 1) ls))).
  { apply (nodup_filter_map cprefix is_line) in ND. fold ls in ND. rewrite (split_at ls k pk N) in ND. rewrite map_app in ND |- *. cbn [map] in ND. now apply NoDup_remove_1 in ND. }
  destruct (tied _ _ _ _ _ _ NDO OB l G) as (A & B & D). split; [exact A|]. split; [exact B|]. intros NZ ph. rewrite B, D. field. exact NZ.
Qed.
Print Assumptions one_energy_scale.
(** The peak is the first line with the name asked for, or the first line. *)
Theorem peak_is_the_named ms bg pn c : composite_model ms bg pn = Some c ->
  exists pk k, nth_error (filter is_line (comps (body c))) k = Some pk /\ peak_prefix c = cprefix pk /\ cpeak pk = Some (peak_energy c) /\
    match pn with Some n => cname pk = n /\ (forall j l, (j < k)%nat -> nth_error (filter is_line (comps (body c))) j = Some l -> cname l <> n) | None => k = O end.
Proof.
  intros H. destruct (composite_inv ms bg pn c H) as (_ & ND & C & pk & k & N & P & E & _ & Q). rewrite C. exists pk, k. repeat split; trivial.
  apply nth_error_In in N. apply filter_In in N as [_ N]. rewrite E. unfold is_line, energy_of in *. now destruct (cpeak pk).
Qed.
Print Assumptions peak_is_the_named.
(** When it succeeds: no background, no prefix twice, and the peak is there. *)
Theorem composite_defined ms bg pn : composite_model ms bg pn <> None <->
  bg = false /\ NoDup (map cprefix (flat_map comps ms)) /\
  match pn with Some n => exists l, In l (flat_map comps ms) /\ is_line l = true /\ cname l = n | None => exists l, In l (flat_map comps ms) /\ is_line l = true end.
Proof.
  split.
  - destruct (composite_model ms bg pn) as [c|] eqn:H; [|congruence]. intros _. destruct (composite_inv ms bg pn c H) as (B & ND & C & pk & k & N & P & E & _ & Q).
    split; [exact B|]. split; [exact ND|]. apply nth_error_In in N. apply filter_In in N as [N1 N2]. destruct pn as [n|]; exists pk; tauto.
  - intros (-> & ND & P). apply distinct_nodup in ND. unfold composite_model, sum_models. rewrite ND. cbn [comps]. set (ls := filter is_line _).
    destruct pn as [n|].
    + destruct P as (l & I & L & N). destruct (index_of n ls) as [k|] eqn:X.
      * destruct (index_spec _ _ _ X) as (pk & -> & _). discriminate.
      * apply index_none in X. exfalso. apply X. rewrite <- N. apply in_map. now apply filter_In.
    + destruct P as (l & I & L). destruct ls as [|c0 r] eqn:E; [assert (X : In l ls) by (now apply filter_In); rewrite E in X; contradiction|].
      cbn [nth_error option_map index_of]. replace (teqb (cname c0) (cname c0)) with true by (symmetry; now apply teqb_spec). cbn [nth_error]. discriminate.
Qed.
Print Assumptions composite_defined.
(** A background can never be asked for. *)
Theorem background_raises lines ms pn el conf vary more :
  composite_model ms true pn = None /\ hlike lines el conf true vary = None /\ helike lines el true more = None.
Proof.
  assert (B : forall ms pn, composite_model ms true pn = None) by (intros; unfold composite_model; destruct (sum_models _); reflexivity).
  split; [apply B|]. split.
  - unfold hlike. cbn [hlike_names]. destruct (line_model lines _); [|reflexivity]. destruct (line_model lines _); [|reflexivity]. now rewrite B.
  - unfold helike. destruct (all_models _ _); [apply B|reflexivity].
Qed.
Print Assumptions background_raises.
(** Only the parameters of lines beside the peak are tied, in a composite of single models. *)
Theorem peak_is_free ms bg pn c : composite_model ms bg pn = Some c -> flat_map hints ms = [] ->
  forall k e, In (k, e) (hints (body c)) -> exists l s, In l (comps (body c)) /\ cprefix l <> peak_prefix c /\ kind s /\ k = (cprefix l ++ s)%list.
Proof.
  intros H N k e I. destruct (composite_inv ms bg pn c H) as (_ & ND & C & pk & j & NT & P & E & HH & _). rewrite HH, N in I. cbn [app] in I. set (ls := filter is_line (flat_map comps ms)) in *.
  destruct (ties_keys _ _ _ _ _ I) as (l & s & L & K & ->). exists l, s. rewrite C. split; [|split; [|now split]].
  - assert (X : In l ls) by (rewrite (split_at ls j pk NT); apply in_app_or in L; apply in_or_app; destruct L; [now left|right; now right]). now apply filter_In in X as [X _].
  - intros Q. apply (nodup_filter_map cprefix is_line) in ND. fold ls in ND. rewrite (split_at ls j pk NT) in ND. rewrite map_app in ND. cbn [map] in ND. apply NoDup_remove_2 in ND.
    apply ND. rewrite <- map_app, <- P, <- Q. now apply in_map.
Qed.
Print Assumptions peak_is_free.

(** Lines of hydrogen-like ions: both lines must be known; the peak is that with J=3/2, and the other has its integral times the ratio. *)
Theorem hlike_value lines el conf vary : let n12 := (el ++ t " " ++ conf ++ t " 2P* J=1/2")%list in let n32 := (el ++ t " " ++ conf ++ t " 2P* J=3/2")%list in
  (hlike lines el conf false vary <> None <-> lines n12 <> None /\ lines n32 <> None) /\
  forall c r v b, hlike lines el conf false vary = Some (c, (r, v, b)) ->
    v = Q2Qc (1 # 2) /\ b = vary /\ lines n32 = Some (peak_energy c) /\ map cname (comps (body c)) = [n12; n32] /\
    forall env, obeys env (body c) -> env (prefix_of n12 ++ t "integral")%list = env (prefix_of n32 ++ t "integral")%list * env r /\
      env (prefix_of n12 ++ t "dph_de")%list = env (prefix_of n32 ++ t "dph_de")%list /\ env (prefix_of n12 ++ t "fwhm")%list = env (prefix_of n32 ++ t "fwhm")%list.
Proof.
  intros n12 n32. assert (NE : n12 <> n32).
  { intros E. unfold n12, n32 in E. rewrite !app_assoc in E. apply (f_equal (@rev ascii)) in E. rewrite !(rev_app_distr _ (t _)) in E. cbn in E. discriminate. }
  assert (PE : prefix_of n12 <> prefix_of n32).
  { rewrite !prefix_clean. unfold n12, n32. replace ((el ++ t " " ++ conf ++ t " 2P* J=1/2") ++ t "_")%list with ((el ++ t " " ++ conf ++ t " 2P*") ++ " "%char :: t "J=1/2_")%list by (now rewrite <- !app_assoc).
    replace ((el ++ t " " ++ conf ++ t " 2P* J=3/2") ++ t "_")%list with ((el ++ t " " ++ conf ++ t " 2P*") ++ " "%char :: t "J=3/2_")%list by (now rewrite <- !app_assoc).
    rewrite !clean_app. intros E. apply app_inv_head in E. discriminate. }
  assert (D : forall e12 e32, distinct (map cprefix [mkComp n12 (prefix_of n12) (Some e12); mkComp n32 (prefix_of n32) (Some e32)]) = true).
  { intros. apply distinct_nodup. cbn. repeat constructor; cbn; [intros [E|[]]; now apply PE|tauto]. }
  unfold hlike. cbn [hlike_names]. fold n12 n32. unfold line_model. destruct (lines n12) as [e12|]; [|split; [split; [congruence|tauto]|discriminate]].
  destruct (lines n32) as [e32|]; [|split; [split; [congruence|tauto]|discriminate]].
  unfold composite_model, sum_models. cbn [flat_map comps hints app]. rewrite D. cbn [comps hints filter is_line cpeak index_of cname].
  assert (T1 : teqb n12 n32 = false) by (destruct (teqb n12 n32) eqn:X; [apply teqb_spec in X; contradiction|reflexivity]). rewrite T1.
  assert (T2 : teqb n32 n32 = true) by now apply teqb_spec. rewrite T2. cbn [option_map nth_error]. split; [split; [intros _; split; congruence|discriminate]|].
  intros c r v b H. injection H as <- <- <- <-. cbn [peak_energy body comps hints]. repeat split.
  - match goal with OB : obeys _ _ |- _ => refine (OB [_; _; _] _ (Times _ _) [] eq_refl _) end. intros e' [].
  - match goal with OB : obeys _ _ |- _ => refine (OB [_] _ (Same _) [_; _] eq_refl _) end.
    cbn. intros e' [E|[E|[]]]; injection E as E _; apply (f_equal (@rev ascii)) in E; rewrite !rev_app_distr in E; discriminate.
  - match goal with OB : obeys _ _ |- _ => refine (OB [] _ (Same _) [_; _; _] eq_refl _) end.
    cbn. intros e' [E|[E|[E|[]]]]; injection E as E _; apply (f_equal (@rev ascii)) in E; rewrite !rev_app_distr in E; discriminate.
Qed.
Print Assumptions hlike_value.
(** Complexes of helium-like ions: the lines are the three and those added, in order, and the peak is 1s.2p 1P*. *)
Theorem helike_value lines el more c : helike lines el false more = Some c ->
  map cname (comps (body c)) = (helike_names el ++ more)%list /\ (forall l, In l (comps (body c)) -> lines (cname l) = cpeak l /\ cpeak l <> None /\ cprefix l = prefix_of (cname l)) /\
  lines (el ++ t " 1s.2p 1P* J=1")%list = Some (peak_energy c).
Proof.
  unfold helike. destruct (all_models lines (helike_names el ++ more)) as [ms|] eqn:A; [|discriminate]. intros H.
  assert (G : forall names ms, all_models lines names = Some ms -> map cname (flat_map comps ms) = names /\
    forall l, In l (flat_map comps ms) -> lines (cname l) = cpeak l /\ cpeak l <> None /\ cprefix l = prefix_of (cname l)).
  { clear. induction names as [|n r IH]; intros ms H; cbn [all_models] in H; [injection H as <-; split; [reflexivity|intros ? []]|].
    unfold line_model in H. destruct (lines n) as [e|] eqn:E; [|discriminate]. destruct (all_models lines r) as [ms'|]; [|discriminate]. injection H as <-.
    destruct (IH ms' eq_refl) as [N L]. cbn [flat_map comps app map cname]. split; [now rewrite N|]. intros l [<- | I]; [|auto]. cbn. rewrite E. repeat split. discriminate. }
  destruct (G _ _ A) as [N L]. destruct (peak_is_the_named _ _ _ _ H) as (pk & k & NT & _ & E & X & _). destruct (composite_inv _ _ _ _ H) as (_ & _ & C & _). rewrite C in *.
  split; [exact N|]. split; [exact L|]. apply nth_error_In in NT. apply filter_In in NT as [NT _]. destruct (L pk NT) as [Q _]. congruence.
Qed.
Print Assumptions helike_value.

(** Prefixes have no character that lmfit refuses among those of names of lines, *)
Theorem prefix_clean_of name c : In c (prefix_of name) -> c <> " "%char /\ c <> "/"%char /\ c <> "*"%char /\ c <> "."%char /\ (c = "_"%char \/ In c name).
Proof. apply prefix_chars. Qed.
Print Assumptions prefix_clean_of.
(** but two names can have the same, and then there is no composite. *)
Theorem prefixes_distinct_refuted : exists a b lines ms, a <> b /\ prefix_of a = prefix_of b /\ all_models lines [a; b] = Some ms /\ composite_model ms false None = None.
Proof.
  exists (t "O7 1s.2p 3P* J=1"), (t "O7 1s.2p 3P J=1"), (fun _ => Some 1), [mkModel [mkComp (t "O7 1s.2p 3P* J=1") (t "O7_1s2p_3P_1_") (Some 1)] []; mkModel [mkComp (t "O7 1s.2p 3P J=1") (t "O7_1s2p_3P_1_") (Some 1)] []].
  split; [discriminate|]. now repeat split.
Qed.
Print Assumptions prefixes_distinct_refuted.
(** The peak of a composite that was tied in an inner one depends on itself. *)
Theorem peak_is_free_refuted : exists lines a b inner c, composite_model inner false None <> None /\ all_models lines [a; b] = Some inner /\
  (forall i, composite_model inner false (Some a) = Some i -> composite_model [body i] false (Some b) = Some c) /\
  In (prefix_of a ++ t "fwhm", Same (prefix_of b ++ t "fwhm"))%list (hints (body c)) /\ In (prefix_of b ++ t "fwhm", Same (prefix_of a ++ t "fwhm"))%list (hints (body c)).
Proof.
  exists (fun _ => Some 1), (t "A"), (t "B"). eexists. eexists. split; [|split; [vm_compute; reflexivity|]]; [discriminate|]. split.
  - intros i H. vm_compute in H. injection H as <-. vm_compute. reflexivity.
  - split; vm_compute; tauto.
Qed.
Print Assumptions peak_is_free_refuted.

Definition known (n : text) : option Qc := if teqb n (t "Ne10 2p 2P* J=1/2") then Some (Q2Qc (1021 # 1)) else if teqb n (t "Ne10 2p 2P* J=3/2") then Some (Q2Qc (1022 # 1)) else None.
Example hlike_instance : exists c, hlike known (t "Ne10") (t "2p") false false = Some (c, (t "Ne10_2p_amp_ratio", Q2Qc (1 # 2), false)) /\
  peak_prefix c = t "Ne10_2p_2P_3_2_" /\ hints (body c) =
    [(t "Ne10_2p_2P_1_2_fwhm", Same (t "Ne10_2p_2P_3_2_fwhm")); (t "Ne10_2p_2P_1_2_dph_de", Same (t "Ne10_2p_2P_3_2_dph_de"));
     (t "Ne10_2p_2P_1_2_peak_ph", Shifted (Q2Qc (-1 # 1)) (t "Ne10_2p_2P_3_2_dph_de") (t "Ne10_2p_2P_3_2_peak_ph"));
     (t "Ne10_2p_2P_1_2_integral", Times (t "Ne10_2p_2P_3_2_integral") (t "Ne10_2p_amp_ratio"))].
Proof. eexists. split; [vm_compute; reflexivity|]. split; [vm_compute; reflexivity|]. cbn. repeat f_equal. Qed.
(** values that obey its hints *)
Example obeys_instance : exists m env, composite_model m false (Some (t "B")) <> None /\ (forall c, composite_model m false (Some (t "B")) = Some c -> obeys env (body c)) /\ env (t "A_fwhm") = Q2Qc 3.
Proof.
  exists [mkModel [mkComp (t "A") (t "A_") (Some 1)] []; mkModel [mkComp (t "B") (t "B_") (Some 1)] []], (fun _ => Q2Qc 3). split; [discriminate|]. split; [|reflexivity].
  intros c H. vm_compute in H. injection H as <-. intros l k e r E _. cbn in E.
  destruct l as [|? [|? [|? [|? ?]]]]; cbn in E; try discriminate; injection E as E1 E2; try discriminate; subst; try reflexivity; try (apply Qc_is_canon; reflexivity).
Qed.
