From Coq Require Import String ZArith QArith Qcanon Bool Lia List.
From Verif Require Import QcPre LagModel LagSpec LagProofs OptModel OptProofs FdModel FdSpec.
Import ListNotations.
Local Open Scope Qc_scope.

Lemma zero_ok q : zero q = true <-> q = 0.
Proof. unfold zero. destruct (Qc_eq_dec q 0); split; congruence. Qed.
Lemma zero_no q : zero q = false <-> q <> 0.
Proof. unfold zero. destruct (Qc_eq_dec q 0); split; congruence. Qed.

Lemma skip_skip {A : Type} a b : forall l : list A, skipn b (skipn a l) = skipn (a + b) l.
Proof. induction a as [|a IH]; intros [|x l]; cbn; [reflexivity..|now rewrite skipn_nil|apply IH]. Qed.
(** * Segments *)
Lemma write_at_step {A : Type} (h : nat -> A) first len old : (first + len <= length old)%nat ->
  write_at first (map h (seq first len)) (map h (seq 0 first) ++ skipn first old) = map h (seq 0 (first + len)) ++ skipn (first + len) old.
Proof.
  intros L. unfold write_at. assert (E : length (map h (seq 0 first)) = first) by now rewrite map_length, seq_length.
  rewrite firstn_app, E, Nat.sub_diag, firstn_O, app_nil_r. rewrite <- E at 1. rewrite firstn_all. rewrite map_length, seq_length.
  rewrite skipn_app, E. rewrite skipn_all2 by (rewrite E; lia). cbn [app]. replace (first + len - first)%nat with len by lia.
  rewrite skip_skip. rewrite seq_app, map_app, <- app_assoc. reflexivity.
Qed.
Section Segments.
Variables (f : chan -> nat -> nat -> option (list (option Qc * option Qc))) (g : nat -> option Qc * option Qc) (c : chan).
Hypothesis sound_c : sound c.
Hypothesis f_rec : forall v p a b, f (set_results c v p) a b = f c a b.
Hypothesis f_ok : forall a b, (a < b)%nat -> (b <= length (recs c))%nat -> f c a b = Some (map g (seq a (b - a))).
Let n := length (recs c).
Let upto k := Nat.min n (k * per_seg c).
Let partly k := set_results c (map (fun i => snd (g i)) (seq 0 (upto k)) ++ skipn (upto k) (fvals c)) (map (fun i => fst (g i)) (seq 0 (upto k)) ++ skipn (upto k) (fphases c)).
Lemma segments_upto : forall k, (k <= nsegs c)%nat -> fold_left (write_segment f) (seq 0 k) (c, true) = (partly k, true).
Proof.
  destruct sound_c as (_ & _ & _ & LV & LP & PS & COV & FST).
  induction k as [|k IH]; intros K.
  - cbn. unfold partly, upto. cbn. rewrite Nat.min_0_r. cbn. destruct c; reflexivity.
  - rewrite seq_S, fold_left_app, IH by lia. cbn [fold_left Nat.add]. unfold write_segment, partly at 1. cbn -[write_at Nat.mul skipn firstn seq upto].
    specialize (FST k ltac:(lia)). change (length (recs c)) with n in LV, LP, COV, FST.
    assert (U : upto k = (k * per_seg c)%nat) by (unfold upto; lia).
    assert (U' : upto (S k) = Nat.min n (k * per_seg c + per_seg c)) by (unfold upto; lia).
    fold n. rewrite f_rec, f_ok by lia. rewrite <- U', <- U.
    unfold partly. rewrite !map_map. f_equal. unfold set_results. cbn.
    rewrite !write_at_step by (unfold n in *; lia). replace (upto k + (upto (S k) - upto k))%nat with (upto (S k)) by lia. reflexivity.
Qed.
Lemma segments_all : all_segments f c = (set_results c (map (fun i => snd (g i)) (seq 0 n)) (map (fun i => fst (g i)) (seq 0 n)), true).
Proof.
  destruct sound_c as (_ & _ & _ & LV & LP & PS & COV & FST). unfold all_segments. rewrite segments_upto by lia. unfold partly, upto. replace (Nat.min n (nsegs c * per_seg c)) with n by (change (length (recs c)) with n in COV; lia).
  rewrite !skipn_all2 by (unfold n; lia). now rewrite !app_nil_r.
Qed.
End Segments.

(** The first segment fails: nothing happens. *)
Lemma segments_fail f c : sound c -> recs c <> [] -> (forall b, f c 0%nat b = None) -> all_segments f c = (c, false).
Proof.
  intros S R F. destruct S as (_ & _ & _ & _ & _ & _ & COV & _). unfold all_segments. destruct (nsegs c) as [|k].
  { destruct (recs c); [congruence|cbn in COV; lia]. }
  cbn [seq fold_left]. unfold write_segment at 2. cbn [Nat.mul]. rewrite F. assert (G : forall l, fold_left (write_segment f) l (c, false) = (c, false)) by (induction l; [reflexivity|assumption]). apply G.
Qed.

Lemma results_set c g (P : nat -> option Qc -> option Qc -> Prop) : (forall i, (i < length (recs c))%nat -> P i (fst (g i)) (snd (g i))) ->
  results (set_results c (map (fun i => snd (g i)) (seq 0 (length (recs c)))) (map (fun i => fst (g i)) (seq 0 (length (recs c))))) P.
Proof.
  intros H. unfold results. cbn [fvals fphases recs set_results]. rewrite !map_length, !seq_length. split; [reflexivity|]. split; [reflexivity|]. intros i I.
  assert (E : forall h : nat -> option Qc, nth i (map h (seq 0 (length (recs c)))) None = h i).
  { intros h. rewrite (nth_indep _ None (h 0%nat)) by now rewrite map_length, seq_length. rewrite map_nth, seq_nth by exact I. reflexivity. }
  rewrite !E. now apply H.
Qed.
Lemma same_set c v p : same_but_results c (set_results c v p).
Proof. unfold same_but_results. cbn. repeat split; reflexivity. Qed.

Lemma between_map {A B : Type} (h : A -> B) d l a b : (b <= length l)%nat -> map h (between a b l) = map (fun i => h (nth i l d)) (seq a (b - a)).
Proof.
  intros L. apply nth_ext with (d := h d) (d' := h d).
  - unfold between. rewrite !map_length, seq_length, firstn_length, skipn_length. lia.
  - intros i I. unfold between in *. rewrite map_length, firstn_length, skipn_length in I.
    rewrite map_nth. rewrite (nth_indep (map _ (seq _ _)) (h d) ((fun i => h (nth i l d)) 0%nat)) by (rewrite map_length, seq_length; lia). rewrite (map_nth (fun i => h (nth i l d))), seq_nth by lia.
    f_equal. assert (E : nth i (firstn (b - a) (skipn a l)) d = nth i (skipn a l) d).
    { rewrite <- (firstn_skipn (b - a) (skipn a l)) at 2. rewrite app_nth1; [reflexivity|rewrite firstn_length, skipn_length; lia]. }
    rewrite E. rewrite <- (firstn_skipn a l) at 2. rewrite app_nth2; rewrite firstn_length; [f_equal; lia|lia].
Qed.
Lemma between_combine {A B : Type} (l : list A) (m : list B) a b : length l = length m -> between a b (combine l m) = combine (between a b l) (between a b m).
Proof.
  unfold between. intros L. generalize (b - a)%nat. intros k. clear b. revert l m L. induction a as [|a IH]; intros l m L.
  - cbn. revert l m L. induction k as [|k IHk]; intros [|x l] [|y m] L; cbn in *; try lia; [reflexivity..|]. f_equal. apply IHk. lia.
  - destruct l, m; cbn in *; try lia; [now rewrite !firstn_nil|]. apply IH. lia.
Qed.

(** * ATS *)
Lemma dot_front v r m : (length v + m <= length r)%nat -> dot (firstn (length v) (skipn m r)) v = lagged v r m.
Proof.
  intros L. rewrite dot_lagged by (rewrite skipn_length; lia). unfold lagged. apply qsum_ext. intros k K. f_equal. rewrite Nat.add_0_r.
  rewrite <- (firstn_skipn m r) at 2. rewrite app_nth2; rewrite firstn_length; [f_equal; lia|lia].
Qed.
Definition offset (shifting s : bool) : nat := if shifting then (if s then 0 else 1)%nat else 0%nat.
Lemma used_estimates (shifting s : bool) v at_ r : length at_ = length v -> (if shifting then length v + 1 = length r else length v = length r)%nat ->
  estimates v at_ (offset shifting s) r (fst (ats_of v at_ (used shifting s r))) (snd (ats_of v at_ (used shifting s r))).
Proof.
  intros LA LR. assert (E : forall w, length w = length v -> dot (used shifting s r) w = lagged w r (offset shifting s)).
  { intros w W. unfold used, offset. destruct shifting; [destruct s|].
    - rewrite <- dot_front by lia. cbn [skipn]. f_equal. f_equal. lia.
    - rewrite <- dot_front by lia. f_equal. rewrite firstn_all2; [destruct r; reflexivity|]. rewrite skipn_length. lia.
    - rewrite <- dot_front by lia. cbn [skipn]. now rewrite firstn_all2 by lia. }
  unfold estimates, ats_of. cbn [fst snd]. rewrite (E v eq_refl), (E at_ LA). split; [reflexivity|]. destruct (zero (lagged v r (offset shifting s))) eqn:Z.
  - left. split; [now apply zero_ok|reflexivity].
  - right. apply zero_no in Z. split; [exact Z|]. eexists. split; [reflexivity|]. now rewrite Qcmult_comm, Qcmult_div_r.
Qed.

Lemma ats_segments proxy (shifting : bool) v at_ c : sound c -> length at_ = length v -> (if shifting then length v + 1 = nsamp c else length v = nsamp c)%nat ->
  exists c', all_segments (seg_ats proxy shifting v at_ None) c = (c', true) /\ same_but_results c c' /\
  results c' (fun i t u => estimates v at_ (offset shifting (nth i (shifts c) false)) (nth i (recs c) []) t u).
Proof.
  intros S LA LV. pose proof S as (WF & LM & LS & _ & _ & _ & _ & _).
  set (g := fun i => ats_of v at_ (used shifting (nth i (shifts c) false) (nth i (recs c) []))).
  rewrite (segments_all _ g c S).
  - eexists. split; [reflexivity|]. split; [apply same_set|].
    apply (results_set c g). intros i I. unfold g. apply used_estimates; [exact LA|]. rewrite Forall_forall in WF. rewrite (WF (nth i (recs c) [])) by now apply nth_In. exact LV.
  - reflexivity.
  - intros a b AB B. unfold seg_ats. rewrite (proj2 (Nat.eqb_eq _ _) LA). cbn [negb]. replace (if shifting then false else false) with false by now destruct shifting. rewrite andb_false_r. f_equal.
    rewrite <- !between_combine by (rewrite ?combine_length; lia).
    rewrite (between_map _ ([], (0, false))) by (rewrite !combine_length; lia).
    apply map_ext. intros i. unfold g. rewrite !combine_nth by (rewrite ?combine_length; lia). reflexivity.
Qed.

(** * Five lags *)
Lemma all_of_some {A B : Type} (h : A -> option B) (k : A -> B) l : (forall a, In a l -> h a = Some (k a)) -> all_of (map h l) = Some (map k l).
Proof.
  induction l as [|a l IH]; intros H; [reflexivity|]. cbn. rewrite (H a (or_introl eq_refl)). rewrite IH; [reflexivity|]. intros b Hb. apply H. now right.
Qed.
Lemma all_of_none {A : Type} (l : list (option A)) : In None l -> all_of l = None.
Proof. induction l as [|[a|] l IH]; intros H; [destruct H| |reflexivity]. destruct H as [H|H]; [discriminate|]. cbn. now rewrite IH. Qed.
Lemma row_result filter r cython m : (8 <= length r)%nat -> (length filter + 4 = length r)%nat ->
  exists o, filter_data_row cython None filter m r = Some o /\ five_lag_result filter r (fst (lag_of o)) (snd (lag_of o)).
Proof.
  intros L F. destruct (five_lag_total filter r cython m L F) as [([x y] & E)|(E & a & b & B)].
  - rewrite E. eexists. split; [reflexivity|]. left. destruct (five_lag_estimate filter r x y cython m L F E) as (a & b & q & H1 & H2 & H3). exists x, y, a, b, q. cbn. auto.
  - rewrite E. eexists. split; [reflexivity|]. right. cbn. repeat split. exists a, b. exact B.
Qed.
Lemma lag_segments v c (g : option (list Qc -> list Qc)) : sound c -> (forall f l, g = Some f -> length (f l) = length l) -> (8 <= nsamp c)%nat -> (length v + 4 = nsamp c)%nat ->
  exists c', all_segments (seg_5lag v g) c = (c', true) /\ same_but_results c c' /\
  results c' (fun i t u => five_lag_result v (moved g (nth i (ptm c) 0) (nth i (recs c) [])) t u).
Proof.
  intros S G N LV. pose proof S as (WF & LM & LS & _ & _ & _ & _ & _). rewrite Forall_forall in WF.
  set (h := fun i => lag_of (match segment_row v g (nth i (ptm c) 0) (nth i (recs c) []) with Some o => o | None => None end)).
  assert (SR : forall i, (i < length (recs c))%nat -> exists o, segment_row v g (nth i (ptm c) 0) (nth i (recs c) []) = Some o /\ five_lag_result v (moved g (nth i (ptm c) 0) (nth i (recs c) [])) (fst (lag_of o)) (snd (lag_of o))).
  { intros i I. assert (LR : length (nth i (recs c) []) = nsamp c) by (apply WF, nth_In, I).
    assert (E : segment_row v g (nth i (ptm c) 0) (nth i (recs c) []) = filter_data_row false None v 0 (moved g (nth i (ptm c) 0) (nth i (recs c) []))).
    { unfold filter_data_row, segment_row, moved. destruct g as [f|]; [|reflexivity]. now rewrite (G f _ eq_refl), map_length. }
    rewrite E. assert (LM' : length (moved g (nth i (ptm c) 0) (nth i (recs c) [])) = nsamp c) by (unfold moved; destruct g as [f|]; [rewrite (G f _ eq_refl), map_length|]; exact LR).
    apply row_result; rewrite LM'; assumption. }
  rewrite (segments_all _ h c S).
  - eexists. split; [reflexivity|]. split; [apply same_set|]. apply (results_set c h). intros i I. destruct (SR i I) as (o & E & R). unfold h. now rewrite E.
  - reflexivity.
  - intros a b AB B. unfold seg_5lag. rewrite <- between_combine by lia. rewrite (between_map _ ([], 0)) by (rewrite combine_length; lia).
    rewrite (all_of_some _ (fun i => match segment_row v g (nth i (ptm c) 0) (nth i (recs c) []) with Some o => o | None => None end)).
    + cbn [option_map]. rewrite map_map. reflexivity.
    + intros i I. apply in_seq in I. rewrite combine_nth by lia. cbn [fst snd]. destruct (SR i) as (o & E & _); [lia|]. now rewrite E.
Qed.
Lemma lag_cython v c : sound c -> (8 <= nsamp c)%nat -> (length v + 4 = nsamp c)%nat ->
  (forall r, In r (recs c) -> ~ exists a b, best_parabola (lagged v r) a b 0) ->
  exists l, all_of (map (fun r => match lag_row v r with Some (Some xy) => Some xy | _ => None end) (recs c)) = Some l /\
  results (set_results c (map (fun xy => Some (snd xy)) l) (map (fun xy => Some (fst xy)) l)) (fun i t u => five_lag_result v (nth i (recs c) []) t u).
Proof.
  intros (WF & _) N LV NZ. rewrite Forall_forall in WF.
  set (k := fun r => match lag_row v r with Some (Some xy) => xy | _ => (0, 0) end).
  assert (K : forall r, In r (recs c) -> lag_row v r = Some (Some (k r)) /\ five_lag_result v r (Some (fst (k r))) (Some (snd (k r)))).
  { intros r R. unfold k. destruct (row_result v r true 0) as (o & E & F); [rewrite (WF r R); assumption..|]. cbn [filter_data_row] in E. rewrite E. destruct o as [[x y]|].
    - split; [reflexivity|exact F].
    - destruct F as [(x & y & a & b & q & H & _)|(_ & _ & F)]; [discriminate|]. destruct (NZ r R F). }
  rewrite (all_of_some _ k).
  - eexists. split; [reflexivity|]. unfold results. cbn [fvals fphases recs set_results]. rewrite !map_map, !map_length. split; [reflexivity|]. split; [reflexivity|]. intros i I.
    assert (E : forall h : list Qc -> option Qc, nth i (map h (recs c)) None = h (nth i (recs c) [])).
    { intros h. rewrite (nth_indep _ None (h [])) by now rewrite map_length. now rewrite map_nth. }
    rewrite !E. apply K, nth_In, I.
  - intros r R. destruct (K r R) as [E _]. now rewrite E.
Qed.

(** * filter_data *)
Lemma untouched_all c : untouched c -> forallb (fun x => match x with Some q => zero q | None => false end) (fvals c) = true.
Proof. unfold untouched. rewrite Forall_forall. intros H. apply forallb_forall. intros x X. rewrite (H x X). now apply zero_ok. Qed.
Lemma touched_kept c proxy tr cython : ~ untouched c -> filter_data proxy tr false cython c = (c, true).
Proof.
  intros U. unfold filter_data. replace (forallb _ (fvals c)) with false; [reflexivity|]. symmetry. apply not_true_iff_false. intros H. apply U. unfold untouched. rewrite Forall_forall. intros x X.
  rewrite forallb_forall in H. specialize (H x X). destruct x as [q|]; [|discriminate]. apply zero_ok in H. now subst.
Qed.
Lemma starts c force : force = true \/ untouched c -> negb (force || forallb (fun x => match x with Some q => zero q | None => false end) (fvals c)) = false.
Proof. intros [-> | U]; [reflexivity|]. rewrite (untouched_all c U). now rewrite orb_true_r. Qed.

Lemma filter_ats_ok proxy c f d force (shifting : bool) : sound c -> type_now c = ats -> flt_now c = Some f -> f_dt f = Some d -> length d = length (f_values f) ->
  (if shifting then length (f_values f) + 1 = nsamp c else length (f_values f) = nsamp c)%nat -> force = true \/ untouched c ->
  exists c', filter_data proxy None force None c = (c', true) /\ same_but_results c c' /\
  results c' (fun i t u => estimates (f_values f) d (offset shifting (nth i (shifts c) false)) (nth i (recs c) []) t u).
Proof.
  intros S T F D LD LV ST. unfold filter_data. rewrite (starts c force ST), T, F. cbn [String.eqb ats lag5 Ascii.eqb Bool.eqb]. unfold filter_nocython. rewrite T, F, String.eqb_refl, D.
  destruct shifting.
  - rewrite (proj2 (Nat.eqb_eq _ _) LV). now apply ats_segments.
  - replace (Nat.eqb _ (nsamp c)) with false by (symmetry; apply Nat.eqb_neq; lia). rewrite (proj2 (Nat.eqb_eq _ _) LV). now apply ats_segments.
Qed.
Lemma filter_ats_transform proxy c g force cython : sound c -> type_now c = ats -> (1 < nsegs c)%nat -> (forall f, flt_now c = Some f -> length (f_values f) <> nsamp c) -> force = true \/ untouched c ->
  filter_data proxy (Some g) force cython c = (c, false).
Proof.
  intros S T N LV ST. pose proof S as (WF & LM & LS & _ & _ & PS & COV & FST). unfold filter_data. rewrite (starts c force ST), T.
  destruct (flt_now c) as [f|] eqn:F.
  - specialize (LV f eq_refl). destruct (match cython with Some b => b | None => _ end); [now rewrite String.eqb_refl|].
    unfold filter_nocython. rewrite T, F, String.eqb_refl. rewrite (proj2 (Nat.eqb_neq _ _) LV). destruct (Nat.eqb _ (nsamp c)); [|reflexivity]. destruct (f_dt f) as [d|]; [|reflexivity].
    pose proof (FST 1%nat N) as B. unfold all_segments. destruct (nsegs c) as [|k]; [lia|]. cbn [seq fold_left].
    assert (G : forall h l, fold_left (write_segment h) l (c, false) = (c, false)) by (intros h; induction l; [reflexivity|assumption]).
    unfold write_segment at 2. cbn [Nat.mul Nat.add]. unfold seg_ats. replace (Nat.eqb (Nat.min (length (recs c)) (per_seg c) - 0) (length (recs c))) with false by (symmetry; apply Nat.eqb_neq; lia).
    rewrite andb_false_r. cbn [negb andb]. destruct (negb (Nat.eqb (length d) _)); apply G.
  - destruct (option_map s_values (on_disk c)) as [v|]; [|reflexivity]. destruct (match cython with Some b => b | None => _ end); [now rewrite String.eqb_refl|].
    unfold filter_nocython. rewrite T, F, String.eqb_refl. destruct (Nat.eqb _ _); [reflexivity|]. destruct (Nat.eqb _ _); reflexivity.
Qed.
Lemma filter_5lag_python proxy c v (g : option (list Qc -> list Qc)) force : sound c -> type_now c = lag5 -> (8 <= nsamp c)%nat -> (length v + 4 = nsamp c)%nat ->
  (flt_now c = None /\ option_map s_values (on_disk c) = Some v \/ option_map f_values (flt_now c) = Some v) -> (forall f l, g = Some f -> length (f l) = length l) -> force = true \/ untouched c ->
  exists c', filter_data proxy g force (Some false) c = (c', true) /\ same_but_results c c' /\
  results c' (fun i t u => five_lag_result v (moved g (nth i (ptm c) 0) (nth i (recs c) [])) t u).
Proof.
  intros S T N LV FV G ST. unfold filter_data. rewrite (starts c force ST).
  replace (match flt_now c with Some f => Some (f_values f) | None => _ end) with (Some v).
  - unfold filter_nocython. rewrite T. cbn [String.eqb ats lag5 Ascii.eqb Bool.eqb]. now apply lag_segments.
  - destruct FV as [[E H]|H]; [now rewrite E|]. destruct (flt_now c); [|discriminate]. cbn in H. congruence.
Qed.
Lemma filter_5lag_default proxy c v g force : sound c -> type_now c = lag5 -> (8 <= nsamp c)%nat -> (length v + 4 = nsamp c)%nat ->
  (flt_now c = None /\ option_map s_values (on_disk c) = Some v \/ option_map f_values (flt_now c) = Some v) -> force = true \/ untouched c ->
  (forall r, In r (recs c) -> ~ exists a b, best_parabola (lagged v r) a b 0) ->
  exists c', filter_data proxy g force None c = (c', true) /\ same_but_results c c' /\
  results c' (fun i t u => five_lag_result v (nth i (recs c) []) t u).
Proof.
  intros S T N LV FV ST NZ. unfold filter_data. rewrite (starts c force ST). rewrite T, String.eqb_refl. cbn [String.eqb ats lag5 Ascii.eqb Bool.eqb].
  replace (match flt_now c with Some f => Some (f_values f) | None => _ end) with (Some v).
  - destruct (lag_cython v c S N LV NZ) as (l & E & R). rewrite E. eexists. split; [reflexivity|]. split; [apply same_set|exact R].
  - destruct FV as [[E H]|H]; [now rewrite E|]. destruct (flt_now c); [|discriminate]. cbn in H. congruence.
Qed.
(** What always fails, leaving the channel alone. *)
Lemma filter_wrong proxy tr force cython c : force = true \/ untouched c ->
  (flt_now c = None /\ on_disk c = None) \/ (type_now c = ats /\ cython = Some true) \/
  (type_now c <> ats /\ type_now c <> lag5 /\ cython <> Some true) \/ (type_now c = ats /\ flt_now c = None) ->
  filter_data proxy tr force cython c = (c, false).
Proof.
  intros ST H. unfold filter_data. rewrite (starts c force ST). destruct H as [[F O]|[[T C]|[(T & T5 & C)|[T F]]]].
  - now rewrite F, O.
  - subst cython. rewrite T, String.eqb_refl. destruct (match flt_now c with Some f => Some (f_values f) | None => _ end); reflexivity.
  - destruct (match flt_now c with Some f => Some (f_values f) | None => _ end) as [v|]; [|reflexivity].
    rewrite (proj2 (String.eqb_neq _ _) T5). replace (match cython with Some b => b | None => false end) with false by (destruct cython as [[|]|]; congruence).
    unfold filter_nocython. now rewrite (proj2 (String.eqb_neq _ _) T), (proj2 (String.eqb_neq _ _) T5).
  - rewrite F, T. destruct (option_map s_values (on_disk c)); [|reflexivity]. rewrite String.eqb_refl. destruct (match cython with Some b => b | None => _ end); [reflexivity|].
    unfold filter_nocython. rewrite T, F, String.eqb_refl. destruct (Nat.eqb _ _); [reflexivity|]. destruct (Nat.eqb _ _); reflexivity.
Qed.
