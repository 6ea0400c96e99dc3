(** C93-C95: line fits and quality checks, calibration plans, and alignment of OFF channels. *)
From Coq Require Import ZArith QArith Qcanon Qround Bool Lia String List.
From Verif Require Import QcPre LagModel DerModel ToepModel LocModel LocSpec LocProofs OcModel OcSpec OcProofs.
Import ListNotations.
Local Open Scope Qc_scope.
Local Notation length := List.length.

(** * C93 *)
(** An attribute that counts as an energy. *)
Definition an_energy (attr : string) : bool := prefix "energy" attr || prefix "p_energy" attr.

(** C93. A fit uses the line, attribute, states, calibration and bin edges given to it, and the cut given or else the
    default one. *)
Theorem fit_request : forall (St Cal : Type) d l attr (st : St) dlo dhi bs edges cut (cal : option Cal) r,
  linefit d l attr st dlo dhi bs edges cut cal = Ret r ->
  r_line r = l /\ r_attr r = attr /\ r_states r = st /\ r_cal r = cal /\
  r_cut r = match cut with Some c => c | None => d_cut d end /\ (forall e, edges = Some e -> r_edges r = e).
Proof.
  intros St Cal d l attr st dlo dhi bs edges cut cal r. unfold linefit.
  destruct (match edges with Some e => Ret e | None => _ end) as [e|x] eqn:E; cbn [bind]; [|discriminate].
  destruct (negb _); [discriminate|]. destruct (Nat.ltb _ 3); [discriminate|]. intros H. injection H as <-. simpl.
  repeat split; auto. intros e' ->. now injection E.
Qed.
Print Assumptions fit_request.

(** C93. Without bin edges, they go in steps of the bin size given, or else of the default one, from dlo below the
    energy of the line to dhi above it. *)
Theorem fit_edges : forall (St Cal : Type) d l attr (st : St) dlo dhi bs cut (cal : option Cal) r w,
  w = match bs with Some b => b | None => d_bin d end -> 0 < w ->
  linefit d l attr st dlo dhi bs None cut cal = Ret r -> stepped (line_energy l - dlo) (line_energy l + dhi) w (r_edges r).
Proof.
  intros St Cal d l attr st dlo dhi bs cut cal r w -> W. unfold linefit.
  change (or_default (d_bin d) bs) with (match bs with Some b => b | None => d_bin d end).
  destruct (arange_stepped (line_energy l - dlo) (line_energy l + dhi) _ W) as (e & A & P). rewrite A.
  destruct (starts _ _ || _ || _)%bool; cbn [bind negb]; [|discriminate].
  destruct (Nat.ltb _ 3); [discriminate|]. intros H. injection H as <-. exact P.
Qed.
Print Assumptions fit_edges.

(** C93. An energy, or an attribute with a calibration, is fitted whenever two bins fit in the range. *)
Theorem fit_returns : forall (St Cal : Type) d l attr (st : St) dlo dhi bs cut (cal : option Cal) w,
  w = match bs with Some b => b | None => d_bin d end -> 0 < w -> w + w < dlo + dhi -> (an_energy attr = true \/ cal <> None) ->
  exists r, linefit d l attr st dlo dhi bs None cut cal = Ret r.
Proof.
  intros St Cal d l attr st dlo dhi bs cut cal w -> W L E. unfold linefit.
  change (or_default (d_bin d) bs) with (match bs with Some b => b | None => d_bin d end).
  destruct (arange_stepped (line_energy l - dlo) (line_energy l + dhi) _ W) as (e & A & P). rewrite A.
  assert (B : (starts "energy" attr || starts "p_energy" attr || match cal with Some _ => true | None => false end = true)%bool).
  { destruct E as [E|E]; [unfold an_energy in E; unfold starts; rewrite E; reflexivity|]. destruct cal; [apply orb_true_r|congruence]. }
  rewrite B. cbn [bind negb]. assert (N : (2 < length e)%nat).
  { apply (stepped_length _ _ _ _ 2 W P). replace (qz (Z.of_nat 2)) with (1 + 1) by (apply Qc_eq; reflexivity).
    set (w := match bs with Some b => b | None => d_bin d end) in *. replace ((1 + 1) * w) with (w + w) by ring. clear - L. qlra. }
  replace (Nat.ltb (length e) 3) with false by (symmetry; apply Nat.ltb_ge; lia). eauto.
Qed.
Print Assumptions fit_returns.

(** C93. The documentation asks for bin edges with any other attribute; but then the fit always raises, with them as
    without them. *)
Theorem fit_other_attribute_raises : forall (St Cal : Type) d l attr (st : St) dlo dhi bs edges cut,
  an_energy attr = false -> exists e, linefit (Cal := Cal) d l attr st dlo dhi bs edges cut None = Exc e.
Proof.
  intros St Cal d l attr st dlo dhi bs edges cut E. unfold linefit. unfold an_energy in E. unfold starts. rewrite E. cbn [orb].
  destruct edges as [e|]; cbn [bind negb]; eauto.
Qed.
Print Assumptions fit_other_attribute_raises.

(** C93. A channel is marked bad exactly when the position is farther than the tolerance from the energy of the line, or
    the resolution is worse than allowed. *)
Theorem quality_marks : forall (St Cal : Type) (fitter : request St Cal -> res fit) d l ts worst ta attr st dlo dhi bs edges cut ms,
  quality_check fitter d l ts worst ta attr st dlo dhi bs edges cut = Ret ms ->
  exists r f, linefit d l attr st dlo dhi bs edges None None = Ret r /\ fitter r = Ret f /\
  (In Position ms <-> exists t, t < magnitude (peak_ph f - line_energy l) /\
     (ta = Some t \/ exists s e, ta = None /\ ts = Some s /\ peak_err f = Some e /\ t = e * s)) /\
  (In Resolution ms <-> exists w, worst = Some w /\ w < fwhm f) /\
  (forall m, In m ms -> m = Position \/ m = Resolution).
Proof.
  intros St Cal fitter d l ts worst ta attr st dlo dhi bs edges cut ms. unfold quality_check.
  destruct (linefit d l attr st dlo dhi bs edges None None) as [r|e]; cbn [bind]; [|discriminate].
  destruct (fitter r) as [f|e] eqn:Ef; cbn [bind]; [|discriminate].
  set (tol := match ta, ts with Some _, Some _ => _ | Some a, None => _ | None, Some s => _ | None, None => _ end).
  destruct tol as [t|e] eqn:Et; cbn [bind]; [|discriminate]. intros H. injection H as <-. exists r, f. split; [reflexivity|]. split; [exact Ef|].
  rewrite qabs_magnitude.
  assert (T : forall x, t = Some x <-> (ta = Some x \/ exists s e, ta = None /\ ts = Some s /\ peak_err f = Some e /\ x = e * s)).
  { intros x. unfold tol in Et. destruct ta as [a|]; destruct ts as [s|]; try discriminate.
    - injection Et as <-. split; [intros H; injection H as <-; now left|]. intros [H|(? & ? & H & _)]; [congruence|discriminate].
    - destruct (peak_err f) as [e|]; [|discriminate]. injection Et as <-. split.
      + intros H. injection H as <-. right. exists s, e. auto.
      + intros [H|(s' & e' & _ & H1 & H2 & ->)]; [discriminate|]. congruence.
    - injection Et as <-. split; [discriminate|]. intros [H|(? & ? & _ & H & _)]; discriminate. }
  repeat split.
  - intros I. apply in_app_or in I as [I|I].
    + destruct t as [x|]; [|destruct I]. destruct (qltb x _) eqn:Q; [|destruct I]. exists x. split; [now apply qltb_lt|]. now apply T.
    + destruct worst as [w|]; [|destruct I]. destruct (qltb w _); [|destruct I]. destruct I as [I|[]]. discriminate.
  - intros (x & L & H). apply in_or_app. left. apply T in H. rewrite H. apply qltb_lt in L. rewrite L. now left.
  - intros I. apply in_app_or in I as [I|I].
    + destruct t as [x|]; [|destruct I]. destruct (qltb x _) eqn:Q; [|destruct I]. destruct I as [I|[]]. discriminate.
    + destruct worst as [w|]; [|destruct I]. exists w. split; [reflexivity|]. destruct (qltb w _) eqn:Q; [|destruct I]. now apply qltb_lt.
  - intros (w & -> & L). apply in_or_app. right. apply qltb_lt in L. rewrite L. now left.
  - intros m I. apply in_app_or in I as [I|I].
    + destruct t as [x|]; [|destruct I]. destruct (qltb x _); [|destruct I]. destruct I as [<-|[]]. now left.
    + destruct worst as [w|]; [|destruct I]. destruct (qltb w _); [|destruct I]. destruct I as [<-|[]]. now right.
Qed.
Print Assumptions quality_marks.

(** C93. It raises when the fit does, when both tolerances are given, and when a tolerance in sigmas meets a fit without
    error bars; never otherwise. *)
Theorem quality_raises : forall (St Cal : Type) (fitter : request St Cal -> res fit) d l ts worst ta attr st dlo dhi bs edges cut r f,
  linefit d l attr st dlo dhi bs edges None None = Ret r -> fitter r = Ret f ->
  ((exists e, quality_check fitter d l ts worst ta attr st dlo dhi bs edges cut = Exc e) <->
   ts <> None /\ (ta <> None \/ peak_err f = None)).
Proof.
  intros St Cal fitter d l ts worst ta attr st dlo dhi bs edges cut r f L F. unfold quality_check. rewrite L. cbn [bind]. rewrite F. cbn [bind].
  destruct ta as [a|]; destruct ts as [s|]; [| |destruct (peak_err f)|]; cbn [bind]; split;
    try (intros (e & H); discriminate); try (intros [A [B|B]]; congruence); try (intros _; split; [congruence|]; auto; left; congruence); intros _; eauto.
Qed.
Print Assumptions quality_raises.

(** C93. The cut named in the call has no effect ... *)
Theorem quality_ignores_cut : forall (St Cal : Type) (fitter : request St Cal -> res fit) d l ts worst ta attr st dlo dhi bs edges cut cut',
  quality_check fitter d l ts worst ta attr st dlo dhi bs edges cut = quality_check fitter d l ts worst ta attr st dlo dhi bs edges cut'.
Proof. reflexivity. Qed.
Print Assumptions quality_ignores_cut.
(** ... so that a channel whose fit with that cut is perfect is marked bad. *)
Theorem quality_named_cut_refuted : exists (fitter : request unit unit -> res fit) d l ta cut r f ms,
  linefit d l "energy" tt (qz 50) (qz 50) None None (Some cut) None = Ret r /\ fitter r = Ret f /\ peak_ph f = line_energy l /\ 0 < ta /\
  quality_check fitter d l None None (Some ta) "energy" tt (qz 50) (qz 50) None None (Some cut) = Ret ms /\ ms = [Position].
Proof.
  set (l := mkLine "MnKAlpha" (qz 5898)). set (d := mkDef "cutNone" 1).
  set (fitter := fun r : request unit unit => Ret (mkFit (if String.eqb (r_cut r) "cutGood" then qz 5898 else qz 5900) None (qz 3))).
  assert (E : forall cut, exists r, linefit (Cal := unit) d l "energy" tt (qz 50) (qz 50) None None cut None = Ret r).
  { intros cut. apply fit_returns with 1; [reflexivity| | |now left]; apply qltb_lt; vm_compute; reflexivity. }
  destruct (E (Some "cutGood"%string)) as (r & R). destruct (E None) as (r' & R').
  exists fitter, d, l, 1, "cutGood"%string, r, (mkFit (qz 5898) None (qz 3)), [Position].
  pose proof (fit_request _ _ _ _ _ _ _ _ _ _ _ _ _ R) as (_ & _ & _ & _ & C & _). pose proof (fit_request _ _ _ _ _ _ _ _ _ _ _ _ _ R') as (_ & _ & _ & _ & C' & _).
  split; [exact R|]. split; [unfold fitter; rewrite C; reflexivity|]. split; [reflexivity|]. split; [apply qltb_lt; vm_compute; reflexivity|]. split; [|reflexivity].
  unfold quality_check. rewrite R'. cbn [bind]. unfold fitter at 1. rewrite C'. cbn [bind]. vm_compute. reflexivity.
Qed.
Print Assumptions quality_named_cut_refuted.

(** C93. The drop-one check with both thresholds marks exactly what is over them. *)
Theorem drop_one_marks : forall errors a s w m, largest (map magnitude errors) w -> quantile 1 2 (map magnitude errors) m ->
  exists ms, quality_drop_one errors (Some a) (Some s) = Ret ms /\
  (In DropSigma ms <-> qd 14826 10000 * m * s < w) /\ (In DropAbsolute ms <-> a < w).
Proof.
  intros errors a s w m W M. unfold quality_drop_one.
  assert (Q : map qabs errors = map magnitude errors) by (apply map_ext; exact qabs_magnitude). rewrite Q.
  apply qmax_iff in W as W'. rewrite W'. assert (M' : median (map magnitude errors) = Some m).
  { apply median_quantile. split; [|exact M]. destruct W as [I _]. intros E. rewrite E in I. destruct I. }
  rewrite M'. eexists. split; [reflexivity|].
  destruct (qltb (qd 14826 10000 * m * s) w) eqn:A; destruct (qltb a w) eqn:B;
    [apply qltb_lt in A; apply qltb_lt in B|apply qltb_lt in A; apply qltb_ge in B|apply qltb_ge in A; apply qltb_lt in B|apply qltb_ge in A; apply qltb_ge in B];
    split; split; simpl; intros H; auto; try tauto;
    repeat match goal with H : _ \/ _ |- _ => destruct H as [H|H] end; try discriminate; try tauto;
    exfalso; match goal with L : ?x <= ?y, K : ?y < ?x |- _ => apply Qcle_not_lt in L; contradiction end.
Qed.
Print Assumptions drop_one_marks.
(** C93. With the first threshold alone the check raises; with the second alone it checks nothing, whatever the errors. *)
Theorem drop_one_single_threshold : forall errors a s, errors <> [] ->
  quality_drop_one errors (Some a) None = Exc TypeErr /\ quality_drop_one errors None (Some s) = Ret [] /\ quality_drop_one errors None None = Ret [].
Proof.
  intros errors a s N. unfold quality_drop_one. destruct (qmax_some (map qabs errors)) as (w & W); [destruct errors; [congruence|discriminate]|]. rewrite W.
  destruct (median (map qabs errors)) as [m|] eqn:M; [auto|]. apply median_none in M. destruct errors; [congruence|discriminate].
Qed.
Print Assumptions drop_one_single_threshold.

Example drop_one_instance :
  quality_drop_one [qz 1; qz (-1); qz 9] (Some (qz 10)) (Some (qz 5)) = Ret [DropSigma] /\
  quality_drop_one [qz 1; qz (-1); qz 9] (Some (qz 8)) (Some (qz 9)) = Ret [DropAbsolute] /\
  largest (map magnitude [qz 1; qz (-1); qz 9]) (qz 9) /\ quantile 1 2 (map magnitude [qz 1; qz (-1); qz 9]) (qz 1).
Proof.
  split; [vm_compute; reflexivity|]. split; [vm_compute; reflexivity|]. split; [apply qmax_iff; vm_compute; reflexivity|].
  apply (proj1 (median_quantile _ _)). vm_compute. reflexivity.
Qed.
Example fit_instance : exists r : request unit unit, linefit (mkDef "cutNone" (qz 2)) (mkLine "FeKAlpha" (qz 6404)) "energyDC" tt (qz 3) (qz 4) None None None None = Ret r /\
  r_edges r = map qz [6401; 6403; 6405; 6407]%Z /\ r_cut r = "cutNone"%string.
Proof. eexists. split; [vm_compute; reflexivity|]. split; vm_compute; reflexivity. Qed.

(** * C94 *)
(** C94. The line of a point: a spectrum of that name, else a line at the energy given, else the feature of that name,
    else an exception. *)
Theorem line_chosen : forall spectra features name energy,
  (forall l, spectra name = Some l -> choose_line spectra features name energy = Ret l) /\
  (spectra name = None -> forall e, energy = Some e -> choose_line spectra features name energy = Ret (mkLine name e)) /\
  (spectra name = None -> energy = None -> forall e, features name = Some e -> choose_line spectra features name energy = Ret (mkLine name e)) /\
  (spectra name = None -> energy = None -> features name = None -> choose_line spectra features name energy = Exc Refused).
Proof.
  intros spectra features name energy. unfold choose_line. repeat split.
  - intros l ->. reflexivity.
  - intros -> e ->. reflexivity.
  - intros -> -> e ->. reflexivity.
  - intros -> -> ->. reflexivity.
Qed.
Print Assumptions line_chosen.
(** C94. So an energy given together with the name of a spectrum is ignored. *)
Theorem energy_given_refuted : exists spectra features name e l, choose_line spectra features name (Some e) = Ret l /\ line_energy l <> e.
Proof.
  exists (fun _ => Some (mkLine "MnKAlpha" (qz 5898))), (fun _ => None), "MnKAlpha"%string, (qz 5900), (mkLine "MnKAlpha" (qz 5898)).
  split; [reflexivity|]. simpl. intros H. apply (f_equal this) in H. vm_compute in H. discriminate.
Qed.
Print Assumptions energy_given_refuted.

(** Adding points one after the other. *)
Fixpoint add_points {St} (spectra : string -> option line) (features : string -> option Qc) (p : own_plan St) (pts : list point)
    (l : list (Qc * string * St * option Qc)) : res (own_plan St * list point) :=
  match l with
  | [] => Ret (p, pts)
  | (v, name, s, e) :: t => let! (p', pts') <- plan_add_point spectra features p v name s e; add_points spectra features p' pts' t
  end.
Lemma rough_app {St} (p : plan St) v s l : length (vals p) = length (lines p) ->
  rough (add_cal_point p v s l) = rough p ++ [mkPoint v (line_energy l) (line_name l) None].
Proof.
  intros E. unfold rough, add_cal_point. simpl. revert E. generalize (lines p). induction (vals p) as [|x t IH]; intros [|y u] E; simpl in E; try discriminate; [reflexivity|].
  simpl. f_equal. apply IH. lia.
Qed.
Lemma add_points_from {St} spectra features attr : forall (l : list (Qc * string * St * option Qc)) p pts r,
  length (vals p) = length (lines p) -> pts = rough p -> add_points spectra features (Some (attr, p)) pts l = Ret r ->
  exists ls, Forall2 (fun x y => choose_line spectra features (snd (fst (fst x))) (snd x) = Ret y) l ls /\
  r = (Some (attr, mkPlan (vals p ++ map (fun x => fst (fst (fst x))) l) (states p ++ map (fun x => snd (fst x)) l) (lines p ++ ls)),
       pts ++ map (fun q => mkPoint (fst (fst (fst (fst q)))) (line_energy (snd q)) (line_name (snd q)) None) (combine l ls)).
Proof.
  induction l as [|[[[v name] s] e] t IH]; intros p pts r E P; cbn [add_points].
  - intros H. injection H as <-. exists []. split; [constructor|]. simpl. rewrite !app_nil_r. destruct p. reflexivity.
  - unfold plan_add_point. destruct (choose_line spectra features name e) as [ln|x] eqn:C; cbn [bind]; [|discriminate]. intros H.
    apply IH in H; [|unfold add_cal_point; simpl; rewrite !app_length; simpl; lia|reflexivity].
    destruct H as (ls & F & ->). exists (ln :: ls). split; [constructor; [exact C|exact F]|]. rewrite (rough_app p v s ln E). subst pts.
    unfold add_cal_point. simpl. rewrite <- !app_assoc. reflexivity.
Qed.
(** C94. After calibrationPlanInit and any number of points, the plan holds the values, states and lines in the order
    given, and the recipe energyRough is made of exactly these values with the energies and names of the lines. *)
Theorem plan_holds : forall (St : Type) spectra features attr (l : list (Qc * string * St * option Qc)) own pts,
  add_points spectra features (plan_init attr) [] l = Ret (own, pts) ->
  exists ls, Forall2 (fun x y => choose_line spectra features (snd (fst (fst x))) (snd x) = Ret y) l ls /\
  own = Some (attr, mkPlan (map (fun x => fst (fst (fst x))) l) (map (fun x => snd (fst x)) l) ls) /\
  pts = map (fun q => mkPoint (fst (fst (fst (fst q)))) (line_energy (snd q)) (line_name (snd q)) None) (combine l ls).
Proof.
  intros St spectra features attr l own pts H. apply (add_points_from spectra features attr) in H; [|reflexivity|reflexivity].
  destruct H as (ls & F & E). exists ls. split; [exact F|]. injection E as -> ->. auto.
Qed.
Print Assumptions plan_holds.
(** C94. A point without calibrationPlanInit is an AttributeError, unless there is no such line anyway. *)
Theorem plan_missing : forall (St : Type) spectra features v name (s : St) energy, exists e, plan_add_point spectra features None v name s energy = Exc e.
Proof. intros. unfold plan_add_point. destruct (choose_line _ _ _ _); cbn [bind]; eauto. Qed.
Print Assumptions plan_missing.

(** The points learned from fits: one for each successful fit with error bars, at the pulse height of the fitted position
    in the calibration used for the fit, with the error divided by its slope. *)
Inductive learned {C St : Type} (e2p slope : C -> Qc -> Qc) (cal : C) : list (line * St) -> list line_result -> list point -> Prop :=
| learned_nil : learned e2p slope cal [] [] []
| learned_good l s r todo rs ps : success r = true -> errorbars r = true -> slope cal (pos r) <> 0 -> learned e2p slope cal todo rs ps ->
    learned e2p slope cal ((l, s) :: todo) (r :: rs) (mkPoint (e2p cal (pos r)) (line_energy l) (line_name l) (Some (err r / slope cal (pos r))) :: ps)
| learned_bad l s r todo rs ps : success r = false \/ errorbars r = false -> learned e2p slope cal todo rs ps ->
    learned e2p slope cal ((l, s) :: todo) (r :: rs) ps.
Lemma round_spec {St C} (fitter : C -> line -> St -> res line_result) e2p slope cal : forall todo rs ms ps,
  plan_round fitter e2p slope cal todo = Ret (rs, ms, ps) ->
  Forall2 (fun ls r => fitter cal (fst ls) (snd ls) = Ret r) todo rs /\ learned e2p slope cal todo rs ps /\ (length ms + length ps = length todo)%nat.
Proof.
  induction todo as [|[l s] t IH]; intros rs ms ps; cbn [plan_round].
  - intros H. injection H as <- <- <-. repeat constructor.
  - destruct (fitter cal l s) as [r|e] eqn:F; cbn [bind]; [|discriminate].
    destruct (success r) eqn:S; cbn [negb]; [destruct (errorbars r) eqn:B; cbn [negb]|].
    + unfold qdiv. destruct (Qc_eq_dec (slope cal (pos r)) 0) as [Z|Z]; [discriminate|]. cbn [bind].
      destruct (plan_round fitter e2p slope cal t) as [[[rs' ms'] ps']|e]; cbn [bind]; [|discriminate].
      intros H. injection H as <- <- <-. destruct (IH rs' ms' ps' eq_refl) as (A & D & L). repeat split; [constructor; assumption|now constructor|]. simpl. lia.
    + cbn [bind]. destruct (plan_round fitter e2p slope cal t) as [[[rs' ms'] ps']|e]; cbn [bind]; [|discriminate].
      intros H. injection H as <- <- <-. destruct (IH rs' ms' ps' eq_refl) as (A & D & L). repeat split; [constructor; assumption|constructor; auto|]. simpl. lia.
    + cbn [bind]. destruct (plan_round fitter e2p slope cal t) as [[[rs' ms'] ps']|e]; cbn [bind]; [|discriminate].
      intros H. injection H as <- <- <-. destruct (IH rs' ms' ps' eq_refl) as (A & D & L). repeat split; [constructor; assumption|constructor; auto|]. simpl. lia.
Qed.
Definition used {C} (curve : list point -> C) (start : C) (pss : list (list point)) (i : nat) : C :=
  match i with O => start | S j => curve (nth j pss []) end.
Lemma rounds_spec {St C} (fitter : C -> line -> St -> res line_result) e2p slope curve todo : forall n start rs ms pss,
  plan_rounds fitter e2p slope curve start todo n = Ret (rs, ms, pss) ->
  length pss = n /\ (0 < n)%nat /\ (length ms + length (concat pss) = n * length todo)%nat /\
  forall i, (i < n)%nat -> exists rsi, Forall2 (fun ls r => fitter (used curve start pss i) (fst ls) (snd ls) = Ret r) todo rsi /\
    learned e2p slope (used curve start pss i) todo rsi (nth i pss []) /\ ((S i = n)%nat -> rsi = rs).
Proof.
  induction n as [|n IH]; intros start rs ms pss; cbn [plan_rounds]; [discriminate|].
  destruct (plan_round fitter e2p slope start todo) as [[[rs0 ms0] ps0]|e] eqn:R; cbn [bind]; [|discriminate].
  apply round_spec in R as (A & D & L). destruct n as [|n].
  - intros H. injection H as <- <- <-. simpl. rewrite app_nil_r. repeat split; try lia. intros i Hi. assert (i = O) by lia. subst i. exists rs0. auto.
  - destruct (plan_rounds fitter e2p slope curve (curve ps0) todo (S n)) as [[[rs1 ms1] more]|e] eqn:P; [|discriminate]. cbn [bind].
    intros H. injection H as <- <- <-. apply IH in P as (P1 & P2 & P3 & P4). split; [simpl; lia|]. split; [lia|]. split.
    + cbn [concat]. rewrite !app_length. cbn [Nat.mul] in *. lia.
    + intros [|i] Hi.
      * exists rs0. split; [exact A|]. split; [exact D|]. lia.
      * destruct (P4 i ltac:(lia)) as (rsi & Q1 & Q2 & Q3). exists rsi.
        replace (used curve start (ps0 :: more) (S i)) with (used curve (curve ps0) more i) by (destruct i; reflexivity).
        split; [exact Q1|]. split; [exact Q2|]. intros H. apply Q3. lia.
Qed.
(** C94. calibrateFollowingPlan(n_iter = n): every line of the plan is fitted in every round, with the rough calibration in
    the first round and then with the calibration of the round before; each round learns a point from every good fit; the
    results returned are those of the last round; every fit that gave no point marked the channel bad. *)
Theorem plan_followed : forall (St C : Type) (fitter : C -> line -> St -> res line_result) e2p slope curve p n known overwrite rs ms pss,
  follow_plan fitter e2p slope curve p n known overwrite = Ret (rs, ms, pss) ->
  let todo := combine (lines p) (states p) in
  let cal i := match i with O => curve (rough p) | S j => curve (nth j pss []) end in
  length pss = n /\ (length ms + length (concat pss) = n * length todo)%nat /\ (known = false \/ overwrite = true) /\
  forall i, (i < n)%nat -> exists rsi, Forall2 (fun ls r => fitter (cal i) (fst ls) (snd ls) = Ret r) todo rsi /\
    learned e2p slope (cal i) todo rsi (nth i pss []) /\ ((S i = n)%nat -> rsi = rs).
Proof.
  intros St C fitter e2p slope curve p n known overwrite rs ms pss H todo cal. unfold follow_plan in H. fold todo in H.
  destruct (plan_rounds _ _ _ _ _ todo n) as [[[rs1 ms1] more]|e] eqn:P; cbn [bind] in H; [|discriminate].
  destruct known; destruct overwrite; cbn [andb negb] in H; try discriminate; injection H as <- <- <-; apply rounds_spec in P as (P1 & _ & P3 & P4); repeat split; auto.
Qed.
Print Assumptions plan_followed.
(** C94. No round at all is an UnboundLocalError; an existing recipe that must not be overwritten is an error, but only
    after all the fits. *)
Theorem plan_not_followed : forall (St C : Type) (fitter : C -> line -> St -> res line_result) e2p slope curve p n overwrite,
  follow_plan fitter e2p slope curve p 0 false overwrite = Exc Unbound /\ exists e, follow_plan fitter e2p slope curve p n true false = Exc e.
Proof.
  intros. split; [reflexivity|]. unfold follow_plan. destruct (plan_rounds _ _ _ _ _ _ n) as [r|e]; cbn [bind andb negb]; eauto.
Qed.
Print Assumptions plan_not_followed.
(** C94. When no fit succeeds, the channel is marked bad, but the recipe is added all the same, made of no points. *)
Theorem plan_without_fits : forall (St C : Type) (fitter : C -> line -> St -> res line_result) e2p slope curve p,
  (forall c l s, exists r, fitter c l s = Ret r /\ success r = false) ->
  exists rs ms, follow_plan fitter e2p slope curve p 1 false false = Ret (rs, ms, [[]]) /\ length ms = length (combine (lines p) (states p)).
Proof.
  intros St C fitter e2p slope curve p H. unfold follow_plan. cbn [plan_rounds].
  assert (R : forall todo, exists rs ms, plan_round fitter e2p slope (curve (rough p)) todo = Ret (rs, ms, [])).
  { induction todo as [|[l s] t (rs & ms & IH)]; [exists [], []; reflexivity|]. cbn [plan_round]. destruct (H (curve (rough p)) l s) as (r & F & S).
    rewrite F. cbn [bind]. rewrite S. cbn [negb bind]. rewrite IH. cbn [bind]. eauto. }
  destruct (R (combine (lines p) (states p))) as (rs & ms & E). rewrite E. cbn [bind andb]. exists rs, ms. split; [reflexivity|].
  apply round_spec in E as (_ & _ & L). simpl in L. lia.
Qed.
Print Assumptions plan_without_fits.

Example plan_instance :
  let spectra n := if String.eqb n "MnKAlpha" then Some (mkLine "MnKAlpha" (qz 5898)) else None in
  let features n := if String.eqb n "X" then Some (qz 100) else None in
  add_points spectra features (plan_init "filtValue") [] [(qz 50, "X", 1%nat, None); (qz 3000, "MnKAlpha", 2%nat, Some (qz 1)); (qz 7, "mine", 3%nat, Some (qz 14))]%string
  = Ret (Some ("filtValue"%string, mkPlan [qz 50; qz 3000; qz 7] [1; 2; 3]%nat [mkLine "X" (qz 100); mkLine "MnKAlpha" (qz 5898); mkLine "mine" (qz 14)]),
         [mkPoint (qz 50) (qz 100) "X" None; mkPoint (qz 3000) (qz 5898) "MnKAlpha" None; mkPoint (qz 7) (qz 14) "mine" None]).
Proof. reflexivity. Qed.
Example follow_instance :
  let p := mkPlan [qz 50; qz 3000] [tt; tt] [mkLine "X" (qz 100); mkLine "Y" (qz 6000)] in
  let fitter (c : Qc) (l : line) (s : unit) := Ret (if String.eqb (line_name l) "X" then mkRes true true (qz 102) (qz 4) else mkRes true false (qz 1) (qz 1)) in
  match follow_plan fitter (fun c e => e / c) (fun c e => c) (fun pts => match pts with [] => 1 | q :: _ => p_energy q / p_ph q end) p 2 false false with
  | Ret (rs, ms, pss) => rs = [mkRes true true (qz 102) (qz 4); mkRes true false (qz 1) (qz 1)] /\ ms = [NoErrorBars (mkLine "Y" (qz 6000)); NoErrorBars (mkLine "Y" (qz 6000))] /\
      map (map (fun q => (this (p_ph q), p_name q, option_map this (p_err q)))) pss = [[(51 # 1, "X", Some (2 # 1))]; [(2601 # 50, "X", Some (51 # 25))]]%Q%string
  | _ => False
  end.
Proof. vm_compute. repeat split. Qed.

(** * C95 *)
(** C95. The bin of a peak is the one with lower edge < position <= upper edge. *)
Theorem peak_bin : forall edges x (i : nat), increasing edges -> (S i < length edges)%nat ->
  (peak_ind edges x = Z.of_nat i <-> nth i edges 0 < x /\ x <= nth (S i) edges 0).
Proof. exact peak_ind_spec. Qed.
Print Assumptions peak_bin.
(** C95. So a peak exactly on an edge is not put into the bin that starts there, where the histogram counts it. *)
Theorem peak_bin_of_histogram_refuted : exists edges x (i : nat), increasing edges /\ (S i < length edges)%nat /\
  nth i edges 0 <= x /\ x < nth (S i) edges 0 /\ peak_ind edges x <> Z.of_nat i.
Proof.
  exists [qz 0; qz 1; qz 2], (qz 1), 1%nat. repeat split.
  - intros i j [A B]. simpl in B. destruct i as [|[|[|i]]], j as [|[|[|j]]]; try lia; apply qz_lt; lia.
  - simpl. lia.
  - apply Qcle_refl.
  - vm_compute. discriminate.
Qed.
Print Assumptions peak_bin_of_histogram_refuted.
(** C95. A peak outside the bins is a ValueError. *)
Theorem align_outside : forall edges ratio path peaks x, increasing edges -> (2 <= length edges)%nat ->
  warping (length edges - 1) (length edges - 1) path -> In x peaks -> x <= nth 0 edges 0 \/ nth (length edges - 1) edges 0 < x ->
  align edges ratio path peaks = Exc ValueErr.
Proof.
  intros edges ratio path peaks x I L W H O. unfold align. pose proof (outside_ind edges x I L O) as N.
  destruct edges as [|e0 [|e1 rest]]; [simpl in L; lia|simpl in L; lia|].
  rewrite (same_peaks_outside e0 e1 rest ratio (length (e0 :: e1 :: rest) - 1) path _ (peak_ind (e0 :: e1 :: rest) x)); [reflexivity|simpl; lia|exact W|now apply in_map|exact N].
Qed.
Print Assumptions align_outside.
Lemma peaks_inside edges peaks : increasing edges -> (2 <= length edges)%nat ->
  (forall x, In x peaks -> nth 0 edges 0 < x /\ x <= nth (length edges - 1) edges 0) ->
  exists ia, map (peak_ind edges) peaks = map Z.of_nat ia /\ Forall2 (fun x a => (S a < length edges)%nat /\ nth a edges 0 < x /\ x <= nth (S a) edges 0) peaks ia.
Proof.
  intros I L. induction peaks as [|x t IH]; intros H; [exists []; split; [reflexivity|constructor]|].
  destruct IH as (ia & E & F); [intros y Y; apply H; now right|]. destruct (H x (or_introl eq_refl)) as [A B].
  destruct (inside_ind edges x I L A B) as (a & P & Q & R & S). exists (a :: ia). split; [simpl; congruence|]. constructor; auto.
Qed.
Lemma found_partners n path ia : (0 < n)%nat -> warping n n path -> (forall a, In a ia -> (a < n)%nat) ->
  exists ib, Forall2 (fun a b => partner path (Z.of_nat a) = Some b /\ (b < n)%nat) ia ib.
Proof.
  intros N W H. destruct (partners n path (map Z.of_nat ia) N W) as (ib & F).
  - intros z Z. apply in_map_iff in Z as (a & <- & I). specialize (H a I). lia.
  - exists ib. now apply Forall2_map_l in F.
Qed.
Lemma Forall2_in_r {A B} (P : A -> B -> Prop) l r y : Forall2 P l r -> In y r -> exists x, In x l /\ P x y.
Proof. induction 1 as [|a b l r H F IH]; intros []; [subst; exists a; simpl; auto|]. destruct IH as (x & I & Q); auto. exists x. simpl. auto. Qed.
Lemma Forall2_len {A B} (P : A -> B -> Prop) l r : Forall2 P l r -> length l = length r.
Proof. induction 1; simpl; auto. Qed.
(** C95. Without scaling, and with bins of equal width, each peak in range is put into its bin, its partner is the first bin
    that the warping path pairs with it, and the calibration gets the centres of the two bins. *)
(** The ratio is that of the medians, the reference over the other; one without scaling; no ratio without pulses or with median zero. *)
Theorem ratio_of_medians : forall a b ma mb, LocModel.median a = Some ma -> LocModel.median b = Some mb ->
  median_ratio false a b = Ret 1 /\ (mb = 0 -> median_ratio true a b = Exc BadNumber) /\ (mb <> 0 -> exists r, median_ratio true a b = Ret r /\ r * mb = ma).
Proof.
  intros a b ma mb A B. unfold median_ratio. rewrite A, B. unfold qdiv. split; [reflexivity|]. split.
  - intros ->. destruct (Qc_eq_dec 0 0); [reflexivity|congruence].
  - intros N. destruct (Qc_eq_dec mb 0); [contradiction|]. eexists. split; [reflexivity|]. field. exact N.
Qed.
Print Assumptions ratio_of_medians.
Example ratio_instance : exists r, median_ratio true [qz 6; qz 2; qz 4] [qz 8; qz 2; qz 2] = Ret r /\ this r = 2%Q.
Proof. eexists. split; [reflexivity|]. vm_compute. reflexivity. Qed.
Theorem align_points : forall edges w path peaks, increasing edges -> (2 <= length edges)%nat -> even_steps edges w ->
  warping (length edges - 1) (length edges - 1) path ->
  (forall x, In x peaks -> nth 0 edges 0 < x /\ x <= nth (length edges - 1) edges 0) ->
  exists ia ib, align edges 1 path peaks = Ret (map Z.of_nat ia, map Z.of_nat ib,
      map (fun p => ((nth (snd p) edges 0 + nth (S (snd p)) edges 0) / qz 2, (nth (fst p) edges 0 + nth (S (fst p)) edges 0) / qz 2)) (combine ia ib)) /\
    Forall2 (fun x a => (S a < length edges)%nat /\ nth a edges 0 < x /\ x <= nth (S a) edges 0) peaks ia /\
    Forall2 (fun a b => In (a, b) path /\ (S b < length edges)%nat /\ forall b', In (a, b') path -> (b <= b')%nat) ia ib.
Proof.
  intros edges w path peaks I L E W H. destruct (peaks_inside edges peaks I L H) as (ia & EA & FA).
  destruct (found_partners (length edges - 1) path ia) as (ib & FB); [lia|exact W| |].
  { intros a A. destruct (Forall2_in_r _ _ _ _ FA A) as (x & _ & S & _). lia. }
  exists ia, ib. assert (FB' : Forall2 (fun a b => In (a, b) path /\ (S b < length edges)%nat /\ forall b', In (a, b') path -> (b <= b')%nat) ia ib).
  { revert FB. apply Forall2_impl. intros a b [P B]. destruct (partner_least _ _ _ _ _ W P) as [J M]. repeat split; auto. lia. }
  split; [|split; [exact FA|exact FB']]. unfold align. rewrite EA.
  assert (D : nth 1 edges 0 - nth 0 edges 0 <> 0). { intros Z. specialize (I 0%nat 1%nat ltac:(lia)). assert (C : nth 1 edges 0 = nth 0 edges 0) by qlra. rewrite C in I. now apply Qclt_not_eq in I. }
  rewrite (same_peaks_ok edges 1 path (map Z.of_nat ia) ib L); [|discriminate|exact D|apply Forall2_map_l; exact FB]. cbn [bind].
  replace (map (fun b => toward_zero ((nth b edges 0 / 1 - nth 0 edges 0) / (nth 1 edges 0 - nth 0 edges 0))) ib) with (map Z.of_nat ib).
  2:{ apply map_ext_in. intros b B. destruct (Forall2_in_r _ _ _ _ FB' B) as (a & _ & _ & S & _). rewrite (E b) by lia. pose proof (E 1%nat ltac:(lia)) as E1. rewrite E1 in *.
      replace (qz (Z.of_nat 1)) with 1 in * by (symmetry; apply qz_1).
      replace ((nth 0 edges 0 + qz (Z.of_nat b) * w) / 1 - nth 0 edges 0) with (qz (Z.of_nat b) * w) by (field; discriminate).
      replace (nth 0 edges 0 + 1 * w - nth 0 edges 0) with w in * by ring. replace (qz (Z.of_nat b) * w / w) with (qz (Z.of_nat b)) by (field; exact D).
      rewrite toward_zero_qz; lia. }
  rewrite cal_ok; [reflexivity|now apply Forall2_len in FB'| |].
  - apply Forall_forall. intros a A. destruct (Forall2_in_r _ _ _ _ FA A) as (x & _ & S & _). exact S.
  - apply Forall_forall. intros b B. destruct (Forall2_in_r _ _ _ _ FB' B) as (a & _ & _ & S & _). exact S.
Qed.
Print Assumptions align_points.
Lemma diagonal_warp : forall n k, warp (k, k) (map (fun i => (i, i)) (seq k (S n))) ((k + n)%nat, (k + n)%nat).
Proof.
  induction n as [|n IH]; intros k.
  - rewrite Nat.add_0_r. apply warp_one.
  - cbn [seq map]. replace (k + S n)%nat with (S k + n)%nat by lia. apply warp_more with (q := (S k, S k)); [right; right; reflexivity|]. apply IH.
Qed.
(** C95. When the path pairs each bin with itself, every peak is its own partner. *)
Theorem align_same : forall edges w peaks, increasing edges -> (2 <= length edges)%nat -> even_steps edges w ->
  (forall x, In x peaks -> nth 0 edges 0 < x /\ x <= nth (length edges - 1) edges 0) ->
  exists ia pts, align edges 1 (map (fun i => (i, i)) (seq 0 (length edges - 1))) peaks = Ret (ia, ia, pts) /\ Forall (fun p => fst p = snd p) pts.
Proof.
  intros edges w peaks I L E H. destruct (align_points edges w (map (fun i => (i, i)) (seq 0 (length edges - 1))) peaks I L E) as (ia & ib & A & _ & F); [|exact H|].
  - unfold warping. replace (length edges - 1)%nat with (S (length edges - 2)) at 1 by lia. replace (length edges - 1 - 1)%nat with (0 + (length edges - 2))%nat by lia. apply diagonal_warp.
  - assert (ib = ia) as ->. { clear A. induction F as [|a b l r [P _] F IH]; [reflexivity|]. f_equal; [|exact IH]. apply in_map_iff in P as (i & Q & _). congruence. }
    rewrite A. eexists _, _. split; [reflexivity|]. apply Forall_forall. intros p P. apply in_map_iff in P as ([a b] & <- & Q).
    clear -Q. assert (a = b) as -> by (induction ia; simpl in Q; [destruct Q|destruct Q as [Q|Q]; [congruence|auto]]). reflexivity.
Qed.
Print Assumptions align_same.
Lemma filter_le (e : list Qc) x y : x <= y -> (length (filter (fun z => qltb z x) e) <= length (filter (fun z => qltb z y) e))%nat.
Proof.
  intros H. induction e as [|z e IH]; simpl; [lia|]. destruct (qltb z x) eqn:A; destruct (qltb z y) eqn:B; simpl; try lia.
  apply qltb_lt in A. apply qltb_ge in B. exfalso. apply (Qclt_not_le z x A). eapply Qcle_trans; eassumption.
Qed.
Lemma Forall2_nth2 {A B} (P : A -> B -> Prop) l r d d' i : Forall2 P l r -> (i < length l)%nat -> P (nth i l d) (nth i r d').
Proof. intros F. revert i. induction F as [|a b l r H F IH]; intros [|i] L; simpl in *; try lia; auto. apply IH. lia. Qed.
(** C95. With any positive scale the order of the peaks is kept. *)
Theorem align_ordered : forall edges ratio path peaks ia ib pts, increasing edges -> (2 <= length edges)%nat -> 0 < ratio ->
  warping (length edges - 1) (length edges - 1) path -> align edges ratio path peaks = Ret (ia, ib, pts) ->
  length ib = length peaks /\ forall i j, (i < length peaks)%nat -> (j < length peaks)%nat -> nth i peaks 0 <= nth j peaks 0 -> (nth i ib 0 <= nth j ib 0)%Z.
Proof.
  intros edges ratio path peaks ia ib pts I L R W H.
  assert (IN : forall x, In x peaks -> nth 0 edges 0 < x /\ x <= nth (length edges - 1) edges 0).
  { intros x X. destruct (Qclt_le_dec (nth 0 edges 0) x) as [A|A]; [destruct (Qclt_le_dec (nth (length edges - 1) edges 0) x) as [B|B]; [|auto]|];
    rewrite (align_outside edges ratio path peaks x) in H; auto; discriminate. }
  destruct (peaks_inside edges peaks I L IN) as (na & EA & FA).
  destruct (found_partners (length edges - 1) path na) as (nb & FB); [lia|exact W| |].
  { intros a A. destruct (Forall2_in_r _ _ _ _ FA A) as (x & _ & S & _). lia. }
  assert (D : 0 < nth 1 edges 0 - nth 0 edges 0). { specialize (I 0%nat 1%nat ltac:(lia)). qlra. }
  unfold align in H. rewrite EA in H. rewrite (same_peaks_ok edges ratio path (map Z.of_nat na) nb L) in H; [|intros ->; discriminate R|intros Z; rewrite Z in D; discriminate D|apply Forall2_map_l; exact FB].
  cbn [bind] in H. destruct (cal_b_to_a _ _ _); cbn [bind] in H; [|discriminate]. injection H as _ <- _.
  pose proof (Forall2_len _ _ _ FA) as LA. pose proof (Forall2_len _ _ _ FB) as LB. rewrite map_length. split; [congruence|].
  intros i j Hi Hj HX. 
  set (f := fun b => toward_zero ((nth b edges 0 / ratio - nth 0 edges 0) / (nth 1 edges 0 - nth 0 edges 0))).
  rewrite (nth_indep _ 0%Z (f O)) by (rewrite map_length; congruence). rewrite (nth_indep (map f nb) 0%Z (f O) (n := j)) by (rewrite map_length; congruence).
  rewrite !map_nth. unfold f. apply toward_zero_le.
  assert (A : (nth i na 0 <= nth j na 0)%nat).
  { assert (E : forall k, (k < length peaks)%nat -> peak_ind edges (nth k peaks 0) = Z.of_nat (nth k na O)).
    { intros k K. rewrite <- (map_nth Z.of_nat), <- EA. rewrite (nth_indep _ _ (peak_ind edges 0)) by (rewrite map_length; exact K). now rewrite map_nth. }
    pose proof (filter_le edges _ _ HX) as Q. pose proof (E i Hi) as Ei. pose proof (E j Hj) as Ej. unfold peak_ind in *. lia. }
  pose proof (Forall2_nth2 _ _ _ O O i FB ltac:(congruence)) as [Pi Bi]. pose proof (Forall2_nth2 _ _ _ O O j FB ltac:(congruence)) as [Pj Bj].
  pose proof (warp_monotone _ _ _ _ _ _ _ W Pi Pj A) as M.
  assert (X : nth (nth i nb O) edges 0 <= nth (nth j nb O) edges 0).
  { destruct (Nat.eq_dec (nth i nb O) (nth j nb O)) as [->|N]; [apply Qcle_refl|]. apply Qclt_le_weak, I. lia. }
  assert (V : forall p q c, 0 < c -> p <= q -> p / c <= q / c).
  { intros p q c C Q. unfold Qcdiv. apply Qcmult_le_compat_r; [exact Q|]. apply Qclt_le_weak. destruct (Qclt_le_dec 0 (/ c)) as [G|G]; [exact G|]. exfalso.
    assert (c * / c <= c * 0). { rewrite !(Qcmult_comm c). apply Qcmult_le_compat_r; [exact G|now apply Qclt_le_weak]. }
    rewrite Qcmult_inv_r in H by (intros ->; discriminate C). replace (c * 0) with 0 in H by ring. now apply H. }
  apply V; [exact D|]. pose proof (V _ _ ratio R X). qlra.
Qed.
Print Assumptions align_ordered.
(** C95. With scaling a peak can be moved below the first bin; its index is then negative and counts from the end. *)
Theorem align_below_refuted : exists edges ratio path peaks ia ib pts, increasing edges /\ 0 < ratio /\
  warping (length edges - 1) (length edges - 1) path /\ align edges ratio path peaks = Ret (ia, ib, pts) /\
  Exists (fun b => (b < 0)%Z) ib /\ Exists (fun p => snd p < fst p - 1) pts.
Proof.
  exists [qz 10; qz 11; qz 12; qz 13], (qd 10 9), [(0, 0); (1, 1); (2, 2)]%nat, [qd 21 2].
  eexists [0%Z], [(-1)%Z], [((qz 13 + qz 12) / qz 2, (qz 11 + qz 10) / qz 2)]. repeat split.
  - intros i j [A B]. simpl in B. destruct i as [|[|[|[|i]]]], j as [|[|[|[|j]]]]; try lia; apply qz_lt; lia.
  - unfold warping. simpl. apply warp_more with (q := (1, 1)%nat); [unfold warp_step; simpl; auto|]. apply warp_more with (q := (2, 2)%nat); [unfold warp_step; simpl; auto|]. apply warp_one.
  - constructor. lia.
  - constructor. simpl. unfold Qclt. vm_compute. reflexivity.
Qed.
Print Assumptions align_below_refuted.

Lemma copy_fold {St} (f : Qc -> Qc) : forall (v : list Qc) (s : list St) (l : list line) acc, length v = length s -> length v = length l ->
  fold_left (fun acc q => add_cal_point acc (f (fst (fst q))) (snd (fst q)) (snd q)) (combine (combine v s) l) acc =
  mkPlan (vals acc ++ map f v) (states acc ++ s) (lines acc ++ l).
Proof.
  induction v as [|x v IH]; intros [|y s] [|z l] acc A B; simpl in *; try discriminate.
  - rewrite !app_nil_r. destruct acc. reflexivity.
  - rewrite IH by lia. simpl. rewrite <- !app_assoc. reflexivity.
Qed.
(** C95. Aligning to another channel with the peaks of its plan: the channel gets a plan with the same attribute, states
    and lines, at the pulse heights that the alignment assigns; its own earlier plan does not matter. *)
Theorem aligned_plan : forall (St : Type) aligned e2p attr (p : plan St) own pts,
  vals p <> [] -> length (vals p) = length (states p) -> length (vals p) = length (lines p) -> aligned (vals p) = Ret pts ->
  align_to_reference aligned e2p false (Some (attr, p)) own None =
  Ret (Some (attr, mkPlan (map (e2p pts) (vals p)) (states p) (lines p)),
       map (fun q => mkPoint (fst q) (line_energy (snd q)) (line_name (snd q)) None) (combine (map (e2p pts) (vals p)) (lines p))).
Proof.
  intros St aligned e2p attr p own pts N A B H. unfold align_to_reference. replace (Nat.eqb (length (vals p)) 0) with false.
  - cbn [bind]. rewrite H. cbn [bind]. rewrite copy_fold by assumption. simpl. reflexivity.
  - symmetry. apply Nat.eqb_neq. destruct (vals p); simpl; congruence.
Qed.
Print Assumptions aligned_plan.
(** C95. Given peak positions, or on the reference channel itself, the plan of the channel stays; without a plan it raises. *)
Theorem aligned_plan_kept : forall (St : Type) aligned e2p is_reference (ref own : own_plan St) peak_locs own' pts,
  peak_locs <> None \/ is_reference = true -> align_to_reference aligned e2p is_reference ref own peak_locs = Ret (own', pts) ->
  own' = own /\ exists attr p, own = Some (attr, p) /\ pts = rough p.
Proof.
  intros St aligned e2p is_reference ref own peak_locs own' pts C. unfold align_to_reference.
  assert (K : forall mine, mine = own -> match mine with None => Exc AttrErr | Some (_, p) => Ret (mine, rough p) end = Ret (own', pts) -> own' = own /\ exists attr p, own = Some (attr, p) /\ pts = rough p).
  { intros mine -> . destruct own as [[attr p]|]; [|discriminate]. intros E. injection E as <- <-. split; eauto. }
  destruct peak_locs as [l|]; cbn [bind].
  - destruct (aligned l); cbn [bind]; [|discriminate]. now apply K.
  - destruct C as [C|C]; [congruence|]. subst is_reference. destruct ref as [[attr p]|]; [|discriminate]. destruct (Nat.eqb _ _); cbn [bind]; [discriminate|].
    destruct (aligned (vals p)); cbn [bind]; [|discriminate]. now apply K.
Qed.
Print Assumptions aligned_plan_kept.
Theorem aligned_plan_raises : forall (St : Type) aligned e2p is_reference (ref own : own_plan St),
  (ref = None -> align_to_reference aligned e2p is_reference ref own None = Exc AttrErr) /\
  (forall attr p, ref = Some (attr, p) -> vals p = [] -> align_to_reference aligned e2p is_reference ref own None = Exc AssertErr) /\
  (forall l e, aligned l = Exc e -> align_to_reference aligned e2p is_reference ref own (Some l) = Exc e).
Proof.
  intros. unfold align_to_reference. repeat split.
  - intros ->. reflexivity.
  - intros attr p -> ->. reflexivity.
  - intros l e E. cbn [bind]. now rewrite E.
Qed.
Print Assumptions aligned_plan_raises.

(** C95. The curvature test: with a positive median m of the slopes, the channel is good when every slope lies strictly
    between m / (1 + threshold) and m (1 + threshold). *)
Theorem curvature_test : forall threshold slopes m, 0 < threshold -> quantile 1 2 slopes m -> 0 < m ->
  (goodness threshold slopes = Ret true <-> slopes <> [] /\ forall s, In s slopes -> m / (1 + threshold) < s /\ s < m * (1 + threshold)) /\
  (slopes <> [] -> goodness threshold slopes = Ret true \/ goodness threshold slopes = Ret false).
Proof.
  intros threshold slopes m T M P. unfold goodness. assert (T' : qltb 0 threshold = true) by now apply qltb_lt. rewrite T'. cbn [negb].
  destruct slopes as [|s0 t]. { split; [|congruence]. simpl. split; [discriminate|intros [[] _]; reflexivity]. }
  assert (NE : s0 :: t <> []) by congruence. remember (s0 :: t) as l. clear Heql s0 t.
  destruct (qmax_some l NE) as [hi HI]. destruct (qmin_some l NE) as [lo LO]. rewrite HI, LO. assert (MM : median l = Some m) by (apply median_quantile; auto). rewrite MM.
  unfold qdiv. destruct (Qc_eq_dec m 0) as [Z|Z]; [rewrite Z in P; discriminate P|]. apply qmax_iff in HI as [HI1 HI2]. apply qmin_iff in LO as [LO1 LO2].
  assert (T1 : 0 < 1 + threshold) by qlra. assert (T1' : 1 + threshold <> 0) by (intros Q; rewrite Q in T1; discriminate T1).
  assert (EH : hi / m < 1 + threshold <-> hi < m * (1 + threshold)).
  { split; intros Q.
    - destruct (Qclt_le_dec hi (m * (1 + threshold))) as [G|G]; [exact G|]. exfalso. apply (Qclt_not_le _ _ Q). 
      replace (1 + threshold) with ((m * (1 + threshold)) / m) by (field; exact Z). unfold Qcdiv. apply Qcmult_le_compat_r; [exact G|]. apply Qclt_le_weak.
      replace (/ m) with (1 / m) by (field; exact Z). apply mul_lt_div; [exact P|]. qlra.
    - destruct (Qclt_le_dec (hi / m) (1 + threshold)) as [G|G]; [exact G|]. exfalso. apply (Qclt_not_le _ _ Q).
      replace hi with (hi / m * m) by (field; exact Z). rewrite (Qcmult_comm m). apply Qcmult_le_compat_r; [exact G|now apply Qclt_le_weak]. }
  assert (EL : 1 / (1 + threshold) < lo / m <-> m / (1 + threshold) < lo).
  { assert (R : 1 / (1 + threshold) * m = m / (1 + threshold)) by (field; exact T1'). split; intros Q.
    - rewrite <- R. now apply lt_div.
    - apply mul_lt_div; [exact P|]. now rewrite R. }
  split.
  - split.
    + intros E. injection E as E. apply andb_true_iff in E as [E1 E2]. apply qltb_lt in E1, E2. apply EH in E1. apply EL in E2. split; [exact NE|]. intros s S. split.
      * eapply Qclt_le_trans; [exact E2|now apply LO2].
      * eapply Qcle_lt_trans; [now apply HI2|exact E1].
    + intros [_ A]. f_equal. apply andb_true_iff. split; apply qltb_lt; [apply EH, A, HI1|apply EL, A, LO1].
  - intros _. destruct (_ && _)%bool; auto.
Qed.
Print Assumptions curvature_test.

Lemma cdf_ret counts : list_sum counts <> O -> exists f, cdf counts = Ret f /\ length f = length counts /\ forall k, (k < length counts)%nat -> nth k f 0 = fraction counts (S k).
Proof.
  intros N. unfold cdf. replace (Nat.eqb (list_sum counts) 0) with false by (symmetry; now apply Nat.eqb_neq). eexists. split; [reflexivity|].
  rewrite map_length, running_length. split; [reflexivity|]. intros k K. set (g := fun c => qz (Z.of_nat c) / qz (Z.of_nat (list_sum counts))).
  rewrite (nth_indep _ 0 (g O)) by (rewrite map_length, running_length; exact K). rewrite map_nth, running_nth by exact K. reflexivity.
Qed.
Lemma diffs_iff (a b : list Qc) v : length a = length b -> (In v (map (fun p => qabs (fst p - snd p)) (combine a b)) <-> exists k, (k < length a)%nat /\ v = qabs (nth k a 0 - nth k b 0)).
Proof.
  intros L. rewrite in_map_iff. split.
  - intros ([x y] & <- & I). apply In_nth with (d := (0, 0)) in I as (k & K & E). rewrite combine_length in K. rewrite combine_nth in E by exact L. injection E as <- <-. exists k. split; [lia|reflexivity].
  - intros (k & K & ->). exists (nth k a 0, nth k b 0). split; [reflexivity|]. rewrite <- combine_nth by exact L. apply nth_In. rewrite combine_length. lia.
Qed.
(** C95. The Kolmogorov-Smirnov statistic of two histograms with counts in equally many bins is the largest difference of
    their cumulative fractions. *)
Theorem ks_value : forall counts_a counts_b, length counts_a = length counts_b -> list_sum counts_a <> O -> list_sum counts_b <> O ->
  exists d, ks_statistic counts_a counts_b = Ret d /\
    (exists k, (0 < k <= length counts_a)%nat /\ d = magnitude (fraction counts_a k - fraction counts_b k)) /\
    forall k, (0 < k <= length counts_a)%nat -> magnitude (fraction counts_a k - fraction counts_b k) <= d.
Proof.
  intros a b L NA NB. unfold ks_statistic. destruct (cdf_ret a NA) as (fa & EA & LA & FA). destruct (cdf_ret b NB) as (fb & EB & LB & FB). rewrite EA, EB. cbn [bind].
  assert (LL : length fa = length fb) by congruence.
  assert (NE : map (fun p => qabs (fst p - snd p)) (combine fa fb) <> []).
  { destruct a as [|x a]; [now elim NA|]. destruct fa as [|u fa]; [discriminate|]. destruct fb as [|v fb]; [discriminate|]. discriminate. }
  destruct (qmax_some _ NE) as [d D]. rewrite D. exists d. split; [reflexivity|]. apply qmax_iff in D as [D1 D2]. split.
  - apply (diffs_iff fa fb d LL) in D1 as (k & K & ->). exists (S k). split; [lia|]. rewrite FA, FB by lia. apply qabs_magnitude.
  - intros [|k] K; [lia|]. apply D2, (diffs_iff fa fb _ LL). exists k. split; [lia|]. rewrite FA, FB by lia. symmetry. apply qabs_magnitude.
Qed.
Print Assumptions ks_value.
(** C95. It lies between 0 and 1, does not depend on the order of the two, and is 0 only for equal cumulative fractions. *)
Theorem ks_properties : forall counts_a counts_b d, length counts_a = length counts_b -> ks_statistic counts_a counts_b = Ret d ->
  0 <= d /\ d <= 1 /\ ks_statistic counts_b counts_a = Ret d /\
  (d = 0 <-> forall k, (0 < k <= length counts_a)%nat -> fraction counts_a k = fraction counts_b k).
Proof.
  intros a b d L H. assert (N : forall c, list_sum c = O -> cdf c = Exc BadNumber) by (intros c E; unfold cdf; now rewrite E).
  assert (NA : list_sum a <> O). { intros E. unfold ks_statistic in H. rewrite (N a E) in H. discriminate. }
  assert (NB : list_sum b <> O). { intros E. unfold ks_statistic in H. rewrite (N b E) in H. destruct (cdf a); discriminate. }
  destruct (ks_value a b L NA NB) as (d' & E & (k & K & D) & M). rewrite H in E. injection E as <-.
  destruct (ks_value b a (eq_sym L) NB NA) as (d' & E & (k' & K' & D') & M').
  assert (SY : forall p q, magnitude (p - q) = magnitude (q - p)).
  { intros p q. destruct (magnitude_cases (p - q)) as [[A B]|[A B]], (magnitude_cases (q - p)) as [[A' B']|[A' B']]; rewrite B, B'; qlra. }
  assert (B : forall c j, list_sum c <> O -> 0 <= fraction c j /\ fraction c j <= 1).
  { intros c j C. unfold fraction. assert (P : 0 < qz (Z.of_nat (list_sum c))) by (rewrite <- qz_0; apply qz_lt; lia).
    assert (Z : qz (Z.of_nat (list_sum c)) <> 0) by (intros Q; rewrite Q in P; discriminate P).
    assert (IP : 0 <= / qz (Z.of_nat (list_sum c))). { apply Qclt_le_weak. replace (/ qz (Z.of_nat (list_sum c))) with (1 / qz (Z.of_nat (list_sum c))) by (field; exact Z). apply mul_lt_div; [exact P|]. qlra. }
    split.
    - replace 0 with (0 * / qz (Z.of_nat (list_sum c))) by ring. unfold Qcdiv. apply Qcmult_le_compat_r; [|exact IP]. rewrite <- qz_0. apply qz_le. lia.
    - replace 1 with (qz (Z.of_nat (list_sum c)) * / qz (Z.of_nat (list_sum c))) by (apply Qcmult_inv_r; exact Z). unfold Qcdiv. apply Qcmult_le_compat_r; [|exact IP].
      apply qz_le. pose proof (sum_firstn_le j c). lia. }
  assert (P0 : forall q, 0 <= magnitude q) by (intros q; destruct (magnitude_cases q) as [[A Q]|[A Q]]; rewrite Q; qlra).
  split; [rewrite D; apply P0|]. split; [|split; [|split]].
  - rewrite D. destruct (B a k NA) as [A1 A2], (B b k NB) as [B1 B2]. destruct (magnitude_cases (fraction a k - fraction b k)) as [[A Q]|[A Q]]; rewrite Q; qlra.
  - rewrite E. f_equal. apply Qcle_antisym; [rewrite D', SY; apply M; lia|rewrite D, SY; apply M'; lia].
  - intros Z j J. specialize (M j J). rewrite Z in M. destruct (magnitude_cases (fraction a j - fraction b j)) as [[A Q]|[A Q]]; rewrite Q in M; qlra.
  - intros F. rewrite D, (F k K). destruct (magnitude_cases (fraction b k - fraction b k)) as [[A Q]|[A Q]]; rewrite Q; qlra.
Qed.
Print Assumptions ks_properties.
Theorem ks_raises : forall counts_a counts_b, list_sum counts_a = O \/ list_sum counts_b = O -> ks_statistic counts_a counts_b = Exc BadNumber.
Proof.
  intros a b H. unfold ks_statistic. unfold cdf at 1. destruct (Nat.eqb (list_sum a) 0) eqn:E; [reflexivity|]. cbn [bind]. destruct H as [H|H].
  - rewrite H in E. discriminate.
  - unfold cdf. rewrite H. reflexivity.
Qed.
Print Assumptions ks_raises.

Example ks_instance : match ks_statistic [1; 3; 4]%nat [2; 2; 0]%nat with Ret d => this d = (1 # 2)%Q | _ => False end.
Proof. vm_compute. reflexivity. Qed.
Example goodness_instance : goodness (qd 1 4) [qz 2; qz 2; qd 9 4] = Ret true /\ goodness (qd 1 4) [qz 2; qz 2; qd 5 2] = Ret false.
Proof. split; vm_compute; reflexivity. Qed.
Example align_instance : exists pts, align [qz 0; qz 2; qz 4; qz 6] 1 [(0, 0); (0, 1); (1, 2); (2, 2)]%nat [qz 1; qz 4] = Ret ([0%Z; 1%Z], [0%Z; 2%Z], pts)
  /\ map (fun p => (this (fst p), this (snd p))) pts = [(1 # 1, 1 # 1); (5 # 1, 3 # 1)]%Q.
Proof. eexists. split; reflexivity. Qed.
Example aligned_plan_instance :
  match align_to_reference (fun l => Ret (map (fun x => (x, x)) l)) (fun pts x => x * qz (Z.of_nat (length pts))) false
          (Some ("filtValue"%string, mkPlan [qz 10; qz 20] [1; 2]%nat [mkLine "X" (qz 1); mkLine "Y" (qz 2)])) None None with
  | Ret (Some (a, p), pts) => map this (vals p) = [20 # 1; 40 # 1]%Q /\ map p_name pts = ["X"; "Y"]%string
  | _ => False
  end.
Proof. vm_compute. repeat split. Qed.
