From Coq Require Import Reals Lra String Bool List.
From Verif Require Import SpcModel SpcProps FwModel FwSpec.
Import ListNotations.
Open Scope R_scope.

Lemma too_few_covered m b d inst l : 0 < b -> 0 < d -> (forall w, In w (widths l) -> 0 <= w) ->
  (too_few m b d inst l = None <-> widths l = []) /\ (widths l <> [] -> (too_few m b d inst l = Some false <-> covered m b d inst l)).
Proof.
  intros B D NN. destruct (minimum_fwhm_value l inst) as [E S]. unfold too_few. split.
  - destruct (widths l) as [|w r] eqn:W; [rewrite E by reflexivity; tauto|]. destruct (S ltac:(discriminate)) as (f & w' & -> & _). split; discriminate.
  - intros N. destruct (S N) as (f & w & -> & I & L & F0 & F). assert (Q : f / (b / d) = f * d / b) by (field; lra). rewrite Q.
    assert (FS : f = sqrt (w * w + inst * inst + intrinsic_sigma l * intrinsic_sigma l * (8 * ln 2))) by (rewrite <- F; now rewrite sqrt_square).
    assert (X : m <= f * d / b <-> m * b <= d * f).
    { split; intros H.
      - apply (Rmult_le_compat_r b) in H; [|lra]. replace (f * d / b * b) with (d * f) in H by (field; lra). exact H.
      - apply (Rmult_le_reg_r b); [exact B|]. replace (f * d / b * b) with (d * f) by (field; lra). exact H. }
    assert (G : covered m b d inst l <-> m * b <= d * f).
    { unfold covered. split; [intros H; rewrite FS; now apply H|]. intros H v V. apply (Rle_trans _ _ _ H). apply Rmult_le_compat_l; [lra|]. rewrite FS. apply sqrt_le_1_alt.
      pose proof (NN w I). pose proof (L v V). assert (w * w <= v * v) by (apply Rmult_le_compat; lra). lra. }
    rewrite G, <- X. destruct (Rlt_dec (f * d / b) m); split; intros; try discriminate; try reflexivity; lra.
Qed.

Section Props.
Context {P W : Type}.
Variable value : P -> string -> option R.
Variable lmfit : string -> option P -> option W -> option (result P).
Notation fit := (fit P W value lmfit).
Notation inner := (inner P W lmfit).

(** * C122 *)
(** Weights by name are refused, whatever else is given. *)
Theorem weights_refused flag l bins me mi s w pw : fit flag l bins me mi s (Some w) pw = Raised P Weights.
Proof. reflexivity. Qed.
(** The default method is least_squares and the default minimum 3 bins. *)
Theorem fit_defaults flag l bins me mi s pw : fit flag l bins None mi s None pw = fit flag l bins (Some "least_squares"%string) mi s None pw /\
  fit flag l bins me None s None pw = fit flag l bins me (Some 3) s None pw.
Proof. split; reflexivity. Qed.
(** The method leastsq_refit gives a leastsq fit with error bars, or else the least_squares fit that starts where the first ended, if starting
    parameters had been given, or from the beginning; other methods give lmfit's fit. *)
Theorem refit_value me s w r : inner me s w = Some r ->
  (me <> "leastsq_refit"%string /\ lmfit me (start_of P s) w = Some r) \/
  (me = "leastsq_refit"%string /\ exists r0, lmfit "leastsq" (start_of P s) w = Some r0 /\
    ((success P r0 = true /\ errorbars P r0 = true /\ r = r0) \/
     ((success P r0 = false \/ errorbars P r0 = false) /\
      lmfit "least_squares" (match s with NoStart _ => None | _ => Some (rparams P r0) end) w = Some r))).
Proof.
  unfold FwModel.inner. destruct (String.eqb_spec me "leastsq_refit") as [-> | N]; [|intros H; left; now split].
  destruct (lmfit "leastsq" (start_of P s) w) as [r0|]; [|discriminate]. intros H. right. split; [reflexivity|]. exists r0. split; [reflexivity|].
  destruct (success P r0) eqn:S, (errorbars P r0) eqn:E; cbn [andb] in H; [left; injection H as <-; now repeat split| | |]; right; (split; [tauto|]); destruct s; exact H.
Qed.
(** A fit returned has bins small enough for every line. *)
Theorem bins_small_enough l b0 b1 bt me m s pw r : b0 < b1 -> fit true l (Some (b0 :: b1 :: bt)) me (Some m) s None pw = Fitted P r ->
  forall c d f, In c l -> scales value (rparams P r) c d f -> 0 < d -> exists sp, pspect c = Some sp /\ widths sp <> [] /\
    ((forall w, In w (widths sp) -> 0 <= w) -> covered m (b1 - b0) d f sp).
Proof.
  intros B H c d f I [SD SF] D. unfold FwModel.fit in H. destruct (inner _ s pw) as [r'|]; [|discriminate]. unfold validate in H.
  destruct (check_parts P value m (b1 - b0) (rparams P r') l) eqn:E; [discriminate|]. injection H as ->.
  induction l as [|c' t IH]; [contradiction|]. cbn [check_parts] in E. destruct I as [-> | I].
  - rewrite SD, SF in E. destruct (pspect c) as [sp|]; [|discriminate]. exists sp. split; [reflexivity|].
    destruct (too_few m (b1 - b0) d f sp) as [[|]|] eqn:T; try discriminate. split.
    + intros W0. unfold too_few, minimum_fwhm in T. now rewrite W0 in T.
    + intros NN. destruct (too_few_covered m (b1 - b0) d f sp ltac:(lra) D NN) as [T0 T1]. apply T1; [|exact T]. intros W0. apply T0 in W0. congruence.
  - apply IH; [|exact I]. destruct (value (rparams P r) (pprefix c' ++ "dph_de")); [|exact E]. destruct (value (rparams P r) (pprefix c' ++ "fwhm")); [|exact E].
    destruct (pspect c'); [|discriminate]. destruct (too_few _ _ _ _ _) as [[|]|]; try discriminate. exact E.
Qed.
(** And lmfit's fit is returned if they are. *)
Theorem fit_returned l b0 b1 bt me m s pw r : b0 < b1 -> inner (match me with None => "least_squares"%string | Some x => x end) s pw = Some r ->
  (forall c d f, In c l -> scales value (rparams P r) c d f -> 0 < d /\ exists sp, pspect c = Some sp /\ widths sp <> [] /\ (forall w, In w (widths sp) -> 0 <= w) /\ covered m (b1 - b0) d f sp) ->
  fit true l (Some (b0 :: b1 :: bt)) me (Some m) s None pw = Fitted P r.
Proof.
  intros B IN C. unfold FwModel.fit. rewrite IN. unfold validate. assert (E : check_parts P value m (b1 - b0) (rparams P r) l = None); [|now rewrite E].
  induction l as [|c t IH]; [reflexivity|]. cbn [check_parts]. assert (IHt := IH (fun c' d f I => C c' d f (or_intror I))).
  destruct (value (rparams P r) (pprefix c ++ "dph_de")) as [d|] eqn:SD; [|exact IHt]. destruct (value (rparams P r) (pprefix c ++ "fwhm")) as [f|] eqn:SF; [|exact IHt].
  destruct (C c d f (or_introl eq_refl) (conj SD SF)) as (D & sp & -> & N & NN & CV). destruct (too_few_covered m (b1 - b0) d f sp ltac:(lra) D NN) as [_ T1].
  apply (T1 N) in CV. now rewrite CV.
Qed.
(** Without bins, or with the check switched off, every fit is returned; with fewer than two bins none is. *)
Theorem unchecked_fits l bins me mi s pw r : inner (match me with None => "least_squares"%string | Some x => x end) s pw = Some r ->
  fit false l bins me mi s None pw = Fitted P r /\ (forall flag, fit flag l None me mi s None pw = Fitted P r) /\
  forall b, (length b < 2)%nat -> fit true l (Some b) me mi s None pw = Raised P NoBins.
Proof.
  intros E. unfold FwModel.fit. rewrite E. split; [destruct bins; reflexivity|]. split; [reflexivity|]. intros [|b0 [|b1 b]] L; [reflexivity|reflexivity|]. exfalso. cbn in L. do 2 apply le_S_n in L. inversion L.
Qed.
(** A component that is no line but has the prefix of one makes every fit to bins raise, unless a line raises first. *)
Theorem same_prefix_raises c l b0 b1 bt me mi s pw r d f : pspect c = None ->
  inner (match me with None => "least_squares"%string | Some x => x end) s pw = Some r -> scales value (rparams P r) c d f ->
  forall a, exists e, fit true (a ++ c :: l) (Some (b0 :: b1 :: bt)) me mi s None pw = Raised P e.
Proof.
  intros N E [SD SF] a. unfold FwModel.fit. rewrite E. unfold validate.
  assert (X : exists e, check_parts P value (match mi with None => 3 | Some x => x end) (b1 - b0) (rparams P r) (a ++ c :: l) = Some e); [|destruct X as [e ->]; now exists e].
  induction a as [|c' t IH]; cbn [app check_parts].
  - rewrite SD, SF, N. now eexists.
  - destruct (value (rparams P r) (pprefix c' ++ "dph_de")); [|exact IH]. destruct (value (rparams P r) (pprefix c' ++ "fwhm")); [|exact IH].
    destruct (pspect c'); [|now eexists]. destruct (too_few _ _ _ _ _) as [[|]|]; try (now eexists). exact IH.
Qed.
End Props.
Print Assumptions weights_refused.
Print Assumptions fit_defaults.
Print Assumptions refit_value.
Print Assumptions bins_small_enough.
Print Assumptions fit_returned.
Print Assumptions unchecked_fits.
Print Assumptions same_prefix_raises.

(** A line of width 3, an instrument of 4: bins of 1 are small enough, bins of 2 are not. *)
Definition line34 : line := {| energies := [5]; widths := [3]; intrinsic_sigma := 0; intensities := [1] |}.
Definition params2 (n : string) : option R := if String.eqb n "dph_de" then Some 1 else if String.eqb n "fwhm" then Some 4 else None.
Definition fitter (m : string) (p : option unit) (w : option unit) : option (result unit) := Some (mkResult unit true (String.eqb m "least_squares") tt).
Lemma sqrt25 : sqrt (3 * 3 + 4 * 4 + intrinsic_sigma line34 * intrinsic_sigma line34 * (8 * ln 2)) = 5.
Proof. cbn. replace (3 * 3 + 4 * 4 + 0 * 0 * (8 * ln 2)) with (5 * 5) by lra. apply sqrt_square. lra. Qed.
Example fit_instance : fit unit unit (fun _ => params2) fitter true [mkPart "" (Some line34)] (Some [0; 1; 2]) None (Some 3) (NoStart unit) None None = Fitted unit (mkResult unit true true tt) /\
  (forall r, fit unit unit (fun _ => params2) fitter true [mkPart "" (Some line34)] (Some [0; 2; 4]) None (Some 3) (NoStart unit) None None <> Fitted unit r).
Proof.
  split.
  - apply (fit_returned (fun _ => params2) fitter [mkPart "" (Some line34)] 0 1 [2] None 3 (NoStart unit) None); [lra|reflexivity|].
    intros c d f [<- | []] [SD SF]. cbn in SD, SF. injection SD as <-. injection SF as <-. split; [lra|]. exists line34. split; [reflexivity|]. split; [discriminate|].
    split; [intros w [<- | []]; lra|]. intros w [<- | []]. rewrite sqrt25. lra.
  - intros r H. assert (B : 0 < 2) by lra. destruct (bins_small_enough (fun _ => params2) fitter _ _ _ _ _ _ _ _ _ B H (mkPart "" (Some line34)) 1 4 (or_introl eq_refl) (conj eq_refl eq_refl) Rlt_0_1) as (sp & E & _ & C).
    cbn in E. injection E as <-. assert (X : covered 3 (2 - 0) 1 4 line34) by (apply C; intros w [<- | []]; lra). specialize (X 3 (or_introl eq_refl)). rewrite sqrt25 in X. lra.
Qed.
(** Weights by position are not refused, against the message. *)
Theorem weights_refused_refuted : exists w : unit, exists r, fit unit unit (fun _ => params2) fitter true [] None None None (ByPosition unit None) None (Some w) = Fitted unit r.
Proof. exists tt. eexists. reflexivity. Qed.
Print Assumptions weights_refused_refuted.
(** The sum of a line without prefix and a background without prefix raises. *)
Example background_instance : exists e, fit unit unit (fun _ => params2) fitter true [mkPart "" (Some line34); mkPart "" None] (Some [0; 1; 2]) None None (NoStart unit) None None = Raised unit e.
Proof. exact (same_prefix_raises (fun _ => params2) fitter (mkPart "" None) [] 0 1 [2] None None (NoStart unit) None (mkResult unit true true tt) 1 4 eq_refl eq_refl (conj eq_refl eq_refl) [mkPart "" (Some line34)]). Qed.
