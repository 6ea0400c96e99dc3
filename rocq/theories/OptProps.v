(** C22-C24: optimal filters. *)
From Coq Require Import PeanoNat ZArith QArith Qcanon List Bool Lia.
From Verif Require Import QcPre LagModel LagSpec ToepSpec WhiModel WhiSpec OptModel OptSpec OptProofs.
Import ListNotations.
Local Open Scope Qc_scope.

(** C24. bracketR is the double sum of q_i noise_|i-j| q_j. *)
Theorem bracketR_is_quadratic_form : forall q noise, q <> [] -> (length q <= length noise)%nat -> bracketR q noise = Some (quad noise q).
Proof. exact bracketR_quad. Qed.
Print Assumptions bracketR_is_quadratic_form.
(** C24. Too little noise is an error. *)
Theorem bracketR_short_noise : forall q noise, (length noise < length q)%nat -> bracketR q noise = None.
Proof. intros q noise H. unfold bracketR. apply Nat.ltb_lt in H. rewrite H. reflexivity. Qed.
Print Assumptions bracketR_short_noise.

Definition qs (l : list Z) : list Qc := map qz l.
Example bracketR_instance : option_map (fun q => Qnum (this q)) (bracketR (qs [1; 2; -1]%Z) (qs [4; 2; 1; 5]%Z)) = Some 22%Z.
Proof. vm_compute. reflexivity. Qed.

(** C22. The filter has four values fewer than the record and sums to zero: it does not see a constant. *)
Theorem five_lag_ignores_constants : forall m a b F, compute_5lag m a b = Some F ->
  (length (values F) + 4 = length (sig m))%nat /\
  forall c lag, (lag <= 4)%nat -> lagged (values F) (repeat c (length (sig m))) lag = 0.
Proof.
  intros m a b F E. split; [exact (five_lag_length m a b F E)|]. intros c lag H.
  pose proof (five_lag_sum m a b F E) as S. pose proof (five_lag_length m a b F E) as L. unfold lagged.
  rewrite (qsum_ext _ _ (fun k => nth k (values F) 0 * c)).
  - rewrite qsum_scale_r. unfold total in S. rewrite S. ring.
  - intros i Hi. rewrite (nth_indep (repeat c _) 0 c) by (rewrite repeat_length; lia). rewrite nth_repeat. reflexivity.
Qed.
Print Assumptions five_lag_ignores_constants.

(** C22. Applied (by either implementation) to alpha * signal + gamma on the uncut samples, whatever the cut samples, it
    returns alpha, at the same sub-sample time whatever alpha and gamma. *)
Theorem five_lag_unit_response : forall m a b F, compute_5lag m a b = Some F -> exists x, forall (cython : bool) pt rec alpha gamma,
  (8 <= length rec)%nat -> length rec = length (sig m) -> alpha <> 0 ->
  follows rec a (avg_signal F) [] alpha 0 gamma ->
  filter_data_row cython None (values F) pt rec = Some (Some (x, alpha)).
Proof. exact five_lag_unit. Qed.
Print Assumptions five_lag_unit_response.

(** C22. For a positive-going average pulse (peak not given, nothing cut), the response to that pulse, flattened before
    the trigger, on any baseline is the nominal peak. *)
Theorem five_lag_peak_response : forall m F mu hi lo, compute_5lag m 0 0 = Some F -> upeak m <= 0 ->
  (2 <= npre m <= length (sig m))%nat -> qz (Z.of_nat (npre m - 1)) * mu = qsum (npre m - 1) (fun i => nth i (sig m) 0) ->
  greatest hi (sig m) -> least lo (sig m) -> mu - lo <= hi - mu ->
  nominal_peak F = hi - mu /\ exists x, forall (cython : bool) pt rec gamma, (8 <= length rec)%nat -> length rec = length (sig m) ->
    (forall i, (i < length rec)%nat -> nth i rec 0 = (if Nat.ltb i (npre m) then 0 else nth i (sig m) 0 - mu) + gamma) ->
    filter_data_row cython None (values F) pt rec = Some (Some (x, nominal_peak F)).
Proof. exact five_lag_peak. Qed.
Print Assumptions five_lag_peak_response.

(** C22. No filter that ignores constants and has the same central response has less variance, and the stored variance is
    the filter's own. *)
Theorem five_lag_minimum_variance : forall m nz F g, compute_5lag m 0 0 = Some F -> noise m = Some nz -> covariance (length (values F)) nz ->
  length g = length (values F) -> total g = 0 -> lagged g (avg_signal F) 2 = lagged (values F) (avg_signal F) 2 ->
  variance F = quad nz (values F) /\ variance F <= quad nz g.
Proof. exact five_lag_optimal. Qed.
Print Assumptions five_lag_minimum_variance.

Definition demo : maker := mkMaker (qs [1; 1; 1; 9; 7; 5; 3; 2; 1]%Z) 3 (Some (qs [4; 2; 1; 0; 0; 0; 0; 0; 0]%Z)) (Some (qs [0; 0; 0; 3; -2; -2; -2; -1; -1]%Z)) None 0.
Definition show (l : list Qc) : list (Z * positive) := map (fun q => (Qnum (this q), Qden (this q))) l.
Example five_lag_instance : exists F, compute_5lag demo 0 0 = Some F /\ length (values F) = 5%nat /\ nominal_peak F = qz 8 /\
  greatest (qz 9) (sig demo) /\ least (qz 1) (sig demo) /\ qz (Z.of_nat (npre demo - 1)) * qz 1 = qsum (npre demo - 1) (fun i => nth i (sig demo) 0).
Proof.
  destruct (compute_5lag demo 0 0) as [F|] eqn:E; [|vm_compute in E; discriminate E]. exists F. split; [reflexivity|].
  split; [pose proof (five_lag_length demo 0 0 F E) as L; cbn in L; lia|]. split.
  - apply Qc_is_canon. 
    assert (P : option_map (fun F => this (nominal_peak F)) (compute_5lag demo 0 0) = Some (8 # 1)%Q) by (vm_compute; reflexivity).
    rewrite E in P. cbn in P. injection P as ->. reflexivity.
  - split; [|split].
    + split; [cbn; tauto|]. intros y Hy. cbn in Hy. unfold Qcle. repeat (destruct Hy as [<-|Hy]; [apply Qle_bool_iff; vm_compute; reflexivity|]). destruct Hy.
    + split; [cbn; tauto|]. intros y Hy. cbn in Hy. unfold Qcle. repeat (destruct Hy as [<-|Hy]; [apply Qle_bool_iff; vm_compute; reflexivity|]). destruct Hy.
    + apply Qc_is_canon. vm_compute. reflexivity.
Qed.

(** C22. A negative-going pulse is scaled by its largest excursion upwards, not by its peak: the response to the flattened
    average pulse itself is 1, its nominal peak -8. *)
Definition negative : maker := mkMaker (qs [1; -1; 0; -8; -6; -4; -2; -1; 0]%Z) 3 (Some (qs [4; 2; 1; 0; 0; 0; 0; 0; 0]%Z)) None None 0.
Theorem five_lag_negative_pulse_refuted : exists m F rec x v, compute_5lag m 0 0 = Some F /\ upeak m <= 0 /\
  (forall i, (i < length rec)%nat -> nth i rec 0 = if Nat.ltb i (npre m) then 0 else nth i (sig m) 0) /\
  qsum (npre m - 1) (fun i => nth i (sig m) 0) = 0 /\
  filter_data_row false None (values F) 0 rec = Some (Some (x, v)) /\ nominal_peak F = qz (-8) /\ v = 1.
Proof.
  destruct (compute_5lag negative 0 0) as [F|] eqn:E; [|vm_compute in E; discriminate E].
  destruct (five_lag_unit negative 0 0 F E) as [x U].
  assert (P : option_map (fun F => (this (nominal_peak F), map this (avg_signal F))) (compute_5lag negative 0 0) =
    Some (-8 # 1, [0 # 1; 0 # 1; 0 # 1; -8 # 1; -6 # 1; -4 # 1; -2 # 1; -1 # 1; 0 # 1])%Q) by (vm_compute; reflexivity).
  rewrite E in P. cbn [option_map] in P. injection P as P1 P2.
  exists negative, F, (qs [0; 0; 0; -8; -6; -4; -2; -1; 0]%Z), x, 1.
  split; [exact E|]. split; [apply Qcle_refl|]. split; [intros i Hi; cbn in Hi; do 9 (destruct i as [|i]; [reflexivity|]); lia|].
  split; [apply Qc_is_canon; vm_compute; reflexivity|]. split; [|split; [apply Qc_is_canon; rewrite P1; reflexivity|reflexivity]].
  apply (U false 0 _ 1 0); [cbn; lia|reflexivity|discriminate|].
  intros i Hi. cbn [Nat.add]. replace (nth i [] 0) with 0 by (destruct i; reflexivity). rewrite <- (map_length this), P2 in Hi. cbn in Hi.
  apply Qc_is_canon. rewrite !this_add, !this_mul.
  rewrite <- (map_nth this). change (this 0) with (0 # 1)%Q.
  replace (nth i (map this (avg_signal F)) (0 # 1)%Q) with (this (nth i (avg_signal F) 0)).
  - rewrite <- (map_nth this (avg_signal F)), P2. do 9 (destruct i as [|i]; [vm_compute; reflexivity|]). lia.
  - rewrite <- (map_nth this (avg_signal F)). reflexivity.
Qed.
Print Assumptions five_lag_negative_pulse_refuted.

(** C22, C23. The documentation lets a whitener stand in for the autocorrelation, but then both constructions fail. *)
Theorem filters_need_autocorrelation : forall m a b, noise m = None -> compute_5lag m a b = None /\ compute_ats m a b = None.
Proof.
  intros m a b H. split.
  - destruct (compute_5lag m a b) as [F|] eqn:E; [|reflexivity]. apply compute_5lag_inv in E.
    destruct E as [f [nz [k [rs [r1 [x [C _]]]]]]]. congruence.
  - unfold compute_ats. destruct (normalize_signal m a b) as [[[s p] d]|]; [|reflexivity]. destruct (dtm m); [|reflexivity].
    destruct (negb _); [reflexivity|].
    match goal with |- match ?X with _ => _ end = _ => destruct X as [[A V]|]; [|reflexivity] end.
    destruct (inv3 A); [|reflexivity]. rewrite H. reflexivity.
Qed.
Print Assumptions filters_need_autocorrelation.

(** C23. On alpha * pulse + beta * derivative + gamma (on the uncut samples, whatever the cut ones) the three filters return
    alpha, beta and gamma. *)
Theorem ats_separates : forall m a b F, compute_ats m a b = Some F -> ats_regular m (length (a_signal F)) ->
  forall rec alpha beta gamma, length rec = length (sig m) -> follows rec a (a_signal F) (a_dt F) alpha beta gamma ->
  response (f_values F) rec = alpha /\ response (f_dt F) rec = beta /\ response (f_baseline F) rec = gamma.
Proof. exact ats_responses. Qed.
Print Assumptions ats_separates.

(** C23. Filtering such a record, which has one sample more than the filter and may be shifted by one, gives the time
    beta / alpha and the value alpha. *)
Theorem ats_estimates : forall m a b F, compute_ats m a b = Some F -> ats_regular m (length (a_signal F)) ->
  forall (shift1 : bool) pulse alpha beta gamma, length pulse = S (length (sig m)) -> alpha <> 0 ->
  follows pulse (a + if shift1 then 0 else 1)%nat (a_signal F) (a_dt F) alpha beta gamma ->
  ats_row (f_values F) (f_dt F) shift1 pulse = Some (beta / alpha, alpha).
Proof. exact ats_row_ok. Qed.
Print Assumptions ats_estimates.

(** C23. No filter with the same unit, zero and zero responses has less variance. *)
Theorem ats_minimum_variance : forall m nz F g, compute_ats m 0 0 = Some F -> wht m = None -> noise m = Some nz -> covariance (length (f_values F)) nz ->
  length g = length (f_values F) ->
  response g (a_signal F) = 1 -> response g (a_dt F) = 0 -> total g = 0 ->
  a_variance F = quad nz (f_values F) /\ a_variance F <= quad nz g.
Proof. exact ats_optimal. Qed.
Print Assumptions ats_minimum_variance.

Definition demo_white : maker := mkMaker (sig demo) 3 (noise demo) (dtm demo) (Some (qs [2; 1]%Z, qs [4; 2; 1]%Z)) 0.
Example ats_instance : (exists F, compute_ats demo 0 0 = Some F) /\ (exists F, compute_ats demo 1 1 = Some F) /\
  (exists F, compute_ats demo_white 0 0 = Some F /\ ats_regular demo_white (length (a_signal F))).
Proof.
  split; [|split].
  - destruct (compute_ats demo 0 0) as [F|] eqn:E; [eauto|vm_compute in E; discriminate E].
  - destruct (compute_ats demo 1 1) as [F|] eqn:E; [eauto|vm_compute in E; discriminate E].
  - destruct (compute_ats demo_white 0 0) as [F|] eqn:E; [|vm_compute in E; discriminate E]. exists F. split; [reflexivity|]. left. cbn. lia.
Qed.
