(** Drift corrections: what the users of drift_correct and time_drift_correct see. *)
From Coq Require Import Reals ZArith Bool Lra Lia Psatz Permutation Sorted FunctionalExtensionality List.
Import ListNotations.
From Verif Require Import DcModel DcSpec DcProofs.
Local Open Scope R_scope.

(* ---------- C86: the smoothed histogram ---------- *)

(** The number of bins is the least power of two that is at least 1024 and at least the number wanted. *)
Theorem smoother_bins sigma lo hi : let n := Z.of_nat (bins sigma lo hi) in
  (1024 <= n)%Z /\ (exists k, n = 2 ^ Z.of_nat k)%Z /\ (wanted_bins sigma lo hi <= n)%Z /\ (n = 1024 \/ n < 2 * wanted_bins sigma lo hi)%Z.
Proof. apply bins_spec. Qed.
Print Assumptions smoother_bins.

(** So, with positive width, a bin is at most 0.4 widths, up to half a bin in the whole range. *)
Theorem smoother_step sigma lo hi : 0 < sigma -> lo < hi -> (hi - lo) / (4 / 10 * sigma) - / 2 < INR (bins sigma lo hi).
Proof.
  intros S L. destruct (bins_spec sigma lo hi) as (_ & _ & W & _). unfold wanted_bins in W.
  assert (P : 0 < / (4 / 10 * sigma)) by (apply Rinv_0_lt_compat; lra).
  assert (Q : 0 < (hi - lo) / (4 / 10 * sigma)) by (apply Rmult_lt_0_compat; lra).
  destruct (truncate_spec ((hi - lo) / (4 / 10 * sigma) + / 2) ltac:(lra)) as (_ & _ & T). apply IZR_le in W. rewrite <- INR_IZR_INZ in W. lra.
Qed.
Print Assumptions smoother_step.

(** The kernel is positive, symmetric and sums to one. *)
Theorem smoother_kernel sigma step n : (0 < n)%nat ->
  length (kernel sigma step n) = n /\ sum (kernel sigma step n) = 1 /\ (forall i, (i < n)%nat -> 0 < nth i (kernel sigma step n) 0) /\
  (forall i, (0 < i < n)%nat -> nth i (kernel sigma step n) 0 = nth (n - i) (kernel sigma step n) 0).
Proof.
  intros H. split; [apply kernel_length|]. split; [now apply kernel_sum|]. split; [intros; now apply kernel_pos|intros; now apply kernel_symmetric].
Qed.
Print Assumptions smoother_kernel.

(** Smoothing moves counts about but keeps them: nothing negative, and in total as many as values between the limits. *)
Theorem smoothed_total sigma lo hi values h : sigma <> 0 -> lo < hi -> smooth sigma lo hi values = Some h ->
  length h = bins sigma lo hi /\ (forall i, 0 <= nth i h 0) /\ sum h = INR (within lo hi values).
Proof.
  intros S L H. pose proof (smooth_total sigma lo hi values h S ltac:(lra) H) as T. unfold limits in T. destruct (Req_EM_T lo hi); [lra|]. exact T.
Qed.
Print Assumptions smoothed_total.

(** Each value is spread by the kernel, around the circle. *)
Theorem smoothed_value sigma lo hi values h j : sigma <> 0 -> lo < hi -> smooth sigma lo hi values = Some h ->
  let n := bins sigma lo hi in (j < n)%nat ->
  nth j h 0 = sum (map (fun i => nth ((j + n - i) mod n) (kernel sigma ((hi - lo) / INR n) n) 0 * INR (length (filter (in_bin lo hi n i) values))) (seq 0 n)).
Proof.
  intros S L. rewrite smooth_value by lra || assumption. intros H. apply dc_inj in H. cbn zeta. intros J. subst h.
  unfold limits. destruct (Req_EM_T lo hi); [lra|]. cbn [fst snd]. rewrite circular_nth by now rewrite contents_length. rewrite contents_length.
  f_equal. apply map_ext_in. intros i I. apply in_seq in I. f_equal. unfold contents. now rewrite (nth_map_seq (fun i => INR (length (filter (in_bin lo hi (bins sigma lo hi) i) values)))) by lia.
Qed.
Print Assumptions smoothed_value.

Theorem smoothed_order sigma lo hi v v' : Permutation v v' -> smooth sigma lo hi v = smooth sigma lo hi v'.
Proof.
  intros P. unfold smooth, histogram. destruct (Req_EM_T sigma 0); [reflexivity|]. destruct (Rlt_dec hi lo); [reflexivity|].
  destruct (Req_EM_T lo hi); now rewrite (contents_perm _ _ _ v v' P).
Qed.
Print Assumptions smoothed_order.

Theorem smoothed_raises sigma lo hi values : smooth sigma lo hi values = None <-> sigma = 0 \/ hi < lo.
Proof.
  unfold smooth, histogram. destruct (Req_EM_T sigma 0); [tauto|]. destruct (Rlt_dec hi lo); [tauto|].
  destruct (Req_EM_T lo hi); split; try discriminate; tauto.
Qed.
Print Assumptions smoothed_raises.

(** Around the circle: a count in the first bin adds to the last as much as to the second. *)
Theorem smoothed_wraps sigma lo hi v h : sigma <> 0 -> lo < hi -> smooth sigma lo hi [v] = Some h ->
  let n := bins sigma lo hi in lo <= v < lo + (hi - lo) / INR n ->
  nth (n - 1) h 0 = nth 1 h 0 /\ 0 < nth (n - 1) h 0.
Proof.
  intros Sg L H. cbn zeta. intros VB.
  destruct (bins_spec sigma lo hi) as (Big & _).
  assert (NP : 0 < INR (bins sigma lo hi)) by (apply lt_0_INR; lia).
  assert (HP : 0 < (hi - lo) / INR (bins sigma lo hi)) by (apply Rdiv_lt_0_compat; lra).
  assert (B : in_bin lo hi (bins sigma lo hi) 0 v = true).
  { unfold in_bin. cbn [INR]. destruct (Rle_dec _ v); [|lra]. destruct (Rlt_dec v _); [reflexivity|lra]. }
  assert (N : forall i, (0 < i < bins sigma lo hi)%nat -> in_bin lo hi (bins sigma lo hi) i v = false).
  { intros i I. unfold in_bin. destruct (Rle_dec _ v) as [Q|Q]; [|reflexivity]. exfalso.
    assert (1 <= INR i) by (apply (le_INR 1); lia).
    assert (1 * ((hi - lo) / INR (bins sigma lo hi)) <= INR i * ((hi - lo) / INR (bins sigma lo hi))) by (apply Rmult_le_compat_r; lra). lra. }
  assert (V : forall j, (j < bins sigma lo hi)%nat -> nth j h 0 = nth j (kernel sigma ((hi - lo) / INR (bins sigma lo hi)) (bins sigma lo hi)) 0).
  { intros j J. rewrite (smoothed_value sigma lo hi [v] h j Sg L H J). set (n := bins sigma lo hi) in *.
    destruct n as [|m] eqn:E; [lia|]. cbn [seq map sum]. rewrite Nat.sub_0_r. replace ((j + S m) mod S m)%nat with j by (replace (j + S m)%nat with (j + 1 * S m)%nat by lia; rewrite Nat.mod_add by lia; symmetry; apply Nat.mod_small; lia).
    replace (sum (map _ (seq 1 m))) with 0.
    - cbn [filter]. rewrite B. cbn [length INR]. lra.
    - symmetry. erewrite map_ext_in; [apply sum_zero|]. intros i I. apply in_seq in I. cbn [filter]. rewrite (N i) by lia. cbn [length INR]. lra. }
  rewrite !V by lia. split; [|apply kernel_pos; lia]. symmetry. apply kernel_symmetric. lia.
Qed.
Print Assumptions smoothed_wraps.

Example sample_smoothing : exists h, make_smooth_histogram [1; 2; 7] 1 5 None = Some h /\ sum h = 2.
Proof.
  unfold make_smooth_histogram. destruct (smooth 1 0 5 [1; 2; 7]) as [h|] eqn:E.
  - exists h. split; [reflexivity|]. destruct (smoothed_total 1 0 5 [1; 2; 7] h ltac:(lra) ltac:(lra) E) as (_ & _ & ->).
    cbn. destruct (Rle_dec 0 1), (Rle_dec 1 5), (Rle_dec 0 2), (Rle_dec 2 5), (Rle_dec 0 7), (Rle_dec 7 5); try lra. cbn. lra.
  - apply smoothed_raises in E. lra.
Qed.

(** With two limits the counts are those between them, with one those between zero and it. *)
Theorem histogram_limits values sigma limit upper h : sigma <> 0 -> make_smooth_histogram values sigma limit upper = Some h ->
  let lo := match upper with None => 0 | Some _ => limit end in let hi := match upper with None => limit | Some u => u end in lo < hi ->
  length h = bins sigma lo hi /\ sum h = INR (within lo hi values).
Proof. intros S H lo hi L. unfold lo, hi in *. unfold make_smooth_histogram in H. destruct upper as [u|]; destruct (smoothed_total _ _ _ _ _ S L H) as (A & _ & B); auto. Qed.
Print Assumptions histogram_limits.
Lemma part_is x z : IZR z <= x < IZR z + 1 -> Int_part x = z.
Proof.
  intros [A B]. destruct (base_Int_part x) as [C D]. assert (E : (Int_part x < z + 1)%Z) by (apply lt_IZR; rewrite plus_IZR; lra). assert (F : (z < Int_part x + 1)%Z) by (apply lt_IZR; rewrite plus_IZR; lra). lia.
Qed.
(** int() goes toward zero. *)
Theorem truncated_toward_zero x : (0 <= x -> IZR (truncate x) <= x < IZR (truncate x) + 1) /\ (x <= 0 -> IZR (truncate x) - 1 < x <= IZR (truncate x)).
Proof.
  unfold truncate. destruct (base_Int_part x) as [A B]. destruct (base_Int_part (- x)) as [C D]. split; intros H.
  - destruct (Rle_dec 0 x); [|lra]. lra.
  - destruct (Rle_dec 0 x) as [Z|Z].
    + assert (x = 0) by lra. subst x. assert (E : Int_part 0 = 0%Z) by (apply part_is; lra). rewrite E. lra.
    + rewrite opp_IZR. lra.
Qed.
Print Assumptions truncated_toward_zero.
(** The percentile at a rank is the element of that rank; the last is the hundredth. *)
Theorem percentile_rank k l : (k < length l)%nat -> (2 <= length l)%nat -> exists s v, Permutation l s /\ Sorted.StronglySorted Rle s /\ percentile (100 * INR k / INR (length l - 1)) l = Some v /\ v = nth k s 0.
Proof.
  intros K L. exists (isort l), (nth k (isort l) 0). split; [apply isort_perm|]. split; [apply isort_sorted|]. split; [|reflexivity]. unfold percentile. destruct l as [|a l]; [cbn in L; lia|]. set (n := length (a :: l)) in *.
  assert (N : INR (n - 1) <> 0) by (apply not_0_INR; lia). replace (100 * INR k / INR (n - 1) / 100 * INR (n - 1)) with (INR k) by (field; exact N).
  assert (E : Int_part (INR k) = Z.of_nat k) by (apply part_is; rewrite <- INR_IZR_INZ; lra). rewrite E, Nat2Z.id, <- INR_IZR_INZ. f_equal. ring.
Qed.
Print Assumptions percentile_rank.

(* ---------- C87: correction by the pretrigger mean ---------- *)

(** The offset is the median of the indicator: half the values are at most as large, half at least. *)
Theorem correction_offset brent indicator uncorrected limit c : drift_correct brent indicator uncorrected limit = Some c ->
  (length indicator <= 2 * at_most (offset c) indicator)%nat /\ (length indicator <= 2 * at_least (offset c) indicator)%nat.
Proof.
  unfold drift_correct. destruct (median indicator) as [m|] eqn:M; [|discriminate].
  destruct (match limit with Some l => Some l | None => option_map (fun p => 5 / 4 * p) (percentile 99 uncorrected) end) as [l|]; [|discriminate].
  destruct (Rlt_dec l 0); [discriminate|]. intros H. apply dc_inj in H. subst c. now apply median_halves.
Qed.
Print Assumptions correction_offset.

(** Adding a constant to the indicator changes the offset by it and the slope not at all. *)
Theorem correction_shift brent c indicator uncorrected limit :
  drift_correct brent (map (fun v => v + c) indicator) uncorrected limit =
  option_map (fun k => {| slope := slope k; offset := offset k + c |}) (drift_correct brent indicator uncorrected limit).
Proof. apply drift_shift. Qed.
Print Assumptions correction_shift.

(** With a minimizer that does no worse than its first starting point, the correction does not raise the entropy. *)
Theorem correction_entropy brent indicator uncorrected l c : no_worse_than 0 brent -> length indicator = length uncorrected ->
  drift_correct brent indicator uncorrected (Some l) = Some c ->
  exists h h', smooth (/ 2) 0 l (map (fun p => fst p * (1 + (snd p - offset c) * slope c)) (combine uncorrected indicator)) = Some h /\
  smooth (/ 2) 0 l uncorrected = Some h' /\
  - sum (map (fun v => ln v * v) (filter (fun v => if Rlt_dec 0 v then true else false) h)) <=
  - sum (map (fun v => ln v * v) (filter (fun v => if Rlt_dec 0 v then true else false) h')).
Proof.
  intros B L. unfold drift_correct. destruct (median indicator) as [m|] eqn:M; [|discriminate].
  destruct (Rlt_dec l 0) as [|N]; [discriminate|]. intros H. apply dc_inj in H. subst c. cbn [slope offset].
  set (cs := map (fun v => v - m) indicator). specialize (B (entropy l uncorrected cs)). set (s := brent (entropy l uncorrected cs)) in *.
  unfold entropy in B. rewrite (scaled_zero uncorrected cs) in B by (unfold cs; now rewrite map_length).
  assert (E : scaled uncorrected cs s = map (fun p => fst p * (1 + (snd p - m) * s)) (combine uncorrected indicator)).
  { clearbody s. unfold scaled, cs. clear. revert indicator. generalize uncorrected as us. induction us as [|x u IH]; intros [|y i]; cbn; try reflexivity. now rewrite IH. }
  rewrite E in B. clear E.
  destruct (smooth (/ 2) 0 l (map _ (combine uncorrected indicator))) as [h|] eqn:E1; [|apply smoothed_raises in E1; lra].
  destruct (smooth (/ 2) 0 l uncorrected) as [h'|] eqn:E2; [|apply smoothed_raises in E2; lra].
  exists h, h'. split; [reflexivity|]. split; [reflexivity|]. exact B.
Qed.
Print Assumptions correction_entropy.

(** The channel's correction: every pulse, good or bad, is scaled by its pretrigger mean's distance from the offset. *)
Theorem channel_corrected brent good d : length (pretrig_mean d) = length (attr_value d) -> forall force d',
  (force = true \/ (forall x, In x (filt_value_dc d) -> x = 0)) -> channel_drift_correct brent good force d = Some d' ->
  exists c, drift_correct brent (select good (pretrig_mean d)) (select good (attr_value d)) None = Some c /\ stored d' = Some c /\
  length (filt_value_dc d') = length (attr_value d) /\
  (forall i, (i < length (attr_value d))%nat -> nth i (filt_value_dc d') 0 = nth i (attr_value d) 0 * (1 + (nth i (pretrig_mean d) 0 - offset c) * slope c)) /\
  filt_value d' = filt_value d /\ attr_value d' = attr_value d /\ pretrig_mean d' = pretrig_mean d.
Proof.
  intros L force d' F. unfold channel_drift_correct.
  assert (force || (all_zero (filt_value_dc d) || all_same (filt_value_dc d) (filt_value d)) = true) as ->.
  { destruct F as [-> | F]; [reflexivity|]. apply all_zero_spec in F. rewrite F. now rewrite orb_true_r. }
  destruct (drift_correct brent _ _ None) as [c|]; [|discriminate]. intros H. apply dc_inj in H. subst d'. exists c. cbn [stored filt_value_dc filt_value attr_value pretrig_mean].
  split; [reflexivity|]. split; [reflexivity|]. split; [now apply apply_length|]. split; [|auto]. intros i I. now apply apply_nth.
Qed.
Print Assumptions channel_corrected.

(** A pulse at the median pretrigger mean keeps its height. *)
Theorem median_pulse_unchanged c u p i : (i < length u)%nat -> length p = length u -> nth i p 0 = offset c -> nth i (apply_correction c u p) 0 = nth i u 0.
Proof. intros I L E. rewrite apply_nth by assumption. rewrite E. lra. Qed.
Print Assumptions median_pulse_unchanged.

(** Adding a constant to all pretrigger means changes no corrected height. *)
Theorem channel_shift brent good c d d1 d2 :
  channel_drift_correct brent good true d = Some d1 ->
  channel_drift_correct brent good true {| filt_value := filt_value d; attr_value := attr_value d; pretrig_mean := map (fun v => v + c) (pretrig_mean d);
                                           filt_value_dc := filt_value_dc d; stored := stored d |} = Some d2 ->
  filt_value_dc d1 = filt_value_dc d2.
Proof.
  unfold channel_drift_correct. cbn [orb filt_value attr_value pretrig_mean filt_value_dc stored]. rewrite select_map, drift_shift.
  destruct (drift_correct brent (select good (pretrig_mean d)) (select good (attr_value d)) None) as [k|]; [|discriminate]. cbn [option_map].
  intros H1 H2. apply dc_inj in H1. apply dc_inj in H2. subst. cbn [filt_value_dc]. symmetry. apply apply_shift.
Qed.
Print Assumptions channel_shift.

(** What is cut has no influence on the correction. *)
Theorem bad_pulses_ignored brent good d e d' e' :
  select good (pretrig_mean d) = select good (pretrig_mean e) -> select good (attr_value d) = select good (attr_value e) ->
  channel_drift_correct brent good true d = Some d' -> channel_drift_correct brent good true e = Some e' -> stored d' = stored e'.
Proof.
  intros P A. unfold channel_drift_correct. cbn [orb]. rewrite P, A. destruct (drift_correct brent _ _ None); [|discriminate].
  intros H1 H2. apply dc_inj in H1. apply dc_inj in H2. now subst.
Qed.
Print Assumptions bad_pulses_ignored.

(** Done once, it is not done again unless asked for, or unless it changed nothing. *)
Theorem correction_kept brent good d : (exists x, In x (filt_value_dc d) /\ x <> 0) ->
  (exists i, (i < length (filt_value_dc d))%nat /\ (i < length (filt_value d))%nat /\ nth i (filt_value_dc d) 0 <> nth i (filt_value d) 0) ->
  channel_drift_correct brent good false d = Some d.
Proof.
  intros (x & I & X) (i & A & B & N). unfold channel_drift_correct. cbn [orb].
  destruct (all_zero (filt_value_dc d)) eqn:E; [apply all_zero_spec with (x := x) in E; [contradiction|exact I]|]. cbn [orb].
  destruct (all_same (filt_value_dc d) (filt_value d)) eqn:F; [|reflexivity]. exfalso. unfold all_same in F. rewrite forallb_forall in F.
  assert (G : In (nth i (filt_value_dc d) 0, nth i (filt_value d) 0) (combine (filt_value_dc d) (filt_value d))).
  { clear - A B. revert i A B. generalize (filt_value d) as b. generalize (filt_value_dc d) as a. induction a as [|u a IH]; intros [|v b] [|i] A B; cbn in *; try lia; [now left|]. right. apply IH; lia. }
  specialize (F _ G). cbn in F. destruct (Req_EM_T (nth i (filt_value_dc d) 0) (nth i (filt_value d) 0)); [contradiction|discriminate].
Qed.
Print Assumptions correction_kept.

Example sample_drift : let brent := fun _ : R -> R => 1 / 100 in
  exists c, drift_correct brent [1; 3; 2] [10; 20; 30] (Some 50) = Some c /\ offset c = 2 /\ slope c = 1 / 100.
Proof.
  cbn zeta. unfold drift_correct, median. cbn -[Rdiv bins]. 
  destruct (Rle_dec 3 2); [lra|]. destruct (Rle_dec 1 2); [|lra]. cbn -[Rdiv bins].
  destruct (Rlt_dec 50 0); [lra|]. eexists. split; [reflexivity|]. cbn [offset slope]. split; [destruct (Rle_dec 1 2); [reflexivity|lra]|reflexivity].
Qed.

(* ---------- C88: correction in time ---------- *)

(** One degree at least and never more than allowed; each with enough time and enough pulses. *)
Theorem degrees_chosen dtime n spd ppd md : 0 <= dtime -> 0 < spd -> 0 < ppd ->
  let d := degrees dtime n spd ppd md in
  (1 <= d)%Z /\ (d <= Z.max md 1)%Z /\ (d = 1%Z \/ (IZR d * spd <= dtime /\ IZR d * ppd <= INR n)).
Proof. apply degrees_spec. Qed.
Print Assumptions degrees_chosen.

(** Thinning out leaves at least the number of pulses wanted for each degree. *)
Theorem thinned_enough (l : list R) d ppd : (1 <= d)%Z -> 0 < ppd ->
  let k := Z.to_nat (downsampling (length l) d ppd) in
  (1 <= k)%nat /\ (k = 1%nat \/ IZR d * ppd <= INR (length (stride k l))) /\
  (length l <= k * length (stride k l) < length l + k)%nat /\
  (forall i, (k * i < length l)%nat -> nth i (stride k l) 0 = nth (k * i) l 0).
Proof.
  intros D P. cbn zeta. destruct (downsampling_spec (length l) d ppd D P) as [K M]. set (z := downsampling (length l) d ppd) in *.
  assert (K' : (1 <= Z.to_nat z)%nat) by lia. destruct (strided_length (Z.to_nat z) (length l) l K' (Nat.le_refl _)) as [A B].
  split; [exact K'|]. split; [|split; [split; assumption|intros; unfold stride; apply strided_nth; auto]].
  destruct M as [-> | [M _]]; [now left|]. right. fold (stride (Z.to_nat z) l) in *. apply le_INR in A. rewrite mult_INR in A.
  assert (Q : INR (Z.to_nat z) = IZR z) by (rewrite INR_IZR_INZ, Z2Nat.id by lia; reflexivity). rewrite Q in A. apply IZR_le in K.
  apply (Rmult_le_reg_l (IZR z)); [lra|]. rewrite <- Rmult_assoc. lra.
Qed.
Print Assumptions thinned_enough.

(** The pulses it is made from are as many times as heights, all at normalized times between -1 and 1. *)
Theorem training_normalized brent entropy legendre time uncorrected spd ppd md ndeg limit info :
  time_drift_correct brent entropy legendre time uncorrected spd ppd md ndeg limit = Some info ->
  length (training_x info) = length (training_y info) /\ tmin info < tmax info /\ (forall x, In x (training_x info) -> -1 <= x <= 1) /\
  (forall y, In y (training_y info) -> In y uncorrected).
Proof.
  unfold time_drift_correct. destruct (match limit with Some l => Some l | None => option_map (fun p => (0, 5 / 4 * p)) (percentile 99 uncorrected) end) as [[lo hi]|]; [|discriminate].
  destruct (filter _ (combine time uncorrected)) as [|u us] eqn:F; [discriminate|].
  match goal with |- context [if Req_EM_T ?a ?b then _ else _] => destruct (Req_EM_T a b) as [|NE]; [discriminate|] end.
  match goal with |- context [if ?b then None else _] => destruct b; [discriminate|] end.
  intros H. apply dc_inj in H. subst info. cbn [training_x training_y tmin tmax].
  assert (MM : min_of (map fst (u :: us)) < max_of (map fst (u :: us))).
  { pose proof (min_max_spec (map fst (u :: us)) (fst u) (or_introl eq_refl)). lra. }
  split; [|split; [exact MM|split]].
  - rewrite map_length. unfold stride.
    match goal with |- length (strided ?f ?k ?a) = length (strided ?f' ?k ?b) => set (kk := k) end.
    assert (G : forall fuel (a b : list R), length a = length b -> length (strided fuel kk a) = length (strided fuel kk b)).
    { clear. induction fuel as [|fuel IH]; intros [|x a] [|y b] L; try discriminate; cbn [strided length]; [reflexivity|reflexivity|reflexivity|].
      f_equal. apply IH. rewrite !skipn_length. cbn in L. lia. }
    rewrite !map_length. apply G. now rewrite !map_length.
  - intros x I. apply in_map_iff in I. destruct I as (t & <- & I). apply strided_incl in I. apply normalize_range; [exact MM|]. now apply min_max_spec.
  - intros y I. apply strided_incl in I. apply in_map_iff in I. destruct I as ((t, y') & <- & I).
    assert (I' : In (t, y') (combine time uncorrected)) by (rewrite <- F in I; apply filter_In in I; tauto). cbn. now apply in_combine_r in I'.
Qed.
Print Assumptions training_normalized.

(** The correction that comes back never raises the entropy of the pulses it was made from: else it is no correction at all. *)
Theorem time_entropy brent entropy legendre time uncorrected spd ppd md ndeg limit info :
  time_drift_correct brent entropy legendre time uncorrected spd ppd md ndeg limit = Some info ->
  entropy (map (fun xy => snd xy * (1 + model info (fst xy))) (combine (training_x info) (training_y info))) <= entropy (training_y info).
Proof.
  intros T. destruct (training_normalized _ _ _ _ _ _ _ _ _ _ _ T) as (L & _). revert T L.
  unfold time_drift_correct. destruct (match limit with Some l => Some l | None => option_map (fun p => (0, 5 / 4 * p)) (percentile 99 uncorrected) end) as [[lo hi]|]; [|discriminate].
  destruct (filter _ (combine time uncorrected)) as [|u us]; [discriminate|].
  match goal with |- context [if Req_EM_T ?a ?b then _ else _] => destruct (Req_EM_T a b); [discriminate|] end.
  match goal with |- context [if ?b then None else _] => destruct b; [discriminate|] end.
  intros H. apply dc_inj in H. subst info. cbn [training_x training_y model]. intros L.
  match goal with |- context [Rle_dec ?a 0] => destruct (Rle_dec a 0) end; [|match goal with |- context [Rlt_dec 0 ?a] => destruct (Rlt_dec 0 a) end].
  - rewrite (uncorrected_model _ _ L). lra.
  - rewrite (uncorrected_model _ _ L). lra.
  - lra.
Qed.
Print Assumptions time_entropy.

(** Only heights strictly between the limits are used. *)
Theorem training_limits brent entropy legendre time uncorrected spd ppd md ndeg lo hi info y :
  time_drift_correct brent entropy legendre time uncorrected spd ppd md ndeg (Some (lo, hi)) = Some info -> In y (training_y info) -> lo < y < hi.
Proof.
  unfold time_drift_correct. destruct (filter _ (combine time uncorrected)) as [|u us] eqn:F; [discriminate|].
  match goal with |- context [if Req_EM_T ?a ?b then _ else _] => destruct (Req_EM_T a b) as [|NE]; [discriminate|] end.
  match goal with |- context [if ?b then None else _] => destruct b; [discriminate|] end.
  intros H. apply dc_inj in H. subst info. cbn [training_y]. intros I. apply strided_incl in I. apply in_map_iff in I. destruct I as ((t, z) & <- & I).
  rewrite <- F in I. apply filter_In in I. destruct I as [_ I]. cbn [snd] in *. destruct (Rlt_dec lo z); [|discriminate]. destruct (Rlt_dec z hi); [|discriminate]. lra.
Qed.
Print Assumptions training_limits.

(** The coefficients are found one after the other, with the later ones zero. *)
Theorem coefficients_greedy brent entropy legendre time uncorrected spd ppd md d limit info :
  time_drift_correct brent entropy legendre time uncorrected spd ppd md (Some d) limit = Some info ->
  length (coefficients info) = d /\ forall j, (j < d)%nat -> nth j (coefficients info) 0 =
    brent (cost entropy legendre (training_x info) (training_y info) (firstn j (coefficients info) ++ repeat 0 (d - j)) j).
Proof.
  unfold time_drift_correct. destruct (match limit with Some l => Some l | None => option_map (fun p => (0, 5 / 4 * p)) (percentile 99 uncorrected) end) as [[lo hi]|]; [|discriminate].
  destruct (filter _ (combine time uncorrected)) as [|u us]; [discriminate|].
  match goal with |- context [if Req_EM_T ?a ?b then _ else _] => destruct (Req_EM_T a b); [discriminate|] end.
  destruct (Nat.eqb d 0); [discriminate|].
  intros H. apply dc_inj in H. subst info. cbn [coefficients training_x training_y].
  match goal with |- context [fit brent entropy legendre ?a ?b 0 d (repeat 0 d)] => destruct (fit_greedy brent entropy legendre a b d []) as (r & E & L & V) end.
  cbn [length app] in E. rewrite E. cbn [app]. split; [exact L|]. intros j J. exact (V j J).
Qed.
Print Assumptions coefficients_greedy.

Lemma sum_zeros {A} (f : A -> R) l : (forall i, In i l -> f i = 0) -> sum (map f l) = 0.
Proof. induction l as [|x l IH]; intros H; [reflexivity|]. cbn. rewrite (H x) by now left. change (0 + sum (map f l) = 0). rewrite IH by (intros; apply H; now right). lra. Qed.
Lemma nth_first (l : list R) : forall n k, (k < n)%nat -> nth k (firstn n l) 0 = nth k l 0.
Proof. induction l as [|x l IH]; intros [|n] [|k] H; try lia; try reflexivity. cbn. apply IH. lia. Qed.
Lemma polynomial_prefix g co j p r : (j <= length co)%nat ->
  total (map (fun i => nth i (firstn j co ++ p :: repeat 0 r) 0 * g (S i)) (seq 0 (j + S r))) = sum (map (fun i => nth i co 0 * g (i + 1)%nat) (seq 0 j)) + p * g (j + 1)%nat.
Proof.
  intros L. assert (LF : length (firstn j co) = j) by (rewrite firstn_length; lia). rewrite total_sum, seq_app, map_app, sum_app. cbn [Nat.add seq map]. f_equal.
  - f_equal. apply map_ext_in. intros i I. apply in_seq in I. rewrite app_nth1 by lia. rewrite nth_first by lia. now rewrite Nat.add_1_r.
  - change (nth j (firstn j co ++ p :: repeat 0 r) 0 * g (S j) + sum (map (fun i => nth i (firstn j co ++ p :: repeat 0 r) 0 * g (S i)) (seq (S j) r)) = p * g (j + 1)%nat). rewrite sum_zeros.
    + rewrite app_nth2 by lia. rewrite LF, Nat.sub_diag. cbn [nth]. rewrite Nat.add_1_r. lra.
    + intros i I. apply in_seq in I. rewrite app_nth2 by lia. rewrite LF. destruct (i - j)%nat as [|m] eqn:IJ; [lia|]. cbn [nth].
      assert (Z : forall n k, nth k (repeat 0 n) 0 = 0) by (induction n as [|n IH]; intros [|k]; cbn; auto). rewrite Z. lra.
Qed.
(** Each is the minimum of the entropy of the heights corrected by the polynomials up to its degree, from degree one. *)
Theorem coefficient_minimises brent entropy legendre time uncorrected spd ppd md d limit info :
  time_drift_correct brent entropy legendre time uncorrected spd ppd md (Some d) limit = Some info ->
  forall j, (j < d)%nat -> let corrected c := map (fun xy => snd xy * (1 + (sum (map (fun i => nth i (coefficients info) 0 * legendre (i + 1)%nat (fst xy)) (seq 0 j)) + c * legendre (j + 1)%nat (fst xy)))) (combine (training_x info) (training_y info)) in
  let spread c := entropy (corrected c) in
  nth j (coefficients info) 0 = brent spread /\ ((forall c, spread (brent spread) <= spread c) -> forall c, spread (nth j (coefficients info) 0) <= spread c).
Proof.
  intros T j J corrected spread. destruct (coefficients_greedy _ _ _ _ _ _ _ _ _ _ _ T) as (L & G). specialize (G j J). set (co := coefficients info) in *.
  assert (C : forall p, cost entropy legendre (training_x info) (training_y info) (firstn j co ++ repeat 0 (d - j)) j p = spread p).
  { intros p. unfold cost, spread, corrected. f_equal. apply map_ext. intros xy. f_equal. f_equal. unfold polynomial, set_nth.
    assert (LF : length (firstn j co) = j) by (rewrite firstn_length; lia).
    rewrite firstn_app, LF, Nat.sub_diag, firstn_O, app_nil_r, firstn_firstn, Nat.min_id. rewrite skipn_app, LF, skipn_all2 by lia. cbn [app]. replace (S j - j)%nat with 1%nat by lia. destruct (d - j)%nat as [|r] eqn:DJ; [lia|]. cbn [repeat skipn].
    rewrite app_length. cbn [length]. rewrite LF, repeat_length. apply (polynomial_prefix (fun i => legendre i (fst xy)) co j p r). lia. }
  apply functional_extensionality in C. rewrite C in G. split; [exact G|]. intros M c. rewrite G. apply M.
Qed.
Print Assumptions coefficient_minimises.

Lemma strided_pairs f k : forall a b p, length a = length b -> In p (combine (strided f k a) (strided f k b)) -> In p (combine a b).
Proof.
  induction f as [|f IH]; intros a b p L H; [destruct H|]. destruct a as [|x a], b as [|y b]; try discriminate L; [destruct H|]. cbn [strided combine] in H. destruct H as [<-|H]; [now left|]. right. injection L as L.
  assert (Q : In p (combine (skipn (k - 1) a) (skipn (k - 1) b))) by (apply IH; [rewrite !skipn_length; lia|exact H]). clear H. revert a b L Q. induction (k - 1)%nat as [|m IHm]; intros a b L Q; [exact Q|]. destruct a, b; try discriminate L; [exact Q|]. right. apply IHm; [now injection L|exact Q].
Qed.
(** The pulses used: each normalized time belongs to a height of the same pulse. *)
Theorem training_pairs brent entropy legendre time uncorrected spd ppd md ndeg limit info x y :
  time_drift_correct brent entropy legendre time uncorrected spd ppd md ndeg limit = Some info -> In (x, y) (combine (training_x info) (training_y info)) ->
  exists t, In (t, y) (combine time uncorrected) /\ x = normalize (tmin info) (tmax info) t.
Proof.
  unfold time_drift_correct. destruct (match limit with Some l => Some l | None => option_map (fun p => (0, 5 / 4 * p)) (percentile 99 uncorrected) end) as [[lo hi]|]; [|discriminate].
  destruct (filter _ (combine time uncorrected)) as [|u us] eqn:F; [discriminate|].
  match goal with |- context [if Req_EM_T ?a ?b then _ else _] => destruct (Req_EM_T a b) as [|NE]; [discriminate|] end.
  match goal with |- context [if ?b then None else _] => destruct b; [discriminate|] end.
  intros H. apply dc_inj in H. subst info. cbn [training_x training_y tmin tmax]. unfold stride. rewrite !map_length. set (used := u :: us) in *. set (t0 := min_of _). set (t1 := max_of _). set (k := match ndeg with Some _ => 1%nat | None => _ end).
  intros I. assert (E : forall a b, combine (map (normalize t0 t1) a) b = map (fun p : R * R => (normalize t0 t1 (fst p), snd p)) (combine a b)) by (induction a as [|v a IHa]; intros [|w b]; cbn; try reflexivity; now rewrite IHa).
  rewrite E in I. apply in_map_iff in I as ((t & w) & Q & I). cbn [fst snd] in Q. injection Q as <- <-. apply strided_pairs in I; [|now rewrite !map_length]. exists t. split; [|reflexivity].
  assert (U : combine (map fst used) (map snd used) = used) by (clear; induction used as [|[a b] l IHl]; cbn; [reflexivity|now rewrite IHl]). rewrite U, <- F in I. apply filter_In in I. tauto.
Qed.
Print Assumptions training_pairs.
Lemma select_pairs : forall g a b t u, length a = length g -> length b = length g -> In (t, u) (combine (select g a) (select g b)) -> exists i, nth_error g i = Some true /\ nth_error a i = Some t /\ nth_error b i = Some u.
Proof.
  induction g as [|c g IH]; intros [|x a] [|y b] t u A B H; try discriminate; [destruct H|]. injection A as A. injection B as B.
  assert (R : In (t, u) (combine (select g a) (select g b)) -> exists i, nth_error (c :: g) i = Some true /\ nth_error (x :: a) i = Some t /\ nth_error (y :: b) i = Some u) by (intros Q; destruct (IH a b t u A B Q) as (i & I); now exists (S i)).
  destruct c; [|exact (R H)]. destruct H as [H|H]; [|exact (R H)]. injection H as <- <-. now exists 0%nat.
Qed.
(** The channel uses the time and height of good pulses within a half of the median height. *)
Theorem channel_training brent laplace legendre good timestamp attr spd ppd md out info x y : length timestamp = length good -> length attr = length good ->
  channel_time_drift brent laplace legendre good timestamp attr spd ppd md = Some (out, info) -> In (x, y) (combine (training_x info) (training_y info)) ->
  exists i t m, nth_error good i = Some true /\ nth_error timestamp i = Some t /\ nth_error attr i = Some y /\ x = normalize (tmin info) (tmax info) t /\ median (select good attr) = Some m /\ Rabs (y / m - 1) < / 2.
Proof.
  intros LT LA. unfold channel_time_drift. destruct (median (select good attr)) as [pk|]; [|discriminate]. destruct (Req_EM_T pk 0); [discriminate|].
  set (g := map _ (combine good attr)). assert (LG : length g = length good) by (unfold g; rewrite map_length, combine_length; lia).
  destruct (time_drift_correct brent _ legendre _ _ 2000 2000 20 None _) as [k|] eqn:T; [|discriminate]. intros H I. injection H as <- <-. destruct (training_pairs _ _ _ _ _ _ _ _ _ _ _ _ _ T I) as (t & P & ->).
  apply select_pairs in P as (i & G & A & B); [|congruence..]. unfold g in G. rewrite nth_error_map in G. destruct (nth_error (combine good attr) i) as [[c v]|] eqn:C; [|discriminate]. cbn [option_map fst snd] in G.
  assert (CC : nth_error good i = Some c /\ nth_error attr i = Some v). { clear - C. revert good attr C. induction i as [|i IH]; intros [|a l] [|b r] C; try discriminate; cbn in *; [injection C as <- <-; auto|now apply IH]. }
  destruct CC as [C1 C2]. rewrite B in C2. injection C2 as <-. destruct c; [|discriminate]. destruct (Rlt_dec (Rabs (y / pk - 1)) (/ 2)); [|discriminate]. exists i, t, pk. repeat split; assumption.
Qed.
Print Assumptions channel_training.

(** The channel's correction takes no notice of the limits on the degree that it is called with. *)
Theorem channel_limits_ignored brent laplace legendre good timestamp attr spd ppd md spd' ppd' md' :
  channel_time_drift brent laplace legendre good timestamp attr spd ppd md = channel_time_drift brent laplace legendre good timestamp attr spd' ppd' md'.
Proof. reflexivity. Qed.
Print Assumptions channel_limits_ignored.

(** Every pulse is scaled by what the model says at its time. *)
Theorem channel_time_corrected brent laplace legendre good timestamp attr spd ppd md out info :
  channel_time_drift brent laplace legendre good timestamp attr spd ppd md = Some (out, info) -> length timestamp = length attr ->
  length out = length attr /\ forall i, (i < length attr)%nat -> nth i out 0 = nth i attr 0 * (1 + model info (normalize (tmin info) (tmax info) (nth i timestamp 0))).
Proof.
  unfold channel_time_drift. destruct (median (select good attr)) as [pk|]; [|discriminate]. destruct (Req_EM_T pk 0); [discriminate|].
  destruct (time_drift_correct brent _ legendre _ _ 2000 2000 20 None _) as [k|]; [|discriminate]. intros H L. injection H as <- <-.
  split; [rewrite map_length, combine_length; lia|]. intros i I.
  set (f := fun p : R * R => snd p * (1 + model k (normalize (tmin k) (tmax k) (fst p)))). rewrite (nth_indep _ 0 (f (0, 0))) by (rewrite map_length, combine_length; lia).
  rewrite map_nth. rewrite combine_nth by exact L. reflexivity.
Qed.
Print Assumptions channel_time_corrected.

Example sample_time : exists info,
  time_drift_correct (fun _ => 1 / 10) (fun l => sum l) (fun _ x => x) [0; 10] [3; 4] 2000 2000 20 None (Some (0, 10)) = Some info /\ training_x info <> [].
Proof.
  unfold time_drift_correct. cbn [combine filter snd fst]. destruct (Rlt_dec 0 3); [|lra]. destruct (Rlt_dec 3 10); [|lra]. destruct (Rlt_dec 0 4); [|lra]. destruct (Rlt_dec 4 10); [|lra].
  cbn [map fst snd min_of max_of fold_left]. assert (E1 : Rmin 0 10 = 0) by (unfold Rmin; destruct (Rle_dec 0 10); lra). assert (E2 : Rmax 0 10 = 10) by (unfold Rmax; destruct (Rle_dec 0 10); lra).
  rewrite E1, E2.
  destruct (Req_EM_T 0 10); [lra|]. destruct (Req_EM_T 2000 0); [lra|]. eexists. split; [reflexivity|]. cbn [training_x]. cbn [length].
  unfold stride. cbn [length strided]. discriminate.
Qed.
Example sample_pairs : exists info,
  time_drift_correct (fun _ => 1 / 10) (fun l => sum l) (fun _ x => x) [0; 10] [3; 4] 2000 2000 20 None (Some (0, 10)) = Some info /\ training_x info <> [] /\
  forall x y, In (x, y) (combine (training_x info) (training_y info)) -> y = 3 \/ y = 4.
Proof.
  destruct sample_time as (info & T & N). exists info. split; [exact T|]. split; [exact N|]. intros x y I. destruct (training_pairs _ _ _ _ _ _ _ _ _ _ _ _ _ T I) as (t & [H | [H | []]] & _); injection H as _ <-; auto.
Qed.
(** An entropy least at a total of 7, and a minimizer that answers 0 *)
Definition from7 (l : list R) : R := (sum l - 7) * (sum l - 7).
Example sample_coefficient : exists info,
  time_drift_correct (fun _ => 0) from7 (fun _ x => x) [0; 10] [3; 4] 2000 2000 20 (Some 1%nat) (Some (0, 10)) = Some info /\ nth 0 (coefficients info) 0 = 0 /\
  forall c, from7 (map (fun xy => snd xy * (1 + (0 + 0 * fst xy))) (combine (training_x info) (training_y info))) <= from7 (map (fun xy => snd xy * (1 + (0 + c * fst xy))) (combine (training_x info) (training_y info))).
Proof.
  assert (X : exists info, time_drift_correct (fun _ => 0) from7 (fun _ x => x) [0; 10] [3; 4] 2000 2000 20 (Some 1%nat) (Some (0, 10)) = Some info /\ exists a b, combine (training_x info) (training_y info) = [(a, 3); (b, 4)]).
  { unfold time_drift_correct. cbn [combine filter snd fst]. destruct (Rlt_dec 0 3); [|lra]. destruct (Rlt_dec 3 10); [|lra]. destruct (Rlt_dec 0 4); [|lra]. destruct (Rlt_dec 4 10); [|lra].
    cbn [map fst snd min_of max_of fold_left]. assert (E1 : Rmin 0 10 = 0) by (unfold Rmin; destruct (Rle_dec 0 10); lra). assert (E2 : Rmax 0 10 = 10) by (unfold Rmax; destruct (Rle_dec 0 10); lra).
    rewrite E1, E2. destruct (Req_EM_T 0 10); [lra|]. cbn [Nat.eqb]. eexists. split; [reflexivity|]. cbn [training_x training_y]. unfold stride. cbn [length strided map combine]. now repeat eexists. }
  destruct X as (info & T & a & b & C). exists info. split; [exact T|]. destruct (coefficient_minimises _ _ _ _ _ _ _ _ _ _ _ T 0%nat Nat.lt_0_1) as [E M]. split; [exact E|].
  rewrite C in M |- *. intros c. rewrite E in M. cbn [seq map sum fold_right fst snd] in M. cbn [map fst snd]. apply M. intros c'. unfold from7. cbn [sum fold_right]. match goal with |- ?u * ?u <= ?v * ?v => replace u with 0 by lra; pose proof (Rle_0_sqr v) as Q end. unfold Rsqr in Q. lra.
Qed.
Example sample_channel_time : exists out info, channel_time_drift (fun _ => 0) (fun _ _ => 1) (fun _ x => x) [true; false; true] [0; 5; 10] [3; 100; 4] 1 1 1 = Some (out, info) /\
  forall x y, In (x, y) (combine (training_x info) (training_y info)) -> y <> 100.
Proof.
  assert (X : exists p, channel_time_drift (fun _ => 0) (fun _ _ => 1) (fun _ x => x) [true; false; true] [0; 5; 10] [3; 100; 4] 1 1 1 = Some p).
  { assert (M : median (select [true; false; true] [3; 100; 4]) = Some ((3 + 4) / 2)) by (unfold median, select; cbn; destruct (Rle_dec 3 4); [reflexivity|lra]).
    unfold channel_time_drift. rewrite M. destruct (Req_EM_T ((3 + 4) / 2) 0); [lra|]. cbn [combine map fst snd andb].
    assert (A3 : Rabs (3 / ((3 + 4) / 2) - 1) < / 2) by (apply Rabs_def1; lra). assert (A4 : Rabs (4 / ((3 + 4) / 2) - 1) < / 2) by (apply Rabs_def1; lra).
    destruct (Rlt_dec (Rabs (3 / ((3 + 4) / 2) - 1)) (/ 2)); [|contradiction]. destruct (Rlt_dec (Rabs (4 / ((3 + 4) / 2) - 1)) (/ 2)); [|contradiction].
    unfold time_drift_correct, select. cbn [combine filter map fst snd]. destruct (Rlt_dec (/ 2 * ((3 + 4) / 2)) 3); [|lra]. destruct (Rlt_dec 3 (2 * ((3 + 4) / 2))); [|lra]. destruct (Rlt_dec (/ 2 * ((3 + 4) / 2)) 4); [|lra]. destruct (Rlt_dec 4 (2 * ((3 + 4) / 2))); [|lra].
    cbn [map fst snd min_of max_of fold_left]. assert (E1 : Rmin 0 10 = 0) by (unfold Rmin; destruct (Rle_dec 0 10); lra). assert (E2 : Rmax 0 10 = 10) by (unfold Rmax; destruct (Rle_dec 0 10); lra).
    rewrite E1, E2. destruct (Req_EM_T 0 10); [lra|]. destruct (Req_EM_T 2000 0); [lra|]. eexists. reflexivity. }
  destruct X as [[out info] X]. exists out, info. split; [exact X|]. intros x y I ->. destruct (channel_training _ _ _ [true; false; true] [0; 5; 10] [3; 100; 4] _ _ _ _ _ _ _ eq_refl eq_refl X I) as (i & t & m & G & _ & A & _).
  destruct i as [|[|[|[|i]]]]; cbn in G, A; try discriminate; apply (f_equal (fun o => match o with Some v => v | None => 0 end)) in A; lra.
Qed.
Example sample_truncate : truncate (- (3 / 2)) = (-1)%Z.
Proof.
  destruct (truncated_toward_zero (- (3 / 2))) as [_ H]. specialize (H ltac:(lra)). set (z := truncate (- (3 / 2))) in *. assert (z < 0)%Z by (apply lt_IZR; lra). assert (-2 < z)%Z by (apply lt_IZR; lra). lia.
Qed.
Example sample_percentile : exists v, percentile 50 [5; 2; 3] = Some v /\ v = 3.
Proof.
  assert (E : 100 * INR 1 / INR (length [5; 2; 3] - 1) = 50) by (cbn; lra). destruct (percentile_rank 1 [5; 2; 3] ltac:(cbn; lia) ltac:(cbn; lia)) as (s & v & _ & _ & P & _). rewrite E in P. exists v. split; [exact P|].
  unfold percentile in P. cbn [length] in P. replace (50 / 100 * INR (3 - 1)) with 1 in P by (cbn; lra). assert (I1 : Int_part 1 = 1%Z) by (apply part_is; lra). rewrite I1 in P. unfold isort in P. cbn [fold_right insert] in P.
  destruct (Rle_dec 2 3); [|lra]. cbn [insert] in P. destruct (Rle_dec 5 2); [lra|]. destruct (Rle_dec 5 3); [lra|]. change (Z.to_nat 1) with 1%nat in P. cbn [nth] in P. apply (f_equal (fun o => match o with Some w => w | None => 0 end)) in P. lra.
Qed.
Example sample_limits : exists h, make_smooth_histogram [1; 2; 7] 1 0 (Some 5) = Some h /\ sum h = 2.
Proof.
  destruct sample_smoothing as (h & E & S). exists h. split; [exact E|]. exact S.
Qed.
