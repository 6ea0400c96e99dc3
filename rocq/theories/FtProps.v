(** Band limits of model vectors and the low-pass filter of signals (C104). *)
From Coq Require Import Reals ZArith Bool Lra Lia List.
From Verif Require Import FtModel FtAlg FtSpec FtProofs.
Import ListNotations.
Local Open Scope R_scope.

Local Notation good f3 := (forall c, f3 = Some c -> c <> 0).

(** Every oscillation of the result is that of the input times the part that is kept at its frequency. *)
Theorem band_limit_scales v dt fmax f3 w : good f3 -> band_limit v dt fmax f3 = Some w ->
  scaled_by (length v) (fun k g => kept fmax f3 (INR k / (INR (length v) * dt)) g /\ 0 <= g <= 1) v w.
Proof.
  intros C E. pose proof (band_scales_all _ _ _ _ _ C E) as (A & B & H). split; [exact A|]. split; [exact B|]. intros k K. destruct (H k K) as (g & G & HH). exists g. split; [|exact HH]. split; [exact G|]. exact (kept_unit _ _ _ _ C G).
Qed.
(** No other vector has these oscillations. *)
Theorem band_limit_unique v dt fmax f3 w : good f3 -> v <> [] ->
  (band_limit v dt fmax f3 = Some w <-> scaled_by (length v) (fun k g => kept fmax f3 (INR k / (INR (length v) * dt)) g) v w).
Proof. intros C NV. split; [now apply band_scales_all|now apply band_is]. Qed.
Theorem oscillations_determine x y : length x = length y -> (forall k, (2 * k <= length x)%nat -> cosines x k = cosines y k /\ sines x k = sines y k) -> x = y.
Proof. intros L H. apply F_determines; [exact L|]. intros k K. rewrite !F_contents. destruct (H k K) as [-> ->]. reflexivity. Qed.
Theorem nothing_to_limit v dt : band_limit v dt None None = Some v.
Proof. reflexivity. Qed.
Theorem empty_raises dt fmax f3 : (band_limit [] dt fmax f3 = None <-> (fmax, f3) <> (None, None)) /\ forall v, v <> [] -> exists w, band_limit v dt fmax f3 = Some w /\ length w = length v.
Proof.
  split.
  - unfold band_limit. destruct fmax, f3; split; intros H; try congruence; try discriminate.
  - intros v NV. destruct (band_defined v dt fmax f3 NV) as (w & E). exists w. split; [exact E|]. exact (band_length _ _ _ _ _ E).
Qed.
Theorem tones_scaled n k a b dt fmax f3 g : good f3 -> (2 * k <= n)%nat -> (0 < n)%nat -> kept fmax f3 (INR k / (INR n * dt)) g ->
  band_limit (tone n k a b) dt fmax f3 = Some (tone n k (g * a) (g * b)).
Proof.
  intros C K N G. apply band_is; [exact C|intros E; apply (f_equal (@length R)) in E; rewrite tone_length in E; cbn in E; lia|]. rewrite tone_length. apply scaled_by_F. rewrite !tone_length. split; [reflexivity|]. split; [reflexivity|].
  intros l L. destruct (Nat.eq_dec k l) as [<-|D].
  - exists g. split; [exact G|]. rewrite tone_combined, F_combined by reflexivity. change (real 0) with c0. ring.
  - eexists. split; [apply gain_kept, C|]. rewrite !F_tone_other by assumption. ring.
Qed.
Theorem band_limit_linear a x b y dt fmax f3 x' y' : good f3 -> length x = length y -> band_limit x dt fmax f3 = Some x' -> band_limit y dt fmax f3 = Some y' ->
  band_limit (combined a x b y) dt fmax f3 = Some (combined a x' b y').
Proof.
  intros C L EX EY. pose proof (band_length _ _ _ _ _ EX) as LX. pose proof (band_length _ _ _ _ _ EY) as LY. destruct x as [|x0 x].
  { destruct y; [|discriminate]. unfold band_limit in *. destruct fmax, f3; try discriminate. injection EX as <-. injection EY as <-. reflexivity. }
  apply band_is; [exact C|intros E; apply (f_equal (@length R)) in E; rewrite combined_length in E; discriminate|]. rewrite combined_length. apply scaled_by_F. rewrite !combined_length. split; [reflexivity|]. split; [exact LX|]. intros k K.
  destruct (cut_contents _ _ _ _ _ k C EX K) as (g & G & E1). destruct (cut_contents _ _ _ _ _ k C EY ltac:(rewrite <- L; exact K)) as (h & H & E2). rewrite <- L in H. rewrite <- (kept_unique _ _ _ _ _ C G H) in E2. exists g. split; [exact G|].
  rewrite !F_combined by congruence. rewrite E1, E2. ring.
Qed.
(** The energy does not grow, and the sum of the vector stays. *)
Theorem energy_not_increased v dt fmax f3 w : good f3 -> band_limit v dt fmax f3 = Some w -> energy w <= energy v.
Proof.
  intros C E. pose proof (band_length _ _ _ _ _ E) as L. destruct v as [|a v]; [destruct w; [unfold energy; cbn; lra|discriminate]|].
  rewrite <- (Rmult_1_l (energy (a :: v))). apply contents_all; [now symmetry|cbn; lia|]. intros k K. destruct (cut_contents _ _ _ _ _ k C E K) as (g & G & ->). pose proof (kept_unit _ _ _ _ C G). cbn [fst snd cmul real].
  set (p := fst _). set (q := snd _). assert (g * g <= 1) by nra. pose proof (pow2_ge_0 p). pose proof (pow2_ge_0 q). replace ((g * p - 0 * q) ^ 2 + (g * q + 0 * p) ^ 2) with (g * g * (p ^ 2 + q ^ 2)) by ring. nra.
Qed.
Lemma cosines0 x : cosines x 0 = rsum (length x) (fun j => nth j x 0).
Proof. apply rsum_ext. intros j _. unfold turn. cbn [INR]. replace (2 * PI * INR j * 0 / INR (length x)) with 0 by (unfold Rdiv; ring). rewrite cos_0. ring. Qed.
Theorem sum_kept v dt fmax f3 w : good f3 -> (forall m, fmax = Some m -> 0 <= m) -> band_limit v dt fmax f3 = Some w -> rsum (length w) (fun j => nth j w 0) = rsum (length v) (fun j => nth j v 0).
Proof.
  intros C M E. pose proof (band_scales_all _ _ _ _ _ C E) as (_ & _ & H). destruct (H 0%nat ltac:(lia)) as (g & G & HC & _). rewrite !cosines0 in HC. rewrite HC. assert (g = 1); [|subst; ring].
  apply (kept_unique fmax f3 (INR 0 / (INR (length v) * dt))); [exact C|exact G|]. right. replace (INR 0 / (INR (length v) * dt)) with 0 by (cbn; unfold Rdiv; ring). split; [exact M|]. destruct f3; [ring|reflexivity].
Qed.
(** A largest frequency beyond half the sampling frequency removes nothing, a negative one everything. *)
Theorem beyond_half_the_rate v dt m : 0 < dt -> v <> [] -> 1 <= 2 * dt * m -> band_limit v dt (Some m) None = Some v.
Proof.
  intros D NV M. assert (N : 0 < INR (length v)) by (apply lt_0_INR; destruct v; [congruence|cbn; lia]). apply band_is; [discriminate|exact NV|]. split; [reflexivity|]. split; [reflexivity|]. intros k K. exists 1. split; [|split; ring]. right. split; [|reflexivity]. intros m0 [= <-].
  apply le_INR in K. rewrite mult_INR in K. cbn [INR] in K. apply Rmult_le_reg_r with (INR (length v) * dt); [nra|]. unfold Rdiv. rewrite Rmult_assoc, Rinv_l by nra. nra.
Qed.
Theorem below_zero v dt m f3 : 0 < dt -> v <> [] -> m < 0 -> good f3 -> band_limit v dt (Some m) f3 = Some (repeat 0 (length v)).
Proof.
  intros D NV M C. assert (N : 0 < INR (length v)) by (apply lt_0_INR; destruct v; [congruence|cbn; lia]). apply band_is; [exact C|exact NV|]. split; [reflexivity|]. split; [apply repeat_length|]. intros k K. exists 0. split.
  - left. exists m. split; [reflexivity|]. split; [|reflexivity]. apply Rlt_le_trans with 0; [exact M|]. apply Rmult_le_pos; [apply pos_INR|]. left. apply Rinv_0_lt_compat. nra.
  - assert (Z : forall n j, nth j (repeat 0 n) 0 = 0) by (intros n j; destruct (nth_in_or_default j (repeat 0 n) 0) as [I|I]; [now apply repeat_spec in I|exact I]).
    unfold cosines, sines. rewrite !repeat_length. split; rewrite (rsum_ext _ _ (fun _ => 0)); try (intros j _; rewrite Z; ring); rewrite Rmult_0_l; clear; induction (length v) as [|n IH]; cbn; lra.
Qed.
(** Limiting twice is limiting once by the smaller frequency; in particular, again changes nothing. *)
Theorem twice_is_once v dt m1 m2 w : band_limit v dt (Some m1) None = Some w -> band_limit w dt (Some m2) None = band_limit v dt (Some (Rmin m1 m2)) None.
Proof.
  intros E. assert (C : good (@None R)) by discriminate. pose proof (band_length _ _ _ _ _ E) as L. destruct v as [|a v]; [discriminate|]. destruct (band_defined w dt (Some m2) None) as (u & EU); [intros ->; discriminate|]. rewrite EU. symmetry. apply band_is; [exact C|discriminate|].
  pose proof (band_length _ _ _ _ _ EU) as LU. apply scaled_by_F. split; [reflexivity|]. split; [congruence|]. intros k K. destruct (cut_contents _ _ _ _ _ k C E K) as (g & G & E1). destruct (cut_contents _ _ _ _ _ k C EU ltac:(rewrite L; exact K)) as (h & H & E2). rewrite L in H. rewrite E1 in E2.
  exists (h * g). split; [|rewrite E2, real_mul; ring]. unfold kept_at, kept in *. destruct G as [(m & [= <-] & G & ->)|[G ->]], H as [(m' & [= <-] & H & ->)|[H ->]].
  - left. exists (Rmin m1 m2). split; [reflexivity|]. split; [|ring]. pose proof (Rmin_l m1 m2). lra.
  - left. exists (Rmin m1 m2). split; [reflexivity|]. split; [|ring]. pose proof (Rmin_l m1 m2). lra.
  - left. exists (Rmin m1 m2). split; [reflexivity|]. split; [|ring]. pose proof (Rmin_r m1 m2). lra.
  - right. split; [|ring]. intros m [= <-]. apply Rmin_glb; [now apply G|now apply H].
Qed.
(** A vector moved round is limited to the limited vector moved round. *)
Theorem moving_commutes s v dt fmax f3 w : good f3 -> band_limit v dt fmax f3 = Some w -> band_limit (moved s v) dt fmax f3 = Some (moved s w).
Proof.
  intros C E. pose proof (band_length _ _ _ _ _ E) as L. destruct v as [|a v]; [destruct fmax, f3; try discriminate; injection E as <-; reflexivity|].
  apply band_is; [exact C|intros Q; apply (f_equal (@length R)) in Q; rewrite moved_length in Q; discriminate|]. rewrite moved_length. apply scaled_by_F. rewrite !moved_length. split; [reflexivity|]. split; [exact L|]. intros k K.
  destruct (cut_contents _ _ _ _ _ k C E K) as (g & G & E1). exists g. split; [exact G|]. rewrite !F_moved by (rewrite ?L; cbn; lia). rewrite E1, L. ring.
Qed.
Theorem columns_limited m dt fmax f3 r : band_limit_columns m dt fmax f3 = Some r <-> Forall2 (fun v w => band_limit v dt fmax f3 = Some w) m r.
Proof.
  revert r. induction m as [|v m IH]; intros r; cbn.
  - split; intros H; [injection H as <-; constructor|now inversion H].
  - split.
    + destruct (band_limit v dt fmax f3) as [w|] eqn:E; [|discriminate]. destruct (band_limit_columns m dt fmax f3) as [b|]; [|discriminate]. intros [= <-]. constructor; [exact E|now apply IH].
    + intros H. inversion H as [|? w ? b E1 E2]; subst. rewrite E1. apply IH in E2. now rewrite E2.
Qed.
(** The frequency called f_3db: the amplitude there is one half, not 3 dB (a half of the power) down. *)
Theorem half_the_power_refuted : exists n k a b dt c w, 0 < dt /\ 0 < c /\ INR k / (INR n * dt) = c /\ band_limit (tone n k a b) dt None (Some c) = Some w /\
  energy (tone n k a b) <> 0 /\ energy w = energy (tone n k a b) / 4 /\ energy w <> energy (tone n k a b) / 2.
Proof.
  exists 2%nat, 1%nat, 1, 0, 1, (1 / 2), (tone 2 1 (1 / 2 * 1) (1 / 2 * 0)). split; [lra|]. split; [lra|]. split; [cbn; lra|].
  assert (T : forall a, tone 2 1 a 0 = [a; - a]).
  { intros a. unfold tone, turn. cbn. repeat f_equal.
    - replace (2 * PI * 0 * 1 / (1 + 1)) with 0 by (unfold Rdiv; ring). rewrite cos_0. ring.
    - replace (2 * PI * 1 * 1 / (1 + 1)) with PI by field. rewrite cos_PI. ring. }
  split.
  - apply tones_scaled; [intros c [= <-]; lra|lia|lia|]. right. split; [discriminate|]. cbn. field.
  - rewrite Rmult_0_r, !T. unfold energy. cbn. lra.
Qed.
(** Samples at the end of a vector change those at its start: the filter goes round. *)
Theorem start_unchanged_refuted : exists v w dt c, 0 < dt /\ 0 < c /\ nth 0 v 0 = 0 /\ length v = 2%nat /\ nth 1 v 0 = 1 /\ band_limit v dt None (Some c) = Some w /\ 0 < nth 0 w 0.
Proof.
  assert (T0 : forall a, tone 2 0 a 0 = [a; a]).
  { intros a. unfold tone, turn. cbn. repeat f_equal.
    - replace (2 * PI * 0 * 0 / (1 + 1)) with 0 by (unfold Rdiv; ring). rewrite cos_0. ring.
    - replace (2 * PI * 1 * 0 / (1 + 1)) with 0 by (unfold Rdiv; ring). rewrite cos_0. ring. }
  assert (T1 : forall a, tone 2 1 a 0 = [a; - a]).
  { intros a. unfold tone, turn. cbn. repeat f_equal.
    - replace (2 * PI * 0 * 1 / (1 + 1)) with 0 by (unfold Rdiv; ring). rewrite cos_0. ring.
    - replace (2 * PI * 1 * 1 / (1 + 1)) with PI by field. rewrite cos_PI. ring. }
  assert (C : good (Some (1 / 2))) by (intros c [= <-]; lra).
  assert (A : band_limit (tone 2 0 (1 / 2) 0) 1 None (Some (1 / 2)) = Some (tone 2 0 (1 * (1 / 2)) (1 * 0))) by (apply tones_scaled; [exact C|lia|lia|right; split; [discriminate|cbn; field]]).
  assert (B : band_limit (tone 2 1 (1 / 2) 0) 1 None (Some (1 / 2)) = Some (tone 2 1 (1 / 2 * (1 / 2)) (1 / 2 * 0))) by (apply tones_scaled; [exact C|lia|lia|right; split; [discriminate|cbn; field]]).
  rewrite Rmult_0_r, !T0 in A. rewrite Rmult_0_r, !T1 in B. pose proof (band_limit_linear 1 [1 / 2; 1 / 2] (-1) [1 / 2; - (1 / 2)] 1 None (Some (1 / 2)) _ _ C eq_refl A B) as L.
  exists [0; 1], [1 / 4; 3 / 4], 1, (1 / 2). repeat split; try lra; try (cbn; lra).
  replace [0; 1] with (combined 1 [1 / 2; 1 / 2] (-1) [1 / 2; - (1 / 2)]) by (unfold combined; cbn; apply f_equal2; [lra|]; apply f_equal2; [lra|reflexivity]). rewrite L. unfold combined. cbn. apply f_equal, f_equal2; [lra|]. apply f_equal2; [lra|reflexivity].
Qed.

(** filter_signal_lowpass: an odd number of samples raises, and so does none. *)
Theorem odd_signals_raise sig fs fcut : filter_signal_lowpass sig fs fcut = None <-> Nat.odd (length sig) = true \/ sig = [].
Proof.
  destruct sig as [|a sig]; [split; [now right|reflexivity]|]. assert (N : (0 < length (a :: sig))%nat) by (cbn; lia). generalize dependent (a :: sig). intros s N. unfold Nat.odd. split.
  - intros H. left. destruct (Nat.even (length s)) eqn:E; [|reflexivity]. rewrite lowpass_even in H by assumption. discriminate.
  - intros [H| ->]; [|reflexivity]. unfold filter_signal_lowpass. rewrite lowpass_freqs_length by exact N. destruct (Nat.even (length s)); [discriminate|]. destruct (length s) as [|m]; [lia|]. destruct (Nat.eqb_spec (S (S m)) (S m)); [lia|reflexivity].
Qed.
(** Otherwise the result is real and has the oscillations below the cutoff. *)
Theorem lowpass_keeps_below sig fs fcut r : filter_signal_lowpass sig fs fcut = Some r -> exists w, r = map (fun x => (x, 0)) w /\
  scaled_by (length sig) (fun k g => INR k * fs / INR (length sig) < fcut /\ g = 1 \/ fcut <= INR k * fs / INR (length sig) /\ g = 0) sig w.
Proof.
  intros E. assert (G : ~ (Nat.odd (length sig) = true \/ sig = [])) by (intros H; apply odd_signals_raise with (fs := fs) (fcut := fcut) in H; congruence). assert (N : (0 < length sig)%nat) by (destruct sig; [exfalso; auto|cbn; lia]). assert (EV : Nat.even (length sig) = true) by (unfold Nat.odd in G; destruct (Nat.even (length sig)); [reflexivity|exfalso; auto]).
  rewrite lowpass_even in E by assumption. injection E as <-. eexists. split; [reflexivity|]. destruct (filter_scales (fun k => if Rlt_dec (fs / INR (length sig) * INR k) fcut then 1 else 0) sig N) as (A & B & H). split; [exact A|]. split; [exact B|]. intros k K. destruct (H k K) as (g & -> & HH).
  eexists. split; [|exact HH]. replace (INR k * fs / INR (length sig)) with (fs / INR (length sig) * INR k) by (unfold Rdiv; ring). destruct (Rlt_dec _ _) as [L|L]; [left; split; [exact L|reflexivity]|right; split; [lra|reflexivity]].
Qed.
(** This is the hard limit of band_limit, except at the cutoff itself, which one keeps and the other removes. *)
Theorem lowpass_is_band_limit sig fs fcut r : 0 < fs -> (forall k, (2 * k <= length sig)%nat -> INR k * fs / INR (length sig) <> fcut) -> filter_signal_lowpass sig fs fcut = Some r ->
  exists w, band_limit sig (1 / fs) (Some fcut) None = Some w /\ r = map (fun x => (x, 0)) w.
Proof.
  intros FS D E. assert (NV : sig <> []) by (intros ->; discriminate). assert (N : INR (length sig) <> 0) by (apply not_0_INR; destruct sig; [congruence|discriminate]). destruct (lowpass_keeps_below _ _ _ _ E) as (w & -> & A & B & H). exists w. split; [|reflexivity]. apply band_is; [discriminate|exact NV|]. split; [exact A|]. split; [exact B|]. intros k K.
  destruct (H k K) as (g & G & HH). exists g. split; [|exact HH]. unfold kept_at, kept. replace (INR k / (INR (length sig) * (1 / fs))) with (INR k * fs / INR (length sig)) by (field; lra). specialize (D k K). destruct G as [[G ->]|[G ->]].
  - right. split; [intros m [= <-]; lra|reflexivity].
  - left. exists fcut. split; [reflexivity|]. split; [lra|reflexivity].
Qed.
Theorem same_limit_refuted : exists sig fs fcut r w, 0 < fs /\ filter_signal_lowpass sig fs fcut = Some r /\ band_limit sig (1 / fs) (Some fcut) None = Some w /\ r <> map (fun x => (x, 0)) w.
Proof.
  assert (EB : band_limit [1; -1] (1 / 1) (Some (1 / 2)) None = Some [1; -1]) by (apply beyond_half_the_rate; [lra|discriminate|lra]).
  destruct (filter_signal_lowpass [1; -1] 1 (1 / 2)) as [r|] eqn:E; [|apply odd_signals_raise in E; destruct E; discriminate].
  exists [1; -1], 1, (1 / 2), r, [1; -1]. split; [lra|]. split; [exact E|]. split; [exact EB|]. intros R1. destruct (lowpass_keeps_below _ _ _ _ E) as (w & -> & _ & _ & H). apply (f_equal (map fst)) in R1. rewrite !map_map in R1. cbn [fst] in R1. rewrite !map_id in R1. subst w.
  destruct (H 1%nat ltac:(cbn; lia)) as (g & G & HC & _). cbn [length] in G. assert (g = 0) by (destruct G as [[G ->]|[_ ->]]; [cbn in G; lra|reflexivity]). subst g. rewrite Rmult_0_l in HC. unfold cosines, turn in HC. cbn in HC.
  replace (2 * PI * 0 * 1 / (1 + 1)) with 0 in HC by (unfold Rdiv; ring). replace (2 * PI * 1 * 1 / (1 + 1)) with PI in HC by field. rewrite cos_0, cos_PI in HC. lra.
Qed.
Theorem lowpass_limits sig fs fcut r : 0 < fs -> filter_signal_lowpass sig fs fcut = Some r ->
  (fcut <= 0 -> r = repeat (0, 0) (length sig)) /\ (fs / 2 < fcut -> r = map (fun x => (x, 0)) sig).
Proof.
  intros FS E. destruct (lowpass_keeps_below _ _ _ _ E) as (w & -> & A & B & H). assert (N : 0 < INR (length sig)) by (apply lt_0_INR; destruct sig; [discriminate|cbn; lia]). split; intros C.
  - assert (W : w = repeat 0 (length sig)); [|rewrite W; clear; induction (length sig) as [|n IH]; cbn; [reflexivity|now rewrite IH]].
    apply oscillations_determine; [now rewrite repeat_length|]. rewrite B. intros k K. destruct (H k K) as (g & G & -> & ->). assert (g = 0) as ->.
    { destruct G as [[G _]|[_ G]]; [|exact G]. exfalso. assert (0 <= INR k * fs / INR (length sig)); [|lra]. apply Rmult_le_pos; [apply Rmult_le_pos; [apply pos_INR|lra]|]. left. now apply Rinv_0_lt_compat. }
    assert (Z : forall n j, nth j (repeat 0 n) 0 = 0) by (intros n j; destruct (nth_in_or_default j (repeat 0 n) 0) as [I|I]; [now apply repeat_spec in I|exact I]).
    unfold cosines, sines. rewrite !repeat_length, !Rmult_0_l. split; symmetry; rewrite (rsum_ext _ _ (fun _ => 0)); try (intros j _; rewrite Z; ring); clear; induction (length sig) as [|n IH]; cbn; lra.
  - f_equal. apply oscillations_determine; [congruence|]. rewrite B. intros k K. destruct (H k K) as (g & G & -> & ->). assert (g = 1) as ->; [|split; ring].
    destruct G as [[_ G]|[G _]]; [exact G|]. exfalso. assert (INR k * fs / INR (length sig) <= fs / 2); [|lra]. apply le_INR in K. rewrite mult_INR in K. cbn [INR] in K. apply Rmult_le_reg_r with (INR (length sig)); [exact N|]. unfold Rdiv. rewrite Rmult_assoc, Rinv_l by lra. nra.
Qed.

Print Assumptions band_limit_scales.
Print Assumptions band_limit_unique.
Print Assumptions oscillations_determine.
Print Assumptions nothing_to_limit.
Print Assumptions empty_raises.
Print Assumptions tones_scaled.
Print Assumptions band_limit_linear.
Print Assumptions energy_not_increased.
Print Assumptions sum_kept.
Print Assumptions beyond_half_the_rate.
Print Assumptions below_zero.
Print Assumptions twice_is_once.
Print Assumptions moving_commutes.
Print Assumptions columns_limited.
Print Assumptions half_the_power_refuted.
Print Assumptions start_unchanged_refuted.
Print Assumptions odd_signals_raise.
Print Assumptions lowpass_keeps_below.
Print Assumptions lowpass_is_band_limit.
Print Assumptions same_limit_refuted.
Print Assumptions lowpass_limits.

(** * Cases *)
Example limit_case : exists w, band_limit [1; 2; 4; 8] (1 / 2) (Some (3 / 4)) (Some 1) = Some w /\ (forall c, Some 1 = Some c -> c <> 0) /\ (Some (3 / 4), Some 1) <> (None, None) /\ [1; 2; 4; 8] <> [].
Proof. eexists. split; [reflexivity|]. split; [intros c [= <-]; lra|]. split; discriminate. Qed.
Example tone_case : kept (Some (3 / 4)) (Some 1) (INR 1 / (INR 4 * (1 / 2))) (4 / 5) /\ kept (Some (3 / 4)) (Some 1) (INR 2 / (INR 4 * (1 / 2))) 0.
Proof. split; [right; split; [intros m [= <-]; cbn; lra|cbn; field]|left; exists (3 / 4); repeat split; cbn; lra]. Qed.
Example determined_case : cosines [1; 3] 0 = 4 /\ cosines [1; 3] 1 = -2.
Proof.
  unfold cosines, turn. cbn. replace (2 * PI * 0 * 0 / (1 + 1)) with 0 by (unfold Rdiv; ring). replace (2 * PI * 1 * 0 / (1 + 1)) with 0 by (unfold Rdiv; ring). replace (2 * PI * 0 * 1 / (1 + 1)) with 0 by (unfold Rdiv; ring). replace (2 * PI * 1 * 1 / (1 + 1)) with PI by field. rewrite cos_0, cos_PI. lra.
Qed.
Example same_case : band_limit [1; 3] 1 None None = Some [1; 3] /\ band_limit [] 1 (Some 2) None = None.
Proof. split; reflexivity. Qed.
Example linear_case : length [1; 2; 3] = length [4; 5; 6] /\ exists a b, band_limit [1; 2; 3] 1 (Some (1 / 4)) None = Some a /\ band_limit [4; 5; 6] 1 (Some (1 / 4)) None = Some b.
Proof. split; [reflexivity|]. do 2 eexists. split; reflexivity. Qed.
Example limits_case : 0 < 1 /\ 1 <= 2 * 1 * (1 / 2) /\ band_limit [1; -1] 1 (Some (1 / 2)) None = Some [1; -1] /\ band_limit [1; -1] 1 (Some (-1)) None = Some [0; 0].
Proof. split; [lra|]. split; [lra|]. split; [apply beyond_half_the_rate; [lra|discriminate|lra]|apply (below_zero [1; -1]); [lra|discriminate|lra|discriminate]]. Qed.
Example twice_case : exists w, band_limit [1; 2; 4] 1 (Some (1 / 2)) None = Some w /\ Rmin (1 / 2) (1 / 4) = 1 / 4.
Proof. eexists. split; [reflexivity|]. rewrite Rmin_right; lra. Qed.
Example moved_case : moved 1 [1; 2; 3] = [3; 1; 2] /\ moved 4 [1; 2; 3] = [3; 1; 2].
Proof. split; reflexivity. Qed.
Example columns_case : exists r, band_limit_columns [[1; 2]; [3; 4]] 1 (Some 0) None = Some r /\ length r = 2%nat.
Proof. eexists. split; reflexivity. Qed.
Example lowpass_case : filter_signal_lowpass [1; 2; 3] 1 1 = None /\ filter_signal_lowpass [1; -1] 1 1 = Some [(1, 0); (-1, 0)].
Proof.
  split; [apply odd_signals_raise; now left|]. destruct (filter_signal_lowpass [1; -1] 1 1) as [r|] eqn:E; [|apply odd_signals_raise in E; destruct E; discriminate]. f_equal. apply (proj2 (lowpass_limits [1; -1] 1 1 r ltac:(lra) E)). lra.
Qed.
Example cutoff_case : 0 < 1 /\ (forall k, (2 * k <= 2)%nat -> INR k * 1 / INR 2 <> 1 / 4).
Proof. split; [lra|]. intros k K. assert (k = 0 \/ k = 1)%nat as [-> | ->] by lia; intros Q; replace (INR 2) with 2 in Q by (cbn; lra); cbn in Q; lra. Qed.
