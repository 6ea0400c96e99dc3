(** Convolutions computed with Fourier transforms (C106). *)
From Coq Require Import Reals ZArith QArith Qcanon Qreals Bool Lra Lia List.
From Verif Require Import FtModel FtAlg FtSpec FtProofs PsSpec PsProofs FoModel FoSpec FoProofs.
From Verif Require QcPre NoiModel NoiSpec NoiProps DcModel DcProofs DcProps MleModel MleProps OptModel LagModel.
Import ListNotations.
Local Open Scope R_scope.

(** * Transforms *)
Theorem transforms_invert x : (0 < length x)%nat -> irfft (rfft x) (length x) = x.
Proof. apply irfft_rfft. Qed.
Theorem spectra_invert X n : (0 < n)%nat -> length X = (n / 2 + 1)%nat -> snd (nth 0 X c0) = 0 -> snd (if Nat.even n then nth (n / 2) X c0 else c0) = 0 -> rfft (irfft X n) = X.
Proof. apply rfft_irfft. Qed.
(** Without its length, a vector with an odd number of entries does not come back. *)
Theorem default_length_refuted : exists x, (0 < length x)%nat /\ irfft_default (rfft x) <> x.
Proof.
  exists [1; 2; 4]. split; [cbn; lia|]. intros H. apply (f_equal (@length R)) in H. unfold irfft_default in H. rewrite irfft_length, rfft_length in H by (cbn; lia). cbn in H. lia.
Qed.

(** * The autocorrelation of noise *)
Definition qr (q : Qc) : R := Q2R (this q).
Lemma qr_plus a b : qr (a + b)%Qc = qr a + qr b.
Proof. unfold qr. rewrite <- Q2R_plus. apply Qeq_eqR. apply Qred_correct. Qed.
Lemma qr_mult a b : qr (a * b)%Qc = qr a * qr b.
Proof. unfold qr. rewrite <- Q2R_mult. apply Qeq_eqR. apply Qred_correct. Qed.
Lemma qr_opp a : qr (- a)%Qc = - qr a.
Proof. unfold qr. rewrite <- Q2R_opp. apply Qeq_eqR. apply Qred_correct. Qed.
Lemma qr_0 : qr 0%Qc = 0.
Proof. unfold qr. cbn. unfold Q2R. cbn. lra. Qed.
Lemma qr_inj a b : qr a = qr b -> a = b.
Proof. intros H. apply Qc_is_canon. now apply eqR_Qeq. Qed.
Lemma qr_inv a : a <> 0%Qc -> qr (/ a)%Qc = / qr a.
Proof.
  intros H. assert (N : qr a <> 0) by (rewrite <- qr_0; intros E; now apply qr_inj in E). apply Rmult_eq_reg_l with (qr a); [|exact N]. rewrite Rinv_r by exact N. rewrite <- qr_mult, Qcmult_inv_r by exact H. unfold qr, Q2R. cbn. lra.
Qed.
Lemma qr_z z : qr (LagModel.qz z) = IZR z.
Proof. unfold qr. transitivity (Q2R (inject_Z z)); [apply Qeq_eqR, Qred_correct|]. unfold Q2R, inject_Z. cbn. lra. Qed.
Lemma qr_qsum n f : qr (QcPre.qsum n f) = rsum n (fun i => qr (f i)).
Proof. induction n as [|n IH]; cbn; [apply qr_0|]. now rewrite qr_plus, IH. Qed.
Lemma qr_nth l i : nth i (map qr l) 0 = qr (nth i l 0%Qc).
Proof. rewrite <- qr_0. apply map_nth. Qed.
(** What NoiModel takes irfft(|rfft(x)|^2), without frequency zero, to be *)
Theorem correlation_by_transforms x : (0 < length x)%nat -> Nat.even (length x) = true -> correlated (map qr x) = map (fun k => qr (NoiModel.circular x k)) (seq 0 (length x)).
Proof.
  intros N E. rewrite correlated_value by (rewrite map_length; assumption). rewrite map_length. apply map_ext_in. intros d D. unfold centred_correlation, NoiModel.circular. rewrite map_length.
  unfold Qcminus. rewrite qr_plus, qr_opp. unfold Qcdiv. rewrite !qr_mult, qr_qsum, qr_inv.
  - rewrite qr_z, <- INR_IZR_INZ. assert (T : qr (OptModel.total x) = sum (map qr x)).
    { unfold sum. rewrite map_length. unfold OptModel.total. rewrite qr_qsum. apply rsum_ext. intros i _. now rewrite qr_nth. }
    rewrite T. unfold correlation. rewrite map_length. rewrite (rsum_ext (length x) (fun i => qr _) (fun j => nth j (map qr x) 0 * nth ((j + d) mod length x) (map qr x) 0)) by (intros i I; now rewrite qr_mult, !qr_nth). cbn [pow]. unfold Rdiv. ring.
  - intros H. apply (f_equal qr) in H. rewrite qr_z, qr_0, <- INR_IZR_INZ in H. apply INR_eq with (m := 0%nat) in H. lia.
Qed.
(** and the vectors transformed there have even length. *)
Theorem padded_is_even lags : (1 <= lags)%nat -> Nat.even (Z.to_nat (NoiModel.padded_length (Z.of_nat (lags + 15 * lags)))) = true.
Proof.
  intros L. destruct (NoiProps.padded_length_smallest (Z.of_nat (lags + 15 * lags)) ltac:(lia)) as (B & (k & K & G) & _). set (p := NoiModel.padded_length _) in *.
  assert (E : exists h, (0 <= h /\ p = 2 * h)%Z).
  { assert (K1 : (1 <= k)%Z) by (destruct (Z.eq_dec k 0) as [->|]; [cbn in G; lia|lia]). assert (P2 : (2 ^ k = 2 * 2 ^ (k - 1))%Z) by (rewrite <- Z.pow_succ_r by lia; f_equal; lia). pose proof (Z.pow_nonneg 2 (k - 1) ltac:(lia)). destruct G as [G|[G|G]]; rewrite P2 in G; [exists (2 ^ (k - 1))%Z|exists (3 * 2 ^ (k - 1))%Z|exists (5 * 2 ^ (k - 1))%Z]; lia. }
  destruct E as (h & H & ->). rewrite Z2Nat.inj_mul by lia. rewrite Nat.even_mul. reflexivity.
Qed.

(** * The histogram smoother *)
Lemma dc_total n f : DcModel.total (map f (seq 0 n)) = rsum n f.
Proof.
  induction n as [|n IH]; [reflexivity|]. rewrite seq_S. cbn [Nat.add rsum]. rewrite <- IH. clear. unfold DcModel.total. rewrite map_app, fold_right_app. cbn. induction (seq 0 n) as [|a l IH]; cbn; [ring|rewrite IH; ring].
Qed.
Theorem convolution_by_transforms kernel contents : length kernel = length contents -> (0 < length contents)%nat -> Nat.even (length contents) = true -> convolved kernel contents = DcModel.circular kernel contents.
Proof.
  intros L N E. rewrite convolved_circled by assumption. unfold circled, DcModel.circular. apply map_ext_in. intros j J. apply in_seq in J. rewrite dc_total. apply rsum_ext. intros i I. do 2 f_equal. unfold around. apply Nat2Z.inj. rewrite Z2Nat.id by (apply Z.mod_pos_bound; lia).
  rewrite Nat2Z.inj_mod, Nat2Z.inj_sub, Nat2Z.inj_add by lia. replace (Z.of_nat j + Z.of_nat (length contents) - Z.of_nat i)%Z with (Z.of_nat j - Z.of_nat i + 1 * Z.of_nat (length contents))%Z by ring. now rewrite Z.mod_add by lia.
Qed.
Theorem smoother_by_transforms sigma lo hi values : sigma <> 0 ->
  DcModel.smooth sigma lo hi values = option_map (fun c => map (fun v => if Rlt_dec v 0 then 0 else v) (convolved (DcModel.kernel sigma ((hi - lo) / INR (DcModel.bins sigma lo hi)) (DcModel.bins sigma lo hi)) c)) (DcModel.histogram lo hi (DcModel.bins sigma lo hi) values).
Proof.
  intros S. unfold DcModel.smooth. destruct (Req_EM_T sigma 0) as [|_]; [contradiction|]. destruct (DcModel.histogram _ _ _ _) as [c|] eqn:H; [|reflexivity]. cbn [option_map]. f_equal. f_equal. set (n := DcModel.bins sigma lo hi) in *.
  assert (LC : length c = n) by (unfold DcModel.histogram in H; destruct (Rlt_dec hi lo); [discriminate|]; destruct (Req_EM_T lo hi); injection H as <-; apply DcProofs.contents_length).
  destruct (DcProps.smoother_bins sigma lo hi) as (B & (k & K) & _). fold n in B, K. assert (KP : (1 <= k)%nat) by (destruct k; [cbn in K; lia|lia]).
  assert (E : Nat.even n = true).
  { apply Nat.even_spec. exists (2 ^ (k - 1))%nat. apply Nat2Z.inj. rewrite K, Nat2Z.inj_mul, Nat2Z.inj_pow. replace (Z.of_nat k) with (Z.succ (Z.of_nat (k - 1))) by lia. rewrite Z.pow_succ_r by lia. reflexivity. }
  symmetry. apply convolution_by_transforms; rewrite LC; [apply DcProofs.kernel_length|lia|exact E].
Qed.

(** * The smoothing of histograms in find_local_maxima *)
Definition smoothing (fwhm lo hi : R) (k : nat) (g : R) : Prop := g = exp (- (2 * PI * (fwhm / (2 * sqrt (2 * ln 2))) * (INR k / (hi - lo))) ^ 2 / 2).
Lemma gain_value fwhm lo hi n k : 0 < fwhm -> lo < hi -> (0 < n)%nat -> smoothing fwhm lo hi k (smoothing_gain fwhm lo hi n k).
Proof.
  intros W L N. unfold smoothing, smoothing_gain. f_equal. assert (P : 0 < sqrt (ln 2 * 2)) by (apply sqrt_lt_R0; assert (0 < ln 2) by (rewrite <- ln_1; apply ln_increasing; lra); lra). rewrite (Rmult_comm 2 (ln 2)). assert (INR n <> 0) by (apply not_0_INR; lia). pose proof PI_RGT_0. field. repeat split; try lra.
Qed.
Theorem smoothing_scales hist fwhm lo hi : 0 < fwhm -> lo < hi -> (0 < length hist)%nat -> Nat.even (length hist) = true ->
  scaled_by (length hist) (smoothing fwhm lo hi) hist (smoothed hist fwhm lo hi).
Proof.
  intros W L N E. unfold smoothed. rewrite (default_even _ (length hist)) by (try assumption; rewrite times_length; now apply rfft_length).
  destruct (filter_scales (smoothing_gain fwhm lo hi (length hist)) hist N) as (A & B & H). split; [exact A|]. split; [exact B|]. intros k K. destruct (H k K) as (g & -> & HH). exists (smoothing_gain fwhm lo hi (length hist) k). split; [now apply gain_value|exact HH].
Qed.
Theorem smoothing_keeps hist fwhm lo hi : 0 < fwhm -> lo < hi -> (0 < length hist)%nat -> Nat.even (length hist) = true ->
  sum (smoothed hist fwhm lo hi) = sum hist /\ energy (smoothed hist fwhm lo hi) <= energy hist /\ smoothed (mirrored hist) fwhm lo hi = mirrored (smoothed hist fwhm lo hi) /\ forall s, smoothed (moved s hist) fwhm lo hi = moved s (smoothed hist fwhm lo hi).
Proof.
  intros W L N E. set (n := length hist) in *.
  assert (DF : forall h, length h = n -> smoothed h fwhm lo hi = irfft (times (fun k => real (smoothing_gain fwhm lo hi n k)) (rfft h)) n) by (intros h LH; unfold smoothed; rewrite LH; apply default_even; try assumption; rewrite times_length; rewrite rfft_length; rewrite LH; [reflexivity|exact N]).
  rewrite (DF hist eq_refl). unfold n. split; [|split; [|split]].
  - rewrite gain_sum by exact N. cbn [fst real]. rewrite (gain_value fwhm lo hi (length hist) 0 W L N). replace (- _ / 2) with 0; [rewrite exp_0; ring|]. cbn [INR]. unfold Rdiv. ring.
  - rewrite <- (Rmult_1_l (energy hist)). apply gain_energy; [exact N|]. intros k. cbn [fst snd real]. rewrite (gain_value fwhm lo hi (length hist) k W L N). set (u := 2 * PI * _ * _). assert (B : 0 < exp (- u ^ 2 / 2) <= 1) by (split; [apply exp_pos|rewrite <- exp_0; assert (- u ^ 2 / 2 <= 0) by (pose proof (pow2_ge_0 u); lra); destruct (Req_dec (- u ^ 2 / 2) 0) as [->|]; [lra|left; apply exp_increasing; lra]]). nra.
  - rewrite DF by (now rewrite mirrored_length). rewrite <- gain_mirrored by exact N. unfold n. f_equal. unfold times. apply map_ext. intros k. now rewrite conj_real.
  - intros s. rewrite DF by (now rewrite moved_length). now apply gain_moved.
Qed.
Theorem smoothing_linear a x b y fwhm lo hi : 0 < fwhm -> lo < hi -> length x = length y -> (0 < length x)%nat -> Nat.even (length x) = true ->
  smoothed (combined a x b y) fwhm lo hi = combined a (smoothed x fwhm lo hi) b (smoothed y fwhm lo hi).
Proof.
  intros W L LE N E. set (n := length x) in *.
  assert (DF : forall h, length h = n -> smoothed h fwhm lo hi = irfft (times (fun k => real (smoothing_gain fwhm lo hi n k)) (rfft h)) n) by (intros h LH; unfold smoothed; rewrite LH; apply default_even; try assumption; rewrite times_length; rewrite rfft_length; rewrite LH; [reflexivity|exact N]).
  rewrite (DF (combined a x b y)) by apply combined_length. rewrite (DF x eq_refl), (DF y (eq_sym LE)). now apply gain_combined.
Qed.

(** * The tails of line models *)
Theorem tails_contents sharp lo tlo hi thi step raw k : (0 < length raw)%nat -> (2 * k <= length raw)%nat ->
  let f := INR k / (INR (length raw) * step) in let y := 2 * PI * f * tlo in let z := 2 * PI * f * thi in
  turned_by raw (tailed sharp lo tlo hi thi step raw) k (sharp + lo / (1 + y ^ 2) + hi / (1 + z ^ 2))
    (if (2 * k =? length raw)%nat then 0 else lo * y / (1 + y ^ 2) - hi * z / (1 + z ^ 2)).
Proof.
  intros N K f y z. unfold tailed. pose proof (general_F (tail_gain sharp lo tlo hi thi step (length raw)) raw k N K) as H. rewrite !F_contents in H.
  set (out := irfft _ _) in *. set (g := tidy _ _ _) in H. assert (G : g = (sharp + lo / (1 + y ^ 2) + hi / (1 + z ^ 2), if (2 * k =? length raw)%nat then 0 else lo * y / (1 + y ^ 2) - hi * z / (1 + z ^ 2))).
  { unfold g, tidy, tail_gain. fold f. fold y z. unfold tail. replace (1 + (- z) ^ 2) with (1 + z ^ 2) by ring. destruct (Nat.eqb_spec k 0) as [K0|K0]; cbn [orb].
    - assert (Z : z = 0) by (unfold z, f; rewrite K0; cbn [INR]; unfold Rdiv; ring). assert (Y : y = 0) by (unfold y, f; rewrite K0; cbn [INR]; unfold Rdiv; ring). apply ceq; cbn [fst snd cadd real]; [ring|]. rewrite Z, Y. destruct (_ =? _)%nat; unfold Rdiv; ring.
    - destruct (2 * k =? length raw)%nat; apply ceq; cbn [fst snd cadd real]; unfold Rdiv; ring. }
  rewrite G in H. pose proof (f_equal fst H) as H1. pose proof (f_equal snd H) as H2. cbn [fst snd cmul] in H1, H2. split; [rewrite H1; ring|]. replace (sines out k) with (- - sines out k) by ring. rewrite H2. ring.
Qed.
Theorem tails_sum sharp lo tlo hi thi step raw : (0 < length raw)%nat -> sum (tailed sharp lo tlo hi thi step raw) = (sharp + lo + hi) * sum raw.
Proof. intros N. unfold tailed. rewrite gain_sum by exact N. f_equal. unfold tail_gain, tail. cbn [fst cadd real]. replace (INR 0 / (INR (length raw) * step)) with 0 by (cbn [INR]; unfold Rdiv; ring). field. Qed.
Theorem tails_energy sharp lo tlo hi thi step raw : (0 < length raw)%nat -> 0 <= sharp -> 0 <= lo -> 0 <= hi -> energy (tailed sharp lo tlo hi thi step raw) <= (sharp + lo + hi) ^ 2 * energy raw.
Proof.
  intros N S L H. unfold tailed. apply gain_energy; [exact N|]. intros k. unfold tail_gain. set (f := INR k / _).
  assert (TN : forall w y, 0 <= w -> fst (tail w y) ^ 2 + snd (tail w y) ^ 2 <= w ^ 2).
  { intros w y W. rewrite tail_norm. pose proof (pow2_ge_0 y). pose proof (pow2_ge_0 w). apply Rmult_le_reg_r with (1 + y ^ 2); [lra|]. unfold Rdiv. rewrite Rmult_assoc, Rinv_l by lra. nra. }
  apply norm_add; [lra|exact H| |now apply TN]. apply norm_add; [exact S|exact L| |now apply TN]. cbn. lra.
Qed.
Theorem tails_linear sharp lo tlo hi thi step a x b y : length x = length y -> (0 < length x)%nat -> tailed sharp lo tlo hi thi step (combined a x b y) = combined a (tailed sharp lo tlo hi thi step x) b (tailed sharp lo tlo hi thi step y).
Proof. intros L N. unfold tailed. rewrite combined_length, <- L. now apply gain_combined. Qed.
Theorem tails_moved sharp lo tlo hi thi step s x : (0 < length x)%nat -> tailed sharp lo tlo hi thi step (moved s x) = moved s (tailed sharp lo tlo hi thi step x).
Proof. intros N. unfold tailed. rewrite moved_length. now apply gain_moved. Qed.
(** The two tails point in opposite directions. *)
Theorem tails_mirrored sharp lo tlo hi thi step x : (0 < length x)%nat -> tailed sharp hi thi lo tlo step (mirrored x) = mirrored (tailed sharp lo tlo hi thi step x).
Proof.
  intros N. unfold tailed. rewrite mirrored_length, <- gain_mirrored by exact N. f_equal. unfold times. apply map_ext. intros k. f_equal. unfold tail_gain. set (f := INR k / _). rewrite !conj_add, conj_real, !tail_conj, Ropp_involutive. ring.
Qed.
Theorem no_tails tlo thi step x : (0 < length x)%nat -> tailed 1 0 tlo 0 thi step x = x.
Proof.
  intros N. rewrite <- (irfft_rfft x N) at 2. unfold tailed. f_equal. apply (list_nth_eq c0); [apply times_length|]. rewrite times_length. intros k K. unfold times. rewrite nth_map_seq by exact K. unfold tail_gain, tail. apply ceq; cbn [fst snd cmul cadd real]; unfold Rdiv; ring.
Qed.
(** A spectrum without negative entries can come out with some: the tail goes below zero on its steep side. *)
Theorem tails_negative_refuted : exists raw tau step j, 0 < tau /\ 0 < step /\ Forall (fun v => 0 <= v) raw /\ nth j (tailed 0 1 tau 0 1 step raw) 0 < 0.
Proof.
  pose proof PI_RGT_0 as P. exists [1; 0; 0], (3 / (2 * PI)), 1, 1%nat. split; [apply Rdiv_lt_0_compat; lra|]. split; [lra|]. split; [repeat constructor; lra|].
  set (out := tailed _ _ _ _ _ _ _). assert (LO : length out = 3%nat) by apply irfft_length.
  pose proof (tails_sum 0 1 (3 / (2 * PI)) 0 1 1 [1; 0; 0] ltac:(cbn; lia)) as S. destruct (tails_contents 0 1 (3 / (2 * PI)) 0 1 1 [1; 0; 0] 1 ltac:(cbn; lia) ltac:(cbn; lia)) as [C1 C2]. fold out in S, C1, C2.
  destruct out as [|o0 [|o1 [|o2 [|]]]]; try discriminate. cbn [length Nat.mul Nat.add Nat.eqb] in C1, C2. replace (2 * PI * (INR 1 / (INR 3 * 1)) * (3 / (2 * PI))) with 1 in C1, C2 by (cbn [INR]; field; lra).
  assert (A1 : cos (2 * PI / 3) = - (1 / 2)) by (replace (2 * PI / 3) with (2 * (PI / 3)) by field; rewrite cos_2a_cos, cos_PI3; lra). assert (A2 : sin (2 * PI / 3) = sqrt 3 / 2) by (replace (2 * PI / 3) with (2 * (PI / 3)) by field; rewrite sin_2a, sin_PI3, cos_PI3; lra).
  assert (A3 : cos (4 * PI / 3) = - (1 / 2)) by (replace (4 * PI / 3) with (PI / 3 + PI) by field; rewrite neg_cos, cos_PI3; lra). assert (A4 : sin (4 * PI / 3) = - (sqrt 3 / 2)) by (replace (4 * PI / 3) with (PI / 3 + PI) by field; rewrite neg_sin, sin_PI3; lra).
  assert (CO : forall a b c, cosines [a; b; c] 1 = a - b / 2 - c / 2 /\ sines [a; b; c] 1 = sqrt 3 / 2 * (b - c)).
  { intros a b c. unfold cosines, sines, turn. cbn [length rsum nth INR]. replace (2 * PI * 0 * 1 / (1 + 1 + 1)) with 0 by (field; lra). replace (2 * PI * 1 * 1 / (1 + 1 + 1)) with (2 * PI / 3) by field. replace (2 * PI * (1 + 1) * 1 / (1 + 1 + 1)) with (4 * PI / 3) by field. rewrite cos_0, sin_0, A1, A2, A3, A4. split; lra. }
  destruct (CO o0 o1 o2) as [E1 E2]. destruct (CO 1 0 0) as [E3 E4]. rewrite E1, E3, E4 in C1. rewrite E2, E3, E4 in C2. unfold sum in S. cbn [length rsum nth] in *.
  assert (Q : 1 < sqrt 3) by (rewrite <- sqrt_1; apply sqrt_lt_1; lra). assert (Q2 : sqrt 3 * sqrt 3 = 3) by (apply sqrt_sqrt; lra). set (r := sqrt 3) in *.
  assert (D : o1 - o2 = - (r / 3)) by (apply Rmult_eq_reg_l with (r / 2); lra). lra.
Qed.
(** The spectrum behind a line model with tails, before it is cut back: what the sharp one adds up to, up to two parts in
    a million. *)
Theorem smeared_spectrum clean x res frac tau share tau_hi out : / 1000000 < frac <= 1 -> 0 <= share <= 1 -> MleModel.smear tailed clean x res frac tau share tau_hi = Some out ->
  exists before raw smooth, length smooth = length raw /\ (forall j, (j < length raw)%nat -> nth j raw 0 = clean (nth 0 x 0 + (INR j - INR before) * (nth 1 x 0 - nth 0 x 0))) /\
    (exists c, 1 - 2 / 1000000 <= c <= 1 /\ sum smooth = c * sum raw) /\ energy smooth <= energy raw /\ length out = length x /\ forall k, (k < length x)%nat -> nth k out 0 = Rmax 0 (nth (before + k) smooth 0).
Proof.
  intros FR SH H. destruct (MleProps.smeared_grid tailed clean x res frac tau share tau_hi out ltac:(lra) ltac:(intros; apply irfft_length) H) as (b & a & raw & smooth & L & _ & _ & _ & _ & _ & RW & SM & LO & V).
  assert (NX : (0 < length x)%nat) by (unfold MleModel.smear in H; destruct (Rle_dec frac MleModel.tiny) as [T|T]; [unfold MleModel.tiny in T; lra|]; destruct x; [discriminate|cbn; lia]). assert (N : (0 < length raw)%nat) by lia.
  destruct (MleProps.tail_weights frac share ltac:(lra) SH) as (W1 & W2 & W3). exists b, raw, smooth. split; [rewrite SM; apply irfft_length|]. split; [exact RW|]. rewrite SM. split; [eexists; split; [exact W3|apply tails_sum, N]|]. split; [|split; [exact LO|rewrite <- SM; exact V]].
  apply Rle_trans with ((1 - frac + MleModel.lo_weight frac share + MleModel.hi_weight frac share) ^ 2 * energy raw); [apply tails_energy; try assumption; lra|]. assert (EN : 0 <= energy raw) by (unfold energy; clear; induction (length raw) as [|n IH]; cbn [rsum]; [lra|pose proof (pow2_ge_0 (nth n raw 0)); lra]). rewrite <- (Rmult_1_l (energy raw)) at 2. apply Rmult_le_compat_r; [exact EN|]. nra.
Qed.

Print Assumptions transforms_invert.
Print Assumptions spectra_invert.
Print Assumptions default_length_refuted.
Print Assumptions correlation_by_transforms.
Print Assumptions padded_is_even.
Print Assumptions convolution_by_transforms.
Print Assumptions smoother_by_transforms.
Print Assumptions smoothing_scales.
Print Assumptions smoothing_keeps.
Print Assumptions smoothing_linear.
Print Assumptions tails_contents.
Print Assumptions tails_sum.
Print Assumptions tails_energy.
Print Assumptions tails_linear.
Print Assumptions tails_moved.
Print Assumptions tails_mirrored.
Print Assumptions no_tails.
Print Assumptions tails_negative_refuted.
Print Assumptions smeared_spectrum.

(** * Cases *)
Example invert_case : (0 < length [1; 2; 4])%nat /\ length [(1, 0); (2, 3)] = (2 / 2 + 1)%nat /\ snd (nth 0 [(1, 0); (2, 3)] c0) = 0 /\ snd (if Nat.even 3 then nth (3 / 2) [(1, 0); (2, 3)] c0 else c0) = 0.
Proof. repeat split. cbn. lia. Qed.
Example correlation_case : NoiModel.circular [LagModel.qz 1; LagModel.qz 3] 1 = (- LagModel.qz 2)%Qc /\ correlated (map qr [LagModel.qz 1; LagModel.qz 3]) = [2; -2].
Proof.
  split; [apply Qc_is_canon; vm_compute; reflexivity|]. rewrite correlation_by_transforms by (try reflexivity; cbn; lia). cbn [length seq map].
  assert (A : NoiModel.circular [LagModel.qz 1; LagModel.qz 3] 0 = LagModel.qz 2) by (apply Qc_is_canon; vm_compute; reflexivity). assert (B : NoiModel.circular [LagModel.qz 1; LagModel.qz 3] 1 = LagModel.qz (-2)) by (apply Qc_is_canon; vm_compute; reflexivity). now rewrite A, B, !qr_z.
Qed.
Example padded_case : Z.to_nat (NoiModel.padded_length (Z.of_nat (3 + 15 * 3))) = 48%nat.
Proof. reflexivity. Qed.
Example convolution_case : convolved [1; 2] [3; 4] = [1 * 3 + (2 * 4 + 0); 2 * 3 + (1 * 4 + 0)].
Proof. rewrite convolution_by_transforms by (try reflexivity; cbn; lia). reflexivity. Qed.
Example smoothing_case : 0 < 1 /\ 0 < 10 /\ (0 < length [1; 2; 3; 4])%nat /\ Nat.even (length [1; 2; 3; 4]) = true /\ length [1; 2; 3; 4] = length [0; 1; 0; 1].
Proof. repeat split; try lra. cbn. lia. Qed.
Example tails_case : sum (tailed (1 / 2) (1 / 4) 3 (1 / 4) 2 1 [1; 5; 2]) = 8 /\ mirrored [1; 5; 2] = [1; 2; 5].
Proof. split; [|reflexivity]. rewrite tails_sum by (cbn; lia). unfold sum. cbn. lra. Qed.
Example smeared_case : exists out, MleModel.smear tailed (fun e => e * e) [1; 2] 0 (/ 2) 0 0 0 = Some out.
Proof.
  destruct (MleModel.smear tailed (fun e => e * e) [1; 2] 0 (/ 2) 0 0 0) as [out|] eqn:E; [eauto|]. exfalso. revert E. unfold MleModel.smear, MleModel.tiny. destruct (Rle_dec _ _); [lra|]. destruct (Rle_dec _ _); [lra|]. replace ((0 + Rmax (0 * 6) 0) / (2 - 1) + / 2) with (/ 2) by (rewrite Rmax_left by lra; field). replace ((0 + Rmax 0 (0 * 6)) / (2 - 1) + / 2) with (/ 2) by (rewrite Rmax_left by lra; field).
  assert (T : MleModel.trunc (/ 2) = 0%Z).
  { unfold MleModel.trunc. destruct (Rle_dec 0 (/ 2)) as [_|B]; [|lra]. destruct (base_Int_part (/ 2)) as [B1 B2]. assert (-1 < Int_part (/ 2) < 1)%Z; [|lia]. split; apply lt_IZR; lra. }
  rewrite T. cbn. discriminate.
Qed.
