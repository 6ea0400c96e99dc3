(** The Fourier filter (C107). *)
From Coq Require Import Reals ZArith QArith Qcanon Bool Lra Lia String List.
From Verif Require Import FtModel FtAlg FtSpec FtProofs FoModel FoSpec FoProofs FfModel FfSpec FfProofs.
From Verif Require OptModel FdModel.
Import ListNotations.
Local Open Scope R_scope.

(** * It cannot be computed *)
Section Any.
Context {A C B : Type} (rft : list A -> list C) (irft : list C -> nat -> list A) (to_c : A -> C) (czero : C) (azero : A) (scale : list A -> A -> A) (ratio : C -> C -> C) (limit : nat -> nat -> C -> C) (rescale : list A -> list A -> list A) (finish : list A -> B).
Hypothesis rft_length : forall x, (0 < length x)%nat -> length (rft x) = (length x / 2 + 1)%nat.
Hypothesis irft_length : forall X n, length (irft X n) = n.
Notation computed := (compute_fourier A C B rft irft to_c czero azero scale ratio limit rescale finish).

(** Whatever the numbers, the signal, the noise and the arguments, with and without assertions. *)
Theorem fourier_always_raises asserts signal npre psd a b : exists e, computed asserts signal npre psd a b = inl e.
Proof. eexists. now apply computed_error. Qed.
(** A signal and a noise spectrum that fit each other get as far as the assertion; *)
Theorem fourier_fitting_asserts signal npre psd : (6 <= length signal)%nat -> fits (length signal) (length psd) -> computed true signal npre (Some psd) 0 0 = inl AssertErr.
Proof.
  intros N H. unfold fits in H. rewrite computed_error by assumption. cbn [Z.ltb Z.compare orb]. apply Nat.leb_le in N. rewrite N. apply Nat.eqb_eq in H. now rewrite H.
Qed.
(** any others raise ValueError, and so does a spectrum of the length that is documented, 2N+1 entries for N samples; *)
Theorem fourier_not_fitting asserts signal npre psd : ~ fits (length signal) (length psd) \/ (length signal < 6)%nat -> computed asserts signal npre (Some psd) 0 0 = inl ValueErr.
Proof.
  intros H. unfold fits in H. rewrite computed_error by assumption. cbn [Z.ltb Z.compare orb]. destruct (Nat.leb_spec 6 (length signal)); cbn [andb]; [|reflexivity]. destruct (Nat.eqb_spec (length psd) (length signal / 2 + 1)); [|reflexivity]. destruct H; [contradiction|lia].
Qed.
Theorem fourier_documented_length asserts signal npre psd : length psd = (2 * length signal + 1)%nat -> computed asserts signal npre (Some psd) 0 0 = inl ValueErr.
Proof.
  intros L. destruct (Nat.lt_ge_cases (length signal) 6) as [N|N]; [apply fourier_not_fitting; now right|]. apply fourier_not_fitting. left. unfold fits. pose proof (Nat.div_mod (length signal) 2 ltac:(lia)). lia.
Qed.
(** no noise spectrum is a ValueError, one positive cut is not implemented, other negative ones are refused. *)
Theorem fourier_arguments asserts signal npre psd a b :
  computed asserts signal npre None a b = inl ValueErr /\
  ((0 < a \/ 0 < b)%Z -> computed asserts signal npre (Some psd) a b = inl NotImplErr) /\
  ((a <= 0 /\ b <= 0 /\ (a < 0 \/ b < 0))%Z -> computed asserts signal npre (Some psd) a b = inl ValueErr).
Proof.
  split; [reflexivity|]. split; intros H; rewrite computed_error by assumption.
  - assert (E : ((0 <? a) || (0 <? b))%Z = true) by (apply orb_true_iff; rewrite !Z.ltb_lt; exact H). now rewrite E.
  - assert (E : ((0 <? a) || (0 <? b))%Z = false) by (apply orb_false_iff; rewrite !Z.ltb_ge; lia). assert (E2 : ((a <? 0) || (b <? 0))%Z = true) by (apply orb_true_iff; rewrite !Z.ltb_lt; lia). now rewrite E, E2.
Qed.
End Any.

(** So a channel whose file holds a Fourier filter cannot be opened. *)
Theorem fourier_file_unusable {C : Type} (rft : list Qc -> list C) irft to_c czero azero scale ratio limit rescale finish npre asserts mk5 c s :
  (forall x, (0 < length x)%nat -> length (rft x) = (length x / 2 + 1)%nat) -> (forall X n, length (irft X n) = n) ->
  FdModel.on_disk c = Some s -> FdModel.s_version s = 2%Z -> FdModel.s_type s = "fourier"%string ->
  FdModel.reopen mk5 (fun avg _ psd peak fmax f3 => match compute_fourier Qc C FdModel.flt rft irft to_c czero azero scale ratio (limit fmax f3) rescale (finish peak fmax f3) asserts avg npre (Some psd) 0 0 with inr f => Some f | inl _ => None end) c = None.
Proof.
  intros H1 H2 D V T. unfold FdModel.reopen. rewrite D, V, T. cbn [Z.eqb Pos.eqb negb]. change ("fourier" =? FdModel.ats)%string with false. change ("fourier" =? FdModel.lag5)%string with false. change ("fourier" =? FdModel.fourier)%string with true. cbv iota. destruct (OptModel.lmax (FdModel.avg c)) as [pk|]; [|reflexivity].
  rewrite computed_error by assumption. reflexivity.
Qed.

(** * What it would be *)
Theorem noise_left_length psd : (3 <= length psd)%nat -> length (noise_left psd) = (length psd - 2)%nat.
Proof. apply shortened_length; [apply rfft_length|apply irfft_length]. Qed.
Theorem noise_left_white p n : (4 <= n)%nat -> noise_left (repeat p n) = repeat (real p) (n - 2).
Proof. apply white_left. Qed.
(** The shortened noise correlation is not symmetric, so that a real, positive noise spectrum turns complex. *)
Theorem noise_left_real_refuted : exists psd, Forall (fun v => 0 < v) psd /\ ~ Forall (fun v : complex => snd v = 0) (noise_left psd).
Proof.
  exists [5; 4; 2; 1]. split; [repeat constructor; lra|]. intros H. set (r := [3; 1; 0; 0; 0; 1]).
  assert (A1 : cos (PI / 3) = 1 / 2) by apply cos_PI3. assert (A2 : cos (2 * (PI / 3)) = - (1 / 2)) by (rewrite cos_2a_cos, cos_PI3; lra).
  assert (T : forall k, (2 * k <= 6)%nat -> F r k = real (3 + 2 * cos (INR k * (PI / 3)))).
  { intros k K. rewrite F_contents. unfold cosines, sines, turn, r. cbn [length rsum nth]. rewrite !Rmult_0_l, !Rplus_0_r, !Rplus_0_l.
    replace (2 * PI * INR 0 * INR k / INR 6) with 0 by (cbn [INR]; unfold Rdiv; ring). replace (2 * PI * INR 1 * INR k / INR 6) with (INR k * (PI / 3)) by (rewrite (INR_IZR_INZ 6); cbn; field).
    replace (2 * PI * INR 5 * INR k / INR 6) with (- (INR k * (PI / 3)) + 2 * INR k * PI) by (rewrite (INR_IZR_INZ 6), (INR_IZR_INZ 5); cbn; field). rewrite cos_period, sin_period, cos_neg, sin_neg, cos_0, sin_0. apply ceq; cbn [fst snd real]; ring. }
  assert (RR : rfft r = map real [5; 4; 2; 1]).
  { apply (list_nth_eq c0); [reflexivity|]. change (length (rfft r)) with 4%nat. intros k K. rewrite rfft_nth by (cbn; lia). rewrite T by lia.
    destruct k as [|[|[|[|]]]]; [| | | |lia]; cbn [map nth].
    - cbn [INR]. rewrite Rmult_0_l, cos_0. f_equal. lra.
    - cbn [INR]. rewrite Rmult_1_l, A1. f_equal. lra.
    - replace (INR 2) with 2 by (cbn; lra). rewrite A2. f_equal. lra.
    - replace (INR 3 * (PI / 3)) with PI by (cbn; field). rewrite cos_PI. f_equal. lra. }
  unfold noise_left, shortened in H. rewrite <- RR in H. change (length [5; 4; 2; 1]) with 4%nat in H. change (2 * (4 - 1))%nat with (length r) in H. rewrite irfft_rfft in H by (cbn; lia). cbn [length r Nat.sub firstn skipn app] in H.
  rewrite Forall_forall in H. specialize (H (nth 1 (rfft [3; 0; 1]) c0) ltac:(apply nth_In; rewrite rfft_length; cbn; lia)). rewrite rfft_nth, F_contents in H by (cbn; lia). cbn [snd] in H. unfold sines, turn in H. cbn [length rsum nth INR] in H.
  replace (2 * PI * (1 + 1) * 1 / (1 + 1 + 1)) with (PI / 3 + PI) in H by field. rewrite neg_sin, sin_PI3 in H. replace (2 * PI * 0 * 1 / (1 + 1 + 1)) with 0 in H by field. rewrite sin_0 in H. assert (0 < sqrt 3) by (apply sqrt_lt_R0; lra). lra.
Qed.
(** The filter adds up to zero, whatever the noise: constants do not matter. *)
Theorem shape_sum dt fmax f3 s psd : (0 < length s)%nat -> Nat.even (length s) = true -> sum (fourier_shape dt fmax f3 s psd) = 0.
Proof. apply shape_sum_0. Qed.
(** For white noise its contents are those of the signal, over the noise, in the band; *)
Theorem shape_white dt fmax f3 s p : p <> 0 -> (forall c, f3 = Some c -> c <> 0) -> (2 <= length s)%nat -> Nat.even (length s) = true ->
  scaled_by (length s) (white_gain p fmax f3 (fun k => INR k / (2 * INR (length s / 2 + 2) * dt))) s (fourier_shape dt fmax f3 s (repeat p (length s / 2 + 3))).
Proof. apply shape_white_gain. Qed.
(** without a band limit it is the signal without its mean. *)
Theorem shape_white_all dt s p : p <> 0 -> (2 <= length s)%nat -> Nat.even (length s) = true ->
  fourier_shape dt None None s (repeat p (length s / 2 + 3)) = map (fun v => (v - mean s) / p) s.
Proof.
  intros P N E. apply (scaled_unique (length s) (fun k g => g = if (k =? 0)%nat then 0 else / p) s).
  - intros k g h _ -> ->. reflexivity.
  - destruct (shape_white_gain dt None None s p P ltac:(discriminate) N E) as (A & B & H). split; [exact A|]. split; [exact B|]. intros k K. destruct (H k K) as (g & G & HH). exists g. split; [|exact HH].
    destruct G as [(-> & ->)|(KP & h & KE & GP)]; [reflexivity|]. destruct (Nat.eqb_spec k 0); [lia|]. destruct KE as [(m & M & _)|[_ HG]]; [discriminate|]. cbv beta iota in HG. rewrite HG in GP. apply Rmult_eq_reg_r with p; [|exact P]. rewrite GP. field. exact P.
  - apply scaled_by_F. split; [reflexivity|]. split; [now rewrite map_length|]. intros k K. eexists. split; [reflexivity|].
    assert (M : map (fun v => (v - mean s) / p) s = combined (/ p) s (- (mean s / p)) (map (fun _ => 1) (seq 0 (length s)))).
    { apply (list_nth_eq 0); [now rewrite map_length, combined_length|]. rewrite map_length. intros i I. unfold combined. rewrite !nth_map_seq by exact I. rewrite (nth_indep _ 0 ((fun v => (v - mean s) / p) 0)) by (now rewrite map_length). rewrite (map_nth (fun v => (v - mean s) / p)). unfold Rdiv. ring. }
    rewrite M, F_combined by (now rewrite map_length, seq_length). rewrite F_const by lia. assert (INR (length s) <> 0) by (apply not_0_INR; lia). destruct (Nat.eqb_spec k 0) as [->|K0].
    + rewrite F_0. unfold mean. apply ceq; cbn [fst snd cadd cmul real]; field; auto.
    + apply ceq; cbn [fst snd cadd cmul real c0]; ring.
Qed.
(** The band limit takes the frequencies of the whole signal for those of the shortened one: oscillations of a frequency
    beyond the largest one allowed are kept. *)
Theorem shape_limit_refuted : exists dt fmax s p k, 0 < dt /\ 0 < p /\ Nat.even (length s) = true /\ (2 * k <= length s)%nat /\
  fmax < frequency (length s) dt k /\ cosines (fourier_shape dt (Some fmax) None s (repeat p (length s / 2 + 3))) k <> 0.
Proof.
  exists 1, (11 / 100), [1; 0; 0; 0; 0; 0], 1, 1%nat. split; [lra|]. split; [lra|]. split; [reflexivity|]. split; [cbn; lia|]. split; [unfold frequency; cbn; lra|]. set (s := [1; 0; 0; 0; 0; 0]).
  destruct (shape_white_gain 1 (Some (11 / 100)) None s 1 ltac:(lra) ltac:(discriminate) ltac:(cbn; lia) ltac:(reflexivity)) as (_ & _ & H). destruct (H 1%nat ltac:(cbn; lia)) as (g & G & HC & _). rewrite HC.
  assert (CS : cosines s 1 = 1) by (unfold cosines, turn, s; cbn [length rsum nth INR]; replace (2 * PI * 0 * 1 / _) with 0 by (unfold Rdiv; ring); rewrite cos_0; ring). rewrite CS.
  destruct G as [(K & _)|(_ & h & KE & GP)]; [discriminate|]. cbn in KE. destruct KE as [(m & M & L & _)|[_ HG]]; [injection M as <-; lra|]. rewrite HG in GP. lra.
Qed.

Print Assumptions fourier_always_raises.
Print Assumptions fourier_fitting_asserts.
Print Assumptions fourier_not_fitting.
Print Assumptions fourier_documented_length.
Print Assumptions fourier_arguments.
Print Assumptions fourier_file_unusable.
Print Assumptions noise_left_length.
Print Assumptions noise_left_white.
Print Assumptions noise_left_real_refuted.
Print Assumptions shape_sum.
Print Assumptions shape_white.
Print Assumptions shape_white_all.
Print Assumptions shape_limit_refuted.

(** * Cases *)
Definition half_of (x : list nat) : list nat := firstn (length x / 2 + 1) (x ++ [0%nat]).
Definition fill (_ : list nat) (n : nat) : list nat := seq 1 n.
Definition some_filter asserts signal psd := compute_fourier nat nat (list nat) half_of fill (fun v => v) 0%nat 0%nat (fun _ v => v) Nat.add (fun _ _ v => v) (fun f _ => f) (fun f => f) asserts signal 2 psd 0 0.
Example raises_case : (forall x, (0 < length x)%nat -> length (half_of x) = (length x / 2 + 1)%nat) /\ (forall X n, length (fill X n) = n) /\
  fits (length (seq 0 8)) (length (seq 0 5)) /\ some_filter true (seq 0 8) (Some (seq 0 5)) = inl AssertErr /\ some_filter false (seq 0 8) (Some (seq 0 5)) = inl ValueErr /\ some_filter true (seq 0 8) (Some (seq 0 17)) = inl ValueErr.
Proof.
  split; [intros x N; unfold half_of; rewrite firstn_length, app_length; cbn [length]; pose proof (Nat.div_mod (length x) 2 ltac:(lia)); lia|]. split; [intros; apply seq_length|]. repeat split.
Qed.
Example white_case : fourier_shape 1 None None [1; 2; 3; 6] (repeat 2 (length [1; 2; 3; 6] / 2 + 3)) = map (fun v => (v - 3) / 2) [1; 2; 3; 6].
Proof. rewrite shape_white_all by (try lra; try reflexivity; cbn; lia). apply map_ext. intros v. replace (mean [1; 2; 3; 6]) with 3; [reflexivity|]. unfold mean, sum. cbn. lra. Qed.
