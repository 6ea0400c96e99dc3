(** Residuals and line models: what the users of mass.calibration.line_models see. *)
From Coq Require Import Reals ZArith List Bool Lra Lia.
From Verif Require Import MleModel MleSpec MleProofs.
Import ListNotations.
Local Open Scope R_scope.

(* ---------- C77: the residuals of a maximum-likelihood fit ---------- *)

(** One bin with model [y] and data [d]. *)
Theorem residual_of_bin y d : 0 <= y -> 0 <= d -> (0 < d -> 0 < y) ->
  exists r, residual y d = Some r /\ composite_residual y d = Some r /\ (r < 0 <-> y < d) /\ (0 < r <-> d < y)
  /\ (d = 0 -> r * r = 2 * y) /\ (0 < d -> r * r = 2 * (y - d + d * ln (d / y))).
Proof.
  intros Y D P. destruct (residual_shape y d Y D P) as [r [e [R1 [R2 [R3 [R4 [R5 R6]]]]]]]. exists r. destruct (r2_value y d Y D P) as [e' [E [_ [_ [V1 V2]]]]]. rewrite R3 in E. apply mle_inj in E. subst e'. repeat split; try assumption; try apply R5; try apply R6.
  - intros Z. rewrite R4, (V2 Z). reflexivity.
  - intros Z. rewrite R4, (V1 Z). reflexivity.
Qed.
Print Assumptions residual_of_bin.
Example residual_of_bin_case : exists r, residual 5 0 = Some r /\ r * r = 10.
Proof. destruct (residual_of_bin 5 0 ltac:(lra) ltac:(lra) ltac:(lra)) as [r [E [_ [_ [_ [Z _]]]]]]. exists r. split; [exact E|]. rewrite Z; lra. Qed.

Theorem residual_increases y z d a b : 0 < y -> y < z -> 0 <= d -> residual y d = Some a -> residual z d = Some b -> a < b.
Proof.
  intros Y YZ D A B. destruct (residual_shape y d ltac:(lra) D ltac:(lra)) as [r [e [R1 [_ [R3 [R4 [R5 R6]]]]]]]. destruct (residual_shape z d ltac:(lra) D ltac:(lra)) as [r' [e' [Q1 [_ [Q3 [Q4 [Q5 Q6]]]]]]].
  rewrite A in R1. apply mle_inj in R1. subst r. rewrite B in Q1. apply mle_inj in Q1. subst r'.
  destruct (r2_value y d ltac:(lra) D ltac:(lra)) as [f [F1 [F0 [_ [F2 F3]]]]]. rewrite R3 in F1. apply mle_inj in F1. subst f. destruct (r2_value z d ltac:(lra) D ltac:(lra)) as [f [G1 [G0 [_ [G2 G3]]]]]. rewrite Q3 in G1. apply mle_inj in G1. subst f.
  destruct (Rle_dec d y) as [H|H].
  - assert (e < e'). { destruct (Req_dec d 0) as [Z|Z]; [rewrite (F3 Z), (G3 Z); exact YZ|]. rewrite F2, G2 by lra. apply excess_up; lra. } assert (0 < b) by (apply Q6; lra). assert (~ a < 0) by (intros C; apply R5 in C; lra). nra.
  - assert (a < 0) by (apply R5; lra). destruct (Rle_dec z d) as [Hz|Hz].
    + assert (e' < e). { rewrite F2, G2 by lra. apply excess_down; lra. } assert (~ 0 < b) by (intros C; apply Q6 in C; lra). nra.
    + assert (0 < b) by (apply Q6; lra). lra.
Qed.
Print Assumptions residual_increases.
Example residual_increases_case : exists a b, residual 2 3 = Some a /\ residual 7 3 = Some b /\ a < b.
Proof.
  destruct (residual_of_bin 2 3 ltac:(lra) ltac:(lra) ltac:(lra)) as [a [A _]]. destruct (residual_of_bin 7 3 ltac:(lra) ltac:(lra) ltac:(lra)) as [b [B _]].
  exists a, b. split; [exact A|]. split; [exact B|]. apply (residual_increases 2 7 3); [lra|lra|lra|exact A|exact B].
Qed.

(** Half the sum of the squares is the logarithm of the ratio of the best possible likelihood and this one. *)
Theorem residuals_are_likelihood ys ns : expects ys ns ->
  exists rs, residuals ys (Some (map INR ns)) = Some rs /\ composite_residuals ys (Some (map INR ns)) = Some rs
  /\ sum_squares rs / 2 = ln (likelihood (map INR ns) ns / likelihood ys ns) /\ (sum_squares rs = 0 <-> ys = map INR ns).
Proof.
  intros H. destruct (chi2 ys ns H) as [rs [A [B [C D]]]]. exists rs. split; [exact A|]. split; [exact B|]. split; [|exact D]. pose proof (likelihood_pos _ _ (expects_self ns)) as P. rewrite C.
  assert (likelihood (map INR ns) ns / (likelihood (map INR ns) ns * exp (- (sum_squares rs / 2))) = exp (sum_squares rs / 2)) as ->; [|rewrite ln_exp; reflexivity]. rewrite exp_Ropp. field. split; [pose proof (exp_pos (sum_squares rs / 2)); lra|lra].
Qed.
Print Assumptions residuals_are_likelihood.
Example residuals_are_likelihood_case : expects [3; / 2] [2%nat; 0%nat] /\ map INR [2%nat; 0%nat] <> [3; / 2].
Proof. split; [repeat constructor; lra|]. cbn. intros C. injection C as C _. lra. Qed.

(** Of two models, the one with the smaller sum of squares makes the data more likely. *)
(** Without data the model itself comes back. *)
Theorem residuals_without_data ys : residuals ys None = Some ys /\ composite_residuals ys None = Some ys.
Proof. split; reflexivity. Qed.
Print Assumptions residuals_without_data.
Example residuals_without_data_case : residuals [1; 2] None = Some [1; 2] /\ composite_residuals [1; 2] None = Some [1; 2].
Proof. apply residuals_without_data. Qed.
Theorem smaller_is_likelier ys zs ns rs ss : expects ys ns -> expects zs ns -> residuals ys (Some (map INR ns)) = Some rs -> residuals zs (Some (map INR ns)) = Some ss ->
  (sum_squares rs < sum_squares ss <-> likelihood zs ns < likelihood ys ns).
Proof.
  intros Y Z A B. destruct (chi2 ys ns Y) as [rs' [A' [_ [C _]]]]. rewrite A in A'. apply mle_inj in A'. subst rs'. destruct (chi2 zs ns Z) as [ss' [B' [_ [D _]]]]. rewrite B in B'. apply mle_inj in B'. subst ss'.
  pose proof (likelihood_pos _ _ (expects_self ns)) as P. rewrite C, D. split; intros H.
  - apply Rmult_lt_compat_l; [exact P|]. apply exp_increasing. lra.
  - apply Rmult_lt_reg_l in H; [|exact P]. apply exp_lt_inv in H. lra.
Qed.
Print Assumptions smaller_is_likelier.
Example smaller_is_likelier_case : exists rs ss, residuals [3] (Some (map INR [3%nat])) = Some rs /\ residuals [4] (Some (map INR [3%nat])) = Some ss /\ sum_squares rs < sum_squares ss.
Proof.
  assert (E3 : expects [3] [3%nat]) by (repeat constructor; lra). assert (E4 : expects [4] [3%nat]) by (repeat constructor; lra).
  destruct (residuals_are_likelihood _ _ E3) as [rs [A [_ [_ Z]]]]. destruct (residuals_are_likelihood _ _ E4) as [ss [B [_ [_ W]]]]. exists rs, ss. split; [exact A|]. split; [exact B|].
  assert (sum_squares rs = 0) as -> by (apply Z; cbn; f_equal; lra). assert (sum_squares ss <> 0). { intros C. apply W in C. cbn in C. injection C as C. lra. }
  assert (0 <= sum_squares ss); [|lra]. clear. induction ss as [|a t IH]; cbn; [lra|]. unfold sum_squares in IH. nra.
Qed.

(** A sum of models may be negative; then the two classes differ. *)
Theorem composite_agrees_refuted : exists y d r, residual y d = Some r /\ composite_residual y d = None.
Proof.
  exists (-1), 0. unfold residual, composite_residual, r2. destruct (Rlt_dec 0 0); [lra|]. destruct (Rlt_dec 0 (-1 - 0)); [lra|]. destruct (Rlt_dec (2 * (-1 - 0)) 0); [|lra]. destruct (Rlt_dec (-1) 0); [|lra]. exists (0 * -1). split; reflexivity.
Qed.
Print Assumptions composite_agrees_refuted.

(* ---------- C78: the model of a spectrum ---------- *)

Definition efficiency (qe : option (R -> R)) (e : R) : R := match qe with None => 1 | Some q => q e end.

Theorem model_value pdf pe qe bins fwhm ph dph integral bg slope out : plain_model pdf pe qe bins fwhm ph dph integral bg slope = Some out ->
  length out = length bins /\ forall k, (k < length bins)%nat ->
    let e := (nth k bins 0 - ph) / dph + pe in let expected := integral * ((nth 1 bins 0 - nth 0 bins 0) / dph) * pdf e fwhm + Rmax 0 (bg + slope * INR k) in
    0 <= expected /\ nth k out 0 = expected * efficiency qe e.
Proof.
  intros H. unfold plain_model in H. destruct bins as [|b0 [|b1 t]]; try discriminate. destruct (Req_EM_T dph 0); [discriminate|]. cbv zeta in H. set (bins := b0 :: b1 :: t) in *.
  apply finish_value in H as [L [N V]]; [|rewrite scale_length; unfold energies; rewrite !map_length; reflexivity]. rewrite scale_length in *. unfold energies in L, N, V at 1. rewrite !map_length in *. split; [exact L|]. intros k Hk. cbv zeta. specialize (N k Hk). specialize (V k Hk). change (nth 1 bins 0) with b1. change (nth 0 bins 0) with b0.
  fold (energies bins ph dph pe) in N, V. rewrite plain_rows in N, V by exact Hk. split; [exact N|]. rewrite V. unfold energies. rewrite nth_map_R by exact Hk. reflexivity.
Qed.
Print Assumptions model_value.

(** It raises exactly if there are fewer than two bins, the gain is zero or an entry comes out negative. *)
Theorem model_raises pdf pe qe bins fwhm ph dph integral bg slope : plain_model pdf pe qe bins fwhm ph dph integral bg slope = None <->
  (length bins < 2)%nat \/ dph = 0 \/ exists k, (k < length bins)%nat /\ integral * ((nth 1 bins 0 - nth 0 bins 0) / dph) * pdf ((nth k bins 0 - ph) / dph + pe) fwhm + Rmax 0 (bg + slope * INR k) < 0.
Proof.
  unfold plain_model. destruct bins as [|b0 [|b1 t]]; [cbn [length]; split; intros; [lia|reflexivity]..|]. destruct (Req_EM_T dph 0) as [D|D]; [tauto|]. cbv zeta. set (bins := b0 :: b1 :: t). rewrite finish_none. rewrite scale_length. assert (length (map (fun e => pdf e fwhm) (energies bins ph dph pe)) = length bins) as -> by (unfold energies; rewrite !map_length; reflexivity). split.
  - intros [k [Hk N]]. right. right. exists k. split; [exact Hk|]. rewrite plain_rows in N by exact Hk. exact N.
  - intros [H|[H|[k [Hk N]]]]; [cbn in H; lia|contradiction|]. exists k. split; [exact Hk|]. rewrite plain_rows by exact Hk. exact N.
Qed.
Print Assumptions model_raises.
Theorem model_defined pdf pe qe bins fwhm ph dph integral bg slope : (forall e, 0 <= pdf e fwhm) -> (2 <= length bins)%nat -> nth 0 bins 0 <= nth 1 bins 0 -> 0 < dph -> 0 <= integral -> plain_model pdf pe qe bins fwhm ph dph integral bg slope <> None.
Proof.
  intros P L B D I H. apply model_raises in H as [H|[H|[k [_ N]]]]; [lia|lra|]. pose proof (Rmax_l 0 (bg + slope * INR k)). assert (0 <= (nth 1 bins 0 - nth 0 bins 0) / dph) by (apply Rmult_le_pos; [lra|left; apply Rinv_0_lt_compat, D]). pose proof (P ((nth k bins 0 - ph) / dph + pe)). assert (0 <= integral * ((nth 1 bins 0 - nth 0 bins 0) / dph)) by (apply Rmult_le_pos; assumption). assert (0 <= integral * ((nth 1 bins 0 - nth 0 bins 0) / dph) * pdf ((nth k bins 0 - ph) / dph + pe) fwhm) by (apply Rmult_le_pos; assumption). lra.
Qed.
Print Assumptions model_defined.
Example model_case : exists out, plain_model (fun e _ => e * e) 3 (Some (fun e => / 2)) [1; 2; 3] 4 2 1 10 5 1 = Some out /\ nth 2 out 0 = (10 * 16 + 7) * / 2.
Proof.
  destruct (plain_model (fun e _ => e * e) 3 (Some (fun e => / 2)) [1; 2; 3] 4 2 1 10 5 1) as [out|] eqn:E.
  - exists out. split; [reflexivity|]. apply model_value in E as [L V]. specialize (V 2%nat ltac:(cbn; lia)). cbn [nth efficiency] in V. cbv zeta in V. destruct V as [_ V]. rewrite V. cbn [INR]. rewrite Rmax_right by lra. field.
  - exfalso. apply model_defined in E; [exact E|intros e; nra|cbn; lia|cbn; lra|lra|lra].
Qed.

(** The unit and the origin of the pulse heights do not matter. *)
Theorem model_units pdf pe qe bins fwhm ph dph integral bg slope k c : k <> 0 ->
  plain_model pdf pe qe (map (fun b => k * b + c) bins) fwhm (k * ph + c) (k * dph) integral bg slope = plain_model pdf pe qe bins fwhm ph dph integral bg slope.
Proof. apply plain_change. Qed.
Print Assumptions model_units.
Example model_units_case : 2 <> 0 /\ map (fun b => 2 * b + 1) [0; 1] <> [0; 1].
Proof. split; [lra|]. cbn. intros C. injection C as C _. lra. Qed.

(** The model with tails, if there are none: the counts come out multiplied by dph_de squared. *)
Theorem model_without_tails convolve pdf pe qe bins fwhm ph dph integral bg slope frac tau share tau_hi : frac <= / 1000000 ->
  tail_model convolve pdf pe qe bins fwhm ph dph integral bg slope frac tau share tau_hi = plain_model pdf pe qe bins fwhm ph dph (integral * (dph * dph)) bg slope.
Proof. intros H. rewrite no_tail by exact H. f_equal. ring. Qed.
Print Assumptions model_without_tails.
Theorem tails_off_refuted : exists convolve pdf pe bins fwhm ph dph integral tau share tau_hi, 0 < dph /\ 0 < integral /\ (forall e, 0 <= pdf e fwhm) /\
  tail_model convolve pdf pe None bins fwhm ph dph integral 0 0 0 tau share tau_hi <> plain_model pdf pe None bins fwhm ph dph integral 0 0.
Proof.
  exists (fun _ _ _ _ _ _ raw => raw), (fun _ _ => 1), 0, [0; 1], 1, 0, 2, 1, 1, 0, 1. split; [lra|]. split; [lra|]. split; [intros; lra|]. rewrite model_without_tails by lra. intros C.
  destruct (plain_model (fun _ _ => 1) 0 None [0; 1] 1 0 2 1 0 0) as [out|] eqn:E.
  - apply model_value in E as [_ E]. apply model_value in C as [_ C]. specialize (E 0%nat ltac:(cbn; lia)). specialize (C 0%nat ltac:(cbn; lia)). cbn [nth efficiency INR] in *. cbv zeta in *. destruct E as [_ E], C as [_ C]. rewrite E in C. rewrite Rmax_left in C by lra. lra.
  - apply model_defined in E; [exact E|intros; lra|cbn; lia|cbn; lra|lra|lra].
Qed.
Print Assumptions tails_off_refuted.
Theorem tail_units_refuted : exists convolve pdf pe bins fwhm ph dph integral k, 0 < k /\ 0 < dph /\
  tail_model convolve pdf pe None (map (fun b => k * b) bins) fwhm (k * ph) (k * dph) integral 0 0 0 1 0 1 <> tail_model convolve pdf pe None bins fwhm ph dph integral 0 0 0 1 0 1.
Proof.
  exists (fun _ _ _ _ _ _ raw => raw), (fun _ _ => 1), 0, [0; 1], 1, 0, 1, 1, 2. split; [lra|]. split; [lra|]. rewrite !model_without_tails by lra. intros C.
  destruct (plain_model (fun _ _ => 1) 0 None [0; 1] 1 0 1 (1 * (1 * 1)) 0 0) as [out|] eqn:E.
  - apply model_value in E as [_ E]. apply model_value in C as [_ C]. specialize (E 0%nat ltac:(cbn; lia)). specialize (C 0%nat ltac:(cbn; lia)). cbn [nth efficiency INR map] in *. cbv zeta in *. destruct E as [_ E], C as [_ C]. rewrite E in C. rewrite Rmax_left in C by lra. lra.
  - apply model_defined in E; [exact E|intros; lra|cbn; lia|cbn; lra|lra|lra].
Qed.
Print Assumptions tail_units_refuted.

(** The tails: the spectrum is evaluated on a longer grid that agrees with the energies asked for, filtered, and cut back
    with negative values set to zero.  The grid is longer by the resolution and six tail lengths (rounded to steps), or
    by ten times the number of bins. *)
Theorem smeared_grid convolve clean x res frac tau share tau_hi out : / 1000000 < frac -> (forall a b c d e s raw, length (convolve a b c d e s raw) = length raw) -> smear convolve clean x res frac tau share tau_hi = Some out ->
  let step := nth 1 x 0 - nth 0 x 0 in
  exists before after raw smooth, length raw = (before + after + length x)%nat /\ (Z.of_nat (length raw) <= 100000)%Z /\ (before <= 10 * length x)%nat /\ (after <= 10 * length x)%nat
  /\ (before = (10 * length x)%nat \/ res + Rmax (tau * 6) tau_hi <= (INR before + / 2) * step)
  /\ (after = (10 * length x)%nat \/ res + Rmax tau (tau_hi * 6) <= (INR after + / 2) * step)
  /\ (forall j, (j < length raw)%nat -> nth j raw 0 = clean (nth 0 x 0 + (INR j - INR before) * step))
  /\ smooth = convolve (1 - frac) (lo_weight frac share) tau (hi_weight frac share) tau_hi step raw
  /\ length out = length x /\ forall k, (k < length x)%nat -> nth k out 0 = Rmax 0 (nth (before + k) smooth 0).
Proof.
  intros F CL H. cbv zeta. destruct (smear_value convolve clean x res frac tau share tau_hi out F CL H) as [nl [nh [smooth [A [B [C [D [E [G [S V]]]]]]]]]].
  set (raw := map _ _) in S. exists nl, nh, raw, smooth. assert (L : length raw = (nl + nh + length x)%nat) by (unfold raw; rewrite map_length, seq_length; reflexivity). split; [exact L|]. split; [rewrite L; exact B|]. split; [exact C|]. split; [exact D|]. split; [exact E|]. split; [exact G|]. split; [|split; [exact S|split; [exact A|exact V]]].
  intros j Hj. rewrite L in Hj. unfold raw. set (f := fun k : nat => clean _). rewrite (nth_indep _ 0 (f 0%nat)) by (rewrite map_length, seq_length; exact Hj). rewrite (map_nth f), seq_nth by exact Hj. reflexivity.
Qed.
Print Assumptions smeared_grid.
(** Hence for evenly spaced energies, without change by the filter, the spectrum at these energies. *)
Theorem smeared_aligned clean x res frac tau share tau_hi out : / 1000000 < frac -> (forall e, 0 <= clean e) -> (forall k, (k < length x)%nat -> nth k x 0 = nth 0 x 0 + INR k * (nth 1 x 0 - nth 0 x 0)) ->
  smear (fun _ _ _ _ _ _ raw => raw) clean x res frac tau share tau_hi = Some out -> out = map clean x.
Proof.
  intros F P EV H. destruct (smeared_grid (fun _ _ _ _ _ _ raw => raw) clean x res frac tau share tau_hi out F ltac:(reflexivity) H) as [b [a [raw [smooth [L [_ [_ [_ [_ [_ [R [S [O V]]]]]]]]]]]]]. subst smooth. apply (nth_ext _ _ 0 0); [rewrite map_length; exact O|]. intros k Hk. rewrite O in Hk. rewrite V, R by lia. rewrite nth_map_R by exact Hk. rewrite (EV k Hk), plus_INR, Rmax_right by apply P. f_equal. ring.
Qed.
Print Assumptions smeared_aligned.
(** The weights of the three parts of the filter: none is negative and nothing is gained; at most two parts in a million are lost. *)
Theorem tail_weights frac share : 0 <= frac <= 1 -> 0 <= share <= 1 -> 0 <= lo_weight frac share /\ 0 <= hi_weight frac share /\ 1 - 2 / 1000000 <= 1 - frac + lo_weight frac share + hi_weight frac share <= 1.
Proof. apply weights. Qed.
Print Assumptions tail_weights.
Example tail_case : smear (fun _ _ _ _ _ _ raw => raw) (fun e => e * e) [1; 2] 0 (/ 2) 0 0 0 = Some [1 * 1; 2 * 2].
Proof.
  destruct (smear (fun _ _ _ _ _ _ raw => raw) (fun e => e * e) [1; 2] 0 (/ 2) 0 0 0) as [out|] eqn:E.
  - apply smeared_aligned in E; [rewrite E; reflexivity|lra|intros; nra|]. intros [|[|k]] Hk; cbn in *; try lra. lia.
  - exfalso. unfold smear in E. destruct (Rle_dec (/ 2) tiny); [unfold tiny in *; lra|]. cbv zeta in E. destruct (Rle_dec (2 - 1) 0); [lra|].
    assert (T : trunc ((0 + Rmax (0 * 6) 0) / (2 - 1) + / 2) = 0%Z). { rewrite Rmult_0_l, Rmax_left by lra. unfold trunc. destruct (Rle_dec 0 ((0 + 0) / (2 - 1) + / 2)); [|lra]. assert ((0 + 0) / (2 - 1) + / 2 = / 2) as -> by field. destruct (base_Int_part (/ 2)) as [I1 I2]. assert (Int_part (/ 2) < 1)%Z by (apply lt_IZR; lra). assert (-1 < Int_part (/ 2))%Z by (apply lt_IZR; lra). lia. }
    assert (T' : trunc ((0 + Rmax 0 (0 * 6)) / (2 - 1) + / 2) = 0%Z) by (rewrite Rmax_comm; exact T). rewrite T, T' in E. cbn in E. discriminate.
Qed.

(* ---------- C79: the first guess of the parameters ---------- *)

Theorem guess_peak data bins dph : data <> [] -> dph <> 0 -> length bins = length data ->
  exists g i, guess data bins dph = Some g /\ (i < length data)%nat /\ g_peak g = nth i bins 0
  /\ (forall j, (j < length data)%nat -> nth j data 0 <= nth i data 0) /\ (forall j, (j < i)%nat -> nth j data 0 < nth i data 0).
Proof.
  intros N D L. destruct (argmax_ok data N) as [A [B C]]. unfold guess. destruct data as [|v t]; [congruence|]. destruct (Req_EM_T dph 0); [contradiction|]. eexists. exists (argmax (v :: t)). split; [reflexivity|]. split; [exact A|]. split; [reflexivity|]. split; assumption.
Qed.
Print Assumptions guess_peak.
(** The background is positive; it is the mean of the first ten bins or one count over all bins. *)
Theorem guess_background data bins dph g : guess data bins dph = Some g ->
  0 < g_background g /\ ((20 < length data)%nat -> g_background g = Rmax (fold_right Rplus 0 (firstn 10 data) / 10) (/ INR (length data))) /\ ((length data <= 20)%nat -> g_background g = / 10).
Proof.
  intros H. unfold guess in H. destruct data as [|v t]; [discriminate|]. destruct (Req_EM_T dph 0); [discriminate|]. cbv zeta in H. set (data := v :: t) in *. apply mle_inj in H. subst g. cbn [g_background]. assert (P : 0 < INR (length data)) by (apply lt_0_INR; cbn; lia). destruct (20 <? length data)%nat eqn:E.
  - apply Nat.ltb_lt in E. split; [|split; [|lia]].
    + apply Rlt_le_trans with (1 / INR (length data)); [apply Rdiv_lt_0_compat; lra|apply Rmax_r].
    + intros _. f_equal; [|field; lra]. unfold mean_of. rewrite firstn_length, Nat.min_l by lia. cbn [INR]. unfold total. f_equal. lra.
  - apply Nat.ltb_ge in E. split; [lra|]. split; [lia|]. intros; lra.
Qed.
Print Assumptions guess_background.
(** The integral is what lies above the background, or everything if that is negative. *)
Theorem guess_integral data bins dph g : Forall (fun v => 0 <= v) data -> guess data bins dph = Some g ->
  let all := fold_right Rplus 0 data in let above := all - g_background g * INR (length data) in
  0 <= g_integral g /\ (0 <= above -> g_integral g = above) /\ (above < 0 -> g_integral g = all).
Proof.
  intros P H. unfold guess in H. destruct data as [|v t]; [discriminate|]. destruct (Req_EM_T dph 0); [discriminate|]. cbv zeta in H |- *. set (data := v :: t) in *. apply mle_inj in H. subst g. cbn [g_background g_integral]. set (b := if (20 <? length data)%nat then _ else _). pose proof (total_nonneg data P) as T. fold (total data). destruct (Rlt_dec (total data - b * INR (length data)) 0); split; try lra; split; intros; lra.
Qed.
Print Assumptions guess_integral.
(** The width is 0.7 times the distance of the bins where a quarter and three quarters of the counts are passed. *)
Theorem guess_fwhm data bins dph g : Forall (fun v => 0 <= v) data -> let all := fold_right Rplus 0 data in 0 < all -> length bins = length data -> guess data bins dph = Some g ->
  exists i j, (i <= j)%nat /\ (j < length data)%nat /\ g_fwhm g * dph = 7 / 10 * (nth j bins 0 - nth i bins 0)
  /\ fold_right Rplus 0 (firstn i data) <= / 4 * all < fold_right Rplus 0 (firstn (S i) data)
  /\ fold_right Rplus 0 (firstn j data) <= 3 / 4 * all < fold_right Rplus 0 (firstn (S j) data).
Proof.
  intros P all A L H. unfold guess in H. destruct data as [|v t]; [discriminate|]. destruct (Req_EM_T dph 0) as [|D]; [discriminate|]. cbv zeta in H. set (data := v :: t) in *. apply mle_inj in H. subst g. cbn [g_fwhm]. change (0 < total data) in A.
  destruct (percentile_ok data bins (1 / 4) A ltac:(lra) L) as [i [I1 [I2 [I3 I4]]]]. destruct (percentile_ok data bins (3 / 4) A ltac:(lra) L) as [j [J1 [J2 [J3 J4]]]]. exists i, j. split.
  - destruct (Nat.le_gt_cases i j) as [G|G]; [exact G|]. pose proof (total_firstn_mono data (S j) i P ltac:(lia)). lra.
  - split; [exact J2|]. rewrite I1, J1. split; [field; exact D|]. fold (total (firstn i data)) (total (firstn (S i) data)) (total (firstn j data)) (total (firstn (S j) data)). change all with (total data). lra.
Qed.
Print Assumptions guess_fwhm.
Example guess_case : exists g, guess [1; 5; 5; 1] [10; 20; 30; 40] 2 = Some g /\ g_peak g = 20 /\ g_background g = / 10 /\ g_integral g = 12 - 4 / 10.
Proof.
  destruct (guess_peak [1; 5; 5; 1] [10; 20; 30; 40] 2 ltac:(discriminate) ltac:(lra) eq_refl) as [g [i [G [I [PK [B C]]]]]]. exists g. split; [exact G|]. assert (i = 1%nat).
  { destruct i as [|[|[|[|i]]]]; cbn in *; try lia; [specialize (B 1%nat ltac:(lia)); cbn in B; lra|specialize (C 1%nat ltac:(lia)); cbn in C; lra|specialize (B 1%nat ltac:(lia)); cbn in B; lra]. }
  subst i. split; [exact PK|]. destruct (guess_background _ _ _ _ G) as [_ [_ BG]]. specialize (BG ltac:(cbn; lia)). split; [exact BG|]. destruct (guess_integral [1; 5; 5; 1] [10; 20; 30; 40] 2 g ltac:(repeat constructor; lra) G) as [_ [V _]]. rewrite BG in V. cbn in V. rewrite V; lra.
Qed.
(** Where the bins are in order, the width is not negative. *)
Theorem guess_width_nonneg data bins dph g : Forall (fun v => 0 <= v) data -> 0 < fold_right Rplus 0 data -> length bins = length data -> (forall i j, (i <= j)%nat -> (j < length bins)%nat -> nth i bins 0 <= nth j bins 0) -> 0 < dph -> guess data bins dph = Some g -> 0 <= g_fwhm g.
Proof.
  intros P A L S D H. destruct (guess_fwhm data bins dph g P A L H) as [i [j [IJ [J [V _]]]]]. specialize (S i j IJ ltac:(lia)). nra.
Qed.
Print Assumptions guess_width_nonneg.
(** Counts spread evenly over more than 20 bins are all taken for background: the guessed integral is zero. *)
Theorem guess_flat v n bins dph g : (20 < n)%nat -> / INR n <= v -> guess (repeat v n) bins dph = Some g -> g_background g = v /\ g_integral g = 0.
Proof.
  intros N V H. assert (P : 0 < / INR n) by (apply Rinv_0_lt_compat, lt_0_INR; lia). destruct (guess_background _ _ _ _ H) as [_ [B _]]. rewrite repeat_length in B. specialize (B N).
  assert (F : firstn 10 (repeat v n) = repeat v 10). { replace n with (10 + (n - 10))%nat by lia. rewrite repeat_app. rewrite firstn_app, repeat_length, Nat.sub_diag, firstn_O, app_nil_r. rewrite <- (repeat_length v 10) at 1. apply firstn_all. }
  assert (G : g_background g = v). { rewrite B, F. fold (total (repeat v 10)). rewrite total_repeat. rewrite Rmax_left; [cbn [INR]; field|cbn [INR]; lra]. } split; [exact G|].
  destruct (guess_integral (repeat v n) bins dph g) as [_ [I _]]; [apply Forall_forall; intros x X; apply repeat_spec in X; lra|exact H|]. fold (total (repeat v n)) in I. rewrite G, repeat_length, total_repeat in I. rewrite I; lra.
Qed.
Print Assumptions guess_flat.
Example guess_flat_case : exists g, guess (repeat 2 21) (map INR (seq 0 21)) 1 = Some g /\ g_integral g = 0.
Proof.
  destruct (guess (repeat 2 21) (map INR (seq 0 21)) 1) as [g|] eqn:E.
  - exists g. split; [reflexivity|]. apply guess_flat in E; [apply E|lia|]. cbn [INR]. lra.
  - exfalso. unfold guess in E. cbn [repeat] in E. destruct (Req_EM_T 1 0); [lra|discriminate].
Qed.
