(** Residuals and line models. *)
From Coq Require Import Reals ZArith List Bool Lra Lia Psatz.
From Verif Require Import MleModel MleSpec.
Import ListNotations.
Local Open Scope R_scope.

Lemma mle_inj {A} (a b : A) : Some a = Some b -> a = b.
Proof. congruence. Qed.

(* ---------- one bin ---------- *)

Lemma ln_below t : 0 < t -> t <> 1 -> ln t < t - 1.
Proof.
  intros P N. assert (Z : ln t <> 0). { intros C. apply N. rewrite <- (exp_ln t P), C, exp_0. reflexivity. }
  pose proof (exp_ineq1 (ln t) Z) as H. rewrite exp_ln in H by exact P. lra.
Qed.
Definition excess (y d : R) : R := y - d + d * ln (d / y).
Lemma excess_pos y d : 0 < y -> 0 < d -> y <> d -> 0 < excess y d.
Proof.
  intros Y D N. unfold excess. assert (P : 0 < y / d) by (apply Rdiv_lt_0_compat; assumption).
  assert (L : ln (d / y) = - ln (y / d)). { rewrite <- ln_Rinv by exact P. f_equal. field. split; lra. }
  assert (B : ln (y / d) < y / d - 1). { apply ln_below; [exact P|]. intros C. apply N. assert (y = y / d * d) by (field; lra). rewrite C in H. lra. }
  rewrite L. assert (M : d * ln (y / d) < d * (y / d - 1)) by (apply Rmult_lt_compat_l; assumption). assert (d * (y / d - 1) = y - d) by (field; lra). lra.
Qed.
Lemma excess_same y : 0 < y -> excess y y = 0.
Proof. intros Y. unfold excess. assert (y / y = 1) as -> by (field; lra). rewrite ln_1. ring. Qed.
Lemma excess_diff y z d : 0 < y -> 0 < z -> 0 < d -> excess z d - excess y d = z - y - d * ln (z / y).
Proof. intros Y Z D. unfold excess, Rdiv. rewrite !ln_mult by (try apply Rinv_0_lt_compat; assumption). rewrite !ln_Rinv by assumption. ring. Qed.
Lemma excess_up y z d : 0 < d -> d <= y -> y < z -> excess y d < excess z d.
Proof.
  intros D A B. pose proof (excess_diff y z d ltac:(lra) ltac:(lra) D) as E. assert (L : ln (z / y) < z / y - 1). { apply ln_below; [apply Rdiv_lt_0_compat; lra|]. intros C. assert (z = z / y * y) by (field; lra). rewrite C in H. lra. }
  assert (z / y - 1 = (z - y) / y) as Q by (field; lra). rewrite Q in L. assert (M : d * ln (z / y) < d * ((z - y) / y)) by (apply Rmult_lt_compat_l; assumption). assert (G : d * ((z - y) / y) <= z - y). { assert (d * ((z - y) / y) = (d / y) * (z - y)) as -> by (field; lra). assert (d / y <= 1) by (apply (Rmult_le_reg_r y); [lra|]; unfold Rdiv; rewrite Rmult_assoc, Rinv_l; lra). nra. } lra.
Qed.
Lemma excess_down y z d : 0 < y -> y < z -> z <= d -> excess z d < excess y d.
Proof.
  intros Y A B. pose proof (excess_diff y z d Y ltac:(lra) ltac:(lra)) as E. assert (L : ln (y / z) < y / z - 1). { apply ln_below; [apply Rdiv_lt_0_compat; lra|]. intros C. assert (y = y / z * z) by (field; lra). rewrite C in H. lra. }
  assert (F : ln (y / z) = - ln (z / y)). { rewrite <- ln_Rinv by (apply Rdiv_lt_0_compat; lra). f_equal. field. split; lra. }
  assert (y / z - 1 = - ((z - y) / z)) as Q by (field; lra). rewrite Q, F in L. assert (L' : (z - y) / z < ln (z / y)) by lra. assert (M : d * ((z - y) / z) < d * ln (z / y)) by (apply Rmult_lt_compat_l; lra). assert (G : z - y <= d * ((z - y) / z)). { assert (d * ((z - y) / z) = (d / z) * (z - y)) as -> by (field; lra). assert (1 <= d / z) by (apply (Rmult_le_reg_r z); [lra|]; unfold Rdiv; rewrite Rmult_assoc, Rinv_l; lra). nra. } lra.
Qed.
Lemma r2_value y d : 0 <= y -> 0 <= d -> (0 < d -> 0 < y) -> exists e, r2 y d = Some e /\ 0 <= e /\ (e = 0 <-> y = d) /\ (0 < d -> e = excess y d) /\ (d = 0 -> e = y).
Proof.
  intros Y D P. unfold r2. destruct (Rlt_dec 0 d) as [H|H].
  - specialize (P H). destruct (Rlt_dec 0 y); [|lra]. exists (excess y d). split; [reflexivity|]. destruct (Req_dec y d) as [->|N].
    + rewrite excess_same by exact H. repeat split; lra.
    + pose proof (excess_pos y d P H N). split; [lra|]. split; [split; intros; lra|]. split; intros; [reflexivity|lra].
  - assert (d = 0) as -> by lra. exists (y - 0). split; [reflexivity|]. repeat split; lra.
Qed.
Lemma residual_shape y d : 0 <= y -> 0 <= d -> (0 < d -> 0 < y) -> exists r e, residual y d = Some r /\ composite_residual y d = Some r /\ r2 y d = Some e /\ r * r = 2 * e /\ (r < 0 <-> y < d) /\ (0 < r <-> d < y).
Proof.
  intros Y D P. destruct (r2_value y d Y D P) as [e [E [E0 [Z _]]]]. unfold residual, composite_residual. rewrite E. destruct (Rlt_dec (2 * e) 0); [lra|].
  destruct (Rlt_dec 0 e) as [G|G].
  - pose proof (sqrt_lt_R0 (2 * e) ltac:(lra)) as S. pose proof (sqrt_sqrt (2 * e) ltac:(lra)) as SS. assert (y <> d) by (intros C; apply Z in C; lra). destruct (Rlt_dec y d).
    + exists (sqrt (2 * e) * -1), e. repeat split; try reflexivity; try lra.
    + exists (sqrt (2 * e)), e. repeat split; try reflexivity; try lra.
  - assert (e = 0) as -> by lra. assert (y = d) by (apply Z; reflexivity). subst. destruct (Rlt_dec d d); [lra|]. rewrite Rmult_0_r, sqrt_0. exists 0, 0. repeat split; try reflexivity; try lra.
Qed.
Lemma poisson_ratio y n : 0 <= y -> ((0 < n)%nat -> 0 < y) -> forall e, r2 y (INR n) = Some e -> poisson y n = poisson (INR n) n * exp (- e).
Proof.
  intros Y P e E. unfold poisson. destruct n as [|n].
  - cbn [INR pow fact]. unfold r2 in E. destruct (Rlt_dec 0 (INR 0)); [cbn in *; lra|]. apply mle_inj in E. cbn [INR] in E. subst e. rewrite Ropp_0, exp_0. cbn [INR]. replace (- (y - 0)) with (- y) by ring. field.
  - specialize (P ltac:(lia)). set (d := INR (S n)) in *. assert (D : 0 < d) by (apply lt_0_INR; lia). unfold r2 in E. destruct (Rlt_dec 0 d); [|contradiction]. destruct (Rlt_dec 0 y); [|contradiction]. apply mle_inj in E. subst e.
    assert (F : INR (fact (S n)) <> 0) by apply INR_fact_neq_0. set (f := INR (fact (S n))) in *. clearbody f.
    assert (X : exp (- (y - d + d * ln (d / y))) = exp (- y) * exp d * exp (- (d * ln (d / y)))). { rewrite <- !exp_plus. f_equal. ring. }
    assert (W : exp (- (d * ln (d / y))) = (y / d) ^ S n). { rewrite <- Rpower_pow by (apply Rdiv_lt_0_compat; assumption). unfold Rpower. fold d. f_equal. assert (ln (y / d) = - ln (d / y)) as ->; [|ring]. rewrite <- ln_Rinv by (apply Rdiv_lt_0_compat; assumption). f_equal. field. split; lra. }
    rewrite X, W. unfold Rdiv at 3. rewrite Rpow_mult_distr, pow_inv. assert (exp (- d) * exp d = 1) as U by (rewrite <- exp_plus, Rplus_opp_l; apply exp_0).
    assert (Dn : d ^ S n <> 0) by (apply pow_nonzero; lra). set (dn := d ^ S n) in *. clearbody dn. set (yn := y ^ S n). transitivity (yn * exp (- y) / f * (exp (- d) * exp d)); [rewrite U; ring|]. field. split; assumption.
Qed.

(* ---------- lists ---------- *)

Lemma residuals_cons y ys d ds : map2 residual (y :: ys) (d :: ds) = match residual y d, map2 residual ys ds with Some c, Some r => Some (c :: r) | _, _ => None end.
Proof. reflexivity. Qed.
Lemma chi2 ys ns : expects ys ns -> exists rs, residuals ys (Some (map INR ns)) = Some rs /\ composite_residuals ys (Some (map INR ns)) = Some rs /\ likelihood ys ns = likelihood (map INR ns) ns * exp (- (sum_squares rs / 2)) /\ (sum_squares rs = 0 <-> ys = map INR ns).
Proof.
  intros H. cbn [residuals composite_residuals]. induction H as [|y n ys ns [Y P] H IH].
  - exists []. repeat split. cbn. unfold Rdiv. rewrite Rmult_0_l, Ropp_0, exp_0. ring.
  - destruct IH as [rs [I1 [I2 [I3 I4]]]]. assert (P' : 0 < INR n -> 0 < y) by (intros Q; apply P; destruct n; [cbn in Q; lra|lia]).
    destruct (residual_shape y (INR n) Y (pos_INR n) P') as [r [e [R1 [R2 [R3 [R4 [R5 R6]]]]]]]. exists (r :: rs). cbn [map map2]. rewrite R1, R2, I1, I2. split; [reflexivity|]. split; [reflexivity|]. split.
    + cbn [likelihood combine map fold_right fst snd]. fold (likelihood ys ns) (likelihood (map INR ns) ns). rewrite I3, (poisson_ratio y n Y P e R3). cbn [sum_squares fold_right]. fold (sum_squares rs). rewrite R4. replace (- ((2 * e + sum_squares rs) / 2)) with (- e + - (sum_squares rs / 2)) by field. rewrite exp_plus. ring.
    + cbn [sum_squares fold_right]. fold (sum_squares rs). assert (N : 0 <= sum_squares rs). { clear. induction rs as [|a t IH]; cbn; [lra|]. unfold sum_squares in IH. nra. } split.
      * intros S. assert (r * r = 0) by nra. assert (sum_squares rs = 0) as S2 by nra. assert (r = 0) by nra. apply I4 in S2. f_equal; [|exact S2]. destruct (Rtotal_order y (INR n)) as [G|[G|G]]; [apply R5 in G; lra|exact G|apply R6 in G; lra].
      * intros S. injection S as S1 S2. apply I4 in S2. assert (r = 0). { destruct (Rtotal_order r 0) as [G|[G|G]]; [apply R5 in G; lra|exact G|apply R6 in G; lra]. } subst r. lra.
Qed.
Lemma likelihood_pos ys ns : expects ys ns -> 0 < likelihood ys ns.
Proof.
  intros H. induction H as [|y n ys ns [Y P] H IH]; [cbn; lra|]. cbn [likelihood combine fold_right fst snd]. fold (likelihood ys ns). apply Rmult_lt_0_compat; [|exact IH]. unfold poisson. apply Rdiv_lt_0_compat; [|apply INR_fact_lt_0]. apply Rmult_lt_0_compat; [|apply exp_pos]. destruct n as [|n]; [cbn; lra|]. apply pow_lt, P. lia.
Qed.
Lemma expects_self ns : expects (map INR ns) ns.
Proof. induction ns as [|n t IH]; constructor; [|exact IH]. split; [apply pos_INR|apply lt_0_INR]. Qed.

(* ---------- model functions ---------- *)

Lemma indexed_length f l : forall i, length (indexed i f l) = length l.
Proof. induction l as [|v t IH]; intros i; [reflexivity|]. cbn. f_equal. apply IH. Qed.
Lemma indexed_nth f l : forall i k, (k < length l)%nat -> nth k (indexed i f l) 0 = f (i + k)%nat (nth k l 0).
Proof.
  induction l as [|v t IH]; intros i k H; [cbn in H; lia|]. destruct k as [|k]; cbn [indexed nth]; [f_equal; lia|]. rewrite IH by (cbn in H; lia). f_equal. lia.
Qed.
Lemma background_value bg slope i : background_at bg slope i = Rmax 0 (bg + slope * INR i).
Proof.
  unfold background_at. assert ((if Req_EM_T slope 0 then bg else bg + slope * INR i) = bg + slope * INR i) as -> by (destruct (Req_EM_T slope 0) as [->|]; lra).
  unfold Rmax. destruct (Rlt_dec (bg + slope * INR i) 0), (Rle_dec 0 (bg + slope * INR i)); lra.
Qed.
Lemma scale_nth l integral bg slope k : (k < length l)%nat -> nth k (scale_add_bg l integral bg slope) 0 = nth k l 0 * integral + Rmax 0 (bg + slope * INR k).
Proof. intros H. unfold scale_add_bg. rewrite indexed_nth by exact H. cbn [Nat.add]. rewrite background_value. reflexivity. Qed.
Lemma any_negative_false l : any_negative l = false <-> forall k, (k < length l)%nat -> 0 <= nth k l 0.
Proof.
  unfold any_negative. split.
  - intros H k Hk. apply Rnot_lt_le. intros C. assert (existsb (fun v => if Rlt_dec v 0 then true else false) l = true); [|congruence]. apply existsb_exists. exists (nth k l 0). split; [apply nth_In, Hk|]. destruct (Rlt_dec (nth k l 0) 0); [reflexivity|contradiction].
  - intros H. apply Bool.not_true_iff_false. intros C. apply existsb_exists in C as [v [I E]]. apply (In_nth _ _ 0) in I as [k [Hk <-]]. specialize (H k Hk). destruct (Rlt_dec (nth k l 0) 0); [lra|discriminate].
Qed.
Lemma times_nth l m k : length l = length m -> nth k (times l m) 0 = nth k l 0 * nth k m 0.
Proof.
  revert m k. induction l as [|a l IH]; intros [|b m] k L; try discriminate; [destruct k; cbn; ring|]. destruct k as [|k]; [reflexivity|]. cbn. apply IH. cbn in L. lia.
Qed.
Lemma times_length l m : length l = length m -> length (times l m) = length l.
Proof. intros L. unfold times. rewrite map_length, combine_length. lia. Qed.
Lemma nth_map_R (f : R -> R) l k : (k < length l)%nat -> nth k (map f l) 0 = f (nth k l 0).
Proof. intros H. rewrite (nth_indep _ 0 (f 0)) by (rewrite map_length; exact H). apply map_nth. Qed.
Lemma finish_value r energy qe out : finish r energy qe = Some out -> length r = length energy -> length out = length r /\ (forall k, (k < length r)%nat -> 0 <= nth k r 0) /\ forall k, (k < length r)%nat -> nth k out 0 = nth k r 0 * match qe with None => 1 | Some q => q (nth k energy 0) end.
Proof.
  unfold finish. intros H L. destruct (any_negative r) eqn:E; [discriminate|]. apply mle_inj in H. subst out. split.
  - destruct qe; [apply times_length; rewrite map_length; exact L|reflexivity].
  - split; [apply (proj1 (any_negative_false r) E)|]. intros k Hk. destruct qe as [q|]; [|ring]. rewrite times_nth by (rewrite map_length; exact L). f_equal. apply nth_map_R. lia.
Qed.
Lemma finish_none r energy qe : finish r energy qe = None <-> exists k, (k < length r)%nat /\ nth k r 0 < 0.
Proof.
  unfold finish. destruct (any_negative r) eqn:E; split; intros H; try discriminate; try reflexivity.
  - apply existsb_exists in E as [v [I E]]. apply (In_nth _ _ 0) in I as [k [Hk <-]]. exists k. split; [exact Hk|]. destruct (Rlt_dec (nth k r 0) 0); [assumption|discriminate].
  - destruct H as [k [Hk N]]. pose proof (proj1 (any_negative_false r) E k Hk). lra.
Qed.
Lemma scale_length l a b c : length (scale_add_bg l a b c) = length l.
Proof. apply indexed_length. Qed.
Lemma plain_rows (pdf : R -> R -> R) pe fwhm ph dph integral bg slope bins w k : (k < length bins)%nat -> nth k (scale_add_bg (map (fun e => pdf e fwhm) (energies bins ph dph pe)) (integral * w / dph) bg slope) 0 = integral * (w / dph) * pdf ((nth k bins 0 - ph) / dph + pe) fwhm + Rmax 0 (bg + slope * INR k).
Proof.
  intros H. unfold energies. rewrite scale_nth by (rewrite !map_length; exact H). rewrite map_map, nth_map_R by exact H. unfold Rdiv. ring.
Qed.
Lemma plain_change pdf pe qe bins fwhm ph dph integral bg slope k c : k <> 0 -> plain_model pdf pe qe (map (fun b => k * b + c) bins) fwhm (k * ph + c) (k * dph) integral bg slope = plain_model pdf pe qe bins fwhm ph dph integral bg slope.
Proof.
  intros K. unfold plain_model. destruct bins as [|b0 [|b1 t]]; try reflexivity. cbn [map]. destruct (Req_EM_T dph 0) as [->|D].
  - destruct (Req_EM_T (k * 0) 0); [reflexivity|]. exfalso. apply n. ring.
  - destruct (Req_EM_T (k * dph) 0) as [C|_]; [apply Rmult_integral in C; tauto|]. assert (E : energies (k * b0 + c :: k * b1 + c :: map (fun b => k * b + c) t) (k * ph + c) (k * dph) pe = energies (b0 :: b1 :: t) ph dph pe).
    { change (k * b0 + c :: k * b1 + c :: map (fun b => k * b + c) t) with (map (fun b => k * b + c) (b0 :: b1 :: t)). unfold energies. rewrite map_map. apply map_ext. intros b. field. split; assumption. }
    rewrite E. assert (integral * (k * b1 + c - (k * b0 + c)) / (k * dph) = integral * (b1 - b0) / dph) as -> by (field; split; assumption). reflexivity.
Qed.
Lemma no_tail convolve pdf pe qe bins fwhm ph dph integral bg slope frac tau share tau_hi : frac <= tiny -> tail_model convolve pdf pe qe bins fwhm ph dph integral bg slope frac tau share tau_hi = plain_model pdf pe qe bins fwhm ph dph (integral * dph * dph) bg slope.
Proof.
  intros F. unfold tail_model, plain_model. destruct bins as [|b0 [|b1 t]]; try reflexivity. destruct (Req_EM_T dph 0) as [|D]; [reflexivity|]. unfold smear. destruct (Rle_dec frac tiny); [|contradiction]. f_equal. f_equal. field. exact D.
Qed.

(* ---------- tails ---------- *)

Lemma tiny_pos : 0 < tiny.
Proof. unfold tiny. lra. Qed.
Lemma weights frac share : 0 <= frac <= 1 -> 0 <= share <= 1 -> 0 <= lo_weight frac share /\ 0 <= hi_weight frac share /\ 1 - 2 * tiny <= 1 - frac + lo_weight frac share + hi_weight frac share <= 1.
Proof.
  intros F S. pose proof tiny_pos. unfold lo_weight, hi_weight. assert (0 <= frac * share <= frac) by nra. destruct (Rlt_dec tiny (frac - frac * share)), (Rlt_dec tiny (frac * share)); lra.
Qed.
Lemma nonneg_value v : nonneg v = Rmax 0 v.
Proof. unfold nonneg, Rmax. destruct (Rlt_dec v 0), (Rle_dec 0 v); lra. Qed.
Lemma wide_nth x0 step nlow nhi len k : (k < nlow + nhi + len)%nat -> nth k (wide x0 step nlow nhi len) 0 = x0 + (INR k - INR nlow) * step.
Proof.
  intros H. unfold wide. rewrite (nth_indep _ 0 ((INR 0 - INR nlow) * step + x0)) by (rewrite map_length, seq_length; exact H). rewrite (map_nth (fun k => (INR k - INR nlow) * step + x0)), seq_nth by exact H. cbn [Nat.add]. ring.
Qed.
Lemma nth_firstn_R (l : list R) : forall n k, (k < n)%nat -> nth k (firstn n l) 0 = nth k l 0.
Proof. induction l as [|a t IH]; intros [|n] [|k] H; try lia; try reflexivity. cbn. apply IH. lia. Qed.
Lemma nth_skipn_R (l : list R) : forall n k, nth k (skipn n l) 0 = nth (n + k) l 0.
Proof. induction l as [|a t IH]; intros [|n] k; try reflexivity; [destruct k; reflexivity|]. cbn. apply IH. Qed.
Lemma nth_window (l : list R) n m k : (k < n)%nat -> nth k (firstn n (skipn m l)) 0 = nth (m + k) l 0.
Proof. intros H. rewrite nth_firstn_R by exact H. apply nth_skipn_R. Qed.
Lemma trunc_above r : (0 <= trunc r)%Z -> r < IZR (trunc r) + 1.
Proof. unfold trunc. destruct (Rle_dec 0 r); intros H; [pose proof (base_Int_part r); lra|]. assert (0 <= IZR (- Int_part (- r))) by (apply IZR_le, H). lra. Qed.
Lemma padded len a step : 0 < step -> (0 <= Z.min (10 * Z.of_nat len) (trunc (a / step + / 2)))%Z -> Z.to_nat (Z.min (10 * Z.of_nat len) (trunc (a / step + / 2))) = (10 * len)%nat \/ a <= (INR (Z.to_nat (Z.min (10 * Z.of_nat len) (trunc (a / step + / 2)))) + / 2) * step.
Proof.
  intros S H. destruct (Z.le_gt_cases (10 * Z.of_nat len) (trunc (a / step + / 2))) as [C|C].
  - left. rewrite Z.min_l by exact C. lia.
  - right. rewrite Z.min_r in * by lia. rewrite INR_IZR_INZ, Z2Nat.id by exact H. pose proof (trunc_above _ H) as T. assert (a = a / step * step) by (field; lra). nra.
Qed.
Lemma smear_value convolve clean x res frac tau share tau_hi out : tiny < frac -> (forall a b c d e s raw, length (convolve a b c d e s raw) = length raw) -> smear convolve clean x res frac tau share tau_hi = Some out ->
  exists nlow nhi smooth, length out = length x /\ (Z.of_nat (nlow + nhi + length x) <= 100000)%Z /\ (nlow <= 10 * length x)%nat /\ (nhi <= 10 * length x)%nat
  /\ (nlow = (10 * length x)%nat \/ res + Rmax (tau * 6) tau_hi <= (INR nlow + / 2) * (nth 1 x 0 - nth 0 x 0)) /\ (nhi = (10 * length x)%nat \/ res + Rmax tau (tau_hi * 6) <= (INR nhi + / 2) * (nth 1 x 0 - nth 0 x 0))
  /\ smooth = convolve (1 - frac) (lo_weight frac share) tau (hi_weight frac share) tau_hi (nth 1 x 0 - nth 0 x 0) (map (fun k => clean (nth 0 x 0 + (INR k - INR nlow) * (nth 1 x 0 - nth 0 x 0))) (seq 0 (nlow + nhi + length x)))
  /\ forall k, (k < length x)%nat -> nth k out 0 = Rmax 0 (nth (nlow + k) smooth 0).
Proof.
  intros F CL H. unfold smear in H. destruct (Rle_dec frac tiny); [lra|]. destruct x as [|x0 [|x1 t]]; try discriminate. cbv zeta in H. destruct (Rle_dec (x1 - x0) 0); [discriminate|].
  set (xs := x0 :: x1 :: t) in *. set (nl := Z.min _ _) in H. set (nh := Z.min _ _) in H. destruct ((nl <? 0) || (nh <? 0))%Z eqn:S; [discriminate|]. apply orb_false_iff in S as [S1 S2]. apply Z.ltb_ge in S1, S2. destruct (100000 <? nl + nh + Z.of_nat (length xs))%Z eqn:G; [discriminate|]. apply Z.ltb_ge in G. apply mle_inj in H.
  set (smooth := convolve _ _ _ _ _ _ _) in H. exists (Z.to_nat nl), (Z.to_nat nh), smooth. assert (L : length smooth = (Z.to_nat nl + Z.to_nat nh + length xs)%nat). { unfold smooth. rewrite CL. unfold wide. rewrite !map_length, seq_length. reflexivity. }
  assert (NL : (nl <= 10 * Z.of_nat (length xs))%Z) by apply Z.le_min_l. assert (NH : (nh <= 10 * Z.of_nat (length xs))%Z) by apply Z.le_min_l. split.
  - rewrite <- H, firstn_length, skipn_length, map_length, L. lia.
  - split; [lia|]. split; [lia|]. split; [lia|]. split; [apply (padded (length xs) _ (x1 - x0)); [lra|exact S1]|]. split; [apply (padded (length xs) _ (x1 - x0)); [lra|exact S2]|]. split.
    + unfold smooth. cbn [nth xs]. f_equal. unfold wide. rewrite map_map. apply map_ext. intros k. f_equal. ring.
    + intros k Hk. rewrite <- H, <- nonneg_value, nth_window by exact Hk. apply nth_map_R. lia.
Qed.

(* ---------- guess ---------- *)

Lemma argmax_ok l : l <> [] -> (argmax l < length l)%nat /\ (forall j, (j < length l)%nat -> nth j l 0 <= nth (argmax l) l 0) /\ (forall j, (j < argmax l)%nat -> nth j l 0 < nth (argmax l) l 0).
Proof.
  induction l as [|v t IH]; intros H; [congruence|]. destruct t as [|w t']; [cbn; split; [lia|]; split; [intros [|j] Hj; [lra|cbn in Hj; lia]|intros; lia]|]. set (t := w :: t') in *. destruct IH as [A [B C]]; [discriminate|]. change (argmax (v :: t)) with (if Rlt_dec v (nth (argmax t) t 0) then S (argmax t) else 0%nat). destruct (Rlt_dec v (nth (argmax t) t 0)) as [L|L].
  - cbn [length nth]. split; [lia|]. split; intros [|j] Hj; cbn [nth]; try lra; [apply B; lia|apply C; lia].
  - cbn [length nth]. split; [lia|]. split; [|intros; lia]. intros [|j] Hj; cbn [nth]; [lra|]. specialize (B j ltac:(lia)). lra.
Qed.
Lemma first_true_ok l : forall i, (exists k, (k < length l)%nat /\ nth k l false = true) -> exists k, first_true l i = (i + k)%nat /\ (k < length l)%nat /\ nth k l false = true /\ forall j, (j < k)%nat -> nth j l false = false.
Proof.
  induction l as [|b t IH]; intros i [k [Hk T]]; [cbn in Hk; lia|]. destruct b.
  - exists 0%nat. cbn. split; [lia|]. split; [lia|]. split; [reflexivity|]. intros; lia.
  - destruct k as [|k]; [discriminate|]. destruct (IH (S i)) as [m [M1 [M2 [M3 M4]]]]; [exists k; split; [cbn in Hk; lia|exact T]|]. exists (S m). cbn [first_true length nth]. split; [rewrite M1; lia|]. split; [lia|]. split; [exact M3|]. intros [|j] Hj; [reflexivity|]. apply M4. lia.
Qed.
Lemma cumsum_nth l k : (k < length l)%nat -> nth k (cumsum l) 0 = total (firstn (S k) l).
Proof. intros H. unfold cumsum. set (f := fun k => _). rewrite (nth_indep _ 0 (f 0%nat)) by (rewrite map_length, seq_length; exact H). rewrite (map_nth f), seq_nth by exact H. reflexivity. Qed.
Lemma total_app l m : total (l ++ m) = total l + total m.
Proof. unfold total. rewrite fold_right_app. induction l as [|a t IH]; cbn; [lra|]. rewrite IH. unfold total. lra. Qed.
Lemma total_nonneg l : Forall (fun v => 0 <= v) l -> 0 <= total l.
Proof. induction 1; cbn; [lra|]. unfold total in *. lra. Qed.
Lemma forall_firstn (P : R -> Prop) l n : Forall P l -> Forall P (firstn n l).
Proof. intros H. apply Forall_forall. intros x I. rewrite Forall_forall in H. apply H. rewrite <- (firstn_skipn n l). apply in_or_app. left. exact I. Qed.
Lemma forall_skipn (P : R -> Prop) l n : Forall P l -> Forall P (skipn n l).
Proof. intros H. apply Forall_forall. intros x I. rewrite Forall_forall in H. apply H. rewrite <- (firstn_skipn n l). apply in_or_app. right. exact I. Qed.
Lemma total_firstn_mono l n m : Forall (fun v => 0 <= v) l -> (n <= m)%nat -> total (firstn n l) <= total (firstn m l).
Proof.
  intros P H. rewrite <- (firstn_skipn n (firstn m l)). rewrite firstn_firstn, Nat.min_l by exact H. rewrite total_app. pose proof (total_nonneg _ (forall_skipn _ (firstn m l) n (forall_firstn _ l m P))). lra.
Qed.
Lemma percentile_ok data bins p : 0 < total data -> 0 <= p < 1 -> length bins = length data -> exists k, percentile data bins p = nth k bins 0 /\ (k < length data)%nat /\ p * total data < total (firstn (S k) data) /\ total (firstn k data) <= p * total data.
Proof.
  intros T P L. unfold percentile. destruct (Req_EM_T (total data) 0); [lra|]. set (f := fun c => if Rlt_dec p (c / total data) then true else false).
  assert (N : data <> []) by (intros C; subst; cbn in T; lra). assert (LC : length (cumsum data) = length data) by (unfold cumsum; rewrite map_length, seq_length; reflexivity).
  assert (FN : forall k, (k < length data)%nat -> nth k (map f (cumsum data)) false = f (total (firstn (S k) data))). { intros k Hk. rewrite (nth_indep _ false (f 0)) by (rewrite map_length, LC; exact Hk). rewrite map_nth, cumsum_nth by exact Hk. reflexivity. }
  assert (FT : forall c, f c = true <-> p * total data < c). { intros c. unfold f. destruct (Rlt_dec p (c / total data)) as [G|G]; split; intros H; try discriminate; try reflexivity; assert (c = c / total data * total data) by (field; lra); [nra|exfalso; nra]. }
  destruct (first_true_ok (map f (cumsum data)) 0) as [k [K1 [K2 [K3 K4]]]].
  - exists (length data - 1)%nat. assert (length data <> 0%nat) by (intros C; apply length_zero_iff_nil in C; contradiction). split; [rewrite map_length, LC; lia|]. rewrite FN by lia. apply FT. replace (S (length data - 1)) with (length data) by lia. rewrite firstn_all. nra.
  - rewrite map_length, LC in K2. exists k. rewrite K1. cbn [Nat.add]. split; [reflexivity|]. split; [exact K2|]. rewrite FN in K3 by exact K2. split; [apply FT, K3|]. destruct k as [|k]; [cbn; nra|]. specialize (K4 k ltac:(lia)). rewrite FN in K4 by lia. destruct (Rle_dec (total (firstn (S k) data)) (p * total data)) as [G|G]; [exact G|]. assert (f (total (firstn (S k) data)) = true) by (apply FT; lra). congruence.
Qed.
Lemma total_repeat v n : total (repeat v n) = v * INR n.
Proof. induction n as [|n IH]; [cbn; lra|]. cbn [repeat]. change (total (v :: repeat v n)) with (v + total (repeat v n)). rewrite IH, S_INR. ring. Qed.
