(** Spectral lines. *)
From Coq Require Import Reals ZArith String Bool Lra Lia Psatz List.
From Verif Require Import SpcModel SpcSpec.
Import ListNotations.
Local Open Scope R_scope.

Lemma spc_inj {A} (a b : A) : Some a = Some b -> a = b.
Proof. congruence. Qed.

(* ---------- derivatives ---------- *)

Lemma sq_pos a b : 0 < b -> 0 < a * a + b * b.
Proof. intros H. pose proof (Rle_0_sqr a) as A. unfold Rsqr in A. nra. Qed.

Lemma deriv_ext f g x l : (forall y, f y = g y) -> derivable_pt_lim f x l -> derivable_pt_lim g x l.
Proof. intros E D eps He. destruct (D eps He) as [d Hd]. exists d. intros h H1 H2. rewrite <- !E. apply Hd; assumption. Qed.
Lemma deriv_linear a b x : derivable_pt_lim (fun y => a * y + b) x a.
Proof. intros eps He. exists (mkposreal 1 Rlt_0_1). intros h H1 H2. assert ((a * (x + h) + b - (a * x + b)) / h - a = 0) as -> by (field; exact H1). rewrite Rabs_R0. exact He. Qed.
Definition lorentz_cdf (c h x : R) : R := / 2 + / PI * atan (/ h * x + - c / h).
Lemma pi_pos : 0 < PI.
Proof. apply PI_RGT_0. Qed.
Lemma lorentz_deriv c h x : 0 < h -> derivable_pt_lim (lorentz_cdf c h) x (h / PI / ((x - c) * (x - c) + h * h)).
Proof.
  intros H. pose proof pi_pos as P. pose proof (derivable_pt_lim_comp (fun y => / h * y + - c / h) atan x (/ h) (/ (1 + (/ h * x + - c / h) ^ 2)) (deriv_linear (/ h) (- c / h) x) (derivable_pt_lim_atan _)) as D.
  pose proof (derivable_pt_lim_scal _ (/ PI) x _ D) as D2. pose proof (derivable_pt_lim_plus _ _ x _ _ (derivable_pt_lim_const (/ 2) x) D2) as D3. apply (deriv_ext _ (lorentz_cdf c h)) in D3; [|intros y; reflexivity].
  assert (E : h / PI / ((x - c) * (x - c) + h * h) = 0 + / PI * (/ (1 + (/ h * x + - c / h) ^ 2) * / h)); [|rewrite E; exact D3].
  clear D D2 D3. pose proof (sq_pos (x - c) h H). assert (F : / h * x + - c / h = (x - c) / h) by (field; lra). rewrite F. assert (G : 1 + ((x - c) / h) ^ 2 = ((x - c) * (x - c) + h * h) / (h * h)) by (field; lra). rewrite G. field. repeat split; lra.
Qed.
Lemma atan_far eps : 0 < eps -> exists M, forall x, M < x -> PI / 2 - eps < atan x.
Proof.
  intros E. destruct (Rlt_dec eps PI) as [L|L].
  - exists (tan (PI / 2 - eps)). intros x H. apply atan_increasing in H. rewrite atan_tan in H; [exact H|]. lra.
  - exists 0. intros x _. pose proof (atan_bound x). pose proof pi_pos. lra.
Qed.
Lemma lorentz_low c h eps : 0 < h -> 0 < eps -> exists M, forall x, x < M -> Rabs (lorentz_cdf c h x) < eps.
Proof.
  intros H E. pose proof pi_pos as P. destruct (atan_far (eps * PI) ltac:(nra)) as [M HM]. exists (c - h * M). intros x Hx. unfold lorentz_cdf. assert (F : / h * x + - c / h = - ((c - x) / h)) by (field; lra). rewrite F, atan_opp. assert (G : M < (c - x) / h). { apply (Rmult_lt_reg_r h); [exact H|]. unfold Rdiv. rewrite Rmult_assoc, Rinv_l by lra. lra. } apply HM in G. pose proof (atan_bound ((c - x) / h)) as [_ B]. set (t := atan ((c - x) / h)) in *. clearbody t.
  assert (V : / 2 + / PI * - t = (PI / 2 - t) / PI) by (field; lra). rewrite V. assert (0 < (PI / 2 - t) / PI) by (apply Rdiv_lt_0_compat; lra). rewrite Rabs_pos_eq by lra. apply (Rmult_lt_reg_r PI); [exact P|]. unfold Rdiv at 1. rewrite Rmult_assoc, Rinv_l by lra. lra.
Qed.
Lemma lorentz_high c h eps : 0 < h -> 0 < eps -> exists M, forall x, M < x -> Rabs (lorentz_cdf c h x - 1) < eps.
Proof.
  intros H E. pose proof pi_pos as P. destruct (atan_far (eps * PI) ltac:(nra)) as [M HM]. exists (c + h * M). intros x Hx. unfold lorentz_cdf. assert (F : / h * x + - c / h = (x - c) / h) by (field; lra). rewrite F. assert (G : M < (x - c) / h). { apply (Rmult_lt_reg_r h); [exact H|]. unfold Rdiv. rewrite Rmult_assoc, Rinv_l by lra. lra. } apply HM in G. pose proof (atan_bound ((x - c) / h)) as [_ B]. set (t := atan ((x - c) / h)) in *. clearbody t.
  assert (V : / 2 + / PI * t - 1 = - ((PI / 2 - t) / PI)) by (field; lra). rewrite V, Rabs_Ropp. assert (0 < (PI / 2 - t) / PI) by (apply Rdiv_lt_0_compat; lra). rewrite Rabs_pos_eq by lra. apply (Rmult_lt_reg_r PI); [exact P|]. unfold Rdiv at 1. rewrite Rmult_assoc, Rinv_l by lra. lra.
Qed.
Lemma lorentz_unit c h : 0 < h -> unit_area (fun x => h / PI / ((x - c) * (x - c) + h * h)).
Proof. intros H. exists (lorentz_cdf c h). split; [intros x; apply lorentz_deriv, H|]. split; intros eps E; [apply lorentz_low|apply lorentz_high]; assumption. Qed.

(** Sums of profiles. *)
Definition mix (ws : list (R * (R -> R))) (x : R) : R := sum (map (fun p => fst p * snd p x) ws).
Lemma mix_cons a f t x : mix ((a, f) :: t) x = a * f x + mix t x.
Proof. reflexivity. Qed.
(** [F] is a distribution of weight [a] *)
Definition area (f : R -> R) (a : R) : Prop :=
  exists F, (forall x, derivable_pt_lim F x (f x)) /\ (forall eps, 0 < eps -> exists M, forall x, x < M -> Rabs (F x) < eps) /\ (forall eps, 0 < eps -> exists M, forall x, M < x -> Rabs (F x - a) < eps).
Lemma area_mix ws : Forall (fun p => unit_area (snd p)) ws -> area (mix ws) (sum (map fst ws)).
Proof.
  induction 1 as [|[a f] t H _ IH].
  - exists (fun _ => 0). split; [intros x; cbn; apply derivable_pt_lim_const|]. split; intros eps E; exists 0; intros x _; cbn; rewrite ?Rminus_0_r, Rabs_R0; exact E.
  - destruct H as [F [F1 [F2 F3]]], IH as [G [G1 [G2 G3]]]. cbn [snd] in *. exists (fun x => a * F x + G x). set (k := Rabs a + 1). assert (K : 0 < k) by (unfold k; pose proof (Rabs_pos a); lra). split; [|split].
    + intros x. pose proof (derivable_pt_lim_plus _ _ x _ _ (derivable_pt_lim_scal F a x _ (F1 x)) (G1 x)) as D. apply (deriv_ext _ (fun x => a * F x + G x)) in D; [|intros y; reflexivity]. exact D.
    + intros eps E. destruct (F2 (eps / (2 * k))) as [M1 H1]; [apply Rdiv_lt_0_compat; lra|]. destruct (G2 (eps / 2)) as [M2 H2]; [lra|]. exists (Rmin M1 M2). intros x Hx. pose proof (Rmin_l M1 M2). pose proof (Rmin_r M1 M2). specialize (H1 x ltac:(lra)). specialize (H2 x ltac:(lra)).
      eapply Rle_lt_trans; [apply Rabs_triang|]. rewrite Rabs_mult. assert (Rabs a * Rabs (F x) <= k * (eps / (2 * k))). { apply Rmult_le_compat; try apply Rabs_pos; [unfold k; lra|lra]. } assert (k * (eps / (2 * k)) = eps / 2) by (field; lra). lra.
    + intros eps E. destruct (F3 (eps / (2 * k))) as [M1 H1]; [apply Rdiv_lt_0_compat; lra|]. destruct (G3 (eps / 2)) as [M2 H2]; [lra|]. exists (Rmax M1 M2). intros x Hx. pose proof (Rmax_l M1 M2). pose proof (Rmax_r M1 M2). specialize (H1 x ltac:(lra)). specialize (H2 x ltac:(lra)). cbn [map fst sum fold_right]. fold (sum (map fst t)).
      replace (a * F x + G x - (a + sum (map fst t))) with (a * (F x - 1) + (G x - sum (map fst t))) by ring. eapply Rle_lt_trans; [apply Rabs_triang|]. rewrite Rabs_mult. assert (Rabs a * Rabs (F x - 1) <= k * (eps / (2 * k))). { apply Rmult_le_compat; try apply Rabs_pos; [unfold k; lra|lra]. } assert (k * (eps / (2 * k)) = eps / 2) by (field; lra). lra.
Qed.

(* ---------- voigt ---------- *)

Section V.
Variable wofz : R -> R -> R.
Lemma voigt_lorentz x c h : 0 < h -> voigt wofz x c h 0 = Some (h / PI / ((x - c) * (x - c) + h * h)).
Proof. intros H. unfold voigt. destruct (Req_EM_T h 0); [lra|]. destruct (Req_EM_T 0 0); [reflexivity|lra]. Qed.
Lemma voigt_gauss x c s : 0 < s -> voigt wofz x c 0 s = Some (exp (- / 2 * (((x - c) / s) * ((x - c) / s))) / (s * sqrt (2 * PI))).
Proof. intros H. unfold voigt. destruct (Req_EM_T 0 0); [|lra]. destruct (Req_EM_T s 0); [lra|reflexivity]. Qed.
Lemma voigt_none x c h s : voigt wofz x c h s = None <-> h = 0 /\ s = 0.
Proof. unfold voigt. destruct (Req_EM_T h 0), (Req_EM_T s 0); split; intros H; try discriminate; try tauto; destruct H; contradiction. Qed.

Lemma abs_sq a b : Rabs a < Rabs b -> a * a < b * b.
Proof. intros H. pose proof (Rabs_pos a). assert (a * a = Rabs a * Rabs a) as -> by (unfold Rabs; destruct (Rcase_abs a); ring). assert (b * b = Rabs b * Rabs b) as -> by (unfold Rabs; destruct (Rcase_abs b); ring). nra. Qed.
Lemma lorentz_half c h : 0 < h -> half_width (fun x => h / PI / ((x - c) * (x - c) + h * h)) c h.
Proof.
  intros H. pose proof pi_pos as P. assert (A : 0 < h / PI) by (apply Rdiv_lt_0_compat; assumption). set (k := h / PI) in *. clearbody k. unfold half_width. assert (IV : forall u v, 0 < u -> u < v -> k / v < k / u). { intros u v U L. apply Rmult_lt_compat_l; [exact A|]. apply Rinv_lt_contravar; [nra|exact L]. } split; [|split; [|split]].
  - intros x. destruct (Req_dec x c) as [->|N]; [lra|]. left. replace ((c - c) * (c - c) + h * h) with (h * h) by ring. apply IV; [nra|]. assert (0 < (x - c) * (x - c)) by (assert (x - c <> 0) by lra; nra). nra.
  - field. nra.
  - field. nra.
  - intros x y L. apply abs_sq in L. apply IV; [apply sq_pos, H|lra].
Qed.
Lemma fos_pos : 0 < fwhm_over_sigma.
Proof. apply sqrt_lt_R0. pose proof ln_lt_2. lra. Qed.
Lemma fos_sq : fwhm_over_sigma * fwhm_over_sigma = 8 * ln 2.
Proof. apply sqrt_sqrt. pose proof ln_lt_2. lra. Qed.
Lemma gauss_half c s : 0 < s -> half_width (fun x => exp (- / 2 * (((x - c) / s) * ((x - c) / s))) / (s * sqrt (2 * PI))) c (fwhm_over_sigma * s / 2).
Proof.
  intros H. pose proof pi_pos as P. pose proof fos_sq as FQ. assert (A : 0 < s * sqrt (2 * PI)) by (apply Rmult_lt_0_compat; [exact H|apply sqrt_lt_R0; lra]). set (k := s * sqrt (2 * PI)) in *. clearbody k. unfold half_width. assert (DIV : forall u v, u < v -> u / k < v / k) by (intros; apply Rmult_lt_compat_r; [apply Rinv_0_lt_compat|]; assumption). assert (IS : 0 < / s) by (apply Rinv_0_lt_compat, H).
  assert (Z : ((c - c) / s) * ((c - c) / s) = 0) by (field; lra). assert (HALF : forall d, (d / s) * (d / s) = 2 * ln 2 -> exp (- / 2 * ((d / s) * (d / s))) = / 2). { intros d E. rewrite E. replace (- / 2 * (2 * ln 2)) with (- ln 2) by field. rewrite exp_Ropp, exp_ln; lra. } split; [|split; [|split]].
  - intros x. rewrite Z, Rmult_0_r, exp_0. destruct (Req_dec x c) as [->|N]; [rewrite Z, Rmult_0_r, exp_0; lra|]. left. apply DIV. rewrite <- exp_0. apply exp_increasing. assert (0 < ((x - c) / s) * ((x - c) / s)). { assert ((x - c) / s <> 0) by (unfold Rdiv; intros C; apply Rmult_integral in C; destruct C; lra). nra. } lra.
  - rewrite Z, Rmult_0_r, exp_0. rewrite HALF; [field; lra|]. replace ((c - fwhm_over_sigma * s / 2 - c) / s) with (- (fwhm_over_sigma / 2)) by (field; lra). nra.
  - rewrite Z, Rmult_0_r, exp_0. rewrite HALF; [field; lra|]. replace ((c + fwhm_over_sigma * s / 2 - c) / s) with (fwhm_over_sigma / 2) by (field; lra). nra.
  - intros x y L. apply abs_sq in L. apply DIV, exp_increasing. assert ((x - c) / s * ((x - c) / s) < (y - c) / s * ((y - c) / s)); [|lra]. unfold Rdiv. assert (0 < / s * / s) by nra. replace ((x - c) * / s * ((x - c) * / s)) with ((x - c) * (x - c) * (/ s * / s)) by ring. replace ((y - c) * / s * ((y - c) * / s)) with ((y - c) * (y - c) * (/ s * / s)) by ring. apply Rmult_lt_compat_r; assumption.
Qed.

(* ---------- pdf ---------- *)

Lemma pdf_loop_sum sigma x ps : forall r, pdf_loop wofz sigma x ps r = option_map (fun cs => r + sum cs) (component_loop wofz sigma x ps).
Proof.
  induction ps as [|[[e w] a] t IH]; intros r; [cbn; f_equal; ring|]. cbn [pdf_loop component_loop]. destruct (voigt wofz x e (w * / 2) sigma) as [v|]; [|reflexivity]. rewrite IH. destruct (component_loop wofz sigma x t) as [cs|]; [|reflexivity]. cbn [option_map sum fold_right]. f_equal. fold (sum cs). ring.
Qed.
Lemma component_loop_length sigma x ps : forall cs, component_loop wofz sigma x ps = Some cs -> List.length cs = List.length ps.
Proof. induction ps as [|[[e w] a] t IH]; intros cs H; cbn in H; [apply spc_inj in H; subst; reflexivity|]. destruct (voigt wofz x e (w * / 2) sigma) as [v|]; [|discriminate]. destruct (component_loop wofz sigma x t) as [r|]; [|discriminate]. apply spc_inj in H. subst. cbn. f_equal. apply IH. reflexivity. Qed.
Lemma component_loop_nth sigma x ps : forall cs, component_loop wofz sigma x ps = Some cs -> forall k, (k < List.length ps)%nat -> exists e w a v, nth_error ps k = Some (e, w, a) /\ voigt wofz x e (w * / 2) sigma = Some v /\ nth k cs 0 = a * v.
Proof.
  induction ps as [|[[e w] a] t IH]; intros cs H k Hk; [cbn in Hk; lia|]. cbn in H. destruct (voigt wofz x e (w * / 2) sigma) as [v|] eqn:V; [|discriminate]. destruct (component_loop wofz sigma x t) as [r|]; [|discriminate]. apply spc_inj in H. subst cs. destruct k as [|k]; [exists e, w, a, v; auto|]. cbn [nth_error nth]. apply IH; [reflexivity|cbn in Hk; lia].
Qed.
Lemma component_loop_none sigma x ps : component_loop wofz sigma x ps = None <-> sigma = 0 /\ exists p, In p ps /\ snd (fst p) = 0.
Proof.
  induction ps as [|[[e w] a] t IH]; cbn [component_loop]; [split; [discriminate|intros [_ [p [[] _]]]]|]. destruct (voigt wofz x e (w * / 2) sigma) as [v|] eqn:V.
  - assert (N : ~ (w * / 2 = 0 /\ sigma = 0)) by (intros C; apply (proj2 (voigt_none x e (w * / 2) sigma)) in C; congruence). destruct (component_loop wofz sigma x t) as [r|] eqn:C.
    + split; [discriminate|]. intros [S [p [[<-|I] W]]]; [exfalso; cbn in W; apply N; split; [lra|exact S]|]. assert (@None (list R) = None) as X by reflexivity. exfalso. assert (Some r = None); [|discriminate]. apply IH. split; [exact S|]. exists p. auto.
    + split; intros _; [|reflexivity]. destruct (proj1 IH eq_refl) as [S [p [I W]]]. split; [exact S|]. exists p. split; [right; exact I|exact W].
  - apply voigt_none in V as [V1 V2]. split; [|reflexivity]. intros _. split; [exact V2|]. exists (e, w, a). split; [left; reflexivity|]. cbn. lra.
Qed.
End V.

(* ---------- areas ---------- *)

Definition profile wofz (sigma : R) (p : R * R * R) (x : R) : R := match voigt wofz x (fst (fst p)) (snd (fst p) * / 2) sigma with Some v => v | None => 0 end.
Lemma component_loop_mix wofz sigma x ps : Forall (fun p => snd (fst p) <> 0 \/ sigma <> 0) ps -> component_loop wofz sigma x ps = Some (map (fun p => snd p * profile wofz sigma p x) ps).
Proof.
  induction 1 as [|[[e w] a] t H _ IH]; [reflexivity|]. cbn [component_loop map]. rewrite IH. cbn [fst snd] in *. destruct (voigt wofz x e (w * / 2) sigma) as [v|] eqn:V; [f_equal; f_equal; unfold profile; cbn [fst snd]; rewrite V; reflexivity|]. apply voigt_none in V. destruct H; lra.
Qed.
Lemma intensities_of l : List.length (energies l) = List.length (widths l) -> List.length (energies l) = List.length (intensities l) -> map snd (parts l) = intensities l.
Proof.
  unfold parts. intros L1 L2. assert (M : List.length (combine (energies l) (widths l)) = List.length (intensities l)) by (rewrite combine_length; lia). revert M. generalize (combine (energies l) (widths l)) (intensities l). clear. intros u. induction u as [|p u IH]; intros [|a v] M; try discriminate; [reflexivity|]. cbn. f_equal. apply IH. cbn in M. lia.
Qed.
Lemma sum_app l m : sum (l ++ m) = sum l + sum m.
Proof. unfold sum. induction l as [|a t IH]; cbn; [lra|]. rewrite IH. lra. Qed.
Lemma sum_nonneg l : Forall (fun v => 0 <= v) l -> 0 <= sum l.
Proof. unfold sum. induction 1; cbn; lra. Qed.
Lemma mixed_area wofz sigma ps : Forall (fun p => unit_area (profile wofz sigma p)) ps -> area (fun x => sum (map (fun p => snd p * profile wofz sigma p x) ps)) (sum (map snd ps)).
Proof.
  intros H. pose (ws := map (fun p : R * R * R => (snd p, profile wofz sigma p)) ps). assert (A : area (mix ws) (sum (map fst ws))). { apply area_mix. apply Forall_forall. intros q I. apply in_map_iff in I as [p [<- I]]. rewrite Forall_forall in H. exact (H p I). }
  unfold ws in A. rewrite map_map in A. cbn [fst] in A. destruct A as [F [A1 A2]]. exists F. split; [|exact A2]. intros x. specialize (A1 x). unfold mix in A1. rewrite map_map in A1. exact A1.
Qed.
Lemma profile_lorentz wofz e w a x : 0 < w -> profile wofz 0 (e, w, a) x = (w / 2) / PI / ((x - e) * (x - e) + (w / 2) * (w / 2)).
Proof. intros H. unfold profile. cbn [fst snd]. rewrite voigt_lorentz by lra. reflexivity. Qed.
Lemma unit_area_ext f g : (forall x, f x = g x) -> unit_area f -> unit_area g.
Proof. intros E [F [A B]]. exists F. split; [|exact B]. intros x. rewrite <- E. apply A. Qed.

Lemma least_ok l w : least l = Some w -> In w l /\ forall v, In v l -> w <= v.
Proof.
  destruct l as [|v t]; [discriminate|]. cbn. intros H. apply spc_inj in H. subst w. revert v. induction t as [|u t IH]; intros v; [cbn; split; [tauto|intros x [<-|[]]; lra]|]. cbn [fold_left]. destruct (IH (Rmin v u)) as [A B]. split.
  - destruct A as [A|A]; [|right; right; exact A]. rewrite <- A. unfold Rmin. destruct (Rle_dec v u); [left|right; left]; reflexivity.
  - intros x [<-|[<-|I]]; [pose proof (B (Rmin v u) (or_introl eq_refl)); pose proof (Rmin_l v u); lra|pose proof (B (Rmin v u) (or_introl eq_refl)); pose proof (Rmin_r v u); lra|apply B; right; exact I].
Qed.
Lemma sigma_value l inst : 0 <= inst -> exists s, gaussian_sigma l inst = Some s /\ 0 <= s /\ s * s = inst * inst / (8 * ln 2) + intrinsic_sigma l * intrinsic_sigma l.
Proof.
  intros H. unfold gaussian_sigma. destruct (Rlt_dec inst 0); [lra|]. eexists. split; [reflexivity|]. split; [apply sqrt_pos|]. pose proof fos_pos as P. pose proof fos_sq as Q. rewrite sqrt_sqrt.
  - rewrite <- Q. field. lra.
  - pose proof (Rle_0_sqr (inst / fwhm_over_sigma)). pose proof (Rle_0_sqr (intrinsic_sigma l)). unfold Rsqr in *. lra.
Qed.

(* ---------- addline ---------- *)

Lemma total_sum l : total l = sum l.
Proof. reflexivity. Qed.
Lemma sum_scaled l k : sum (map (fun a => a / k) l) = sum l / k.
Proof. induction l as [|a t IH]; cbn; [unfold Rdiv; ring|]. unfold sum in IH. rewrite IH. unfold Rdiv. ring. Qed.
Definition lookup (n : string) (reg : registry) : option line := option_map snd (find (fun p => String.eqb (fst p) n) reg).
Lemma lookup_put reg n l m : lookup m (put reg n l) = if String.eqb n m then Some l else lookup m reg.
Proof.
  unfold lookup. induction reg as [|[k v] t IH]; cbn [put find fst].
  - destruct (String.eqb n m); reflexivity.
  - destruct (String.eqb k n) eqn:E; cbn [find fst].
    + apply String.eqb_eq in E. subst k. destruct (String.eqb n m); reflexivity.
    + destruct (String.eqb k m) eqn:F; [|exact IH]. apply String.eqb_eq in F. subst k. rewrite String.eqb_sym, E. reflexivity.
Qed.
Lemma put_keys reg n l : map fst (put reg n l) = if knows reg n then map fst reg else map fst reg ++ [n].
Proof.
  induction reg as [|[k v] t IH]; [reflexivity|]. cbn [put knows existsb fst]. fold (knows t n). destruct (String.eqb k n) eqn:E; [reflexivity|]. cbn [map fst orb]. rewrite IH. destruct (knows t n); reflexivity.
Qed.
Lemma knows_lookup reg n : knows reg n = true <-> lookup n reg <> None.
Proof.
  unfold knows, lookup. induction reg as [|[k v] t IH]; cbn [existsb find fst]; [split; [discriminate|intros H; exfalso; apply H; reflexivity]|]. destruct (String.eqb k n); cbn; [split; [discriminate|reflexivity]|exact IH].
Qed.
Lemma voigt_areas_nth wofz sigma l : forall ar, voigt_areas wofz sigma l = Some ar -> List.length ar = List.length l /\ forall k, (k < List.length l)%nat -> exists v, voigt wofz 0 0 (snd (nth k l (0, 0)) / 2) sigma = Some v /\ nth k ar 0 * v = fst (nth k l (0, 0)).
Proof.
  induction l as [|[ph lw] t IH]; intros ar H; cbn in H; [apply spc_inj in H; subst; split; [reflexivity|cbn; intros; lia]|]. destruct (voigt wofz 0 0 (lw / 2) sigma) as [v|] eqn:V; [|discriminate]. destruct (voigt_areas wofz sigma t) as [u|]; [|discriminate]. destruct (Req_EM_T v 0) as [|N]; [discriminate|]. apply spc_inj in H. subst ar. destruct (IH u eq_refl) as [L K]. split; [cbn; lia|]. intros [|k] Hk; cbn [nth fst snd]; [exists v; split; [exact V|field; exact N]|]. apply K. cbn in Hk. lia.
Qed.

(* ---------- random numbers ---------- *)

Lemma cumulative_nth l k : (k < List.length l)%nat -> nth k (cumulative l) 0 = sum (firstn (S k) l).
Proof. intros H. unfold cumulative. set (f := fun k => _). rewrite (nth_indep _ 0 (f 0%nat)) by (rewrite map_length, seq_length; exact H). rewrite (map_nth f), seq_nth by exact H. reflexivity. Qed.
Lemma cumulative_length l : List.length (cumulative l) = List.length l.
Proof. unfold cumulative. rewrite map_length, seq_length. reflexivity. Qed.
Lemma cumulative_last l : last (cumulative l) 0 = sum l.
Proof.
  destruct (Nat.eq_dec (List.length l) 0) as [Z|N]; [apply length_zero_iff_nil in Z; subst; reflexivity|]. assert (G : forall (m : list R), m <> [] -> last m 0 = nth (List.length m - 1) m 0). { clear. intros m. induction m as [|a t IH]; intros H; [congruence|]. destruct t as [|b t]; [reflexivity|]. change (last (a :: b :: t) 0) with (last (b :: t) 0). rewrite IH by discriminate. cbn [List.length]. rewrite !Nat.sub_succ, !Nat.sub_0_r. reflexivity. }
  rewrite G by (intros C; pose proof (cumulative_length l) as X; rewrite C in X; cbn in X; lia). rewrite cumulative_length, cumulative_nth by lia. replace (S (List.length l - 1)) with (List.length l) by lia. rewrite firstn_all. reflexivity.
Qed.
Lemma Forall_firstn {A} (P : A -> Prop) l n : Forall P l -> Forall P (firstn n l).
Proof. intros H. apply Forall_forall. intros x I. rewrite Forall_forall in H. apply H. rewrite <- (firstn_skipn n l). apply in_or_app. left. exact I. Qed.
Lemma Forall_skipn {A} (P : A -> Prop) l n : Forall P l -> Forall P (skipn n l).
Proof. intros H. apply Forall_forall. intros x I. rewrite Forall_forall in H. apply H. rewrite <- (firstn_skipn n l). apply in_or_app. right. exact I. Qed.
Lemma sum_firstn_mono l n m : Forall (fun v => 0 <= v) l -> (n <= m)%nat -> sum (firstn n l) <= sum (firstn m l).
Proof. intros P H. rewrite <- (firstn_skipn n (firstn m l)). rewrite firstn_firstn, Nat.min_l by exact H. rewrite sum_app. pose proof (sum_nonneg _ (Forall_skipn _ (firstn m l) n (Forall_firstn _ l m P))). lra. Qed.
(** Counting the smaller ones of an ascending list. *)
Lemma count_ascending (l : list R) u : (forall i j, (i <= j)%nat -> (j < List.length l)%nat -> nth i l 0 <= nth j l 0) ->
  let k := searchsorted l u in (k <= List.length l)%nat /\ (forall i, (i < k)%nat -> nth i l 0 < u) /\ forall i, (k <= i)%nat -> (i < List.length l)%nat -> u <= nth i l 0.
Proof.
  unfold searchsorted. induction l as [|a t IH]; intros M; cbn [filter List.length]; [split; [lia|]; split; intros; lia|].
  assert (M' : forall i j, (i <= j)%nat -> (j < List.length t)%nat -> nth i t 0 <= nth j t 0) by (intros i j H1 H2; apply (M (S i) (S j)); cbn; lia). specialize (IH M'). cbv zeta in IH. destruct IH as [A [B C]]. destruct (Rlt_dec a u) as [L|L]; cbn [List.length].
  - split; [lia|]. split; intros [|i] H1; cbn [nth]; try assumption; try lia; [apply B; lia|]. intros H2. apply C; cbn in H2; lia.
  - assert (Z : List.length (filter (fun c => if Rlt_dec c u then true else false) t) = 0%nat). { destruct (List.length (filter (fun c => if Rlt_dec c u then true else false) t)) as [|k] eqn:E; [reflexivity|]. specialize (B 0%nat ltac:(lia)). assert (0 < List.length t)%nat by (destruct t; [cbn in E; discriminate|cbn; lia]). pose proof (M 0%nat 1%nat ltac:(lia) ltac:(cbn; lia)) as Q. cbn in Q. lra. }
    rewrite Z in *. split; [lia|]. split; [intros; lia|]. intros [|i] H1 H2; cbn [nth]; [lra|]. apply C; cbn in H2; lia.
Qed.
Lemma chosen_line l u : Forall (fun a => 0 <= a) l -> l <> [] -> 0 <= u <= sum l -> let i := searchsorted (cumulative l) u in (i < List.length l)%nat /\ (i = 0%nat \/ sum (firstn i l) < u) /\ u <= sum (firstn (S i) l).
Proof.
  intros P NE [U1 U2]. destruct (count_ascending (cumulative l) u) as [A [B C]].
  - intros i j H1 H2. rewrite cumulative_length in H2. rewrite !cumulative_nth by lia. apply sum_firstn_mono; [exact P|lia].
  - cbv zeta. set (i := searchsorted (cumulative l) u) in *. rewrite cumulative_length in *. assert (I : (i < List.length l)%nat).
    { destruct (Nat.eq_dec i (List.length l)) as [E|N]; [|lia]. destruct (List.length l) as [|n] eqn:Ln; [apply length_zero_iff_nil in Ln; contradiction|]. specialize (B n ltac:(lia)). rewrite cumulative_nth in B by lia. rewrite <- Ln, firstn_all in B. lra. }
    split; [exact I|]. split; [|specialize (C i (Nat.le_refl _) I); rewrite cumulative_nth in C by exact I; exact C]. destruct i as [|i]; [left; reflexivity|right]. specialize (B i ltac:(lia)). rewrite cumulative_nth in B by lia. exact B.
Qed.
Lemma bad_0 rs : bad rs = 0%nat <-> Forall (fun r => 0 < r) rs.
Proof.
  unfold bad. induction rs as [|r t IH]; cbn [filter]; [split; [constructor|reflexivity]|]. destruct (Rle_dec r 0); cbn [List.length].
  - split; [lia|]. intros H. inversion H. lra.
  - rewrite IH. split; [intros H; constructor; [lra|exact H]|intros H; inversion H; assumption].
Qed.
Lemma replace_ok rs : forall new, List.length new = bad rs -> Forall (fun r => 0 < r) new -> List.length (replace rs new) = List.length rs /\ Forall (fun r => 0 < r) (replace rs new) /\ (forall k, 0 < nth k rs 0 -> nth k (replace rs new) 0 = nth k rs 0) /\ forall r, In r (replace rs new) -> (In r rs \/ In r new).
Proof.
  unfold bad. induction rs as [|r t IH]; intros new L P; cbn [replace filter] in *; [repeat split; auto|]. destruct (Rle_dec r 0) as [N|N]; cbn [List.length] in *.
  - destruct new as [|v new]; [discriminate|]. inversion P as [|? ? P1 P2]. subst. destruct (IH new ltac:(cbn in L; lia) P2) as [A [B [C D]]]. split; [cbn; lia|]. split; [constructor; assumption|]. split; [intros [|k] H; cbn [nth] in *; [lra|apply C, H]|]. intros q [<-|I]; [right; left; reflexivity|]. apply D in I as [I|I]; [left; right; exact I|right; right; exact I].
  - destruct (IH new L P) as [A [B [C D]]]. split; [cbn; lia|]. split; [constructor; [lra|exact B]|]. split; [intros [|k] H; cbn [nth] in *; [reflexivity|apply C, H]|]. intros q [<-|I]; [left; left; reflexivity|]. apply D in I as [I|I]; [left; right; exact I|right; exact I].
Qed.
Lemma build_ok l sigma us : forall cs ns rs, build l sigma us cs ns = Some rs -> List.length rs = List.length us /\ forall k, (k < List.length us)%nat -> exists w e, nth_error (widths l) (searchsorted (cumulative (intensities l)) (nth k us 0)) = Some w /\ nth_error (energies l) (searchsorted (cumulative (intensities l)) (nth k us 0)) = Some e /\ nth k rs 0 = nth k cs 0 * (w / 2) + match ns with None => 0 | Some n => nth k n 0 * sigma end + e.
Proof.
  induction us as [|u us IH]; intros cs ns rs H; destruct cs as [|c cs]; cbn [build] in H; try discriminate; [apply spc_inj in H; subst; split; [reflexivity|cbn; intros; lia]|]. cbv zeta in H. set (i := searchsorted _ u) in H. destruct (nth_error (widths l) i) as [w|] eqn:W; [|discriminate]. destruct (nth_error (energies l) i) as [e|] eqn:E; [|discriminate].
  destruct ns as [[|n ns]|]; [discriminate| |].
  - destruct (build l sigma us cs (Some ns)) as [r|] eqn:B; [|discriminate]. apply spc_inj in H. subst rs. destruct (IH cs (Some ns) r B) as [L K]. split; [cbn; lia|]. intros [|k] Hk; cbn [nth]; [exists w, e; fold i; split; [exact W|]; split; [exact E|field]|]. apply K. cbn in Hk. lia.
  - destruct (build l sigma us cs None) as [r|] eqn:B; [|discriminate]. apply spc_inj in H. subst rs. destruct (IH cs None r B) as [L K]. split; [cbn; lia|]. intros [|k] Hk; cbn [nth]; [exists w, e; fold i; split; [exact W|]; split; [exact E|field]|]. apply K. cbn in Hk. lia.
Qed.
