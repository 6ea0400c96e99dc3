(** Spectral lines: what the users of mass.calibration.fluorescence_lines see. *)
From Coq Require Import Reals ZArith String Bool Lra Lia Psatz List.
From Verif Require Import SpcModel SpcSpec SpcProofs.
Import ListNotations.
Local Open Scope R_scope.

(* ---------- C80: the spectrum ---------- *)

(** The resolution and the intrinsic width are added in quadrature; sigma = fwhm / sqrt(8 ln 2). *)
Theorem combined_sigma l inst : (inst < 0 -> gaussian_sigma l inst = None) /\ (0 <= inst -> exists s, gaussian_sigma l inst = Some s /\ 0 <= s /\ s * s = inst * inst / (8 * ln 2) + intrinsic_sigma l * intrinsic_sigma l).
Proof. split; [intros H; unfold gaussian_sigma; destruct (Rlt_dec inst 0); [reflexivity|lra]|apply sigma_value]. Qed.
Print Assumptions combined_sigma.

Theorem pdf_is_sum wofz l x inst : pdf wofz l x inst = option_map sum (components wofz l x inst).
Proof.
  unfold pdf, components. destruct (gaussian_sigma l inst) as [s|]; [|reflexivity]. rewrite pdf_loop_sum. destruct (component_loop wofz s x (parts l)); [|reflexivity]. cbn [option_map]. f_equal. ring.
Qed.
Print Assumptions pdf_is_sum.

(** Each component is its intensity times its Voigt profile. *)
Theorem component_value wofz l x inst s cs k : gaussian_sigma l inst = Some s -> components wofz l x inst = Some cs ->
  List.length (energies l) = List.length (widths l) -> List.length (energies l) = List.length (intensities l) -> (k < List.length (energies l))%nat ->
  List.length cs = List.length (energies l) /\ exists v, voigt wofz x (nth k (energies l) 0) (nth k (widths l) 0 * / 2) s = Some v /\ nth k cs 0 = nth k (intensities l) 0 * v.
Proof.
  intros G C L1 L2 K. unfold components in C. rewrite G in C. assert (LP : List.length (parts l) = List.length (energies l)) by (unfold parts; rewrite !combine_length; lia). split; [rewrite (component_loop_length _ _ _ _ _ C); exact LP|]. destruct (component_loop_nth _ _ _ _ _ C k ltac:(lia)) as [e [w [a [v [N [V E]]]]]].
  apply (nth_error_nth _ _ (0, 0, 0)) in N. unfold parts in N. rewrite combine_nth in N by (rewrite combine_length; lia). rewrite combine_nth in N by lia. injection N as -> -> ->. exists v. split; assumption.
Qed.
Print Assumptions component_value.

(** It raises, or is not a number, exactly for a negative resolution or without any width. *)
Theorem pdf_raises wofz l x inst : pdf wofz l x inst = None <-> inst < 0 \/ (inst = 0 /\ intrinsic_sigma l = 0 /\ exists e w a, In (e, w, a) (parts l) /\ w = 0).
Proof.
  rewrite pdf_is_sum. unfold components. destruct (Rlt_dec inst 0) as [N|N].
  - unfold gaussian_sigma. destruct (Rlt_dec inst 0); [|contradiction]. split; [intros _; left; exact N|reflexivity].
  - destruct (sigma_value l inst ltac:(lra)) as [s [G [S1 S2]]]. rewrite G. pose proof ln_lt_2 as LN. assert (Z : s = 0 <-> inst = 0 /\ intrinsic_sigma l = 0).
    { assert (Q : s * s * (8 * ln 2) = inst * inst + intrinsic_sigma l * intrinsic_sigma l * (8 * ln 2)) by (rewrite S2; field; lra). pose proof (Rle_0_sqr inst). pose proof (Rle_0_sqr (intrinsic_sigma l)). unfold Rsqr in *. split.
      - intros ->. assert (inst * inst = 0 /\ intrinsic_sigma l * intrinsic_sigma l = 0) as [A B] by nra. split; [apply Rmult_integral in A; tauto|apply Rmult_integral in B; tauto].
      - intros [A B]. rewrite A, B in Q. assert (s * s = 0) as C by nra. apply Rmult_integral in C. tauto. }
    assert (E : option_map sum (component_loop wofz s x (parts l)) = None <-> component_loop wofz s x (parts l) = None) by (destruct (component_loop wofz s x (parts l)); split; intros; try discriminate; reflexivity). rewrite E, component_loop_none, Z. split.
    + intros [[A B] [[[e w] a] [I W]]]. right. split; [exact A|]. split; [exact B|]. exists e, w, a. split; [exact I|exact W].
    + intros [H|[A [B [e [w [a [I W]]]]]]]; [lra|]. split; [split; assumption|]. exists (e, w, a). split; [exact I|exact W].
Qed.
Print Assumptions pdf_raises.

(** If every Voigt profile has unit area then so has the spectrum. *)
Theorem pdf_area wofz l inst s : gaussian_sigma l inst = Some s ->
  (forall e w a, In (e, w, a) (parts l) -> exists f, (forall x, voigt wofz x e (w * / 2) s = Some (f x)) /\ unit_area f) ->
  List.length (energies l) = List.length (widths l) -> List.length (energies l) = List.length (intensities l) -> sum (intensities l) = 1 ->
  exists f, (forall x, pdf wofz l x inst = Some (f x)) /\ unit_area f.
Proof.
  intros G P L1 L2 S. assert (D : Forall (fun p => snd (fst p) <> 0 \/ s <> 0) (parts l)). { apply Forall_forall. intros [[e w] a] I. cbn. destruct (P e w a I) as [f [V _]]. destruct (Req_EM_T w 0) as [->|]; [|left; assumption]. right. intros ->. specialize (V 0). rewrite (proj2 (voigt_none wofz 0 e (0 * / 2) 0)) in V; [discriminate|]. split; [ring|reflexivity]. }
  exists (fun x => sum (map (fun p => snd p * profile wofz s p x) (parts l))). split.
  - intros x. rewrite pdf_is_sum. unfold components. rewrite G, component_loop_mix by exact D. reflexivity.
  - pose proof (mixed_area wofz s (parts l)) as A. rewrite intensities_of, S in A by assumption. apply A. apply Forall_forall. intros [[e w] a] I. destruct (P e w a I) as [f [V U]]. apply (unit_area_ext f); [|exact U]. intros x. unfold profile. cbn [fst snd]. rewrite V. reflexivity.
Qed.
Print Assumptions pdf_area.
(** Lorentzian lines do, so without Gaussian broadening the spectrum is a probability density. *)
Theorem lorentzian_area wofz l : intrinsic_sigma l = 0 -> (forall w, In w (widths l) -> 0 < w) -> List.length (energies l) = List.length (widths l) -> List.length (energies l) = List.length (intensities l) -> sum (intensities l) = 1 ->
  exists f, (forall x, pdf wofz l x 0 = Some (f x)) /\ unit_area f.
Proof.
  intros S P L1 L2 T. destruct (sigma_value l 0 ltac:(lra)) as [s [G [S1 S2]]]. assert (s = 0). { rewrite S in S2. assert (s * s = 0) by (rewrite S2; unfold Rdiv; ring). apply Rmult_integral in H. tauto. } subst s.
  apply (pdf_area wofz l 0 0 G); try assumption. intros e w a I. assert (W : 0 < w) by (apply P; unfold parts in I; apply in_combine_l in I; apply in_combine_r in I; exact I).
  exists (fun x => w / 2 / PI / ((x - e) * (x - e) + w / 2 * (w / 2))). split; [intros x; rewrite voigt_lorentz by lra; reflexivity|]. apply lorentz_unit. lra.
Qed.
Print Assumptions lorentzian_area.
Example lorentzian_area_case wofz : exists f, (forall x, pdf wofz {| energies := [5; 7]; widths := [1; 2]; intrinsic_sigma := 0; intensities := [/ 4; 3 / 4] |} x 0 = Some (f x)) /\ unit_area f.
Proof. apply lorentzian_area; cbn; try reflexivity; [intros w [<-|[<-|[]]]; lra|lra]. Qed.

(** A single line has the width it was given: Lorentzian without broadening, Gaussian without natural width. *)
Theorem one_line_widths wofz e w inst : 0 < w -> 0 < inst ->
  (exists f, (forall x, pdf wofz (quick_monochromatic_line e w 0) x 0 = Some (f x)) /\ half_width f e (w / 2))
  /\ (forall s, 0 < s -> exists f, (forall x, pdf wofz (quick_monochromatic_line e 0 s) x 0 = Some (f x)) /\ half_width f e (sqrt (8 * ln 2) * s / 2))
  /\ (exists f, (forall x, pdf wofz {| energies := [e]; widths := [0]; intrinsic_sigma := 0; intensities := [1] |} x inst = Some (f x)) /\ half_width f e (inst / 2)).
Proof.
  intros W I. pose proof ln_lt_2 as LN. split; [|split].
  - set (l := quick_monochromatic_line e w 0). assert (IS : intrinsic_sigma l = 0) by (cbn; destruct (Rle_dec w 0); [lra|reflexivity]). destruct (sigma_value l 0 ltac:(lra)) as [s [G [S1 S2]]]. assert (s = 0). { rewrite IS in S2. assert (s * s = 0) by (rewrite S2; unfold Rdiv; ring). apply Rmult_integral in H. tauto. } subst s.
    exists (fun x => 1 * (w * / 2 / PI / ((x - e) * (x - e) + w * / 2 * (w * / 2))) + 0). split; [intros x; rewrite pdf_is_sum; unfold components; rewrite G; cbn [parts l quick_monochromatic_line energies widths intensities combine component_loop]; rewrite voigt_lorentz by lra; reflexivity|].
    pose proof (lorentz_half e (w / 2) ltac:(lra)) as [A [B [C D]]]. unfold half_width. change (w * / 2) with (w / 2). split; [intros x; specialize (A x); lra|]. split; [rewrite B; lra|]. split; [rewrite C; lra|]. intros x y H. specialize (D x y H). lra.
  - intros s S. set (l := quick_monochromatic_line e 0 s). assert (IS : intrinsic_sigma l = s) by (cbn; destruct (Rle_dec 0 0); [|lra]; destruct (Rle_dec s 0); [lra|reflexivity]). destruct (sigma_value l 0 ltac:(lra)) as [t [G [S1 S2]]]. assert (t = s). { rewrite IS in S2. assert (0 * 0 / (8 * ln 2) = 0) as Z by (unfold Rdiv; ring). rewrite Z in S2. nra. } subst t.
    exists (fun x => 1 * (exp (- / 2 * (((x - e) / s) * ((x - e) / s))) / (s * sqrt (2 * PI))) + 0). split; [intros x; rewrite pdf_is_sum; unfold components; rewrite G; cbn [parts l quick_monochromatic_line energies widths intensities combine component_loop]; rewrite Rmult_0_l, voigt_gauss by exact S; reflexivity|].
    pose proof (gauss_half e s S) as [A [B [C D]]]. fold fwhm_over_sigma. unfold half_width. split; [intros x; specialize (A x); lra|]. split; [rewrite B; lra|]. split; [rewrite C; lra|]. intros x y H. specialize (D x y H). lra.
  - set (l := {| energies := [e]; widths := [0]; intrinsic_sigma := 0; intensities := [1] |}). destruct (sigma_value l inst ltac:(lra)) as [s [G [S1 S2]]]. pose proof fos_pos as FP. pose proof fos_sq as FQ.
    assert (E : fwhm_over_sigma * s = inst). { cbn [intrinsic_sigma l] in S2. assert (Q : (fwhm_over_sigma * s) * (fwhm_over_sigma * s) = inst * inst). { transitivity (fwhm_over_sigma * fwhm_over_sigma * (s * s)); [ring|]. rewrite FQ, S2. field. lra. } assert (0 <= fwhm_over_sigma * s) by nra. nra. }
    assert (S : 0 < s) by nra. exists (fun x => 1 * (exp (- / 2 * (((x - e) / s) * ((x - e) / s))) / (s * sqrt (2 * PI))) + 0). split; [intros x; rewrite pdf_is_sum; unfold components; rewrite G; cbn [parts l energies widths intensities combine component_loop]; rewrite Rmult_0_l, voigt_gauss by exact S; reflexivity|].
    pose proof (gauss_half e s S) as [A [B [C D]]]. rewrite E in B, C. unfold half_width. split; [intros x; specialize (A x); lra|]. split; [rewrite B; lra|]. split; [rewrite C; lra|]. intros x y H. specialize (D x y H). lra.
Qed.
Print Assumptions one_line_widths.

(** Without any width it gets a small Gaussian one. *)
Theorem never_without_width wofz e w s : w <= 0 -> s <= 0 -> intrinsic_sigma (quick_monochromatic_line e w s) = / 10000 /\
  exists f, (forall x, pdf wofz (quick_monochromatic_line e 0 s) x 0 = Some (f x)) /\ half_width f e (sqrt (8 * ln 2) * / 10000 / 2).
Proof.
  intros W S. assert (Q : forall v, v <= 0 -> intrinsic_sigma (quick_monochromatic_line e v s) = / 10000) by (intros v V; cbn; destruct (Rle_dec v 0); [|lra]; destruct (Rle_dec s 0); [reflexivity|lra]). split; [now apply Q|].
  assert (E : quick_monochromatic_line e 0 s = quick_monochromatic_line e 0 (/ 10000)) by (unfold quick_monochromatic_line; f_equal; destruct (Rle_dec 0 0); [|lra]; destruct (Rle_dec s 0); [|lra]; destruct (Rle_dec (/ 10000) 0); [lra|reflexivity]). rewrite E.
  apply (one_line_widths wofz e 1 1); lra.
Qed.
Print Assumptions never_without_width.
Example never_without_width_case : intrinsic_sigma (quick_monochromatic_line 5 0 (-1)) = / 10000.
Proof. apply (never_without_width (fun _ z => z)); lra. Qed.

(** The smallest width, all contributions in quadrature. *)
Theorem minimum_fwhm_value l inst : (widths l = [] -> minimum_fwhm l inst = None) /\ (widths l <> [] -> exists f w, minimum_fwhm l inst = Some f /\ In w (widths l) /\ (forall v, In v (widths l) -> w <= v) /\ 0 <= f /\ f * f = w * w + inst * inst + intrinsic_sigma l * intrinsic_sigma l * (8 * ln 2)).
Proof.
  unfold minimum_fwhm. split; [intros ->; reflexivity|]. intros N. destruct (least (widths l)) as [w|] eqn:E; [|destruct (widths l); [congruence|discriminate]]. destruct (least_ok _ _ E) as [A B]. eexists. exists w. split; [reflexivity|]. split; [exact A|]. split; [exact B|]. split; [apply sqrt_pos|]. pose proof fos_sq as Q. rewrite sqrt_sqrt; [rewrite <- Q; ring|]. pose proof (Rle_0_sqr w). pose proof (Rle_0_sqr inst). pose proof (Rle_0_sqr (intrinsic_sigma l * fwhm_over_sigma)). unfold Rsqr in *. lra.
Qed.
Print Assumptions minimum_fwhm_value.
Example minimum_fwhm_case : exists f, minimum_fwhm {| energies := [5; 7]; widths := [4; 3]; intrinsic_sigma := 0; intensities := [/ 4; 3 / 4] |} 4 = Some f /\ f = 5.
Proof.
  destruct (minimum_fwhm_value {| energies := [5; 7]; widths := [4; 3]; intrinsic_sigma := 0; intensities := [/ 4; 3 / 4] |} 4) as [_ H]. destruct H as [f [w [E [I [M [P Q]]]]]]; [discriminate|]. exists f. split; [exact E|]. cbn in *. assert (w = 3). { specialize (M 3 ltac:(tauto)). destruct I as [<-|[<-|[]]]; lra. } subst w. nra.
Qed.

(** The approximate width lies between the larger of the two and (nearly) their sum, and has the unit of both. *)
Theorem approximate_width lor gau : 0 <= lor -> 0 <= gau -> let f := voigt_approx_fwhm lor gau in
  999999 / 1000000 * lor <= f /\ gau <= f /\ f <= 1000004 / 1000000 * lor + gau /\ (forall k, 0 < k -> voigt_approx_fwhm (k * lor) (k * gau) = k * f).
Proof.
  intros L G f. subst f. unfold voigt_approx_fwhm. assert (H : forall k, 0 < k -> (if Req_EM_T (k * lor) 0 then k * gau else if Req_EM_T (k * gau) 0 then k * lor else 5346 / 10000 * (k * lor) + sqrt (2166 / 10000 * (k * lor * (k * lor)) + k * gau * (k * gau))) = k * (if Req_EM_T lor 0 then gau else if Req_EM_T gau 0 then lor else 5346 / 10000 * lor + sqrt (2166 / 10000 * (lor * lor) + gau * gau))).
  { intros k K. destruct (Req_EM_T lor 0) as [->|NL]; [destruct (Req_EM_T (k * 0) 0); [reflexivity|exfalso; lra]|]. destruct (Req_EM_T (k * lor) 0) as [C|_]; [apply Rmult_integral in C; lra|]. destruct (Req_EM_T gau 0) as [->|NG]; [destruct (Req_EM_T (k * 0) 0); [reflexivity|exfalso; lra]|]. destruct (Req_EM_T (k * gau) 0) as [C|_]; [apply Rmult_integral in C; lra|].
    replace (2166 / 10000 * (k * lor * (k * lor)) + k * gau * (k * gau)) with (k * k * (2166 / 10000 * (lor * lor) + gau * gau)) by field. rewrite sqrt_mult by nra. rewrite sqrt_square by lra. ring. }
  destruct (Req_EM_T lor 0) as [->|NL]; [repeat split; try lra; apply H|]. destruct (Req_EM_T gau 0) as [->|NG]; [repeat split; try lra; apply H|].
  set (s := sqrt (2166 / 10000 * (lor * lor) + gau * gau)) in *. assert (S0 : 0 <= s) by apply sqrt_pos. assert (SS : s * s = 2166 / 10000 * (lor * lor) + gau * gau) by (apply sqrt_sqrt; nra). repeat split.
  - assert (46540 / 100000 * lor <= s) by (apply Rnot_lt_le; intros C; nra). lra.
  - assert (gau <= s) by (apply Rnot_lt_le; intros C; nra). lra.
  - assert (s <= 465404 / 1000000 * lor + gau) by (apply Rnot_lt_le; intros C; nra). lra.
  - apply H.
Qed.
Print Assumptions approximate_width.
Example approximate_width_case : voigt_approx_fwhm 0 3 = 3 /\ voigt_approx_fwhm 3 0 = 3.
Proof. unfold voigt_approx_fwhm. destruct (Req_EM_T 0 0); [|lra]. destruct (Req_EM_T 3 0); lra. Qed.

(* ---------- C81: adding a line ---------- *)

Theorem addline_result wofz refs reg q l reg' : addline wofz refs reg q = Some (l, reg') ->
  energies l = q_energies q /\ widths l = q_widths q /\ intrinsic_sigma l = q_sigma q /\ sum (intensities l) = 1
  /\ (forall n, lookup n reg' = if String.eqb (shortname q) n then Some l else lookup n reg)
  /\ map fst reg' = (if knows reg (shortname q) then map fst reg else map fst reg ++ [shortname q])
  /\ (lookup (shortname q) reg <> None -> allow_replacement q = true).
Proof.
  intros H. unfold addline in H. destruct (_ || _ || _); [|discriminate]. destruct (existsb _ refs); [|discriminate]. destruct (is_kalpha q && _); [discriminate|]. destruct (areas wofz q) as [ar|]; [|discriminate]. destruct (Req_EM_T (total ar) 0) as [|N]; [discriminate|]. cbv zeta in H. set (k := {| energies := _ |}) in H. destruct (knows reg (shortname q) && negb (allow_replacement q)) eqn:E; [discriminate|]. apply spc_inj in H. injection H as <- <-. split; [reflexivity|]. split; [reflexivity|]. split; [reflexivity|]. split; [|split; [|split]].
  - unfold k. cbn [intensities]. rewrite sum_scaled. change (sum ar) with (total ar). field. exact N.
  - intros n. apply lookup_put.
  - apply put_keys.
  - intros K. apply knows_lookup in K. rewrite K in E. cbn in E. destruct (allow_replacement q); [reflexivity|discriminate].
Qed.
Print Assumptions addline_result.

(** The name: element and line, and the material if it is not the usual one. *)
Theorem addline_name wofz refs reg q l reg' : addline wofz refs reg q = Some (l, reg') ->
  (default_material q = true -> lookup (element q ++ linetype q)%string reg' = Some l) /\ (default_material q = false -> lookup (element q ++ linetype q ++ "_" ++ material q)%string reg' = Some l).
Proof. intros H. destruct (addline_result _ _ _ _ _ _ H) as (_ & _ & _ & _ & L & _). split; intros D; rewrite L; unfold shortname; rewrite D, String.eqb_refl; reflexivity. Qed.
Print Assumptions addline_name.

(** A name that is taken is refused unless replacement is allowed. *)
Theorem addline_taken wofz refs reg q : lookup (shortname q) reg <> None -> allow_replacement q = false -> addline wofz refs reg q = None.
Proof.
  intros K A. destruct (addline wofz refs reg q) as [[l reg']|] eqn:E; [|reflexivity]. apply addline_result in E as [_ [_ [_ [_ [_ [_ R]]]]]]. rewrite R in A by exact K. discriminate.
Qed.
Print Assumptions addline_taken.

(** The intensities are in the ratios that were asked for: of areas, of heights of the Lorentzian components, or of
    heights of the components broadened by the resolution of the reference. *)
Theorem addline_ratios wofz refs reg q l reg' : addline wofz refs reg q = Some (l, reg') ->
  exists scale, scale <> 0 /\
  (amplitude_type q = 9999%Z -> List.length (intensities l) = List.length (amplitudes q) /\ forall k, nth k (intensities l) 0 * scale = nth k (amplitudes q) 0)
  /\ (amplitude_type q = 999%Z -> List.length (intensities l) = List.length (amplitudes q) /\ List.length (widths l) = List.length (amplitudes q) /\ forall k, (k < List.length (amplitudes q))%nat -> 0 < nth k (widths l) 0 ->
        exists v, voigt wofz 0 0 (nth k (widths l) 0 * / 2) 0 = Some v /\ nth k (intensities l) 0 * v * scale = nth k (amplitudes q) 0)
  /\ (amplitude_type q = 99999%Z -> exists fwhm, plot_fwhm q = Some fwhm /\ forall k, (k < List.length (intensities l))%nat ->
        exists v, voigt wofz 0 0 (nth k (widths l) 0 / 2) (fwhm / sqrt (8 * ln 2)) = Some v /\ nth k (intensities l) 0 * v * scale = nth k (amplitudes q) 0).
Proof.
  intros H. unfold addline in H. destruct (_ || _ || _); [|discriminate]. destruct (existsb _ refs); [|discriminate]. destruct (is_kalpha q && _); [discriminate|]. destruct (areas wofz q) as [ar|] eqn:A; [|discriminate]. destruct (Req_EM_T (total ar) 0) as [|N]; [discriminate|]. cbv zeta in H. set (k := {| energies := _ |}) in H. destruct (knows reg (shortname q) && negb (allow_replacement q)); [discriminate|]. apply spc_inj in H. injection H as <- _.
  exists (total ar). split; [exact N|]. assert (NI : forall j, nth j (intensities k) 0 * total ar = nth j ar 0). { intros j. unfold k. cbn [intensities]. destruct (Nat.lt_ge_cases j (List.length ar)) as [L|L]; [|rewrite !nth_overflow by (rewrite ?map_length; exact L); ring]. rewrite (nth_indep _ 0 (0 / total ar)) by (rewrite map_length; exact L). rewrite (map_nth (fun a => a / total ar)). field. exact N. }
  assert (LI : List.length (intensities k) = List.length ar) by (unfold k; cbn [intensities]; apply map_length). split; [|split].
  - intros T. unfold areas in A. rewrite T in A. cbn in A. apply spc_inj in A. subst ar. split; [exact LI|exact NI].
  - intros T. unfold areas in A. rewrite T in A. cbn [Z.eqb Pos.eqb] in A. destruct (Nat.eqb_spec (List.length (q_widths q)) (List.length (amplitudes q))) as [EL|]; [|discriminate]. apply spc_inj in A. assert (LA : List.length ar = List.length (amplitudes q)) by (rewrite <- A, map_length, combine_length; lia). split; [lia|]. split; [exact EL|]. intros j Hj W. cbn [widths k] in W |- *. exists (nth j (q_widths q) 0 * / 2 / PI / ((0 - 0) * (0 - 0) + nth j (q_widths q) 0 * / 2 * (nth j (q_widths q) 0 * / 2))). split; [apply voigt_lorentz; lra|].
    assert (V : nth j ar 0 = / 2 * PI * nth j (q_widths q) 0 * nth j (amplitudes q) 0). { rewrite <- A. set (f := fun p : R * R => _). rewrite (nth_indep _ 0 (f (0, 0))) by (rewrite map_length, combine_length; lia). rewrite (map_nth f), combine_nth by exact EL. reflexivity. }
    pose proof pi_pos as P. set (w := nth j (q_widths q) 0) in *. set (a := nth j (amplitudes q) 0) in *. specialize (NI j). rewrite V in NI. set (i := nth j (intensities k) 0) in *. transitivity (i * total ar * (2 / (PI * w))); [field; lra|]. rewrite NI. field. lra.
  - intros T. unfold areas in A. rewrite T in A. cbn [Z.eqb Pos.eqb] in A. destruct (plot_fwhm q) as [f|]; [|discriminate]. exists f. split; [reflexivity|]. destruct (voigt_areas_nth _ _ _ _ A) as [L K]. intros j Hj. rewrite LI, L in Hj. destruct (K j Hj) as [v [V E]]. rewrite combine_length in Hj.
    assert (CN : nth j (combine (amplitudes q) (q_widths q)) (0, 0) = (nth j (amplitudes q) 0, nth j (q_widths q) 0)). { clear - Hj. revert j Hj. generalize (amplitudes q) (q_widths q). intros u. induction u as [|a u IH]; intros [|b v] j Hj; try (cbn in Hj; lia). destruct j as [|j]; [reflexivity|]. cbn [combine nth]. apply IH. cbn in Hj. lia. }
    rewrite CN in V, E. cbn [fst snd] in V, E. exists v. split; [exact V|]. rewrite <- E, <- NI. ring.
Qed.
Print Assumptions addline_ratios.

(** When it succeeds, for the two types that need no resolution. *)
Theorem addline_accepts wofz refs reg q : amplitude_type q = 9999%Z \/ amplitude_type q = 999%Z ->
  (addline wofz refs reg q <> None <->
   In (reference q) refs /\ (is_kalpha q = true -> ka12 q <> None) /\ (lookup (shortname q) reg <> None -> allow_replacement q = true)
   /\ (amplitude_type q = 9999%Z -> sum (amplitudes q) <> 0)
   /\ (amplitude_type q = 999%Z -> List.length (q_widths q) = List.length (amplitudes q) /\ sum (map (fun p => fst p * snd p) (combine (q_widths q) (amplitudes q))) <> 0)).
Proof.
  intros T. pose proof pi_pos as P. assert (EX : existsb (String.eqb (reference q)) refs = true <-> In (reference q) refs). { rewrite existsb_exists. split; [intros [r [I E]]; apply String.eqb_eq in E; subst; exact I|intros I; exists (reference q); split; [exact I|apply String.eqb_refl]]. }
  assert (SC : forall m, sum (map (fun p : R * R => / 2 * PI * fst p * snd p) m) = / 2 * PI * sum (map (fun p => fst p * snd p) m)). { intros m. induction m as [|p m IH]; cbn; [ring|]. unfold sum in IH. rewrite IH. ring. }
  assert (TT : ((amplitude_type q =? 999) || (amplitude_type q =? 9999) || (amplitude_type q =? 99999))%Z = true) by (destruct T as [-> | ->]; reflexivity).
  assert (AR : (exists ar, areas wofz q = Some ar /\ total ar <> 0) <-> (amplitude_type q = 9999%Z -> sum (amplitudes q) <> 0) /\ (amplitude_type q = 999%Z -> List.length (q_widths q) = List.length (amplitudes q) /\ sum (map (fun p => fst p * snd p) (combine (q_widths q) (amplitudes q))) <> 0)).
  { unfold areas. destruct T as [T|T]; rewrite T; cbn [Z.eqb Pos.eqb].
    - split; [intros [ar [E N]]; apply spc_inj in E; subst ar; split; [intros _; exact N|discriminate]|]. intros [A _]. exists (amplitudes q). split; [reflexivity|]. apply A. reflexivity.
    - destruct (Nat.eqb_spec (List.length (q_widths q)) (List.length (amplitudes q))) as [EL|NL].
      + split.
        * intros [ar [E N]]. apply spc_inj in E. subst ar. rewrite total_sum, SC in N. split; [discriminate|]. intros _. split; [exact EL|]. intros C. apply N. rewrite C. ring.
        * intros [_ B]. destruct (B eq_refl) as [_ N]. eexists. split; [reflexivity|]. rewrite total_sum, SC. intros C. apply Rmult_integral in C. destruct C as [C|C]; [lra|contradiction].
      + split; [intros [ar [E _]]; discriminate|]. intros [_ B]. destruct (B eq_refl) as [L _]. contradiction. }
  unfold addline. rewrite TT. split.
  - intros H. destruct (existsb (String.eqb (reference q)) refs) eqn:E1; [|congruence]. destruct (is_kalpha q && match ka12 q with Some _ => false | None => true end) eqn:E2; [congruence|]. destruct (areas wofz q) as [ar|] eqn:E3; [|congruence]. destruct (Req_EM_T (total ar) 0) as [|N]; [congruence|]. cbv zeta in H. destruct (knows reg (shortname q) && negb (allow_replacement q)) eqn:E4; [congruence|]. split; [apply EX; reflexivity|]. split; [intros K; rewrite K in E2; destruct (ka12 q); [discriminate|cbn in E2; discriminate]|]. split; [intros K; apply knows_lookup in K; rewrite K in E4; cbn in E4; destruct (allow_replacement q); [reflexivity|discriminate]|]. apply AR. exists ar. split; [reflexivity|exact N].
  - intros [A [B [C D]]]. rewrite (proj2 EX A). apply AR in D as [ar [E N]]. rewrite E. destruct (is_kalpha q) eqn:K; cbn [andb].
    + destruct (ka12 q); [|exfalso; apply B; reflexivity]. destruct (Req_EM_T (total ar) 0); [contradiction|]. cbv zeta. destruct (knows reg (shortname q)) eqn:KN; [|discriminate]. rewrite C by (apply knows_lookup; exact KN). discriminate.
    + destruct (Req_EM_T (total ar) 0); [contradiction|]. cbv zeta. destruct (knows reg (shortname q)) eqn:KN; [|discriminate]. rewrite C by (apply knows_lookup; exact KN). discriminate.
Qed.
Print Assumptions addline_accepts.
Example addline_case wofz : exists l reg', addline wofz ["Book"%string] [] {| element := "Fe"; linetype := "LAlpha"; material := "metal"; reference := "Book"; plot_fwhm := None; q_energies := [5; 7]; q_widths := [3; 3]; amplitudes := [2; 1]; amplitude_type := 999; ka12 := None; q_sigma := 0; default_material := true; allow_replacement := false |} = Some (l, reg') /\ lookup "FeLAlpha" reg' = Some l.
Proof.
  set (q := {| element := _ |}). destruct (addline wofz ["Book"%string] [] q) as [[l reg']|] eqn:E.
  - exists l, reg'. split; [reflexivity|]. apply addline_result in E as [_ [_ [_ [_ [K _]]]]]. rewrite K. reflexivity.
  - exfalso. apply (proj2 (addline_accepts wofz ["Book"%string] [] q (or_intror eq_refl))); [|exact E]. split; [left; reflexivity|]. split; [discriminate|]. split; [intros C; exfalso; apply C; reflexivity|]. split; [discriminate|]. intros _. split; [reflexivity|]. cbn. lra.
Qed.

(* ---------- C82: random energies ---------- *)

Section Random.
Variable state : Type.
Variable uniform : state -> R -> nat -> list R * state.
Variable cauchy normal : state -> nat -> list R * state.
(** Generators return as many numbers as asked for, uniform ones in their range. *)
Hypothesis uniform_length : forall s m n, List.length (fst (uniform s m n)) = n.
Hypothesis uniform_range : forall s m n, 0 < m -> Forall (fun u => 0 <= u < m) (fst (uniform s m n)).
Hypothesis cauchy_length : forall s n, List.length (fst (cauchy s n)) = n.
Hypothesis normal_length : forall s n, List.length (fst (normal s n)) = n.

Definition from_line (l : line) (sigma v : R) : Prop := exists i w e c g, nth_error (widths l) i = Some w /\ nth_error (energies l) i = Some e /\ v = c * (w / 2) + g * sigma + e.
Lemma round_ok l inst s size rs s' : round state uniform cauchy normal l inst s size = Some (rs, s') -> exists sigma, gaussian_sigma l inst = Some sigma /\ List.length rs = size /\ Forall (from_line l sigma) rs.
Proof.
  unfold round. destruct (gaussian_sigma l inst) as [sigma|]; [|discriminate]. intros H. exists sigma. split; [reflexivity|]. pose proof (uniform_length s (last (cumulative (intensities l)) 0) size) as LU. destruct (uniform s _ size) as [us s1]. pose proof (cauchy_length s1 size) as LC. destruct (cauchy s1 size) as [cs s2]. cbn [fst] in *.
  assert (G : exists ns, build l sigma us cs ns = Some rs). { destruct (Rlt_dec 0 sigma) as [SP|SP].
    - destruct (normal s2 size) as [ns s3]. destruct (build l sigma us cs (Some ns)) as [r|] eqn:B; cbn [option_map] in H; [|discriminate]. exists (Some ns). rewrite B. congruence.
    - destruct (build l sigma us cs None) as [r|] eqn:B; cbn [option_map] in H; [|discriminate]. exists None. rewrite B. congruence. }
  destruct G as [ns B]. destruct (build_ok _ _ _ _ _ _ B) as [L K]. split; [lia|]. apply Forall_forall. intros v I. apply (In_nth _ _ 0) in I as [k [Hk <-]]. destruct (K k ltac:(lia)) as [w [e [W [E V]]]]. rewrite V. exists (searchsorted (cumulative (intensities l)) (nth k us 0)), w, e, (nth k cs 0). destruct ns as [n|]; [exists (nth k n 0)|exists 0]; split; try assumption; split; try assumption; ring.
Qed.
Lemma own_ok n : forall l inst s size vs s', rvs_own state uniform cauchy normal n l inst s size = Some (vs, s') -> exists sigma, gaussian_sigma l inst = Some sigma /\ List.length vs = size /\ Forall (fun v => 0 < v) vs /\ Forall (from_line l sigma) vs.
Proof.
  induction n as [|n IH]; intros l inst s size vs s' H; [discriminate|]. cbn [rvs_own] in H. destruct (round state uniform cauchy normal l inst s size) as [[rs s1]|] eqn:R; [|discriminate]. destruct (round_ok _ _ _ _ _ _ R) as [sigma [G [L F]]]. exists sigma. split; [exact G|]. destruct (Nat.eqb_spec (bad rs) 0) as [Z|N].
  - apply spc_inj in H. injection H as <- _. split; [exact L|]. split; [apply bad_0, Z|exact F].
  - destruct (rvs_own state uniform cauchy normal n l inst s1 (bad rs)) as [[new s2]|] eqn:O; [|discriminate]. apply spc_inj in H. injection H as <- _. destruct (IH _ _ _ _ _ _ O) as [sigma' [G' [L' [P' F']]]]. assert (sigma' = sigma) by congruence. subst sigma'. destruct (replace_ok rs new L' P') as [A [B [_ D]]]. split; [lia|]. split; [exact B|]. rewrite Forall_forall in *. intros v I. apply D in I as [I|I]; [apply F, I|apply F', I].
Qed.
(** All values are positive, as many as asked for, and each a centre plus a Cauchy number times half the width of the
    same line plus a normal number times sigma. *)
Theorem rvs_positive n l inst given global size vs g1 g2 : rvs state uniform cauchy normal n l inst given global size = Some (vs, g1, g2) ->
  exists sigma, gaussian_sigma l inst = Some sigma /\ List.length vs = size /\ Forall (fun v => 0 < v) vs /\ Forall (from_line l sigma) vs.
Proof.
  unfold rvs. intros H. destruct (round state uniform cauchy normal l inst given size) as [[rs s1]|] eqn:R; [|discriminate]. destruct (round_ok _ _ _ _ _ _ R) as [sigma [G [L F]]]. exists sigma. split; [exact G|]. destruct (Nat.eqb_spec (bad rs) 0) as [Z|N].
  - apply spc_inj in H. injection H as <- _ _. split; [exact L|]. split; [apply bad_0, Z|exact F].
  - destruct (rvs_own state uniform cauchy normal n l inst global (bad rs)) as [[new s2]|] eqn:O; [|discriminate]. apply spc_inj in H. injection H as <- _ _. destruct (own_ok _ _ _ _ _ _ _ O) as [sigma' [G' [L' [P' F']]]]. assert (sigma' = sigma) by congruence. subst sigma'. destruct (replace_ok rs new L' P') as [A [B [_ D]]]. split; [lia|]. split; [exact B|]. rewrite Forall_forall in *. intros v I. apply D in I as [I|I]; [apply F, I|apply F', I].
Qed.

(** The first round: line [i] is taken where the uniform number falls between the sums of the intensities before and
    after it; so its share of the range is its intensity. *)
Theorem rvs_first_round l inst given size : let (us, s1) := uniform given (sum (intensities l)) size in let (cs, s2) := cauchy s1 size in let (ns, s3) := normal s2 size in
  0 <= inst -> Forall (fun a => 0 <= a) (intensities l) -> 0 < sum (intensities l) -> List.length (energies l) = List.length (widths l) -> List.length (energies l) = List.length (intensities l) ->
  exists sigma rs s', gaussian_sigma l inst = Some sigma /\ round state uniform cauchy normal l inst given size = Some (rs, s') /\ List.length rs = size
  /\ forall k, (k < size)%nat -> exists i, (i < List.length (intensities l))%nat /\ (i = 0%nat \/ sum (firstn i (intensities l)) < nth k us 0) /\ nth k us 0 <= sum (firstn (S i) (intensities l))
       /\ nth k rs 0 = nth k cs 0 * (nth i (widths l) 0 / 2) + nth k ns 0 * sigma + nth i (energies l) 0.
Proof.
  pose proof (uniform_length given (sum (intensities l)) size) as LU. pose proof (uniform_range given (sum (intensities l)) size) as RU. destruct (uniform given (sum (intensities l)) size) as [us s1] eqn:EU. pose proof (cauchy_length s1 size) as LC. destruct (cauchy s1 size) as [cs s2] eqn:EC. pose proof (normal_length s2 size) as LN. destruct (normal s2 size) as [ns s3] eqn:EN. cbn [fst] in *. intros I P T L1 L2. specialize (RU T). destruct (sigma_value l inst I) as [sigma [G [S0 _]]].
  assert (CH : forall u, In u us -> let i := searchsorted (cumulative (intensities l)) u in (i < List.length (intensities l))%nat /\ (i = 0%nat \/ sum (firstn i (intensities l)) < u) /\ u <= sum (firstn (S i) (intensities l))). { intros u HI. rewrite Forall_forall in RU. apply chosen_line; [exact P|intros C; rewrite C in T; cbn in T; lra|]. specialize (RU u HI). lra. }
  assert (BD : forall us' cs' no, List.length us' = List.length cs' -> (forall u, In u us' -> In u us) -> match no with None => True | Some n => List.length n = List.length us' end -> exists rs, build l sigma us' cs' no = Some rs).
  { clear - CH L1 L2. induction us' as [|u us' IH]; intros [|c cs'] no L SUB LNo; try discriminate; [exists []; reflexivity|]. cbn [build]. cbv zeta. destruct (CH u ltac:(apply SUB; left; reflexivity)) as [HI _]. cbv zeta in HI. set (i := searchsorted _ u) in *. destruct (nth_error (widths l) i) as [w|] eqn:W; [|apply nth_error_None in W; lia]. destruct (nth_error (energies l) i) as [e|] eqn:E; [|apply nth_error_None in E; lia].
    destruct no as [[|n no]|]; [cbn in LNo; lia| |].
    - destruct (IH cs' (Some no)) as [r R]; [cbn in L; lia|intros v Hv; apply SUB; right; exact Hv|cbn in LNo; lia|]. rewrite R. eexists. reflexivity.
    - destruct (IH cs' None) as [r R]; [cbn in L; lia|intros v Hv; apply SUB; right; exact Hv|exact Logic.I|]. rewrite R. eexists. reflexivity. }
  assert (FIN : forall no rs, build l sigma us cs no = Some rs -> match no with None => sigma = 0 | Some n => n = ns end -> forall k, (k < size)%nat -> exists i, (i < List.length (intensities l))%nat /\ (i = 0%nat \/ sum (firstn i (intensities l)) < nth k us 0) /\ nth k us 0 <= sum (firstn (S i) (intensities l)) /\ nth k rs 0 = nth k cs 0 * (nth i (widths l) 0 / 2) + nth k ns 0 * sigma + nth i (energies l) 0).
  { intros no rs B NO k Hk. destruct (build_ok _ _ _ _ _ _ B) as [L K]. destruct (K k ltac:(lia)) as [w [e [W [E V]]]]. destruct (CH (nth k us 0) ltac:(apply nth_In; lia)) as [C1 [C2 C3]]. cbv zeta in C1, C2, C3. set (i := searchsorted _ _) in *. exists i. split; [exact C1|]. split; [exact C2|]. split; [exact C3|]. rewrite V. apply (nth_error_nth _ _ 0) in W, E. rewrite W, E. destruct no as [n|]; [subst n; reflexivity|]. rewrite NO. ring. }
  unfold round. rewrite G, cumulative_last, EU, EC. exists sigma. destruct (Rlt_dec 0 sigma) as [SP|SP].
  - rewrite EN. destruct (BD us cs (Some ns)) as [rs B]; [lia|auto|lia|]. rewrite B. cbn [option_map]. exists rs, s3. split; [reflexivity|]. split; [reflexivity|]. split; [destruct (build_ok _ _ _ _ _ _ B); lia|]. apply (FIN (Some ns) rs B eq_refl).
  - destruct (BD us cs None) as [rs B]; [lia|auto|exact Logic.I|]. rewrite B. cbn [option_map]. exists rs, s2. split; [reflexivity|]. split; [reflexivity|]. split; [destruct (build_ok _ _ _ _ _ _ B); lia|]. apply (FIN None rs B). lra.
Qed.
(** Values of the first round that are positive are kept; if all are, the result depends on the given generator only. *)
Theorem rvs_keeps n l inst given global size rs s1 vs g1 g2 : round state uniform cauchy normal l inst given size = Some (rs, s1) -> rvs state uniform cauchy normal n l inst given global size = Some (vs, g1, g2) ->
  (forall k, 0 < nth k rs 0 -> nth k vs 0 = nth k rs 0) /\ g1 = s1.
Proof.
  intros R H. unfold rvs in H. rewrite R in H. destruct (Nat.eqb_spec (bad rs) 0) as [Z|N]; [apply spc_inj in H; injection H as <- <- _; split; auto|]. destruct (rvs_own state uniform cauchy normal n l inst global (bad rs)) as [[new s2]|] eqn:O; [|discriminate]. apply spc_inj in H. injection H as <- <- _. destruct (own_ok _ _ _ _ _ _ _ O) as [sigma' [_ [L' [P' _]]]]. destruct (replace_ok rs new L' P') as [_ [_ [C _]]]. split; [exact C|reflexivity].
Qed.
Theorem rvs_reproducible n l inst given global size rs s1 : round state uniform cauchy normal l inst given size = Some (rs, s1) -> Forall (fun r => 0 < r) rs -> rvs state uniform cauchy normal n l inst given global size = Some (rs, s1, global).
Proof. intros R P. unfold rvs. rewrite R. apply bad_0 in P. rewrite P. reflexivity. Qed.
End Random.
Print Assumptions rvs_positive.
Print Assumptions rvs_first_round.
Print Assumptions rvs_keeps.
Print Assumptions rvs_reproducible.
(** Otherwise it depends on the module's own generator, too: the one given is not handed on. *)
Theorem rvs_reproducible_refuted : exists (state : Type) uniform cauchy normal l given global1 global2 v1 v2 a b c d,
  rvs state uniform cauchy normal 1 l 0 given global1 1 = Some (v1, a, b) /\ rvs state uniform cauchy normal 1 l 0 given global2 1 = Some (v2, c, d) /\ v1 <> v2.
Proof.
  set (l := {| energies := [1]; widths := [2]; intrinsic_sigma := 0; intensities := [1] |}). set (uniform := fun (s m : R) (n : nat) => (repeat m n, s)). set (cauchy := fun (s : R) (n : nat) => (repeat s n, s)).
  destruct (sigma_value l 0 ltac:(lra)) as [s [G [S1 S2]]]. assert (s = 0). { cbn [intrinsic_sigma l] in S2. assert (s * s = 0) by (rewrite S2; unfold Rdiv; ring). apply Rmult_integral in H. tauto. } subst s.
  assert (RD : forall g, round R uniform cauchy cauchy l 0 g 1 = Some ([g * 2 * / 2 + 0 + 1], g)). { intros g. unfold round. rewrite G. cbn. destruct (Rlt_dec 0 0); [lra|]. cbn. unfold searchsorted. cbn. destruct (Rlt_dec (1 + 0) (1 + 0)); [lra|]. cbn. reflexivity. }
  assert (BG : forall g, 0 <= g -> bad [g * 2 * / 2 + 0 + 1] = 0%nat). { intros g H. apply bad_0. constructor; [lra|constructor]. } assert (BB : bad [-2 * 2 * / 2 + 0 + 1] = 1%nat). { unfold bad. cbn. destruct (Rle_dec (-2 * 2 * / 2 + 0 + 1) 0); [reflexivity|lra]. }
  exists R, uniform, cauchy, cauchy, l, (-2), 0, 1, [0 * 2 * / 2 + 0 + 1], [1 * 2 * / 2 + 0 + 1], (-2), 0, (-2), 1.
  assert (RV : forall g, 0 <= g -> rvs R uniform cauchy cauchy 1 l 0 (-2) g 1 = Some ([g * 2 * / 2 + 0 + 1], -2, g)). { intros g H. unfold rvs. rewrite RD, BB. cbn [Nat.eqb rvs_own]. rewrite RD, BG by exact H. cbn [Nat.eqb replace]. destruct (Rle_dec (-2 * 2 * / 2 + 0 + 1) 0); [reflexivity|lra]. }
  split; [apply RV; lra|]. split; [apply RV; lra|]. intros C. injection C as C. lra.
Qed.
Print Assumptions rvs_reproducible_refuted.
Example rvs_case : rvs R (fun s m n => (repeat m n, s)) (fun s n => (repeat s n, s)) (fun s n => (repeat s n, s)) 1 {| energies := [10]; widths := [2]; intrinsic_sigma := 0; intensities := [1] |} 0 3 0 1 = Some ([3 * 2 * / 2 + 0 + 10], 3, 0).
Proof.
  set (l := {| energies := [10]; widths := [2]; intrinsic_sigma := 0; intensities := [1] |}). destruct (sigma_value l 0 ltac:(lra)) as [s [G [S1 S2]]]. assert (s = 0). { cbn [intrinsic_sigma l] in S2. assert (s * s = 0) by (rewrite S2; unfold Rdiv; ring). apply Rmult_integral in H. tauto. } subst s.
  apply rvs_reproducible; [|constructor; [lra|constructor]]. unfold round. rewrite G. cbn. destruct (Rlt_dec 0 0); [lra|]. cbn. unfold searchsorted. cbn. destruct (Rlt_dec (1 + 0) (1 + 0)); [lra|]. reflexivity.
Qed.
