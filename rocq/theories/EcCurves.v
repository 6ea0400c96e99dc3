(** Proofs about calibration curves. *)
From Coq Require Import Reals ZArith Bool Ascii Lia Lra Permutation Sorted String List.
From Verif Require Import EntModel SplModel SplSpec SplEval SplMore SplProps DvModel DvSpec DvPower DvDomain DvProofs DvMore DvProps EcModel EcSpec EcProofs EcPoints EcHistory.
Import ListNotations.
Local Open Scope R_scope.
Local Open Scope list_scope.

Lemma same_slope f h x d d' (side : R) : derivable_pt_lim f x d -> derivable_pt_lim h x d' -> (side = 1 \/ side = -1) ->
  (exists eps, 0 < eps /\ forall t, 0 <= t < eps -> f (x + side * t) = h (x + side * t)) -> d = d'.
Proof.
  intros F H S (eps & EP & E). destruct (Req_dec d d') as [X | X]; [exact X|]. exfalso. set (r := Rabs (d - d') / 4). assert (RP : 0 < r) by (unfold r; assert (0 < Rabs (d - d')) by (apply Rabs_pos_lt; lra); lra).
  destruct (F r RP) as ((e1 & P1) & F1). destruct (H r RP) as ((e2 & P2) & F2). cbn [pos] in *. set (t := Rmin eps (Rmin e1 e2) / 2).
  assert (T : 0 < t /\ t < eps /\ t < e1 /\ t < e2).
  { unfold t. pose proof (Rmin_l eps (Rmin e1 e2)). pose proof (Rmin_r eps (Rmin e1 e2)). pose proof (Rmin_l e1 e2). pose proof (Rmin_r e1 e2).
    assert (0 < Rmin eps (Rmin e1 e2)) by (repeat apply Rmin_pos; assumption). lra. }
  assert (A : Rabs (side * t) = t) by (rewrite Rabs_mult, (Rabs_right t) by lra; destruct S as [-> | ->]; [rewrite Rabs_R1 | rewrite Rabs_left by lra]; lra).
  assert (NZ : side * t <> 0) by (destruct S as [-> | ->]; lra).
  specialize (F1 (side * t) NZ). rewrite A in F1. specialize (F1 (proj1 (proj2 (proj2 T)))). specialize (F2 (side * t) NZ). rewrite A in F2. specialize (F2 (proj2 (proj2 (proj2 T)))).
  rewrite (E t) in F1 by lra. pose proof (E 0 ltac:(lra)) as E0. rewrite Rmult_0_r, Rplus_0_r in E0. rewrite E0 in F1. set (q := (h (x + side * t) - h x) / (side * t)) in *.
  assert (B : Rabs (d - d') <= Rabs (q - d') + Rabs (q - d)).
  { replace (d - d') with ((q - d') - (q - d)) by ring. eapply Rle_trans; [apply Rabs_triang|]. rewrite Rabs_Ropp. lra. }
  unfold r in *. lra.
Qed.

Lemma line_slope y z m : derivable_pt_lim (fun w => y + m * (w - z)) z m.
Proof.
  intros eps EP. exists (mkposreal 1 Rlt_0_1). intros h H _. replace ((y + m * (z + h - z) - (y + m * (z - z))) / h - m) with 0 by (field; exact H). rewrite Rabs_R0. exact EP.
Qed.

Lemma spline_natural xs ys s : make_spline xs ys None None = Some s -> NoDup xs -> natural_spline xs ys (spline_at s 0).
Proof.
  intros H D. split; [|intro v; exists (spline_at s 1 v); apply (spline_smooth xs ys None None s H D v)].
  destruct (spline_is_the_spline xs ys None None s H D) as (l & O & (a & b & c & d & IS & OI) & _). exists l, a, b, c, d. split; [exact O|].
  destruct (made xs ys None None s H D) as (O' & LL & B). destruct (made_lengths xs ys None None s H) as (_ & L2).
  assert (EL : l = sort_pairs (combine xs ys)).
  { apply sorted_unique; [apply O | apply O'|]. destruct O as (P & _), O' as (P' & _). transitivity (combine xs ys); [symmetry; exact P | exact P']. }
  rewrite <- EL in LL. split; [lia|]. split; [exact IS|]. split; [exact OI|].
  pose proof (px_least xs ys None None s H D) as PL. rewrite <- EL in PL.
  destruct (of_knot xs ys None None s H D 0 ltac:(rewrite <- EL; lia)) as (i0 & H0 & X0 & Y0). destruct (of_knot xs ys None None s H D (length l - 1) ltac:(rewrite <- EL; lia)) as (iN & HN & XN & YN).
  rewrite <- EL in X0, Y0, XN, YN. rewrite X0, XN in PL. split.
  - destruct (spline_below xs ys None None s i0 H D H0 (fun j Hj => proj1 (PL j Hj))) as (SB & _). exists (spline_at s 1 (nth i0 xs 0)). intros v V. rewrite X0, Y0. apply SB. lra.
  - destruct (spline_above xs ys None None s iN H D HN (fun j Hj => proj2 (PL j Hj))) as (SB & _). exists (spline_at s 1 (nth iN xs 0)). intros v V. rewrite XN, YN in *.
    destruct V as [V | V]; [apply SB, V|]. subst v. rewrite (given_knot xs ys None None s H D iN HN). ring.
Qed.

Lemma natural_unique xs ys s g : make_spline xs ys None None = Some s -> NoDup xs -> natural_spline xs ys g -> forall v, g v = spline_at s 0 v.
Proof.
  intros H D ((l & a & b & c & d & O & L2 & IS & OI & (mb & MB) & (ma & MA)) & DG) v.
  destruct (spline_natural xs ys s H D) as ((l' & a' & b' & c' & d' & O' & _ & _ & _ & (mb' & MB') & (ma' & MA')) & DS).
  assert (EL : l' = l).
  { apply sorted_unique; [apply O' | apply O|]. destruct O as (P & _), O' as (P' & _). transitivity (combine xs ys); [symmetry; exact P' | exact P]. }
  subst l'. destruct (spline_is_the_spline xs ys None None s H D) as (l' & O2 & _ & UN).
  assert (EL : l' = l).
  { apply sorted_unique; [apply O2 | apply O|]. destruct O as (P & _), O2 as (P' & _). transitivity (combine xs ys); [symmetry; exact P' | exact P]. }
  subst l'. specialize (UN a b c d IS).
  assert (IN : forall i w, (S i < length l)%nat -> px l i <= w <= px l (S i) -> g w = spline_at s 0 w) by (intros i w I W; rewrite (OI i w I W), (UN i w I W); reflexivity).
  pose proof (sorted_hx l (proj2 O)) as HX.
  assert (INSIDE : forall j w, (j < length l)%nat -> px l 0 <= w <= px l j -> g w = spline_at s 0 w).
  { induction j as [|j IHj]; intros w J W.
    - apply (IN 0%nat); [lia|]. specialize (HX 0%nat ltac:(lia)). lra.
    - destruct (Rle_dec w (px l j)) as [X | X]; [apply IHj; [lia | lra] | apply (IN j); [lia | lra]]. }
  destruct (Rle_dec v (px l 0)) as [V | V].
  - rewrite MB, MB' by exact V. f_equal. f_equal. specialize (HX 0%nat ltac:(lia)). destruct (DG (px l 0)) as (dg & DG'). destruct (DS (px l 0)) as (ds & DS').
    assert (E : dg = ds).
    { apply (same_slope g (spline_at s 0) (px l 0) dg ds 1 DG' DS'); [left; reflexivity|]. exists (px l 1 - px l 0). split; [lra|]. intros t T. apply (IN 0%nat); [lia | lra]. }
    pose proof (line_slope (py l 0) (px l 0)) as LN.
    transitivity dg; [|transitivity ds; [exact E|]].
    + symmetry. apply (same_slope g _ (px l 0) dg mb (-1) DG' (LN mb)); [right; reflexivity|]. exists 1. split; [lra|]. intros t T. apply MB. lra.
    + apply (same_slope (spline_at s 0) _ (px l 0) ds mb' (-1) DS' (LN mb')); [right; reflexivity|]. exists 1. split; [lra|]. intros t T. apply MB'. lra.
  - destruct (Rle_dec v (px l (length l - 1))) as [W | W]; [apply (INSIDE (length l - 1)%nat); [lia | lra]|]. set (z := px l (length l - 1)) in *. set (yz := py l (length l - 1)) in *.
    rewrite MA, MA' by lra. f_equal. f_equal. specialize (HX (length l - 2)%nat ltac:(lia)). replace (S (length l - 2)) with (length l - 1)%nat in HX by lia. fold z in HX.
    destruct (DG z) as (dg & DG'). destruct (DS z) as (ds & DS').
    assert (E : dg = ds).
    { apply (same_slope g (spline_at s 0) z dg ds (-1) DG' DS'); [right; reflexivity|]. exists (z - px l (length l - 2)). split; [lra|]. intros t T. apply (IN (length l - 2)%nat); [lia|].
      replace (S (length l - 2)) with (length l - 1)%nat by lia. fold z. lra. }
    pose proof (line_slope yz z) as LN.
    transitivity dg; [|transitivity ds; [exact E|]].
    + symmetry. apply (same_slope g _ z dg ma 1 DG' (LN ma)); [left; reflexivity|]. exists 1. split; [lra|]. intros t T. apply MA. lra.
    + apply (same_slope (spline_at s 0) _ z ds ma' 1 DS' (LN ma')); [left; reflexivity|]. exists 1. split; [lra|]. intros t T. apply MA'. lra.
Qed.

Lemma natural_length xs ys g : natural_spline xs ys g -> (2 <= length xs)%nat.
Proof.
  intros ((l & a & b & c & d & (P & _) & L2 & _) & _). apply Permutation_length in P. rewrite combine_length in P. lia.
Qed.

Lemma natural_perm xs ys xs' ys' g : Permutation (combine xs ys) (combine xs' ys') -> natural_spline xs ys g -> natural_spline xs' ys' g.
Proof.
  intros P ((l & a & b & c & d & (O1 & O2) & R) & DG). split; [|exact DG]. exists l, a, b, c, d. split; [|exact R]. split; [|exact O2]. transitivity (combine xs ys); [symmetry; exact P | exact O1].
Qed.
Lemma combine_maps {A} (f g : A -> R) l : combine (map f l) (map g l) = map (fun p => (f p, g p)) l.
Proof. induction l as [|x l IH]; cbn [map combine]; [reflexivity | rewrite IH; reflexivity]. Qed.

(** The energy does not depend on the order of the points. *)
Lemma energy_at_perm k n l m x v : Permutation l m -> energy_at k n l x v -> energy_at k n m x v.
Proof.
  intros P E. assert (C : forall f g : point -> R, Permutation (combine (map f l) (map g l)) (combine (map f m) (map g m))) by (intros f g; rewrite !combine_maps; apply Permutation_map, P).
  pose proof (Permutation_length P) as PL.
  inversion E; subst; clear E.
  - constructor; [|assumption]. exact (natural_perm _ _ _ _ _ (C _ _) H).
  - constructor; [|lia]. exact (natural_perm _ _ _ _ _ (C _ _) H).
  - constructor; [|lia]. refine (natural_perm _ _ _ _ _ _ H). cbn [combine]. apply perm_skip, C.
  - constructor; [|assumption]. exact (natural_perm _ _ _ _ _ (C _ _) H).
  - constructor. exact (natural_perm _ _ _ _ _ (C _ _) H).
  - constructor. exact (natural_perm _ _ _ _ _ (C _ _) H).
  - apply Permutation_length_1_inv in P. subst m. constructor. assumption.
  - apply Permutation_length_1_inv in P. subst m. constructor. assumption.
Qed.

Lemma nodup_map {A B} (f : A -> B) l : (forall x y, In x l -> In y l -> f x = f y -> x = y) -> NoDup l -> NoDup (map f l).
Proof.
  intros I N. induction N as [|x l NX N IH]; cbn [map]; constructor.
  - intro X. apply in_map_iff in X. destruct X as (y & E & Y). apply NX. rewrite (I x y (or_introl eq_refl) (or_intror Y) (eq_sym E)). exact Y.
  - apply IH. intros a b A' B' E. apply I; [right; exact A' | right; exact B' | exact E].
Qed.
Lemma proper_ln l : proper l -> NoDup (map ln (map p_ph l)).
Proof.
  intros (N & P). apply nodup_map; [|exact N]. intros x y X Y E. apply in_map_iff in X. destruct X as (p & <- & X). apply in_map_iff in Y. destruct Y as (q & <- & Y).
  apply ln_inv; [apply P, X | apply P, Y | exact E].
Qed.
Lemma zip_with_map (f : R -> R -> R) (g h : point -> R) l : zip_with f (map g l) (map h l) = map (fun p => f (g p) (h p)) l.
Proof. induction l as [|x l IH]; cbn [map zip_with]; [reflexivity | rewrite IH; reflexivity]. Qed.
Lemma spline_fn_made xs ys : length ys = length xs -> (2 <= length xs)%nat -> NoDup xs -> exists s, make_spline xs ys None None = Some s /\ spline_fn xs ys = Some (Spl s 0).
Proof. intros L L2 N. destruct (spline_interpolates xs ys None None ltac:(lia) L2 N) as (s & E & _). exists s. unfold spline_fn. rewrite E. auto. Qed.
Lemma no_zero l : (forall p, In p l -> 0 < p_ph p) -> has_zero (map p_ph l) = false.
Proof.
  intro P. apply not_true_is_false. intro H. apply existsb_exists in H. destruct H as (x & X & E). apply in_map_iff in X. destruct X as (p & <- & Q). apply req_spec in E. specialize (P p Q). lra.
Qed.
Lemma safe_spline xs ys s x : make_spline xs ys None None = Some s -> NoDup xs -> safe 2 (Spl s 0) x.
Proof. intros M N. cbn. exists xs, ys, None, None. split; [exact M|]. split; [exact N|]. right. auto. Qed.
Lemma not_bare p : bare_power (div_number Id p) = false.
Proof. unfold div_number, div, mult. cbn [comp as_power eval size Nat.add mult_rec]. unfold mult_top. cbn [as_const]. unfold mult_step. destruct (is _ 0); [reflexivity|]. destruct (is _ 1); reflexivity. Qed.

Lemma curvetype_eq_dec (a b : curvetype) : {a = b} + {a <> b}.
Proof. decide equality. Defined.
(** The object as an expression *)
Definition described_by (k : curvetype) (n : R) (l : list point) (f : fn) (e : expr) : Prop :=
  f = build e /\ (forall x v, energy_at k n l x v -> means e x v /\ simplifies e x) /\
  (forall x v, energy_at k n l x v -> / 1000000 < x -> smooth 2 e x) /\ (forall x v, means e x v -> energy_at k n l x v).

Lemma means_spline_inv s x v : means (SplineX s 0) x v -> v = spline_at s 0 x.
Proof. intro M. inversion M; subst. reflexivity. Qed.

Ltac nok := match goal with X : _ = Gain \/ _ = Invgain |- _ => destruct X; discriminate end.
Ltac leaves := repeat match goal with H : means X _ _ |- _ => inversion H; clear H; subst | H : means (SplineX _ _) _ _ |- _ => apply means_spline_inv in H; subst end.
Lemma curve_expr k n l : proper l -> l <> [] -> (2 <= length l)%nat \/ (k = Loglog \/ k = Gain \/ k = Invgain) ->
  exists f e, exact_curve k n (map p_ph l) (map p_energy l) = Some f /\ described_by k n l f e.
Proof.
  intros PR NE KK. pose proof PR as (ND & PP). destruct l as [|p1 [|p2 l]]; [contradiction| |].
  - clear NE. destruct (PP p1 (or_introl eq_refl)) as (P1 & P2). cbn [map exact_curve].
    assert (K : k = Loglog \/ k = Gain \/ k = Invgain) by (destruct KK as [X | X]; [cbn in X; lia | exact X]). clear KK.
    assert (NN : forall xs ys g, natural_spline xs ys g -> length xs = 1%nat -> False) by (intros xs ys g NS L; apply natural_length in NS; lia).
    destruct (curvetype_eq_dec k Loglog) as [-> | NL].
    + exists (number_mul (p_energy p1) (raised (div_number Id (p_ph p1)) n)), (NumberTimes (p_energy p1) (Raised (OverNumber X (p_ph p1)) n)). split; [reflexivity|]. split; [reflexivity|].
      assert (MO : forall x, means (OverNumber X (p_ph p1)) x (x / p_ph p1)) by (intro x; constructor; [constructor | lra]).
      split; [|split].
      * intros x v E. inversion E; subst; [exfalso; eapply NN; [eassumption | reflexivity] | | nok]. split.
        -- constructor. apply (m_raised _ _ _ (x / p_ph p1)); [apply MO | assumption].
        -- cbn [simplifies]. split; [exact I|]. apply bare_compatible. intro B. rewrite (not_bare (p_ph p1) : bare_power (build (OverNumber X (p_ph p1))) = false) in B. discriminate.
      * intros x v E X0. cbn [smooth]. split; [split; [exact I | lra]|]. split; [|intro B; rewrite (not_bare (p_ph p1) : bare_power (build (OverNumber X (p_ph p1))) = false) in B; discriminate].
        intros u U. rewrite (means_unique _ _ _ _ U (MO x)). left. apply Rdiv_lt_0_compat; lra.
      * intros x v M. inversion M as [ | | | | | | | | | | | | |c e' x' u ME| | | |]; subst. inversion ME as [ | | | | | | | | | | | | | | | |e' y x' u' v' MR PI|]; subst.
        rewrite (means_unique _ _ _ _ MR (MO x)) in PI. constructor. exact PI.
    + assert (K' : k = Gain \/ k = Invgain) by tauto. exists (number_mul (p_energy p1 / p_ph p1) Id), (NumberTimes (p_energy p1 / p_ph p1) X).
      split; [destruct K' as [-> | ->]; reflexivity|]. split; [reflexivity|]. split; [|split].
      * intros x v E. split; [|exact I]. assert (V : v = p_energy p1 / p_ph p1 * x).
        { destruct K' as [-> | ->]; (inversion E; subst; [exfalso; eapply NN; [eassumption | reflexivity] | reflexivity]). }
        subst v. constructor. constructor.
      * intros x v _ _. exact I.
      * intros x v M. inversion M as [ | | | | | | | | | | | | |c e' x' u ME| | | |]; subst. inversion ME; subst. constructor. exact K'.
  - set (l2 := p1 :: p2 :: l) in *. assert (L2 : (2 <= length l2)%nat) by (cbn; lia). clear KK NE.
    assert (SP : forall (h : list R -> list R) (f : point -> R), length (h (map p_ph l2)) = length l2 -> NoDup (h (map p_ph l2)) ->
      exists s, make_spline (h (map p_ph l2)) (map f l2) None None = Some s /\ spline_fn (h (map p_ph l2)) (map f l2) = Some (Spl s 0) /\ NoDup (h (map p_ph l2))).
    { intros h f HL HN. destruct (spline_fn_made (h (map p_ph l2)) (map f l2)) as (s & S1 & S2); [rewrite map_length; congruence | lia | exact HN |]. exists s. auto. }
    assert (EX : exact_curve k n (map p_ph l2) (map p_energy l2) =
      match k with
      | Loglog => option_map (fun s => comp (comp Exp s) Log) (spline_fn (map ln (map p_ph l2)) (map ln (map p_energy l2)))
      | Linear => spline_fn (map p_ph l2) (map p_energy l2)
      | LinearZero => spline_fn (0 :: map p_ph l2) (0 :: map p_energy l2)
      | Gain => option_map (fun s => div Id s) (spline_fn (map p_ph l2) (map (fun p => p_ph p / p_energy p) l2))
      | Invgain => option_map (fun s => mult Id s) (spline_fn (map p_ph l2) (map (fun p => p_energy p / p_ph p) l2))
      | Loggain => option_map (fun s => mult Id (comp Exp (neg s))) (spline_fn (map p_ph l2) (map (fun p => ln (p_ph p / p_energy p)) l2))
      end).
    { unfold l2 at 1 2. cbn [map exact_curve]. change (p_ph p1 :: p_ph p2 :: map p_ph l) with (map p_ph l2). change (p_energy p1 :: p_energy p2 :: map p_energy l) with (map p_energy l2).
      rewrite !zip_with_map. rewrite no_zero by (intros q Q; apply PP, Q). rewrite (map_map (fun p => p_ph p / p_energy p) ln). reflexivity. }
    rewrite EX. clear EX. assert (ONE : forall p, l2 = [p] -> False) by (intros p E; unfold l2 in E; discriminate). clearbody l2.
    destruct k.
    + destruct (SP (map ln) (fun p => ln (p_energy p))) as (s & S1 & S2 & S3); [rewrite !map_length; reflexivity | apply proper_ln, PR|]. rewrite (map_map p_energy ln), S2. cbn [option_map].
      exists (Comp (Comp Exp (Spl s 0)) Log), (Of (Of ExpX (SplineX s 0)) LogX). split; [reflexivity|]. split; [reflexivity|].
      rewrite (map_map p_ph ln) in S1, S3. split; [|split].
      * intros x v E. inversion E; subst; try (exfalso; exact (ONE _ eq_refl)). rewrite (natural_unique _ _ _ _ S1 S3 H). split; [|cbn; auto].
        apply (m_of _ _ _ (ln x)); [constructor; assumption|]. apply (m_of _ _ _ (spline_at s 0 (ln x))); [exact (m_spline s 0 (ln x) ltac:(lia)) | constructor].
      * intros x v _ X0. cbn [smooth]. split; [exact X0|]. split; [|intro B; discriminate B]. intros u U. split; [exact (safe_spline _ _ s u S1 S3)|]. split; [intros w W; exact I | intro B; discriminate B].
      * intros x v M. inversion M as [ | | | | | | | | | | | | | | | | |e f x' u v' M1 M2]; subst. inversion M1; subst. inversion M2 as [ | | | | | | | | | | | | | | | | |e f x' u' v' M3 M4]; subst. inversion M4; subst.
        rewrite (means_spline_inv _ _ _ M3). apply at_loglog with (g := spline_at s 0); [exact (spline_natural _ _ s S1 S3) | assumption].
    + destruct (SP (fun a => a) p_energy) as (s & S1 & S2 & S3); [apply map_length | exact ND|]. rewrite S2. exists (Spl s 0), (SplineX s 0). split; [reflexivity|]. split; [reflexivity|]. split; [|split].
      * intros x v E. inversion E; subst; try (exfalso; exact (ONE _ eq_refl)). rewrite (natural_unique _ _ _ _ S1 S3 H). split; [exact (m_spline s 0 x ltac:(lia)) | exact I].
      * intros x v _ X0. exact (safe_spline _ _ s x S1 S3).
      * intros x v M. rewrite (means_spline_inv _ _ _ M). apply at_linear; [exact (spline_natural _ _ s S1 S3) | exact L2].
    + assert (N0 : NoDup (0 :: map p_ph l2)).
      { constructor; [|exact ND]. intro X. apply in_map_iff in X. destruct X as (q & E & Q). specialize (PP q Q). lra. }
      destruct (spline_fn_made (0 :: map p_ph l2) (0 :: map p_energy l2)) as (s & S1 & S2); [cbn [length]; rewrite !map_length; reflexivity | cbn [length]; rewrite map_length; lia | exact N0|].
      rewrite S2. exists (Spl s 0), (SplineX s 0). split; [reflexivity|]. split; [reflexivity|]. split; [|split].
      * intros x v E. inversion E; subst; try (exfalso; exact (ONE _ eq_refl)). rewrite (natural_unique _ _ _ _ S1 N0 H). split; [exact (m_spline s 0 x ltac:(lia)) | exact I].
      * intros x v _ X0. exact (safe_spline _ _ s x S1 N0).
      * intros x v M. rewrite (means_spline_inv _ _ _ M). apply at_linear_0; [exact (spline_natural _ _ s S1 N0) | exact L2].
    + destruct (SP (fun a => a) (fun p => p_ph p / p_energy p)) as (s & S1 & S2 & S3); [apply map_length | exact ND|]. rewrite S2. cbn [option_map].
      exists (div Id (Spl s 0)), (Over X (SplineX s 0)). split; [reflexivity|]. split; [reflexivity|]. split; [|split].
      * intros x v E. inversion E; subst; try (exfalso; exact (ONE _ eq_refl)). rewrite (natural_unique _ _ _ _ S1 S3 H) in *. split; [constructor; [constructor | exact (m_spline s 0 x ltac:(lia)) | assumption] | cbn; auto].
      * intros x v E _. cbn [smooth]. split; [exact I|]. split; [exact (safe_spline _ _ s x S1 S3)|]. intro M. apply means_spline_inv in M. inversion E; subst; try (exfalso; exact (ONE _ eq_refl)).
        rewrite (natural_unique _ _ _ _ S1 S3 H) in *. congruence.
      * intros x v M. inversion M; clear M; subst. leaves. apply at_gain; [exact (spline_natural _ _ s S1 S3) | assumption].
    + destruct (SP (fun a => a) (fun p => p_energy p / p_ph p)) as (s & S1 & S2 & S3); [apply map_length | exact ND|]. rewrite S2. cbn [option_map].
      exists (mult Id (Spl s 0)), (Times X (SplineX s 0)). split; [reflexivity|]. split; [reflexivity|]. split; [|split].
      * intros x v E. inversion E; subst; try (exfalso; exact (ONE _ eq_refl)). rewrite (natural_unique _ _ _ _ S1 S3 H). split; [constructor; [constructor | exact (m_spline s 0 x ltac:(lia))] | cbn; auto].
      * intros x v E _. cbn [smooth]. split; [exact I | exact (safe_spline _ _ s x S1 S3)].
      * intros x v M. inversion M; clear M; subst. leaves. apply at_invgain. exact (spline_natural _ _ s S1 S3).
    + destruct (SP (fun a => a) (fun p => ln (p_ph p / p_energy p))) as (s & S1 & S2 & S3); [apply map_length | exact ND|]. rewrite S2. cbn [option_map].
      exists (mult Id (comp Exp (neg (Spl s 0)))), (Times X (Of ExpX (Negative (SplineX s 0)))). split; [reflexivity|]. split; [reflexivity|].
      assert (MN : forall x, means (Negative (SplineX s 0)) x (- spline_at s 0 x)) by (intro x; constructor; exact (m_spline s 0 x ltac:(lia))).
      assert (NB : build (Negative (SplineX s 0)) = Mul (Const (Some (-1))) (Spl s 0)).
      { unfold build, neg, number_mul, mult. cbn [size Nat.add mult_rec]. unfold mult_top. cbn [as_const]. unfold mult_step, is. rewrite (proj2 (req_false (-1) 0)), (proj2 (req_false (-1) 1)) by lra. reflexivity. }
      split; [|split].
      * intros x v E. inversion E; subst; try (exfalso; exact (ONE _ eq_refl)). rewrite (natural_unique _ _ _ _ S1 S3 H). split.
        -- constructor; [constructor|]. apply (m_of _ _ _ (- spline_at s 0 x)); [apply MN | constructor].
        -- cbn [simplifies]. split; [exact I|]. split; [exact I|]. split; [intros; exact I|]. rewrite NB. cbn [build compatible]. exact I.
      * intros x v E _. cbn [smooth]. split; [exact I|]. split; [exact (safe_spline _ _ s x S1 S3)|]. split; [intros; exact I|]. rewrite NB. discriminate.
      * intros x v M. inversion M as [ | | | | | | | |e1 f1 x1 u1 v1 M1 M2| | | | | | | | |]; clear M; subst. inversion M1; clear M1; subst. inversion M2 as [ | | | | | | | | | | | | | | | | |e f x' u' v' M3 M4]; subst. rewrite (means_unique _ _ _ _ M3 (MN _)) in M4. inversion M4; subst. apply at_loggain. exact (spline_natural _ _ s S1 S3).
Qed.
