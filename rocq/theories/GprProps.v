From Coq Require Import Reals Lra Lia Arith List.
From Verif Require Import GprModel GprSpec GprProofs.
Import ListNotations.
Open Scope R_scope.

(** * C118: the mean *)
(** The values at the knots are those of a natural cubic spline, a line and cubes that start at the knots; the coefficients of the cubes, times
    the squares of the errors, are the residuals. *)
Theorem mean_is_natural_spline chol msolve n x y err sigmaf f : factors chol -> solves msolve -> gpr chol msolve n x y err sigmaf = Some f ->
  exists al b0 b1, natural n x al /\ (forall i, (i < n)%nat -> y i - fgbar f i = err i ^ 2 * al i) /\
    forall i, (i < n)%nat -> fgbar f i = b0 + b1 * x i + sigmaf ^ 2 / 6 * sm n (fun j => al j * cube_from (x j) (x i)).
Proof.
  intros C S F. destruct (posterior chol msolve C S n x y err _ f F) as (al & [N0 N1] & R & G). exists al, (fbeta f 0%nat), (fbeta f 1%nat).
  split; [now split|]. split; [exact R|]. intros i I. rewrite (G i I).
  rewrite (sm_ext n (fun j => al j * (_ * kern _ _)) (fun j => (sigmaf * sigmaf * x i ^ 2 / 2) * (al j * x j) - (sigmaf * sigmaf * x i ^ 3 / 6) * al j + sigmaf ^ 2 / 6 * (al j * cube_from (x j) (x i)))).
  - rewrite sm_add, sm_sub, !sm_scale, N0, N1. lra.
  - intros j J. rewrite kern_cube. field.
Qed.
Print Assumptions mean_is_natural_spline.
(** These conditions determine the values. *)
Theorem mean_unique chol msolve n x y err sigmaf f g al b0 b1 : factors chol -> solves msolve -> gpr chol msolve n x y err sigmaf = Some f ->
  natural n x al -> (forall i, (i < n)%nat -> y i - g i = err i ^ 2 * al i) ->
  (forall i, (i < n)%nat -> g i = b0 + b1 * x i + sigmaf ^ 2 / 6 * sm n (fun j => al j * cube_from (x j) (x i))) ->
  forall i, (i < n)%nat -> g i = fgbar f i.
Proof.
  intros C S F N R G. assert (N' := N). destruct N' as [N0 N1].
  apply (posterior_only chol msolve C S n x y err _ f F g al b0 b1 N R). intros i I. rewrite (G i I).
  rewrite (sm_ext n (fun j => al j * (_ * kern _ _)) (fun j => (sigmaf * sigmaf * x i ^ 2 / 2) * (al j * x j) - (sigmaf * sigmaf * x i ^ 3 / 6) * al j + sigmaf ^ 2 / 6 * (al j * cube_from (x j) (x i)))).
  - rewrite sm_add, sm_sub, !sm_scale, N0, N1. lra.
  - intros j J. rewrite kern_cube. field.
Qed.
Print Assumptions mean_unique.
(** Weighted by the inverse squares of the errors, the residuals have no sum and no first moment. *)
Theorem residuals_balanced chol msolve n x y err sigmaf f : factors chol -> solves msolve -> gpr chol msolve n x y err sigmaf = Some f ->
  (forall i, (i < n)%nat -> err i <> 0) ->
  sm n (fun i => (y i - fgbar f i) / err i ^ 2) = 0 /\ sm n (fun i => x i * (y i - fgbar f i) / err i ^ 2) = 0.
Proof.
  intros C S F E. destruct (mean_is_natural_spline chol msolve n x y err sigmaf f C S F) as (al & _ & _ & [N0 N1] & R & _).
  split; [rewrite <- N0|rewrite <- N1]; apply sm_ext; intros i I; specialize (E i I).
  - rewrite (R i I). field. exact E.
  - rewrite (R i I). field. exact E.
Qed.
Print Assumptions residuals_balanced.
(** Data on a straight line stay as they are, and so do data without errors. *)
Theorem line_kept chol msolve n x y err sigmaf f a b : factors chol -> solves msolve -> gpr chol msolve n x y err sigmaf = Some f ->
  (forall i, (i < n)%nat -> y i = a + b * x i) -> forall i, (i < n)%nat -> fgbar f i = y i.
Proof.
  intros C S F Y i I. symmetry. apply (mean_unique chol msolve n x y err sigmaf f y (fun _ => 0) a b C S F); trivial.
  - split; apply sm_zero; intros; lra.
  - intros j J. lra.
  - intros j J. rewrite sm_zero; [rewrite (Y j J); lra|]. intros; lra.
Qed.
Print Assumptions line_kept.
Theorem exact_data_kept chol msolve n x y err sigmaf f i : factors chol -> solves msolve -> gpr chol msolve n x y err sigmaf = Some f ->
  (i < n)%nat -> err i = 0 -> fgbar f i = y i.
Proof.
  intros C S F I E. destruct (mean_is_natural_spline chol msolve n x y err sigmaf f C S F) as (al & _ & _ & _ & R & _).
  specialize (R i I). rewrite E in R. lra.
Qed.
Print Assumptions exact_data_kept.
(** The sign of sigmaf does not matter. *)
Theorem sigmaf_even chol msolve n x y err sigmaf : gpr chol msolve n x y err (- sigmaf) = gpr chol msolve n x y err sigmaf.
Proof. unfold gpr. replace (- sigmaf * - sigmaf) with (sigmaf * sigmaf) by ring. reflexivity. Qed.
Print Assumptions sigmaf_even.
(** Such a spline is a line before all knots and another after all of them. *)
Theorem natural_ends n x al c : natural n x al ->
  (forall v, (forall i, (i < n)%nat -> v <= x i) -> c * sm n (fun j => al j * cube_from (x j) v) = 0) /\
  exists b0 b1, forall v, (forall i, (i < n)%nat -> x i <= v) -> c * sm n (fun j => al j * cube_from (x j) v) = b0 + b1 * v.
Proof.
  intros [N0 N1]. split.
  - intros v H. rewrite sm_zero; [lra|]. intros i I. unfold cube_from. destruct (Rle_dec v (x i)) as [_ | NL]; [lra|]. now contradiction NL; apply H.
  - exists (c * - sm n (fun j => al j * x j ^ 3)), (c * (3 * sm n (fun j => al j * x j ^ 2))). intros v H.
    rewrite (sm_ext n (fun j => al j * cube_from (x j) v) (fun j => v ^ 3 * al j - 3 * v ^ 2 * (al j * x j) + 3 * v * (al j * x j ^ 2) - al j * x j ^ 3)).
    + rewrite sm_sub, sm_add, sm_sub, !sm_scale, N0, N1. lra.
    + intros j J. unfold cube_from. destruct (Rle_dec v (x j)) as [LE|_]; [|ring]. assert (v = x j) by (specialize (H j J); lra). subst v. ring.
Qed.
Print Assumptions natural_ends.

(** * C119: variance and covariance *)
(** The best weights exist and are unique. *)
Theorem best_weights chol msolve n x y err sigmaf f v : factors chol -> solves msolve -> gpr chol msolve n x y err sigmaf = Some f ->
  exists w nu0 nu1, kriging n (sigmaf ^ 2) x err v w nu0 nu1 /\
    forall w' nu0' nu1', kriging n (sigmaf ^ 2) x err v w' nu0' nu1' -> (forall i, (i < n)%nat -> w i = w' i) /\ nu0 = nu0' /\ nu1 = nu1'.
Proof.
  intros C S F. replace (sigmaf ^ 2) with (sigmaf * sigmaf) by ring.
  destruct (kriging_exists chol msolve C S n x y err _ f F v) as (w & nu0 & nu1 & K). exists w, nu0, nu1. split; [exact K|].
  intros w' nu0' nu1' K'. exact (kriging_only chol msolve C S n x y err _ f F v w nu0 nu1 w' nu0' nu1' K K').
Qed.
Print Assumptions best_weights.
(** The covariances are symmetric and those of predictions with the best weights. *)
Theorem covariance_value chol msolve n x y err sigmaf f l M a b : factors chol -> solves msolve -> gpr chol msolve n x y err sigmaf = Some f ->
  covariance msolve n x (sigmaf ^ 2) f (Array l) = Some M -> (a < length l)%nat -> (b < length l)%nat ->
  M a b = M b a /\ exists w nu0 nu1, kriging n (sigmaf ^ 2) x err (nth b l 0) w nu0 nu1 /\
    M a b = sigmaf ^ 2 * kern (nth a l 0) (nth b l 0) - sm n (fun i => w i * (sigmaf ^ 2 * kern (nth a l 0) (x i))) - nu0 - nu1 * nth a l 0.
Proof.
  replace (sigmaf ^ 2) with (sigmaf * sigmaf) by ring. intros C S F H I J.
  exact (covariance_spec chol msolve C S n x y err _ f F l M H a b I J).
Qed.
Print Assumptions covariance_value.
(** Variances are the diagonal of the covariances. *)
Theorem variance_is_diagonal chol msolve n x y err sigmaf f l M vs : factors chol -> solves msolve -> gpr chol msolve n x y err sigmaf = Some f ->
  covariance msolve n x (sigmaf ^ 2) f (Array l) = Some M -> variance msolve n x (sigmaf ^ 2) f (Array l) = Some vs ->
  length vs = length l /\ forall a, (a < length l)%nat -> nth a vs 0 = M a a.
Proof.
  replace (sigmaf ^ 2) with (sigmaf * sigmaf) by ring. intros C S F H V. destruct (each_spec _ 0 0 l vs V) as [E G]. split; [exact E|].
  intros a I. destruct (variance1_spec chol msolve C S n x y err _ f F _ _ (G a I)) as (w & nu0 & nu1 & K & ->).
  destruct (covariance_spec chol msolve C S n x y err _ f F l M H a a I I) as (_ & w' & nu0' & nu1' & K' & ->).
  destruct (kriging_only chol msolve C S n x y err _ f F _ _ _ _ _ _ _ K K') as (W & -> & ->).
  do 2 f_equal. f_equal. apply sm_ext. intros i Hi. now rewrite W.
Qed.
Print Assumptions variance_is_diagonal.
(** A variance is the least mean square error of unbiased weights. *)
Theorem variance_is_least chol msolve n x y err sigmaf f v s : factors chol -> solves msolve -> gpr chol msolve n x y err sigmaf = Some f ->
  variance msolve n x (sigmaf ^ 2) f (Array [v]) = Some [s] ->
  (exists w, unbiased n x v w /\ mse n (sigmaf ^ 2) x err v w = s) /\ forall u, unbiased n x v u -> s <= mse n (sigmaf ^ 2) x err v u.
Proof.
  replace (sigmaf ^ 2) with (sigmaf * sigmaf) by ring. intros C S F H.
  destruct (each_spec _ 0 0 [v] [s] H) as [_ G]. specialize (G O ltac:(cbn; lia)). cbn [nth] in G.
  destruct (variance1_spec chol msolve C S n x y err _ f F _ _ G) as (w & nu0 & nu1 & K & E). split.
  - exists w. split; [exact (proj1 K)|]. rewrite E. now apply mse_value.
  - intros u U. rewrite E. exact (mse_min chol msolve C S n x y err _ f F v w nu0 nu1 u K U).
Qed.
Print Assumptions variance_is_least.
(** At a knot it is at most the square of the error there. *)
Theorem variance_at_knot chol msolve n x y err sigmaf f i s : factors chol -> solves msolve -> gpr chol msolve n x y err sigmaf = Some f ->
  (i < n)%nat -> variance msolve n x (sigmaf ^ 2) f (Array [x i]) = Some [s] -> s <= err i ^ 2.
Proof.
  intros C S F I H. destruct (variance_is_least chol msolve n x y err sigmaf f (x i) s C S F H) as [_ L].
  set (u := fun j => if Nat.eqb i j then 1 else 0).
  assert (D : forall g, sm n (fun j => u j * g j) = g i) by (intros g; now apply sm_delta).
  refine (Rle_trans _ _ _ (L u _) _).
  - split; [|exact (D x)]. rewrite <- (D (fun _ => 1)). apply sm_ext. intros; lra.
  - unfold mse. rewrite (D (fun j => sigmaf ^ 2 * kern (x i) (x j))), (D (fun k => sm n (fun j => covar _ x err k j * u j))).
    rewrite (sm_ext n _ (fun j => u j * covar (sigmaf ^ 2) x err i j)) by (intros; lra). rewrite (D (fun j => covar (sigmaf ^ 2) x err i j)).
    unfold covar. rewrite Nat.eqb_refl. lra.
Qed.
Print Assumptions variance_at_knot.
(** One number, not in a list, raises; so does the covariance of no points. *)
Theorem scalar_raises msolve n x sf2 f v : variance msolve n x sf2 f (Scalar v) = None /\ covariance msolve n x sf2 f (Scalar v) = None /\
  covariance msolve n x sf2 f (Array []) = None /\ variance msolve n x sf2 f (Array []) = Some [].
Proof. repeat split. Qed.
Print Assumptions scalar_raises.

(** ** A case of two points with routines for two by two matrices *)
Definition solve2 (n m : nat) (M B : mat) : option mat :=
  match n with
  | 2%nat =>
      let d := M 0%nat 0%nat * M 1%nat 1%nat - M 0%nat 1%nat * M 1%nat 0%nat in
      if Req_EM_T d 0 then None
      else Some (fun i j => match i with O => (M 1%nat 1%nat * B 0%nat j - M 0%nat 1%nat * B 1%nat j) / d | _ => (M 0%nat 0%nat * B 1%nat j - M 1%nat 0%nat * B 0%nat j) / d end)
  | _ => None
  end.
Lemma below_two i : (i < 2)%nat -> i = 0%nat \/ i = 1%nat.
Proof. lia. Qed.
Lemma solve2_solves : solves solve2.
Proof.
  intros n m M B X H. unfold solve2 in H. destruct n as [|[|[|n]]]; try discriminate. cbv zeta in H.
  destruct (Req_EM_T _ 0) as [|D]; [discriminate|]. assert (EX := f_equal (fun o => match o with Some g => g | None => X end) H). cbv beta iota in EX. subst X. split.
  - exists (fun i j => match i, j with O, O => M 1%nat 1%nat / (M 0%nat 0%nat * M 1%nat 1%nat - M 0%nat 1%nat * M 1%nat 0%nat)
      | O, _ => - M 0%nat 1%nat / (M 0%nat 0%nat * M 1%nat 1%nat - M 0%nat 1%nat * M 1%nat 0%nat)
      | _, O => - M 1%nat 0%nat / (M 0%nat 0%nat * M 1%nat 1%nat - M 0%nat 1%nat * M 1%nat 0%nat)
      | _, _ => M 0%nat 0%nat / (M 0%nat 0%nat * M 1%nat 1%nat - M 0%nat 1%nat * M 1%nat 0%nat) end).
    intros i j I J. destruct (below_two i I) as [-> | ->], (below_two j J) as [-> | ->]; cbn [sm Nat.eqb]; split; field; exact D.
  - intros i j I J. destruct (below_two i I) as [-> | ->]; cbn [sm]; field; exact D.
Qed.
(** for the diagonal matrix with 1 and 4 *)
Definition chol2 (n : nat) (M : mat) : option mat :=
  match n with
  | 2%nat =>
      if Req_EM_T (M 0%nat 0%nat) 1 then if Req_EM_T (M 0%nat 1%nat) 0 then if Req_EM_T (M 1%nat 0%nat) 0 then if Req_EM_T (M 1%nat 1%nat) 4 then
        Some (fun i j => match i, j with O, O => 1 | S O, S O => 2 | _, _ => 0 end)
      else None else None else None else None
  | _ => None
  end.
Lemma chol2_factors : factors chol2.
Proof.
  intros n M L H. unfold chol2 in H. destruct n as [|[|[|n]]]; try discriminate.
  repeat (destruct (Req_EM_T _ _) in H; [|discriminate]).
  assert (EX := f_equal (fun o => match o with Some g => g | None => L end) H). cbv beta iota in EX. subst L.
  intros i j I J. destruct (below_two i I) as [-> | ->], (below_two j J) as [-> | ->]; cbn [sm]; lra.
Qed.
Definition x2 : vec := fun i => match i with O => 0 | _ => 1 end.
Definition y2 : vec := fun i => match i with O => 5 | _ => 8 end.
Lemma kern_00 : kern 0 0 = 0.
Proof. unfold kern. rewrite Rmin_left by lra. rewrite Rabs_R0 || (replace (0 - 0) with 0 by lra; rewrite Rabs_R0). lra. Qed.
Lemma kern_01 : kern 0 1 = 0.
Proof. unfold kern. rewrite Rmin_left by lra. lra. Qed.
Lemma kern_11 : kern 1 1 = 1 / 3.
Proof. unfold kern. rewrite Rmin_left by lra. replace (1 - 1) with 0 by lra. rewrite Rabs_R0. lra. Qed.
Lemma gpr_two : exists f, gpr chol2 solve2 2 x2 y2 (fun _ => 1) 3 = Some f /\
  fL f 0%nat 0%nat * fL f 1%nat 1%nat - fL f 0%nat 1%nat * fL f 1%nat 0%nat <> 0 /\ fA f 0%nat 0%nat * fA f 1%nat 1%nat - fA f 0%nat 1%nat * fA f 1%nat 0%nat <> 0.
Proof.
  unfold gpr, make_fit, chol2, Ky, Km. cbn [Nat.min Nat.max Nat.eqb x2]. rewrite kern_00, kern_01, kern_11.
  repeat (destruct (Req_EM_T _ _) as [_ | X]; [|exfalso; apply X; lra]).
  unfold solve2 at 1. unfold tr at 1 2 3 4. cbv zeta. destruct (Req_EM_T _ 0) as [X|_]; [exfalso; lra|].
  unfold solve2 at 1. unfold tr at 1 2 3 4. cbv zeta. destruct (Req_EM_T _ 0) as [X|_]; [exfalso; lra|].
  unfold solve2 at 1. cbn [sm]. unfold tr, Hm. cbn [Hrow x2]. cbv zeta. destruct (Req_EM_T _ 0) as [X|_]; [exfalso; lra|].
  unfold solve2 at 1. cbv zeta. destruct (Req_EM_T _ 0) as [X|_]; [exfalso; lra|].
  unfold solve2 at 1. cbv zeta. destruct (Req_EM_T _ 0) as [X|_]; [exfalso; lra|]. eexists. split; [reflexivity|]. cbn [fL fA sm Hrow]. split; lra.
Qed.
Lemma line2 i : (i < 2)%nat -> y2 i = 5 + 3 * x2 i.
Proof. intros I. destruct (below_two i I) as [-> | ->]; cbn; lra. Qed.
(** Two points are on a line; the variance at the first is at most 1. *)
Example gpr_instance : exists f s M, factors chol2 /\ solves solve2 /\ gpr chol2 solve2 2 x2 y2 (fun _ => 1) 3 = Some f /\
  (forall i, (i < 2)%nat -> fgbar f i = y2 i) /\ variance solve2 2 x2 (3 ^ 2) f (Array [x2 0%nat]) = Some [s] /\ s <= 1 /\
  covariance solve2 2 x2 (3 ^ 2) f (Array [x2 0%nat; 2]) = Some M /\ M 0%nat 1%nat = M 1%nat 0%nat.
Proof.
  destruct gpr_two as (f & F & DL & DA). exists f.
  assert (V : exists s, variance solve2 2 x2 (3 ^ 2) f (Array [x2 0%nat]) = Some [s]).
  { unfold variance. cbn [each]. unfold variance1, vsolve, solve2 at 1. cbv zeta. destruct (Req_EM_T _ 0) as [X|_]; [contradiction|]. cbn [option_map].
    unfold solve2 at 1. cbv zeta. destruct (Req_EM_T _ 0) as [X|_]; [contradiction|]. cbn [option_map]. eexists. reflexivity. }
  assert (C : exists M, covariance solve2 2 x2 (3 ^ 2) f (Array [x2 0%nat; 2]) = Some M).
  { unfold covariance, solve2 at 1. cbv zeta. destruct (Req_EM_T _ 0) as [X|_]; [contradiction|].
    unfold solve2 at 1. cbv zeta. destruct (Req_EM_T _ 0) as [X|_]; [contradiction|]. eexists. reflexivity. }
  destruct V as [s V], C as [M C]. exists s, M. split; [exact chol2_factors|]. split; [exact solve2_solves|]. split; [exact F|].
  split; [exact (line_kept chol2 solve2 2 x2 y2 (fun _ => 1) 3 f 5 3 chol2_factors solve2_solves F line2)|]. split; [exact V|]. split.
  - pose proof (variance_at_knot chol2 solve2 2 x2 y2 (fun _ => 1) 3 f 0 s chol2_factors solve2_solves F ltac:(lia) V). cbn in *; lra.
  - split; [exact C|].
    exact (proj1 (covariance_value chol2 solve2 2 x2 y2 (fun _ => 1) 3 f _ M 0 1 chol2_factors solve2_solves F C ltac:(cbn; lia) ltac:(cbn; lia))).
Qed.
