(** C29: CubicSpline. *)
From Coq Require Import Reals ZArith Bool Lra Lia Permutation Sorted List.
From Verif Require Import EntModel SplModel SplSpec SplProofs SplEval SplMore.
Import ListNotations.
Local Open Scope R_scope.

(** The spline passes through the points given, in whatever order they are given. *)
Theorem spline_interpolates xs ys yp1 ypN : (length xs <= length ys)%nat -> (2 <= length xs)%nat -> NoDup xs ->
  exists s, make_spline xs ys yp1 ypN = Some s /\ forall i, (i < length xs)%nat -> spline_at s 0 (nth i xs 0) = nth i ys 0.
Proof.
  intros A B C. destruct (built_make xs ys yp1 ypN A B C) as (s & E & _). exists s. split; [exact E|].
  exact (given_knot xs ys yp1 ypN s E C).
Qed.
Theorem spline_refused xs ys yp1 ypN : (length xs < 2)%nat \/ (length ys < length xs)%nat -> make_spline xs ys yp1 ypN = None.
Proof.
  intros H. unfold make_spline. destruct (Nat.ltb_spec (length ys) (length xs)) as [C|C]; [reflexivity|].
  destruct (Nat.ltb_spec (length xs) 2) as [D|D]; [reflexivity | lia].
Qed.

(** It is differentiable everywhere, also outside the knots, with the first derivative that is returned for
    der=1, which is continuous. *)
Theorem spline_smooth xs ys yp1 ypN s : make_spline xs ys yp1 ypN = Some s -> NoDup xs ->
  forall v, derivable_pt_lim (spline_at s 0) v (spline_at s 1 v) /\ continuity_pt (spline_at s 1) v.
Proof.
  intros H D v. destruct (made xs ys yp1 ypN s H D) as (_ & _ & B). split; [exact (whole_d0 _ _ _ _ _ B v) | exact (whole_c1 _ _ _ _ _ B v)].
Qed.
(** Without given slopes it is also twice continuously differentiable everywhere ... *)
Theorem spline_twice_smooth xs ys s : make_spline xs ys None None = Some s -> NoDup xs ->
  forall v, derivable_pt_lim (spline_at s 1) v (spline_at s 2 v) /\ continuity_pt (spline_at s 2) v.
Proof.
  intros H D v. destruct (made xs ys None None s H D) as (_ & _ & B). assert (T := given_tame xs ys None None s H D v (fun _ _ => eq_refl) (fun _ _ => eq_refl)).
  split; [exact (whole_d1 _ _ _ _ _ B v T) | exact (whole_c2 _ _ _ _ _ B v T)].
Qed.
(** ... and in general everywhere but at an end where the slope is given. *)
Theorem spline_twice_smooth_inside xs ys yp1 ypN s v : make_spline xs ys yp1 ypN = Some s -> NoDup xs ->
  ((forall x, In x xs -> v <= x) -> In v xs -> yp1 = None) -> ((forall x, In x xs -> x <= v) -> In v xs -> ypN = None) ->
  derivable_pt_lim (spline_at s 1) v (spline_at s 2 v) /\ continuity_pt (spline_at s 2) v.
Proof.
  intros H D H1 HN. destruct (made xs ys yp1 ypN s H D) as (_ & _ & B). assert (T := given_tame xs ys yp1 ypN s H D v H1 HN).
  split; [exact (whole_d1 _ _ _ _ _ B v T) | exact (whole_c2 _ _ _ _ _ B v T)].
Qed.

(** Beyond the first and the last knot it is the straight line through the knot with the slope it has there,
    which is the slope given if one is. *)
Theorem spline_below xs ys yp1 ypN s i : make_spline xs ys yp1 ypN = Some s -> NoDup xs ->
  (i < length xs)%nat -> (forall j, (j < length xs)%nat -> nth i xs 0 <= nth j xs 0) ->
  (forall v, v <= nth i xs 0 ->
     spline_at s 0 v = nth i ys 0 + spline_at s 1 (nth i xs 0) * (v - nth i xs 0) /\
     spline_at s 1 v = spline_at s 1 (nth i xs 0) /\ spline_at s 2 v = 0) /\
  (forall p, yp1 = Some p -> spline_at s 1 (nth i xs 0) = p).
Proof.
  intros H D Hi K. split.
  - intros v Hv. destruct (given_below xs ys yp1 ypN s H D i v Hi K Hv) as (A & B & C & _). auto.
  - exact (proj2 (proj2 (proj2 (given_below xs ys yp1 ypN s H D i (nth i xs 0) Hi K (Rle_refl _))))).
Qed.
Theorem spline_above xs ys yp1 ypN s i : make_spline xs ys yp1 ypN = Some s -> NoDup xs ->
  (i < length xs)%nat -> (forall j, (j < length xs)%nat -> nth j xs 0 <= nth i xs 0) ->
  (forall v, nth i xs 0 < v ->
     spline_at s 0 v = nth i ys 0 + spline_at s 1 (nth i xs 0) * (v - nth i xs 0) /\
     spline_at s 1 v = spline_at s 1 (nth i xs 0) /\ spline_at s 2 v = 0) /\
  (forall p, ypN = Some p -> spline_at s 1 (nth i xs 0) = p).
Proof.
  intros H D Hi K. split.
  - intros v Hv. destruct (given_above xs ys yp1 ypN s H D i v Hi K Hv) as (A & B & C & _). auto.
  - assert (L : nth i xs 0 < nth i xs 0 + 1) by lra. exact (proj2 (proj2 (proj2 (given_above xs ys yp1 ypN s H D i (nth i xs 0 + 1) Hi K L)))).
Qed.

(** Between the knots it consists of the polynomials that make a cubic spline, and these are the only ones. *)
Theorem spline_is_the_spline xs ys yp1 ypN s : make_spline xs ys yp1 ypN = Some s -> NoDup xs ->
  exists l, in_order xs ys l /\
    (exists a b c d, is_spline l yp1 ypN a b c d /\ on_interval l (spline_at s 0) a b c d) /\
    (forall a b c d, is_spline l yp1 ypN a b c d -> on_interval l (spline_at s 0) a b c d).
Proof.
  intros H D. destruct (made xs ys yp1 ypN s H D) as (O & _ & B). exists (sort_pairs (combine xs ys)). split; [exact O|]. split.
  - eexists _, _, _, _. exact (whole_pieces _ _ _ _ _ B).
  - intros a b c d. exact (unique_on_interval _ _ _ _ _ B a b c d).
Qed.

(** A polynomial of degree up to 3 is reproduced between the ends, if at each end the slope given is that of
    the polynomial, or none is given and the second derivative vanishes. *)
Theorem spline_reproduces xs ys yp1 ypN s a b c d i0 iN : make_spline xs ys yp1 ypN = Some s -> NoDup xs ->
  (forall i, (i < length xs)%nat -> nth i ys 0 = a + b * nth i xs 0 + c * nth i xs 0 ^ 2 + d * nth i xs 0 ^ 3) ->
  (i0 < length xs)%nat -> (iN < length xs)%nat ->
  (forall j, (j < length xs)%nat -> nth i0 xs 0 <= nth j xs 0 <= nth iN xs 0) ->
  match yp1 with Some p => p = b + 2 * c * nth i0 xs 0 + 3 * d * nth i0 xs 0 ^ 2 | None => 2 * c + 6 * d * nth i0 xs 0 = 0 end ->
  match ypN with Some p => p = b + 2 * c * nth iN xs 0 + 3 * d * nth iN xs 0 ^ 2 | None => 2 * c + 6 * d * nth iN xs 0 = 0 end ->
  forall v, nth i0 xs 0 <= v <= nth iN xs 0 -> spline_at s 0 v = a + b * v + c * v ^ 2 + d * v ^ 3.
Proof.
  intros H D V H0 HN K E0 EN v Hv.
  apply (poly_inside xs ys yp1 ypN s H D a b c d V i0 iN H0 HN); try assumption; intros j Hj; apply K; exact Hj.
Qed.
(** A straight line is reproduced everywhere. *)
Theorem spline_line xs ys s a b : make_spline xs ys None None = Some s -> NoDup xs ->
  (forall i, (i < length xs)%nat -> nth i ys 0 = a + b * nth i xs 0) -> forall v, spline_at s 0 v = a + b * v.
Proof.
  intros H D V v. destruct (made xs ys None None s H D) as (O & HL & B). destruct (made_lengths xs ys None None s H) as (_ & H2).
  destruct (of_knot xs ys None None s H D 0 ltac:(lia)) as (i0 & H0 & X0 & Y0).
  destruct (of_knot xs ys None None s H D (length (sort_pairs (combine xs ys)) - 1) ltac:(lia)) as (iN & HN & XN & YN).
  assert (K := px_least xs ys None None s H D). rewrite X0, XN in K.
  assert (V' : forall i, (i < length xs)%nat -> nth i ys 0 = a + b * nth i xs 0 + 0 * nth i xs 0 ^ 2 + 0 * nth i xs 0 ^ 3) by (intros i Hi; rewrite (V i Hi); ring).
  assert (Z : forall t : R, 2 * 0 + 6 * 0 * t = 0) by (intros; ring).
  destruct (poly_slopes xs ys None None s H D a b 0 0 V' i0 iN H0 HN (fun j Hj => proj1 (K j Hj)) (fun j Hj => proj2 (K j Hj)) (Z _) (Z _)) as (S0 & SN).
  destruct (Rle_dec v (nth i0 xs 0)) as [C|C].
  - destruct (given_below xs ys None None s H D i0 v H0 (fun j Hj => proj1 (K j Hj)) C) as (A & _). rewrite A, S0, (V i0 H0). ring.
  - destruct (Rle_dec v (nth iN xs 0)) as [C'|C'].
    + rewrite (poly_inside xs ys None None s H D a b 0 0 V' i0 iN H0 HN (fun j Hj => proj1 (K j Hj)) (fun j Hj => proj2 (K j Hj)) (Z _) (Z _) v) by lra. ring.
    + destruct (given_above xs ys None None s H D iN v HN (fun j Hj => proj2 (K j Hj)) ltac:(lra)) as (A & _). rewrite A, SN, (V iN HN). ring.
Qed.

(** derivative() of a CubicSplineFunction has the values that the function itself gives for der. *)
Theorem spline_derivative xs ys yp1 ypN s k d : make_spline xs ys yp1 ypN = Some s -> NoDup xs ->
  ((k + d <= 3)%Z -> exists f, derivative (s, k) d = Some (Some f) /\ forall v e, call_function f v e = call_function (s, k) v (d + e)) /\
  ((k + d > 3)%Z -> derivative (s, k) d = Some None /\ forall v, call_function (s, k) v d = 0).
Proof.
  intros H D. unfold derivative, call_function. cbn [fst snd]. rewrite (remake xs ys yp1 ypN s H D). split; intros C.
  - assert (E : (k + d >? 3)%Z = false) by (rewrite Z.gtb_ltb; apply Z.ltb_ge; lia). rewrite E. eexists. split; [reflexivity|].
    intros v e. cbn [fst snd]. replace (k + (d + e))%Z with (k + d + e)%Z by lia. reflexivity.
  - assert (E : (k + d >? 3)%Z = true) by (rewrite Z.gtb_ltb; apply Z.ltb_lt; lia). rewrite E. split; reflexivity.
Qed.

(** LinterpCubicSpline of splines with the same knots is their weighted mean, for every derivative; splines with
    different numbers of knots, or with knots more than 0.001 apart, are refused. *)
Theorem linterp_mean xs ys1 p1 pN ys2 q1 qN s1 s2 fr : NoDup xs ->
  make_spline xs ys1 p1 pN = Some s1 -> make_spline xs ys2 q1 qN = Some s2 ->
  exists s, linterp s1 s2 fr = Some s /\ forall der v, spline_at s der v = fr * spline_at s1 der v + (1 - fr) * spline_at s2 der v.
Proof. exact (linterp_lemma xs ys1 p1 pN ys2 q1 qN s1 s2 fr). Qed.
Theorem linterp_refused xs1 ys1 p1 pN xs2 ys2 q1 qN s1 s2 fr l1 l2 : NoDup xs1 -> NoDup xs2 ->
  make_spline xs1 ys1 p1 pN = Some s1 -> make_spline xs2 ys2 q1 qN = Some s2 ->
  in_order xs1 ys1 l1 -> in_order xs2 ys2 l2 ->
  length xs1 <> length xs2 \/ (exists i, (i < length xs1)%nat /\ (i < length xs2)%nat /\ 1 / 1000 < Rabs (px l1 i - px l2 i)) ->
  linterp s1 s2 fr = None.
Proof.
  intros D1 D2 M1 M2 O1 O2 H. rewrite (order_is _ _ _ _ _ M1 D1 l1 O1) in H. rewrite (order_is _ _ _ _ _ M2 D2 l2 O2) in H.
  destruct (made _ _ _ _ _ M1 D1) as (_ & L1 & B1). destruct (made _ _ _ _ _ M2 D2) as (_ & L2 & B2).
  assert (K1 := kx_length _ _ _ _ _ B1). assert (K2 := kx_length _ _ _ _ _ B2).
  unfold linterp. destruct (Nat.eqb_spec (length (kx s1)) (length (kx s2))) as [E|E]; cbn [negb]; [|reflexivity].
  destruct H as [H|(i & I1 & I2 & H)]; [lia|].
  assert (X : existsb (fun p => rltb (1 / 1000) (Rabs (fst p - snd p))) (combine (kx s1) (kx s2)) = true).
  { apply existsb_exists. exists (nth i (kx s1) 0, nth i (kx s2) 0). split; [apply combine_in; lia|].
    cbn [fst snd]. rewrite (kx_nth _ _ _ _ _ B1), (kx_nth _ _ _ _ _ B2). apply rltb_true. exact H. }
  rewrite X. reflexivity.
Qed.

(** The value returned for der=3 is the third derivative times the square of the width of the interval. *)
Theorem spline_third xs ys yp1 ypN s l i v : make_spline xs ys yp1 ypN = Some s -> NoDup xs -> in_order xs ys l ->
  (S i < length l)%nat -> px l i < v < px l (S i) ->
  derivable_pt_lim (spline_at s 2) v (spline_at s 3 v / (px l (S i) - px l i) ^ 2).
Proof. intros H D O Hi Hv. rewrite (order_is xs ys yp1 ypN s H D l O) in *. exact (given_third xs ys yp1 ypN s H D i v Hi Hv). Qed.

(** * What does not hold *)

Lemma nodup2 : NoDup [0; 2].
Proof. constructor; [intros [H|[]]; lra|]. constructor; [intros []|constructor]. Qed.
Lemma order2 : in_order [0; 2] [0; 0] [(0, 0); (2, 0)].
Proof. split; [apply Permutation_refl|]. repeat constructor. cbn. lra. Qed.
(** A spline with slope 1 at its first knot, 0, and no given slope at the other, 2: v - 3/4 v^2 + 1/8 v^3. *)
Lemma spline2 s : make_spline [0; 2] [0; 0] (Some 1) None = Some s -> forall v, 0 <= v <= 2 -> spline_at s 0 v = v - 3 / 4 * v ^ 2 + 1 / 8 * v ^ 3.
Proof.
  intros H v Hv. rewrite (given_unique _ _ _ _ s H nodup2 [(0, 0); (2, 0)] (fun _ => 0) (fun _ => 1) (fun _ => - (3 / 4)) (fun _ => 1 / 8) order2) with (i := 0%nat).
  - cbn. field.
  - constructor; cbn; intros; try (exfalso; lia); try lra; destruct i as [|[|]]; cbn; try lra; exfalso; lia.
  - cbn. lia.
  - cbn. lra.
Qed.
Lemma spline2_slope s v : make_spline [0; 2] [0; 0] (Some 1) None = Some s -> 0 < v < 2 -> spline_at s 1 v = 1 - 3 / 2 * v + 3 / 8 * v ^ 2.
Proof.
  intros H Hv. destruct (spline_smooth _ _ _ _ s H nodup2 v) as (D & _). apply (uniqueness_limite (spline_at s 0) v); [exact D|].
  apply (glue_derivable _ (fun t => 0 + 1 * (t - 0) + - (3 / 4) * (t - 0) ^ 2 + 1 / 8 * (t - 0) ^ 3) (fun t => 0 + 1 * (t - 0) + - (3 / 4) * (t - 0) ^ 2 + 1 / 8 * (t - 0) ^ 3) v _ (Rmin v (2 - v))).
  - apply Rmin_pos; lra.
  - intros t Ht. assert (A := Rmin_l v (2 - v)). rewrite (spline2 s H t) by lra. field.
  - intros t Ht. assert (A := Rmin_r v (2 - v)). rewrite (spline2 s H t) by lra. field.
  - reflexivity.
  - replace (1 - 3 / 2 * v + 3 / 8 * v ^ 2) with (1 + 2 * (- (3 / 4)) * (v - 0) + 3 * (1 / 8) * (v - 0) ^ 2) by field. apply lim_cubic.
  - replace (1 - 3 / 2 * v + 3 / 8 * v ^ 2) with (1 + 2 * (- (3 / 4)) * (v - 0) + 3 * (1 / 8) * (v - 0) ^ 2) by field. apply lim_cubic.
Qed.

(** At an end with a given slope the slope need not be differentiable. *)
Theorem spline_twice_smooth_refuted : exists xs ys yp1 ypN s v, NoDup xs /\ make_spline xs ys yp1 ypN = Some s /\ In v xs /\
  forall d, ~ derivable_pt_lim (spline_at s 1) v d.
Proof.
  destruct (spline_interpolates [0; 2] [0; 0] (Some 1) None ltac:(cbn; lia) ltac:(cbn; lia) nodup2) as (s & H & _).
  exists [0; 2], [0; 0], (Some 1), None, s, 0. split; [exact nodup2|]. split; [exact H|]. split; [left; reflexivity|].
  intros d L. destruct (L (1 / 4) ltac:(lra)) as [e He].
  assert (Low : forall v, v <= 0 -> spline_at s 1 v = 1).
  { intros v Hv. destruct (spline_below _ _ _ _ s 0 H nodup2 ltac:(cbn; lia)) as (A & B).
    - intros [|[|j]] Hj; cbn in *; try lra; lia.
    - cbn in A, B. destruct (A v Hv) as (_ & A1 & _). rewrite A1. apply B. reflexivity. }
  assert (P := cond_pos e). set (h := Rmin (e / 2) (1 / 4)).
  assert (Hh : 0 < h) by (apply Rmin_pos; lra). assert (A1 := Rmin_l (e / 2) (1 / 4)). assert (A2 := Rmin_r (e / 2) (1 / 4)). fold h in A1, A2.
  assert (X := He h ltac:(lra) ltac:(rewrite Rabs_pos_eq; lra)). assert (Y := He (- h) ltac:(lra) ltac:(rewrite Rabs_Ropp, Rabs_pos_eq; lra)).
  rewrite (Low 0) in X, Y by lra. rewrite (Low (0 + - h)) in Y by lra. rewrite (spline2_slope s (0 + h) H) in X by lra.
  replace ((1 - 1) / - h - d) with (- d) in Y by (field; lra).
  replace ((1 - 3 / 2 * (0 + h) + 3 / 8 * (0 + h) ^ 2 - 1) / h - d) with (- (3 / 2) + 3 / 8 * h - d) in X by (field; lra).
  apply Rabs_def2 in X. apply Rabs_def2 in Y. lra.
Qed.

(** The value for der=3 is not the third derivative. *)
Theorem spline_third_refuted : exists xs ys yp1 ypN s v, NoDup xs /\ make_spline xs ys yp1 ypN = Some s /\
  (exists d, derivable_pt_lim (spline_at s 2) v d) /\ ~ derivable_pt_lim (spline_at s 2) v (spline_at s 3 v).
Proof.
  destruct (spline_interpolates [0; 2] [0; 0] (Some 1) None ltac:(cbn; lia) ltac:(cbn; lia) nodup2) as (s & H & _).
  exists [0; 2], [0; 0], (Some 1), None, s, 1. split; [exact nodup2|]. split; [exact H|].
  assert (T := spline_third _ _ _ _ s _ 0 1 H nodup2 order2 ltac:(cbn; lia) ltac:(cbn; lra)). cbn [px nth fst] in T.
  split; [eexists; exact T|]. intros C. assert (E := uniqueness_limite _ _ _ _ C T).
  assert (Z : spline_at s 3 1 = 0) by lra. rewrite Z in C. clear E T Z.
  (* the second derivative rises with slope 3/4 *)
  assert (S2 : forall v, 0 < v < 2 -> spline_at s 2 v = - (3 / 2) + 3 / 4 * v).
  { intros v Hv. destruct (spline_twice_smooth_inside _ _ _ _ s v H nodup2) as (D & _).
    - intros K. assert (K' := K 0 ltac:(left; reflexivity)). lra.
    - reflexivity.
    - apply (uniqueness_limite (spline_at s 1) v); [exact D|].
      apply (glue_derivable _ (fun t => 1 + - (3 / 2) * (t - 0) + 3 / 8 * (t - 0) ^ 2 + 0 * (t - 0) ^ 3) (fun t => 1 + - (3 / 2) * (t - 0) + 3 / 8 * (t - 0) ^ 2 + 0 * (t - 0) ^ 3) v _ (Rmin v (2 - v))).
      + apply Rmin_pos; lra.
      + intros t Ht. assert (A := Rmin_l v (2 - v)). rewrite (spline2_slope s t H) by lra. field.
      + intros t Ht. assert (A := Rmin_r v (2 - v)). rewrite (spline2_slope s t H) by lra. field.
      + reflexivity.
      + replace (- (3 / 2) + 3 / 4 * v) with (- (3 / 2) + 2 * (3 / 8) * (v - 0) + 3 * 0 * (v - 0) ^ 2) by field. apply lim_cubic.
      + replace (- (3 / 2) + 3 / 4 * v) with (- (3 / 2) + 2 * (3 / 8) * (v - 0) + 3 * 0 * (v - 0) ^ 2) by field. apply lim_cubic. }
  destruct (C (1 / 4) ltac:(lra)) as [e He]. assert (P := cond_pos e). set (h := Rmin (e / 2) (1 / 4)).
  assert (Hh : 0 < h) by (apply Rmin_pos; lra). assert (A1 := Rmin_l (e / 2) (1 / 4)). assert (A2 := Rmin_r (e / 2) (1 / 4)). fold h in A1, A2.
  assert (X := He h ltac:(lra) ltac:(rewrite Rabs_pos_eq; lra)). rewrite !S2 in X by lra.
  replace ((- (3 / 2) + 3 / 4 * (1 + h) - (- (3 / 2) + 3 / 4 * 1)) / h - 0) with (3 / 4) in X by (field; lra).
  apply Rabs_def2 in X. lra.
Qed.

(** * Examples *)

Lemma nodup3 : NoDup [2; 0; 1].
Proof. constructor; [intros [H|[H|[]]]; lra|]. constructor; [intros [H|[]]; lra|]. constructor; [intros []|constructor]. Qed.
(** Three points given out of order. *)
Example spline_example : exists s, make_spline [2; 0; 1] [0; 0; 1] None None = Some s /\ spline_at s 0 2 = 0 /\ spline_at s 0 1 = 1 /\
  spline_at s 0 (1 / 2) = 11 / 16 /\ spline_at s 0 (-1) = - (3 / 2).
Proof.
  destruct (spline_interpolates [2; 0; 1] [0; 0; 1] None None ltac:(cbn; lia) ltac:(cbn; lia) nodup3) as (s & H & K).
  exists s. split; [exact H|]. split; [exact (K 0%nat ltac:(cbn; lia))|]. split; [exact (K 2%nat ltac:(cbn; lia))|].
  assert (O : in_order [2; 0; 1] [0; 0; 1] [(0, 0); (1, 1); (2, 0)]).
  { split; [|repeat constructor; cbn; lra]. cbn. eapply Permutation_trans; [apply perm_swap|]. apply perm_skip. apply perm_swap. }
  assert (V : forall v, 0 <= v <= 1 -> spline_at s 0 v = 3 / 2 * v - 1 / 2 * v ^ 3).
  { intros v Hv. rewrite (given_unique _ _ _ _ s H nodup3 _ (fun i => INR i) (fun i => 3 / 2 * (1 - INR i)) (fun i => - (3 / 2) * INR i) (fun i => - (1 / 2) + INR i) O) with (i := 0%nat).
    - cbn. field.
    - constructor; cbn.
      + intros [|[|i]] Hi; cbn; try lra; lia.
      + intros [|[|i]] Hi; cbn; try lra; lia.
      + intros [|i] Hi; cbn; try lra; lia.
      + intros [|i] Hi; cbn; try lra; lia.
      + lra.
      + lra.
    - cbn. lia.
    - cbn. lra. }
  split; [rewrite V by lra; field|].
  destruct (spline_below _ _ _ _ s 1 H nodup3 ltac:(cbn; lia)) as (A & _).
  { intros [|[|[|j]]] Hj; cbn in *; try lra; lia. }
  cbn in A. destruct (A (-1) ltac:(lra)) as (A1 & _). rewrite A1.
  assert (E : spline_at s 1 0 = 3 / 2); [|rewrite E; field].
  destruct (spline_smooth _ _ _ _ s H nodup3 0) as (D & _).
  assert (L : forall eps, 0 < eps -> Rabs (spline_at s 1 0 - 3 / 2) < eps).
  { intros eps He. destruct (D (eps / 2) ltac:(lra)) as [e Hd]. assert (P := cond_pos e). set (h := Rmin (e / 2) (Rmin (1 / 2) eps)).
    assert (Hh : 0 < h) by (repeat apply Rmin_pos; lra). assert (A2 := Rmin_l (e / 2) (Rmin (1 / 2) eps)). assert (A3 := Rmin_r (e / 2) (Rmin (1 / 2) eps)). fold h in A2, A3.
    assert (A4 := Rmin_l (1 / 2) eps). assert (A5 := Rmin_r (1 / 2) eps).
    assert (X := Hd h ltac:(lra) ltac:(rewrite Rabs_pos_eq; lra)). rewrite !V in X by lra.
    replace ((3 / 2 * (0 + h) - 1 / 2 * (0 + h) ^ 3 - (3 / 2 * 0 - 1 / 2 * 0 ^ 3)) / h) with (3 / 2 - 1 / 2 * h ^ 2) in X by (field; lra).
    apply Rabs_def2 in X. assert (Q : 0 <= h ^ 2 <= 1 / 2 * eps) by nra. apply Rabs_def1; lra. }
  destruct (Req_dec (spline_at s 1 0) (3 / 2)) as [E|E]; [exact E|]. exfalso.
  assert (N : spline_at s 1 0 - 3 / 2 <> 0) by lra. exact (Rlt_irrefl _ (L _ (Rabs_pos_lt _ N))).
Qed.
(** With the slopes of v^2 the parabola is reproduced. *)
Example spline_reproduces_example : exists s, make_spline [2; 0; 1] [4; 0; 1] (Some 0) (Some 4) = Some s /\ forall v, 0 <= v <= 2 -> spline_at s 0 v = v ^ 2.
Proof.
  destruct (spline_interpolates [2; 0; 1] [4; 0; 1] (Some 0) (Some 4) ltac:(cbn; lia) ltac:(cbn; lia) nodup3) as (s & H & K).
  exists s. split; [exact H|]. intros v Hv. rewrite (spline_reproduces _ _ _ _ s 0 0 1 0 1%nat 0%nat H nodup3); cbn; try lra; try lia.
  - intros [|[|[|i]]] Hi; cbn in *; try lra; lia.
  - intros [|[|[|i]]] Hi; cbn in *; try lra; lia.
Qed.
Example spline_line_example : exists s, make_spline [2; 0; 1] [5; 1; 3] None None = Some s /\ forall v, spline_at s 0 v = 1 + 2 * v.
Proof.
  destruct (spline_interpolates [2; 0; 1] [5; 1; 3] None None ltac:(cbn; lia) ltac:(cbn; lia) nodup3) as (s & H & K).
  exists s. split; [exact H|]. apply (spline_line _ _ s 1 2 H nodup3). intros [|[|[|i]]] Hi; cbn in *; try lra; lia.
Qed.
Example linterp_example : exists s1 s2 s, make_spline [2; 0; 1] [5; 1; 3] None None = Some s1 /\ make_spline [2; 0; 1] [0; 0; 1] None (Some 0) = Some s2 /\
  linterp s1 s2 (1 / 4) = Some s /\ spline_at s 0 2 = 5 / 4.
Proof.
  destruct (spline_interpolates [2; 0; 1] [5; 1; 3] None None ltac:(cbn; lia) ltac:(cbn; lia) nodup3) as (s1 & H1 & K1).
  destruct (spline_interpolates [2; 0; 1] [0; 0; 1] None (Some 0) ltac:(cbn; lia) ltac:(cbn; lia) nodup3) as (s2 & H2 & K2).
  destruct (linterp_mean _ _ _ _ _ _ _ s1 s2 (1 / 4) nodup3 H1 H2) as (s & E & F). exists s1, s2, s. repeat (split; [assumption|]).
  rewrite F. assert (A := K1 0%nat ltac:(cbn; lia)). assert (B := K2 0%nat ltac:(cbn; lia)). cbn in A, B. rewrite A, B. field.
Qed.

Print Assumptions spline_interpolates.
Print Assumptions spline_refused.
Print Assumptions spline_smooth.
Print Assumptions spline_twice_smooth.
Print Assumptions spline_twice_smooth_inside.
Print Assumptions spline_below.
Print Assumptions spline_above.
Print Assumptions spline_is_the_spline.
Print Assumptions spline_reproduces.
Print Assumptions spline_line.
Print Assumptions spline_derivative.
Print Assumptions linterp_mean.
Print Assumptions linterp_refused.
Print Assumptions spline_third.
Print Assumptions spline_twice_smooth_refuted.
Print Assumptions spline_third_refuted.
