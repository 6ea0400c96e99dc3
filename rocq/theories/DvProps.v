(** C30. *)
From Coq Require Import Reals ZArith Bool Lia Lra List.
From Verif Require Import EntModel SplModel SplEval DvModel DvSpec DvPower DvDomain DvProofs DvMore.
From Verif Require SplProps.
Import ListNotations.
Local Open Scope R_scope.

(** * Values *)

(** What an expression is built into has the value that the expression means. *)
Theorem expression_value e x v : means e x v -> simplifies e x -> eval (build e) x = Some v /\ call (build e) x 0 = Some v.
Proof.
  intros M S. assert (E := build_value e x v M S). split; [exact E|]. rewrite <- E. clear. generalize (build e). intros f.
  induction f; cbn; try reflexivity; try (rewrite IHf1, IHf2; reflexivity). rewrite Nat.add_0_r. reflexivity.
Qed.
(** An expression has at most one meaning at a point. *)
Theorem expression_one_meaning e x u v : means e x u -> means e x v -> u = v.
Proof. exact (means_unique e x u v). Qed.
(** With whole powers, and without compositions, that holds at every point at which the expression means something. *)
Fixpoint arithmetic (e : expr) : Prop :=
  match e with
  | Number _ | X | XPower _ | LogX | ExpX | SplineX _ _ => True
  | Plus e f | Minus e f | Times e f | Over e f => arithmetic e /\ arithmetic f
  | Negative e | NumberPlus _ e | NumberMinus _ e | NumberTimes _ e | NumberOver _ e | OverNumber e _ => arithmetic e
  | Raised e y => arithmetic e /\ exists z, y = IZR z
  | Of _ _ => False
  end.
Theorem arithmetic_value e x v : means e x v -> arithmetic e -> eval (build e) x = Some v.
Proof.
  intros M A. apply build_value; [exact M|]. clear M. revert A. induction e; cbn; try tauto. intros (A & z & ->). split; [auto|].
  destruct (build e); try exact I. right. apply is_int_IZR.
Qed.

(** The same for every object: each simplification gives an object with the value of the operation. *)
Theorem summation_value a b x v : eval (Sum a b) x = Some v -> eval (sum a b) x = Some v.
Proof. cbn. intros H. apply oadd_inv in H. destruct H as (u & w & A & B & ->). apply sum_value; assumption. Qed.
Theorem multiplication_value a b x v : eval (Mul a b) x = Some v -> eval (mult a b) x = Some v.
Proof. cbn. intros H. apply omul_inv in H. destruct H as (u & w & A & B & ->). apply mult_value; assumption. Qed.
Theorem composition_value a b x v : eval (Comp a b) x = Some v -> compatible a b x -> eval (comp a b) x = Some v.
Proof. cbn. destruct (eval b x) as [y|] eqn:B; [|discriminate]. exact (comp_value b x y B a v). Qed.
(** The simplification of products ends. *)
Theorem multiplication_ends n a b : (size a + size b <= n)%nat -> mult_rec n a b = mult a b.
Proof. exact (mult_enough n a b). Qed.

(** * Derivatives *)

(** derivative(j).derivative(k) is derivative(j + k). *)
Theorem derivative_again j k f : deriv k (deriv j f) = deriv (j + k) f.
Proof.
  revert f. induction j as [|j IH]; intros f; [reflexivity|]. cbn [Nat.add]. rewrite !deriv_d1. apply IH.
Qed.

(** Where an object has m derivatives it has them on a neighbourhood, and derivative(i) and calls with der = i give them for
    i <= m. *)
Theorem object_derivatives m f x : safe m f x ->
  exists D, derivatives m D x /\
    near x (fun y => eval f y = Some (D 0%nat y) /\ forall i, (i <= m)%nat -> eval (deriv i f) y = Some (D i y) /\ call f y i = Some (D i y)).
Proof.
  intros S. exists (fun i => val (deriv i f)). split; [exact (deriv_sequence m f x S)|].
  apply (near_mono x (safe m f)); [|apply safe_near, S]. intros y T. split; [exact (val_safe m f y T)|]. intros i Hi.
  split; [exact (deriv_comp_val m f y T i Hi)|]. rewrite call_correct; [exact (deriv_comp_val m f y T i Hi)|]. exact (safe_le m i f Hi y T).
Qed.
(** The same for expressions, with the derivatives of what the expression means. *)
Theorem expression_derivatives m e x : smooth m e x ->
  exists D, derivatives m D x /\
    near x (fun y => means e y (D 0%nat y) /\
                     forall i, (i <= m)%nat -> eval (deriv i (build e)) y = Some (D i y) /\ call (build e) y i = Some (D i y)).
Proof.
  intros S. destruct (build_smooth m e x S) as (_ & _ & _ & T). destruct (object_derivatives m _ x T) as (D & A & B). exists D. split; [exact A|].
  apply (near_mono x _ _) with (2 := near_and x _ _ (smooth_near m e x S) B). intros y (U & V & W). split; [|exact W].
  destruct (build_smooth m e y U) as (v & M & E & _). congruence.
Qed.
(** So nothing else can be returned: derivatives of what the expression means are what derivative(i) evaluates to. *)
Theorem derivatives_agree m e x D : smooth m e x -> derivatives m D x -> near x (fun y => means e y (D 0%nat y)) ->
  forall i, (i <= m)%nat -> eval (deriv i (build e)) x = Some (D i x) /\ call (build e) x i = Some (D i x).
Proof.
  intros S A B i Hi. destruct (expression_derivatives m e x S) as (E & P & Q).
  assert (U : near x (fun y => E 0%nat y = D 0%nat y)).
  { apply (near_mono x _ _) with (2 := near_and x _ _ Q B). intros y ((V & _) & W). exact (means_unique e y _ _ V W). }
  assert (V := near_here x _ (derivatives_unique m E D x P A U i Hi)). cbn beta in V. rewrite <- V.
  destruct (near_here x _ Q) as (_ & W). exact (W i Hi).
Qed.

(** * What does not hold *)

Lemma half_two : 1 / 2 * 2 = 1.
Proof. field. Qed.
(** The square root of x^2 is simplified to x. *)
Theorem expression_value_refuted : exists e x v, means e x v /\ eval (build e) x <> Some v.
Proof.
  exists (Raised (XPower 2) (1 / 2)), (-1), 1. split.
  - apply (m_raised _ _ _ 1); [constructor|].
    + apply power_spec. rewrite (power_int (-1) 2). cbn. change (Pos.to_nat 2) with 2%nat. f_equal. ring.
    + apply power_spec. apply power_one.
  - cbn [build]. unfold raised. cbn [comp as_power]. rewrite half_two. cbn [eval]. rewrite power_1. intros C. apply some_inj in C. lra.
Qed.
(** exp(log(x)) is simplified to x although the logarithm is clipped at 1e-6. *)
Theorem composition_value_refuted : exists a b x u v, eval (Comp a b) x = Some u /\ eval (comp a b) x = Some v /\ u <> v.
Proof.
  exists Exp, Log, 0, (/ 1000000), 0. split; [|split].
  - cbn. unfold clipped_log. rewrite Rmax_right by lra. rewrite exp_ln by lra. reflexivity.
  - cbn. apply power_1.
  - lra.
Qed.
(** The derivative of sqrt(x^2) + 1, written (PowerFunction(1/2) + ConstantFunction(1)) << PowerFunction(2), is 1 for negative x. *)
Theorem derivative_refuted : exists f x l, has_derivative (eval f) x l /\ eval (deriv 1 f) x <> Some l.
Proof.
  exists (comp (sum (Pow (1 / 2)) (Const (Some 1))) (Pow 2)), (-1), (-1).
  assert (F : req 1 0 = false) by (apply req_false; lra).
  assert (B : comp (sum (Pow (1 / 2)) (Const (Some 1))) (Pow 2) = Comp (Sum (Pow (1 / 2)) (Const (Some 1))) (Pow 2)).
  { unfold sum. cbn [as_const is]. rewrite F. reflexivity. }
  rewrite B. split.
  - exists (fun y => - y + 1). split.
    + apply (near_mono (-1) (fun y => y < 0)); [|apply near_lt; lra]. intros y Hy. cbn [eval].
      assert (P : power y 2 = Some (y ^ 2)) by (rewrite (power_int y 2); reflexivity). rewrite P.
      assert (Q : power (y ^ 2) (1 / 2) = Some (- y)).
      { rewrite power_pos by nra. f_equal. replace (y ^ 2) with ((- y) * (- y)) by ring. replace (1 / 2) with (/ 2) by field. rewrite Rpower_sqrt by nra. apply sqrt_square. lra. }
      rewrite Q. reflexivity.
    + replace (-1) with (-(1) + 0) at 2 by ring. apply (derivable_pt_lim_plus (fun y => - y) (fct_cte 1)); [|apply derivable_pt_lim_const].
      apply (derivable_pt_lim_opp id). apply derivable_pt_lim_id.
  - rewrite deriv_d1. cbn [deriv d1]. assert (H1 : req (1 / 2) 1 = false) by (apply req_false; lra). assert (H2 : req 2 1 = false) by (apply req_false; lra). rewrite H1, H2.
    unfold sum. cbn [as_const]. unfold mult. cbn. assert (H3 : req (1 / 2) 0 = false) by (apply req_false; lra). assert (H4 : req 2 0 = false) by (apply req_false; lra).
    rewrite H3, H1, H4, H2. cbn. rewrite req_refl. cbn. unfold mult. cbn. rewrite H3, H1. cbn.
    replace (1 / 2 * 2) with 1 by field. rewrite F, req_refl. cbn.
    replace ((1 / 2 - 1) * 2 + (2 - 1)) with 0 by field. rewrite power_0. intros C. apply some_inj in C. lra.
Qed.
(** Below 1e-6 the logarithm is constant, but its derivative is taken to be 1/x. *)
Theorem log_derivative_refuted : exists x, has_derivative (eval Log) x 0 /\ eval (deriv 1 Log) x = Some 10000000 /\ call Log x 1 = Some 10000000.
Proof.
  exists (/ 10000000). assert (E : power (/ 10000000) (-1) = Some 10000000) by (rewrite power_inverse by lra; rewrite Rinv_inv; reflexivity).
  split; [|split; exact E].
  exists (fct_cte (ln (/ 1000000))). split; [|apply derivable_pt_lim_const].
  apply (near_mono _ (fun y => y < / 1000000)); [|apply near_lt; lra]. intros y Hy. cbn. unfold clipped_log. rewrite Rmax_right by lra. reflexivity.
Qed.
(** The third derivative of a spline is not the derivative of the second. *)
Theorem third_derivative_refuted : exists s x l, has_derivative (eval (deriv 2 (Spl s 0))) x l /\ eval (deriv 3 (Spl s 0)) x <> Some l.
Proof.
  destruct SplProps.spline_third_refuted as (xs & ys & y1 & yN & s & v & _ & _ & (d & D) & N). exists s, v, d. split.
  - exists (spline_at s 2). split; [apply near_all; reflexivity | exact D].
  - intros C. apply some_inj in C. apply N. assert (E : spline_at s 3 v = d) by exact C. rewrite E. exact D.
Qed.
(** A number on the right of +, - or * makes an object that cannot be called (but 0 * c is 0). *)
Theorem number_on_the_right f c x : eval (add_number f c) x = None /\ eval (sub_number f c) x = None /\
  (f <> Const (Some 0) -> eval (mul_number f c) x = None).
Proof.
  assert (S : forall c, eval (sum f (Num c)) x = None).
  { intros d. unfold sum. cbn [as_const]. destruct (as_const f) as [u|]; [destruct (is u 0)|]; cbn; try reflexivity; destruct (eval f x); reflexivity. }
  split; [apply S|]. split; [apply S|]. intros N. unfold mul_number, mult.
  assert (P : forall n, eval (mult_rec n f (Num c)) x = None).
  { intros [|n]; [cbn; destruct (eval f x); reflexivity|]. destruct (mult_cases n f (Num c)) as [u v _ E | g _ H | v g E _]; [discriminate | | discriminate].
    destruct H; try discriminate; try (cbn; destruct (eval f x); reflexivity); try contradiction. }
  apply P.
Qed.

Theorem number_on_the_right_refuted : exists f c x u, eval f x = Some u /\ eval (add_number f c) x <> Some (u + c) /\ eval (mul_number f c) x <> Some (u * c).
Proof.
  exists Exp, 3, 0, (exp 0). split; [reflexivity|]. destruct (number_on_the_right Exp 3 0) as (A & _ & B). rewrite A, B by discriminate. split; discriminate.
Qed.


Print Assumptions expression_value.
Print Assumptions expression_one_meaning.
Print Assumptions arithmetic_value.
Print Assumptions summation_value.
Print Assumptions multiplication_value.
Print Assumptions composition_value.
Print Assumptions multiplication_ends.
Print Assumptions derivative_again.
Print Assumptions object_derivatives.
Print Assumptions expression_derivatives.
Print Assumptions derivatives_agree.
Print Assumptions expression_value_refuted.
Print Assumptions composition_value_refuted.
Print Assumptions derivative_refuted.
Print Assumptions log_derivative_refuted.
Print Assumptions third_derivative_refuted.
Print Assumptions number_on_the_right.
Print Assumptions number_on_the_right_refuted.

(** * Examples *)

(** The sigmoid 1 / (1 + (ExponentialFunction() << -x)) of the class comment has all derivatives everywhere. *)
Definition sigmoid : expr := NumberOver 1 (NumberPlus 1 (Of ExpX (Negative X))).
Lemma sigmoid_means x : means sigmoid x (1 / (1 + exp (- x))).
Proof.
  constructor; [|assert (P := exp_pos (- x)); lra]. constructor. apply (m_of _ _ _ (- x)); [constructor; constructor | constructor].
Qed.
Example sigmoid_smooth m x : smooth m sigmoid x.
Proof.
  cbn [smooth sigmoid]. split.
  - split; [exact I|]. split; [intros; exact I|]. cbn. unfold neg, number_mul, mult. cbn. destruct (req (-1) 0), (req (-1) 1); discriminate.
  - intros M. assert (E : means (NumberPlus 1 (Of ExpX (Negative X))) x (1 + exp (- x))).
    { constructor. apply (m_of _ _ _ (- x)); [constructor; constructor | constructor]. }
    assert (Z := means_unique _ _ _ _ M E). assert (P := exp_pos (- x)). lra.
Qed.
(** Its first derivative at 0 is 1/4. *)
Example sigmoid_derivative : eval (deriv 1 (build sigmoid)) 0 = Some (1 / 4) /\ call (build sigmoid) 0 1 = Some (1 / 4).
Proof.
  assert (D : forall y, derivable_pt_lim (fun x => 1 / (1 + exp (- x))) y (exp (- y) / (1 + exp (- y)) ^ 2)).
  { intros y. assert (P := exp_pos (- y)).
    assert (N : derivable_pt_lim (fun x => 1 + exp (- x)) y (0 + exp (- y) * - (1))).
    { apply (derivable_pt_lim_plus (fct_cte 1) (fun x => exp (- x))); [apply derivable_pt_lim_const|].
      apply (derivable_pt_lim_comp (fun x => - x) exp); [apply (derivable_pt_lim_opp id), derivable_pt_lim_id | apply derivable_pt_lim_exp]. }
    assert (Q := derivable_pt_lim_div (fct_cte 1) (fun x => 1 + exp (- x)) y 0 _ (derivable_pt_lim_const 1 y) N ltac:(lra)).
    replace (exp (- y) / (1 + exp (- y)) ^ 2) with ((0 * (1 + exp (- y)) - (0 + exp (- y) * - (1)) * fct_cte 1 y) / (1 + exp (- y))²); [exact Q|].
    unfold fct_cte, Rsqr. field. lra. }
  assert (E := derivatives_agree 1 sigmoid 0 (fun i y => match i with O => 1 / (1 + exp (- y)) | _ => exp (- y) / (1 + exp (- y)) ^ 2 end) (sigmoid_smooth 1 0)).
  replace (1 / 4) with (exp (- 0) / (1 + exp (- 0)) ^ 2) by (rewrite Ropp_0, exp_0; field). apply (E ltac:(apply near_all; intros y i Hi; destruct i; [apply D | lia]) ltac:(apply near_all; intros y; apply sigmoid_means) 1%nat). lia.
Qed.
(** 2 x^3 / x: the powers are collected. *)
Example collects : build (Over (NumberTimes 2 (XPower 3)) X) = Mul (Const (Some 2)) (Pow (3 + -1)).
Proof.
  cbn. unfold number_mul, div, mult. cbn. assert (A : req 2 0 = false) by (apply req_false; lra). assert (B : req 2 1 = false) by (apply req_false; lra).
  rewrite A, B. cbn. rewrite ?A, ?B. reflexivity.
Qed.
(** A spline has two derivatives when no slopes are given, everywhere. *)
Example spline_smooth_example x : exists s, make_spline [2; 0; 1] [0; 0; 1] None None = Some s /\ smooth 2 (Of (SplineX s 0) LogX) (2 + Rabs x).
Proof.
  destruct (SplProps.spline_interpolates [2; 0; 1] [0; 0; 1] None None ltac:(cbn; lia) ltac:(cbn; lia) SplProps.nodup3) as (s & H & _).
  exists s. split; [exact H|]. cbn [smooth]. split; [assert (P := Rabs_pos x); lra|]. split; [|discriminate]. intros u _.
  exists [2; 0; 1], [0; 0; 1], None, None. split; [exact H|]. split; [exact SplProps.nodup3 | right; auto].
Qed.
