(** Higher derivatives, calls with an order, and whole expressions. *)
From Coq Require Import Reals ZArith Bool Lia Lra List.
From Verif Require Import EntModel SplModel SplEval DvModel DvSpec DvPower DvDomain DvProofs.
Import ListNotations.
Local Open Scope R_scope.

(** * derivative(der) is derivative(1), der times *)

Lemma deriv_const k v : deriv (S k) (Const v) = Const (Some 0).
Proof. reflexivity. Qed.
Lemma deriv_zero k : deriv k (Const (Some 0)) = Const (Some 0).
Proof. destruct k; reflexivity. Qed.
Lemma sum_zero_l b : sum (Const (Some 0)) b = b.
Proof.
  unfold sum. cbn [as_const is]. destruct (as_const b) as [v|] eqn:B.
  - apply as_const_is in B. subst b. destruct v as [u|]; cbn; [rewrite Rplus_0_l|]; reflexivity.
  - rewrite req_refl. reflexivity.
Qed.
Lemma sum_zero_r a : sum a (Const (Some 0)) = a.
Proof.
  unfold sum. cbn [as_const is]. destruct (as_const a) as [v|] eqn:A.
  - apply as_const_is in A. subst a. destruct v as [u|]; cbn; [rewrite Rplus_0_r|]; reflexivity.
  - rewrite req_refl. reflexivity.
Qed.
Lemma deriv_sum k a b : deriv k (sum a b) = sum (deriv k a) (deriv k b).
Proof.
  destruct k as [|k]; [reflexivity|]. unfold sum at 1. destruct (as_const a) as [u|] eqn:A; [destruct (as_const b) as [v|] eqn:B|].
  - apply as_const_is in A, B. subst. cbn [deriv]. rewrite sum_zero_l. reflexivity.
  - apply as_const_is in A. subst a. cbn [deriv]. destruct (is u 0) eqn:Z; [rewrite sum_zero_l; reflexivity | reflexivity].
  - destruct (as_const b) as [v|] eqn:B; [|reflexivity]. apply as_const_is in B. subst b. destruct (is v 0); [|reflexivity].
    cbn [deriv]. rewrite sum_zero_r. reflexivity.
Qed.
Lemma mult_zero b : mult (Const (Some 0)) (Pow b) = Const (Some 0).
Proof. unfold mult. cbn. rewrite req_refl. reflexivity. Qed.
Lemma mult_one b : mult (Const (Some 1)) (Pow b) = Pow b.
Proof. unfold mult. cbn. assert (F : req 1 0 = false) by (apply req_false; lra). rewrite F, req_refl. reflexivity. Qed.
Lemma deriv_pow0 k : deriv (S k) (Pow 0) = Const (Some 0).
Proof.
  cbn [deriv]. assert (F : req 0 1 = false) by (apply req_false; lra). rewrite F, andb_false_r, mult_zero. apply deriv_zero.
Qed.
Lemma deriv_d1 f : forall k, deriv (S k) f = deriv k (d1 f).
Proof.
  induction f; intros k; cbn [d1].
  - cbn [deriv]. rewrite deriv_zero. reflexivity.
  - change (deriv (S k) (Pow n)) with (if (k =? 0)%nat && req n 1 then Const (Some 1) else deriv k (mult (Const (Some n)) (Pow (n - 1)))).
    destruct (req n 1) eqn:E; [|rewrite andb_false_r; reflexivity]. rewrite andb_true_r. destruct k as [|k]; [reflexivity|]. cbn [Nat.eqb].
    apply req_spec in E. subst n. rewrite mult_one. replace (1 - 1) with 0 by ring. rewrite deriv_pow0. reflexivity.
  - change (deriv (S k) Id) with (if (k =? 0)%nat then Const (Some 1) else deriv k (mult (Const (Some 1)) (Pow (1 - 1)))).
    destruct k as [|k]; [reflexivity|]. cbn [Nat.eqb]. rewrite mult_one. replace (1 - 1) with 0 by ring. rewrite deriv_pow0. reflexivity.
  - reflexivity.
  - destruct k; reflexivity.
  - cbn [deriv]. unfold spl_derivative at 2. destruct (Nat.ltb_spec 3 (d + 1)) as [L|L].
    + rewrite deriv_zero. unfold spl_derivative. destruct (Nat.ltb_spec 3 (d + S k)); [reflexivity | lia].
    + destruct k as [|k].
      * cbn [deriv]. unfold spl_derivative. destruct (Nat.ltb_spec 3 (d + 1)); [lia | reflexivity].
      * cbn [deriv]. unfold spl_derivative. replace (d + 1 + S k)%nat with (d + S (S k))%nat by lia. reflexivity.
  - rewrite deriv_sum, <- IHf1, <- IHf2. reflexivity.
  - reflexivity.
  - reflexivity.
  - destruct k; reflexivity.
Qed.

Lemma deriv_safe k : forall m f x, safe (k + m) f x -> safe m (deriv k f) x.
Proof.
  induction k as [|k IH]; intros m f x S; [exact S|]. rewrite deriv_d1. apply IH. destruct (d1_correct f (k + m) x S) as (l & _ & _ & U). exact U.
Qed.
Lemma deriv_snoc k : forall f, deriv (S k) f = d1 (deriv k f).
Proof.
  induction k as [|k IH]; intros f; [rewrite deriv_d1; reflexivity|]. rewrite deriv_d1, IH, <- deriv_d1. reflexivity.
Qed.

(** The values of an object, 0 where it has none. *)
Definition val (f : fn) (x : R) : R := match eval f x with Some v => v | None => 0 end.
Lemma val_safe m f x : safe m f x -> eval f x = Some (val f x).
Proof. intros S. destruct (safe_defined m f x S) as [v H]. unfold val. rewrite H. reflexivity. Qed.

Lemma deriv_lim k f x : safe (S k) f x -> derivable_pt_lim (val (deriv k f)) x (val (deriv (S k) f) x).
Proof.
  intros S. assert (T : safe 1 (deriv k f) x) by (apply deriv_safe; replace (k + 1)%nat with (Datatypes.S k) by lia; exact S).
  destruct (d1_correct _ 0%nat x T) as (l & E & (F & P & Q) & _). rewrite deriv_snoc. unfold val at 2. rewrite E.
  apply (derive_near F); [|exact Q]. apply (near_mono x (fun y => eval (deriv k f) y = Some (F y))); [|exact P]. intros y H. unfold val. rewrite H. reflexivity.
Qed.
Lemma deriv_sequence m f x : safe m f x -> derivatives m (fun i => val (deriv i f)) x.
Proof.
  intros S. apply (near_mono x (safe m f)); [|apply safe_near, S]. intros y T i Hi. apply deriv_lim. apply (safe_le m); [lia | exact T].
Qed.

(** * Two sequences of derivatives of the same function *)

Lemma derivatives_unique m D E x : derivatives m D x -> derivatives m E x -> near x (fun y => D 0%nat y = E 0%nat y) ->
  forall i, (i <= m)%nat -> near x (fun y => D i y = E i y).
Proof.
  intros A B C. induction i as [|i IH]; intros Hi; [exact C|].
  assert (N := near_and x _ _ (near_near x _ (IH ltac:(lia))) (near_and x _ _ A B)).
  apply (near_mono x _ _) with (2 := N). intros y (P & Q & R). apply (uniqueness_limite (D i) y); [apply Q; lia|].
  apply (derive_near (E i)); [|apply R; lia]. apply (near_mono y (fun z => D i z = E i z)); [intros z Hz; symmetry; exact Hz | exact P].
Qed.

(** * Leibniz' rule *)

Fixpoint rsum (n : nat) (f : nat -> R) : R := match n with O => 0 | S m => rsum m f + f m end.
Lemma rsum_ext n f g : (forall i, (i < n)%nat -> f i = g i) -> rsum n f = rsum n g.
Proof. induction n as [|n IH]; intros H; [reflexivity|]. cbn. rewrite IH by (intros; apply H; lia). rewrite H by lia. reflexivity. Qed.
Lemma rsum_plus n f g : rsum n (fun i => f i + g i) = rsum n f + rsum n g.
Proof. induction n as [|n IH]; [cbn; ring|]. cbn. rewrite IH. ring. Qed.
Lemma rsum_head n f : rsum (S n) f = f 0%nat + rsum n (fun i => f (S i)).
Proof. induction n as [|n IH]; [cbn; ring|]. cbn [rsum] in *. rewrite IH. ring. Qed.
Lemma rsum_lim n (f : nat -> R -> R) x l : (forall i, (i < n)%nat -> derivable_pt_lim (f i) x (l i)) ->
  derivable_pt_lim (fun y => rsum n (fun i => f i y)) x (rsum n l).
Proof.
  induction n as [|n IH]; intros H; [apply derivable_pt_lim_const|]. cbn [rsum].
  apply (derivable_pt_lim_plus (fun y => rsum n (fun i => f i y)) (f n)); [apply IH; intros; apply H; lia | apply H; lia].
Qed.

Lemma C_0 n : C n 0 = 1.
Proof. unfold C. rewrite Nat.sub_0_r. cbn [fact INR]. field. apply INR_fact_neq_0. Qed.
Lemma C_n n : C n n = 1.
Proof. unfold C. rewrite Nat.sub_diag. cbn [fact INR]. field. apply INR_fact_neq_0. Qed.

Definition leibniz (G H : nat -> R -> R) (k : nat) (x : R) : R := rsum (S k) (fun n => C k n * (G n x * H (k - n)%nat x)).

Lemma leibniz_step G H k x : leibniz G H (S k) x = rsum (S k) (fun n => C k n * (G (S n) x * H (k - n)%nat x + G n x * H (S (k - n)) x)).
Proof.
  unfold leibniz. rewrite (rsum_ext (S k) (fun n => C k n * (G (S n) x * H (k - n)%nat x + G n x * H (S (k - n)) x))
    (fun n => C k n * (G (S n) x * H (k - n)%nat x) + C k n * (G n x * H (S (k - n)) x))) by (intros; ring).
  rewrite rsum_plus. rewrite (rsum_head (S k)). rewrite C_0, Nat.sub_0_r.
  rewrite (rsum_head k (fun n => C k n * (G n x * H (S (k - n)) x))). rewrite C_0, Nat.sub_0_r.
  cbn [rsum]. replace (S k - S k)%nat with 0%nat by lia. rewrite !C_n, !Nat.sub_diag.
  assert (E : rsum k (fun i => C (S k) (S i) * (G (S i) x * H (S k - S i)%nat x)) =
              rsum k (fun n => C k n * (G (S n) x * H (k - n)%nat x)) + rsum k (fun i => C k (S i) * (G (S i) x * H (S (k - S i)) x))).
  { rewrite <- rsum_plus. apply rsum_ext. intros i Hi. rewrite <- pascal by exact Hi. replace (S k - S i)%nat with (k - i)%nat by lia.
    replace (S (k - S i)) with (k - i)%nat by lia. ring. }
  rewrite E. ring.
Qed.
Lemma leibniz_lim m G H x : (forall i, (i < m)%nat -> derivable_pt_lim (G i) x (G (S i) x)) -> (forall i, (i < m)%nat -> derivable_pt_lim (H i) x (H (S i) x)) ->
  forall k, (k < m)%nat -> derivable_pt_lim (leibniz G H k) x (leibniz G H (S k) x).
Proof.
  intros A B k Hk. rewrite leibniz_step. unfold leibniz. apply (rsum_lim (S k) (fun n y => C k n * (G n y * H (k - n)%nat y))). intros i Hi.
  apply (derivable_pt_lim_scal (fun y => G i y * H (k - i)%nat y)). apply (derivable_pt_lim_mult (G i) (H (k - i)%nat)); [apply A; lia | apply B; lia].
Qed.
Lemma leibniz_sequence m G H x : derivatives m G x -> derivatives m H x -> derivatives m (leibniz G H) x.
Proof.
  intros A B. apply (near_mono x _ _) with (2 := near_and x _ _ A B). intros y (P & Q) i Hi. exact (leibniz_lim m G H y P Q i Hi).
Qed.

(** * f(x, der) *)

Lemma osum_some n f g : (forall i, (i < n)%nat -> f i = Some (g i)) -> osum n f = Some (rsum n g).
Proof.
  induction n as [|n IH]; intros H; [reflexivity|]. cbn. rewrite IH by (intros; apply H; lia). rewrite H by lia. reflexivity.
Qed.
Lemma deriv_comp_val m f x : safe m f x -> forall k, (k <= m)%nat -> eval (deriv k f) x = Some (val (deriv k f) x).
Proof.
  intros S k Hk. apply (val_safe (m - k)). apply deriv_safe. replace (k + (m - k))%nat with m by lia. exact S.
Qed.
Lemma call_correct f : forall m x, safe m f x -> call f x m = eval (deriv m f) x.
Proof.
  induction f; intros m x S.
  - destruct m; reflexivity.
  - reflexivity.
  - reflexivity.
  - destruct m; reflexivity.
  - destruct m; reflexivity.
  - destruct m; cbn; [rewrite Nat.add_0_r; reflexivity|]. unfold spl_derivative, spline_value. destruct (3 <? d + Datatypes.S m)%nat eqn:E; cbn [eval]; unfold spline_value; rewrite ?E; reflexivity.
  - cbn [safe] in S. destruct S as [A B]. cbn [call]. rewrite IHf1, IHf2 by assumption. destruct m as [|m]; [reflexivity|].
    change (deriv (Datatypes.S m) (Sum f1 f2)) with (sum (deriv (Datatypes.S m) f1) (deriv (Datatypes.S m) f2)).
    rewrite (deriv_comp_val _ f1 x A (Datatypes.S m) (le_n _)), (deriv_comp_val _ f2 x B (Datatypes.S m) (le_n _)). symmetry. apply sum_value.
    + exact (deriv_comp_val _ f1 x A (Datatypes.S m) (le_n _)).
    + exact (deriv_comp_val _ f2 x B (Datatypes.S m) (le_n _)).
  - assert (M := deriv_sequence m _ x S). assert (E := deriv_comp_val m _ x S m (le_n _)). cbn [safe] in S. destruct S as [A B].
    assert (L := leibniz_sequence m _ _ x (deriv_sequence m f1 x A) (deriv_sequence m f2 x B)).
    assert (Z : near x (fun y => val (deriv 0 (Mul f1 f2)) y = leibniz (fun i => val (deriv i f1)) (fun i => val (deriv i f2)) 0 y)).
    { apply (near_mono x _ _) with (2 := near_and x _ _ (safe_near m f1 x A) (safe_near m f2 x B)). intros y (P & Q).
      unfold leibniz. cbn [rsum deriv Nat.sub]. rewrite C_0. unfold val at 1. cbn [eval]. rewrite (val_safe m f1 y P), (val_safe m f2 y Q). cbn. ring. }
    assert (U := near_here x _ (derivatives_unique m _ _ x M L Z m (le_n _))). cbn beta in U. rewrite E, U.
    destruct m as [|m].
    + cbn [call]. unfold leibniz. cbn [rsum deriv Nat.sub]. rewrite C_0. rewrite (val_safe _ f1 x A), (val_safe _ f2 x B). cbn. f_equal. ring.
    + cbn [call]. unfold leibniz. apply osum_some. intros i Hi.
      rewrite IHf1 by (apply (safe_le (Datatypes.S m)); [lia | exact A]). rewrite IHf2 by (apply (safe_le (Datatypes.S m)); [lia | exact B]).
      rewrite (deriv_comp_val _ f1 x A i) by lia. rewrite (deriv_comp_val _ f2 x B (Datatypes.S m - i)) by lia. cbn [omul]. f_equal.
      unfold C. field. split; apply INR_fact_neq_0.
  - reflexivity.
  - contradiction.
Qed.

(** * Expressions *)

Lemma subtract_value a b x u v : eval a x = Some u -> eval b x = Some v -> eval (subtract a b) x = Some (u - v).
Proof.
  intros A B. replace (u - v) with (u + -1 * v) by ring. apply sum_value; [exact A|]. apply mult_value; [reflexivity | exact B].
Qed.
Lemma power_inverse v : v <> 0 -> power v (-1) = Some (/ v).
Proof.
  intros H. rewrite (power_int v (-1)). assert (F : req v 0 = false) by (apply req_false, H). rewrite F, andb_false_r.
  cbn [powerRZ]. change (Pos.to_nat 1) with 1%nat. rewrite pow_1. reflexivity.
Qed.
Lemma div_value a b x u v : eval a x = Some u -> eval b x = Some v -> v <> 0 -> eval (div a b) x = Some (u / v).
Proof.
  intros A B H. apply mult_value; [exact A|]. apply (comp_value b x v B); [exact (power_inverse v H)|]. cbn. destruct b; try exact I. right. exact (is_int_IZR (-1)).
Qed.
Lemma build_value e : forall x v, means e x v -> simplifies e x -> eval (build e) x = Some v.
Proof.
  induction e; intros x w M S; inversion M; subst; cbn [build simplifies] in *.
  - reflexivity.
  - cbn. apply power_1.
  - cbn. apply power_spec. assumption.
  - cbn. rewrite clipped_above by assumption. reflexivity.
  - reflexivity.
  - cbn. rewrite spline_of_nat by assumption. reflexivity.
  - destruct S. apply sum_value; auto.
  - destruct S. apply subtract_value; auto.
  - destruct S. apply mult_value; auto.
  - destruct S. apply div_value; auto.
  - replace (- u) with (-1 * u) by ring. apply mult_value; [reflexivity | auto].
  - apply sum_value; [reflexivity | auto].
  - apply subtract_value; [reflexivity | auto].
  - apply mult_value; [reflexivity | auto].
  - apply div_value; [reflexivity | auto | assumption].
  - apply div_value; [auto | reflexivity | assumption].
  - destruct S as [S C]. apply (comp_value (build e) x u); [auto | cbn; apply power_spec; assumption | exact C].
  - destruct S as (S & T & C). apply (comp_value (build e2) x u); [auto | apply IHe1; [assumption | apply T; assumption] | exact C].
Qed.

Lemma bare f (Q : Prop) : (bare_power f = true -> Q) -> match f with Pow _ => Q | _ => True end.
Proof. destruct f; cbn; auto. Qed.
Lemma bare_compatible a b x : (bare_power b = true -> 0 < x \/ is_int a = true) -> compatible (Pow a) b x.
Proof. intros H. destruct b; cbn; try exact I. destruct (H eq_refl) as [K|K]; [left; lra | right; exact K]. Qed.

Lemma safe_inverse m b x v : safe m b x -> eval b x = Some v -> v <> 0 -> safe m (comp (Pow (-1)) b) x.
Proof.
  intros A B H. apply (safe_comp m b x v A B).
  - right. split; [exact (is_int_IZR (-1)) | left; exact H].
  - destruct b; try exact I. right. exact (is_int_IZR (-1)).
Qed.
(** Where an expression is smooth it has a value, which is the value of the object that is built, and that object is smooth there. *)
Lemma build_smooth m e : forall x, smooth m e x -> exists v, means e x v /\ eval (build e) x = Some v /\ safe m (build e) x.
Proof.
  induction e; intros x S; cbn [smooth build] in *.
  - exists c. repeat split; [constructor | discriminate].
  - exists x. repeat split; [constructor | cbn; apply power_1].
  - destruct (power x n) as [v|] eqn:E; [|apply pow_safe_defined in S; contradiction]. exists v. split; [constructor; apply power_spec, E|].
    split; [exact E | exact S].
  - exists (ln x). split; [constructor; lra|]. split; [cbn; rewrite clipped_above by lra; reflexivity | exact S].
  - exists (exp x). repeat split; constructor.
  - assert (D : (d <= 3)%nat) by (destruct S as (? & ? & ? & ? & _ & _ & C); lia). exists (spline_at s (Z.of_nat d) x). split; [constructor; exact D|].
    split; [cbn; rewrite spline_of_nat by exact D; reflexivity | exact S].
  - destruct S as [A B]. destruct (IHe1 x A) as (u & M & E & T). destruct (IHe2 x B) as (v & M' & E' & T'). exists (u + v).
    split; [constructor; assumption|]. split; [apply sum_value; assumption | apply safe_sum; assumption].
  - destruct S as [A B]. destruct (IHe1 x A) as (u & M & E & T). destruct (IHe2 x B) as (v & M' & E' & T'). exists (u - v).
    split; [constructor; assumption|]. split; [apply subtract_value; assumption | apply safe_sum; [assumption | apply safe_mult; [discriminate | assumption]]].
  - destruct S as [A B]. destruct (IHe1 x A) as (u & M & E & T). destruct (IHe2 x B) as (v & M' & E' & T'). exists (u * v).
    split; [constructor; assumption|]. split; [apply mult_value; assumption | apply safe_mult; assumption].
  - destruct S as (A & B & C). destruct (IHe1 x A) as (u & M & E & T). destruct (IHe2 x B) as (v & M' & E' & T').
    assert (N : v <> 0) by (intros ->; contradiction). exists (u / v). split; [constructor; assumption|].
    split; [apply div_value; assumption | apply safe_mult; [assumption | exact (safe_inverse m _ x v T' E' N)]].
  - destruct (IHe x S) as (u & M & E & T). exists (- u). split; [constructor; assumption|].
    split; [replace (- u) with (-1 * u) by ring; apply mult_value; [reflexivity | assumption] | apply safe_mult; [discriminate | assumption]].
  - destruct (IHe x S) as (u & M & E & T). exists (c + u). split; [constructor; assumption|].
    split; [apply sum_value; [reflexivity | assumption] | apply safe_sum; [discriminate | assumption]].
  - destruct (IHe x S) as (u & M & E & T). exists (c - u). split; [constructor; assumption|].
    split; [apply subtract_value; [reflexivity | assumption] | apply safe_sum; [discriminate | apply safe_mult; [discriminate | assumption]]].
  - destruct (IHe x S) as (u & M & E & T). exists (c * u). split; [constructor; assumption|].
    split; [apply mult_value; [reflexivity | assumption] | apply safe_mult; [discriminate | assumption]].
  - destruct S as [S C]. destruct (IHe x S) as (u & M & E & T). assert (N : u <> 0) by (intros ->; contradiction). exists (c / u).
    split; [constructor; assumption|]. split; [apply div_value; [reflexivity | assumption | assumption] | apply safe_mult; [discriminate | exact (safe_inverse m _ x u T E N)]].
  - destruct S as [S C]. destruct (IHe x S) as (u & M & E & T). exists (u / c). split; [constructor; assumption|].
    split; [apply div_value; [assumption | reflexivity | assumption] | apply safe_mult; [assumption | apply (safe_inverse m _ x c); [discriminate | reflexivity | assumption]]].
  - destruct S as (S & P & C). destruct (IHe x S) as (u & M & E & T). specialize (P u M). destruct (power u y) as [v|] eqn:V; [|apply pow_safe_defined in P; contradiction].
    exists v. split; [econstructor; [exact M | apply power_spec, V]|]. split.
    + apply (comp_value (build e) x u E); [exact V | apply bare_compatible, C].
    + apply (safe_comp m (build e) x u T E); [exact P | apply bare; exact C].
  - destruct S as (S & P & C). destruct (IHe2 x S) as (u & M & E & T). specialize (P u M). destruct (IHe1 u P) as (v & M' & E' & T').
    exists v. split; [econstructor; eassumption|]. split.
    + apply (comp_value (build e2) x u E); [exact E'|]. apply (safe_compatible m (build e2) x u T E _ T'). apply bare; exact C.
    + apply (safe_comp m (build e2) x u T E); [exact T' | apply bare; exact C].
Qed.

Lemma power_unique x n u v : power_is x n u -> power_is x n v -> u = v.
Proof. intros A B. apply power_spec in A, B. congruence. Qed.
Lemma means_unique e : forall x u v, means e x u -> means e x v -> u = v.
Proof.
  induction e; intros x a b A B; inversion A; subst; inversion B; subst; try reflexivity;
    repeat match goal with
           | IH : forall x u v, means ?e x u -> means ?e x v -> u = v, H : means ?e ?y ?u, H' : means ?e ?y ?v |- _ =>
               assert (u = v) by (exact (IH y u v H H')); clear H'; subst
           end; try reflexivity.
  - eapply power_unique; eassumption.
  - eapply power_unique; eassumption.
Qed.
Lemma smooth_value_near m e x : smooth m e x -> near x (smooth m e) -> exists F, near x (fun y => means e y (F y)) /\ continuity_pt F x.
Proof.
  intros S N. destruct (build_smooth m e x S) as (_ & _ & _ & T). destruct (safe_continuous m _ x T) as (F & P & Q). exists F. split; [|exact Q].
  apply (near_mono x _ _) with (2 := near_and x _ _ N P). intros y (U & V). destruct (build_smooth m e y U) as (v & M & E & _). congruence.
Qed.
Lemma smooth_near m e : forall x, smooth m e x -> near x (smooth m e).
Proof.
  induction e; intros x S; cbn [smooth] in S |- *; try (apply near_all; intros; exact I); auto.
  - exact (pow_safe_near n x S).
  - exact (near_gt _ x S).
  - exact (safe_near m (Spl s d) x S).
  - destruct S. apply near_and; auto.
  - destruct S. apply near_and; auto.
  - destruct S. apply near_and; auto.
  - destruct S as (A & B & C). apply near_and; [auto|]. apply near_and; [auto|]. destruct (smooth_value_near m e2 x B (IHe2 x B)) as (F & P & Q).
    assert (N : F x <> 0) by (intros E; apply C; rewrite <- E; exact (near_here x _ P)).
    apply (near_mono x _ _) with (2 := near_and x _ _ P (near_continuity F x _ Q (near_ne 0 (F x) N))). intros y (U & V) W. apply V. exact (means_unique e2 y _ _ U W).
  - destruct S as (B & C). apply near_and; [auto|]. destruct (smooth_value_near m e x B (IHe x B)) as (F & P & Q).
    assert (N : F x <> 0) by (intros E; apply C; rewrite <- E; exact (near_here x _ P)).
    apply (near_mono x _ _) with (2 := near_and x _ _ P (near_continuity F x _ Q (near_ne 0 (F x) N))). intros y (U & V) W. apply V. exact (means_unique e y _ _ U W).
  - destruct S as (B & C). apply near_and; [auto|]. apply near_all. intros _. exact C.
  - destruct S as (A & B & C). apply near_and; [auto|]. destruct (smooth_value_near m e x A (IHe x A)) as (F & P & Q). apply near_and.
    + apply (near_mono x _ _) with (2 := near_and x _ _ P (near_continuity F x _ Q (pow_safe_near y _ (B _ (near_here x _ P))))).
      intros z (U & V) u W. rewrite (means_unique e z _ _ W U). exact V.
    + destruct (bare_power (build e)); [|apply near_all; intros; discriminate]. destruct (C eq_refl) as [K|K].
      * apply (near_mono x (fun y => 0 < y)); [intros z Hz _; left; exact Hz | apply near_gt, K].
      * apply near_all. intros. right. exact K.
  - destruct S as (A & B & C). apply near_and; [auto|]. destruct (smooth_value_near m e2 x A (IHe2 x A)) as (F & P & Q). apply near_and.
    + apply (near_mono x _ _) with (2 := near_and x _ _ P (near_continuity F x _ Q (IHe1 _ (B _ (near_here x _ P))))).
      intros z (U & V) u W. rewrite (means_unique e2 z _ _ W U). exact V.
    + destruct (bare_power (build e2)); [|apply near_all; intros; discriminate]. destruct (C eq_refl) as [K|K].
      * apply (near_mono x (fun y => 0 < y)); [intros z Hz _; left; exact Hz | apply near_gt, K].
      * apply near_all. intros. right. exact K.
Qed.
