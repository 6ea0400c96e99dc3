(** The simplifications keep the values, and the derivatives are the derivatives. *)
From Coq Require Import Reals ZArith Bool Lia Lra List.
From Verif Require Import EntModel SplModel SplEval DvModel DvSpec DvPower DvDomain.
From Verif Require SplProps.
Import ListNotations.
Local Open Scope R_scope.

Lemma as_power_eval f p x : as_power f = Some p -> eval f x = power x p.
Proof. destruct f; cbn; intros H; try discriminate; apply some_inj in H; subst; reflexivity. Qed.
Lemma as_const_is f v : as_const f = Some v -> f = Const v.
Proof. destruct f; cbn; intros H; try discriminate. apply some_inj in H. subst. reflexivity. Qed.
Lemma is_spec v c : is v c = true -> v = Some c.
Proof. destruct v as [u|]; cbn; [|discriminate]. intros H. apply req_spec in H. subst. reflexivity. Qed.
Lemma oadd_some a b u v : a = Some u -> b = Some v -> oadd a b = Some (u + v).
Proof. intros -> ->. reflexivity. Qed.
Lemma omul_some a b u v : a = Some u -> b = Some v -> omul a b = Some (u * v).
Proof. intros -> ->. reflexivity. Qed.
Lemma omul_inv a b w : omul a b = Some w -> exists u v, a = Some u /\ b = Some v /\ w = u * v.
Proof. destruct a as [u|], b as [v|]; cbn; try discriminate. intros H. apply some_inj in H. exists u, v. auto. Qed.
Lemma oadd_inv a b w : oadd a b = Some w -> exists u v, a = Some u /\ b = Some v /\ w = u + v.
Proof. destruct a as [u|], b as [v|]; cbn; try discriminate. intros H. apply some_inj in H. exists u, v. auto. Qed.

(** * Values *)

Lemma sum_value a b x u v : eval a x = Some u -> eval b x = Some v -> eval (sum a b) x = Some (u + v).
Proof.
  intros A B. unfold sum.
  assert (P : (if match as_const a with Some u0 => is u0 0 | None => false end then b else if match as_const b with Some v0 => is v0 0 | None => false end then a else Sum a b) = b /\ u = 0 \/
              (if match as_const a with Some u0 => is u0 0 | None => false end then b else if match as_const b with Some v0 => is v0 0 | None => false end then a else Sum a b) = a /\ v = 0 \/
              (if match as_const a with Some u0 => is u0 0 | None => false end then b else if match as_const b with Some v0 => is v0 0 | None => false end then a else Sum a b) = Sum a b).
  { destruct (as_const a) as [ca|] eqn:CA.
    - apply as_const_is in CA. subst a. destruct (is ca 0) eqn:I.
      + left. split; [reflexivity|]. apply is_spec in I. cbn in A. congruence.
      + destruct (as_const b) as [cb|] eqn:CB; [|right; right; reflexivity]. apply as_const_is in CB. subst b.
        destruct (is cb 0) eqn:J; [|right; right; reflexivity]. right. left. split; [reflexivity|]. apply is_spec in J. cbn in B. congruence.
    - destruct (as_const b) as [cb|] eqn:CB; [|right; right; reflexivity]. apply as_const_is in CB. subst b.
      destruct (is cb 0) eqn:J; [|right; right; reflexivity]. right. left. split; [reflexivity|]. apply is_spec in J. cbn in B. congruence. }
  destruct (as_const a) as [ca|] eqn:CA; [destruct (as_const b) as [cb|] eqn:CB|].
  1: { apply as_const_is in CA, CB. subst. cbn in *. subst. reflexivity. }
  all: destruct P as [(-> & ->)|[(-> & ->)| ->]]; [rewrite B; f_equal; ring | rewrite A; f_equal; ring | cbn; rewrite A, B; reflexivity].
Qed.

(** How a step goes on. *)
Inductive stepped (n : nat) (a b : fn) : fn -> Prop :=
  | st_raw : stepped n a b (Mul a b)
  | st_zero : a = Const (Some 0) -> stepped n a b a
  | st_one : a = Const (Some 1) -> stepped n a b b
  | st_const u w h : a = Const u -> b = Mul (Const w) h -> stepped n a b (mult_rec n (Const (omul u w)) h)
  | st_pow p q : as_power a = Some p -> as_power b = Some q -> stepped n a b (Pow (p + q))
  | st_pow_mul p g h q : as_power a = Some p -> b = Mul g h -> as_power h = Some q -> stepped n a b (mult_rec n g (Pow (p + q)))
  | st_consts u ha w hb : a = Mul (Const u) ha -> b = Mul (Const w) hb -> stepped n a b (mult_rec n (Const (omul u w)) (mult_rec n ha hb))
  | st_mul_pow ga ha p q : a = Mul ga ha -> as_power ha = Some p -> as_power b = Some q -> stepped n a b (mult_rec n ga (Pow (p + q)))
  | st_muls ga ha gb hb p q : a = Mul ga ha -> as_power ha = Some p -> b = Mul gb hb -> as_power hb = Some q ->
      stepped n a b (mult_rec n (mult_rec n ga gb) (Pow (p + q))).
Lemma mult_stepped n a b : stepped n a b (mult_step (mult_rec n) a b).
Proof.
  destruct a as [v|p| | | |s d|g h|ga ha|g h|v]; unfold mult_step; cbn [as_power]; try (apply st_raw).
  - destruct (is v 0) eqn:I0; [apply st_zero; apply is_spec in I0; congruence|].
    destruct (is v 1) eqn:I1; [apply st_one; apply is_spec in I1; congruence|].
    destruct b as [| | | | | | |gb hb| |]; try apply st_raw. destruct gb; try apply st_raw. eapply st_const; reflexivity.
  - destruct (as_power b) as [q|] eqn:B; [apply st_pow; [reflexivity | exact B]|]. destruct b as [| | | | | | |gb hb| |]; try apply st_raw.
    destruct (as_power hb) as [q|] eqn:HB; [|apply st_raw]. eapply st_pow_mul; [reflexivity | reflexivity | exact HB].
  - destruct (as_power b) as [q|] eqn:B; [apply st_pow; [reflexivity | exact B]|]. destruct b as [| | | | | | |gb hb| |]; try apply st_raw.
    destruct (as_power hb) as [q|] eqn:HB; [|apply st_raw]. eapply st_pow_mul; [reflexivity | reflexivity | exact HB].
  - assert (R : stepped n (Mul ga ha) b
      match as_power ha with
      | Some p => match as_power b with Some q => mult_rec n ga (Pow (p + q))
                  | None => match b with
                            | Mul gb hb => match as_power hb with Some q => mult_rec n (mult_rec n ga gb) (Pow (p + q)) | None => Mul (Mul ga ha) b end
                            | _ => Mul (Mul ga ha) b end end
      | None => Mul (Mul ga ha) b end).
    { destruct (as_power ha) as [p|] eqn:HA; [|apply st_raw]. destruct (as_power b) as [q|] eqn:B.
      - eapply st_mul_pow; [reflexivity | exact HA | exact B].
      - destruct b as [| | | | | | |gb hb| |]; try apply st_raw. destruct (as_power hb) as [q|] eqn:HB; [|apply st_raw].
        eapply st_muls; [reflexivity | exact HA | reflexivity | exact HB]. }
    destruct ga; try exact R. destruct b as [| | | | | | |gb hb| |]; try exact R. destruct gb; try exact R.
    eapply st_consts; reflexivity.
Qed.
(** A product of constants, or a step after the constant has been put in front. *)
Inductive multiplied (n : nat) (a b : fn) : fn -> Prop :=
  | mu_consts u v : a = Const u -> b = Const v -> multiplied n a b (Const (omul u v))
  | mu_straight f : as_const b = None -> stepped n a b f -> multiplied n a b f
  | mu_swap v f : b = Const v -> stepped n b a f -> multiplied n a b f.
Lemma mult_cases n a b : multiplied n a b (mult_rec (S n) a b).
Proof.
  change (mult_rec (S n) a b) with (mult_top (mult_rec n) a b). unfold mult_top. destruct (as_const b) as [v|] eqn:B.
  - assert (Bc := as_const_is _ _ B). destruct (as_const a) as [u|] eqn:A.
    + apply mu_consts; [exact (as_const_is _ _ A) | exact Bc].
    + apply (mu_swap _ _ _ v); [exact Bc | exact (mult_stepped n b a)].
  - destruct (as_const a); (apply mu_straight; [exact B | exact (mult_stepped n a b)]).
Qed.

Lemma mult_rec_value n : forall a b x u v, eval a x = Some u -> eval b x = Some v -> eval (mult_rec n a b) x = Some (u * v).
Proof.
  induction n as [|n IH]; intros a b x u v A B; [cbn; rewrite A, B; reflexivity|].
  assert (S : forall a b f u v, stepped n a b f -> eval a x = Some u -> eval b x = Some v -> eval f x = Some (u * v)).
  { clear a b u v A B. intros a b f u v H A B. destruct H.
    - cbn. rewrite A, B. reflexivity.
    - subst a. cbn in A |- *. apply some_inj in A. subst u. f_equal. ring.
    - subst a. cbn in A. apply some_inj in A. subst u. rewrite B. f_equal. ring.
    - subst. cbn in A. cbn in B. apply omul_inv in B. destruct B as (w' & h' & -> & B & ->). rewrite (IH _ _ x (u * w') h'); [f_equal; ring | cbn; rewrite A; reflexivity | exact B].
    - rewrite (as_power_eval _ _ x H) in A. rewrite (as_power_eval _ _ x H0) in B. cbn. apply power_add; assumption.
    - subst b. cbn in B. apply omul_inv in B. destruct B as (g' & h' & B & C & ->). rewrite (as_power_eval _ _ x H) in A. rewrite (as_power_eval _ _ x H1) in C.
      rewrite (IH _ _ x g' (u * h')); [f_equal; ring | exact B | cbn; apply power_add; assumption].
    - subst a b. cbn in A, B. apply omul_inv in A, B. destruct A as (u' & a' & -> & A & ->). destruct B as (w' & b' & -> & B & ->).
      rewrite (IH _ _ x (u' * w') (a' * b')); [f_equal; ring | reflexivity | apply IH; assumption].
    - subst a. cbn in A. apply omul_inv in A. destruct A as (g' & h' & A & C & ->). rewrite (as_power_eval _ _ x H0) in C. rewrite (as_power_eval _ _ x H1) in B.
      rewrite (IH _ _ x g' (h' * v)); [f_equal; ring | exact A | cbn; apply power_add; assumption].
    - subst a b. cbn in A, B. apply omul_inv in A, B. destruct A as (g' & h' & A & C & ->). destruct B as (k' & l' & B & D & ->).
      rewrite (as_power_eval _ _ x H0) in C. rewrite (as_power_eval _ _ x H2) in D.
      rewrite (IH _ _ x (g' * k') (h' * l')); [f_equal; ring | apply IH; assumption | cbn; apply power_add; assumption]. }
  destruct (mult_cases n a b) as [c d -> -> | f _ H | w f _ H].
  - cbn in *. subst. reflexivity.
  - exact (S _ _ _ _ _ H A B).
  - rewrite (S _ _ _ _ _ H B A). f_equal. ring.
Qed.
Lemma mult_value a b x u v : eval a x = Some u -> eval b x = Some v -> eval (mult a b) x = Some (u * v).
Proof. apply mult_rec_value. Qed.

(** The bound on the recursion is large enough: a larger one gives the same object. *)
Lemma size_pos f : (1 <= size f)%nat.
Proof. destruct f; cbn; lia. Qed.
Lemma as_power_size f p : as_power f = Some p -> size f = 1%nat.
Proof. destruct f; cbn; intros; try discriminate; reflexivity. Qed.
Lemma mult_rec_size n : forall a b, (size (mult_rec n a b) <= size a + size b + 1)%nat.
Proof.
  induction n as [|n IH]; intros a b; [cbn; lia|].
  assert (S : forall a b f, stepped n a b f -> (size f <= size a + size b + 1)%nat).
  { clear a b. intros a b f H. destruct H; subst; cbn [size]; try lia.
    - specialize (IH (Const (omul u w)) h). cbn [size] in IH. lia.
    - specialize (IH g (Pow (p + q))). cbn [size] in IH. lia.
    - specialize (IH (Const (omul u w)) (mult_rec n ha hb)) as IH1. specialize (IH ha hb). cbn [size] in IH1. lia.
    - specialize (IH ga (Pow (p + q))). cbn [size] in IH. assert (K := size_pos ha). assert (L := size_pos b). lia.
    - specialize (IH (mult_rec n ga gb) (Pow (p + q))) as IH1. specialize (IH ga gb). cbn [size] in IH1. assert (K := size_pos ha). assert (L := size_pos hb). lia. }
  destruct (mult_cases n a b) as [c d -> -> | f _ H | w f _ H]; [cbn; lia | exact (S _ _ _ H) | specialize (S _ _ _ H); lia].
Qed.
Lemma mult_rec_enough n : forall m a b, (size a + size b <= n)%nat -> (size a + size b <= m)%nat -> mult_rec n a b = mult_rec m a b.
Proof.
  induction n as [|n IH]; intros m a b Hn Hm; [assert (K := size_pos a); lia|].
  destruct m as [|m]; [assert (K := size_pos a); lia|].
  assert (S : forall a b, (size a + size b <= S n)%nat -> (size a + size b <= S m)%nat -> mult_step (mult_rec n) a b = mult_step (mult_rec m) a b).
  { clear a b Hn Hm. intros a b Hn Hm.
    assert (E : forall a' b', (size a' + size b' < size a + size b)%nat -> mult_rec n a' b' = mult_rec m a' b') by (intros; apply IH; lia).
    destruct a as [v|p| | | |s d|g h|ga ha|g h|v]; unfold mult_step; cbn [as_power]; try reflexivity.
    - destruct (is v 0); [reflexivity|]. destruct (is v 1); [reflexivity|]. destruct b as [| | | | | | |gb hb| |]; try reflexivity.
      destruct gb; try reflexivity. apply E. cbn. lia.
    - destruct (as_power b); [reflexivity|]. destruct b as [| | | | | | |gb hb| |]; try reflexivity. destruct (as_power hb); [|reflexivity].
      apply E. cbn. assert (K := size_pos hb). lia.
    - destruct (as_power b); [reflexivity|]. destruct b as [| | | | | | |gb hb| |]; try reflexivity. destruct (as_power hb); [|reflexivity].
      apply E. cbn. assert (K := size_pos hb). lia.
    - assert (R : match as_power ha with
                | Some p => match as_power b with Some q => mult_rec n ga (Pow (p + q))
                            | None => match b with
                              | Mul gb hb => match as_power hb with Some q => mult_rec n (mult_rec n ga gb) (Pow (p + q)) | None => Mul (Mul ga ha) b end
                              | _ => Mul (Mul ga ha) b end end
                | None => Mul (Mul ga ha) b end =
                  match as_power ha with
                | Some p => match as_power b with Some q => mult_rec m ga (Pow (p + q))
                            | None => match b with
                              | Mul gb hb => match as_power hb with Some q => mult_rec m (mult_rec m ga gb) (Pow (p + q)) | None => Mul (Mul ga ha) b end
                              | _ => Mul (Mul ga ha) b end end
                | None => Mul (Mul ga ha) b end).
      { destruct (as_power ha) as [p|]; [|reflexivity]. destruct (as_power b) as [q|].
        - apply E. cbn. assert (K := size_pos ha). assert (L := size_pos b). lia.
        - destruct b as [| | | | | | |gb hb| |]; try reflexivity. destruct (as_power hb) as [q|]; [|reflexivity].
          assert (K := size_pos ha). assert (L := size_pos hb). rewrite (E ga gb) by (cbn; lia). apply E.
          assert (Z := mult_rec_size m ga gb). cbn. lia. }
      destruct ga; try exact R. destruct b as [| | | | | | |gb hb| |]; try exact R. destruct gb; try exact R.
      rewrite (E ha hb) by (cbn; lia). apply E. assert (Z := mult_rec_size m ha hb). cbn. lia. }
  change (mult_top (mult_rec n) a b = mult_top (mult_rec m) a b). unfold mult_top.
  destruct (as_const a), (as_const b); try reflexivity; apply S; lia.
Qed.

Lemma size_ind (P : fn -> Prop) : (forall a, (forall b, (size b < size a)%nat -> P b) -> P a) -> forall a, P a.
Proof.
  intros H. assert (K : forall n a, (size a < n)%nat -> P a).
  { induction n as [|n IH]; intros a L; [lia|]. apply H. intros b Hb. apply IH. lia. }
  intros a. apply (K (S (size a))). lia.
Qed.
Lemma mult_enough n a b : (size a + size b <= n)%nat -> mult_rec n a b = mult a b.
Proof. intros H. apply mult_rec_enough; [exact H | apply le_n]. Qed.

Lemma clipped_above x : / 1000000 <= x -> clipped_log x = ln x.
Proof. intros H. unfold clipped_log. rewrite Rmax_left by exact H. reflexivity. Qed.

(** The last part of [comp]. *)
Definition comp_step (a b : fn) : fn :=
    match b with
    | Const v => Const (match v with Some y => eval a y | None => None end)
    | Id => a
    | _ =>
        match as_power a, as_power b with
        | Some p, Some q => Pow (p * q)
        | _, _ => match a, b with Exp, Log | Log, Exp => Id | _, _ => Comp a b end
        end
    end.
Inductive composed (a b : fn) : fn -> Prop :=
  | co_const v : a = Const v -> composed a b a
  | co_id : a = Id -> composed a b b
  | co_mul u h : a = Mul (Const u) h -> composed a b (mult (Const u) (comp h b))
  | co_of_const v : b = Const v -> composed a b (Const (match v with Some y => eval a y | None => None end))
  | co_of_id : b = Id -> composed a b a
  | co_pow p q : a = Pow p -> b = Pow q -> composed a b (Pow (p * q))
  | co_exp_log : a = Exp -> b = Log -> composed a b Id
  | co_log_exp : a = Log -> b = Exp -> composed a b Id
  | co_raw : composed a b (Comp a b).
Lemma comp_cases a b : composed a b (comp a b).
Proof.
  assert (S : (forall v, a <> Const v) -> a <> Id -> composed a b (comp_step a b)).
  { intros Ha Hi. unfold comp_step. destruct b; try (apply co_raw); try (apply co_of_id; reflexivity); try (eapply co_of_const; reflexivity).
    - cbn [as_power]. destruct a; cbn [as_power]; try apply co_raw; [apply co_pow; reflexivity | contradiction].
    - cbn [as_power]. destruct a; cbn [as_power]; try apply co_raw; apply co_exp_log; reflexivity.
    - cbn [as_power]. destruct a; cbn [as_power]; try apply co_raw; apply co_log_exp; reflexivity.
    - cbn [as_power]. destruct a; cbn [as_power]; apply co_raw.
    - cbn [as_power]. destruct a; cbn [as_power]; apply co_raw.
    - cbn [as_power]. destruct a; cbn [as_power]; apply co_raw.
    - cbn [as_power]. destruct a; cbn [as_power]; apply co_raw.
    - cbn [as_power]. destruct a; cbn [as_power]; apply co_raw. }
  destruct a as [v|p| | | |s d|g h|ga ha|g h|v]; try (exact (S ltac:(discriminate) ltac:(discriminate))).
  - apply (co_const _ _ v). reflexivity.
  - apply co_id. reflexivity.
  - destruct ga; try (exact (S ltac:(discriminate) ltac:(discriminate))). apply (co_mul _ _ v ha). reflexivity.
Qed.

Lemma comp_value b x y : eval b x = Some y -> forall a v, eval a y = Some v -> compatible a b x -> eval (comp a b) x = Some v.
Proof.
  intros B. intros a. induction a as [a IH] using size_ind. intros v A C. assert (D := comp_cases a b). revert D. generalize (comp a b). intros f D. destruct D.
  - subst a. exact A.
  - subst a. cbn in A. rewrite power_1 in A. congruence.
  - destruct a as [| | | | | | |ga ha| |]; try discriminate. injection H as -> ->. cbn in A. apply omul_inv in A. destruct A as (u' & h' & -> & A & ->).
    apply mult_value; [reflexivity|]. apply IH; [cbn; lia | exact A | exact C].
  - subst b. cbn in B. subst v0. exact A.
  - subst b. cbn in B. rewrite power_1 in B. apply some_inj in B. subst y. exact A.
  - subst a b. cbn in A, B, C |- *. exact (power_comp x p q y v B A C).
  - subst a b. cbn in A, B, C |- *. rewrite clipped_above in B by exact C. rewrite power_1. apply some_inj in B. subst y.
    rewrite exp_ln in A by lra. exact A.
  - subst a b. cbn in A, B, C |- *. apply some_inj in B. subst y. rewrite clipped_above in A by exact C. rewrite ln_exp in A.
    rewrite power_1. exact A.
  - cbn. rewrite B. exact A.
Qed.

(** * Where the derivatives exist *)

Lemma safe_power m f p x : safe m f x -> as_power f = Some p -> pow_safe p x.
Proof.
  destruct f; cbn; intros S H; try discriminate; apply some_inj in H; subst; [exact S|].
  right. split; [exact (is_int_IZR 1) | right; lra].
Qed.
Lemma safe_defined m f : forall x, safe m f x -> exists v, eval f x = Some v.
Proof.
  induction f; intros x S; cbn in S |- *; try (eexists; reflexivity).
  - destruct v as [u|]; [exists u; reflexivity | congruence].
  - apply pow_safe_defined in S. destruct (power x n) as [u|]; [exists u; reflexivity | congruence].
  - exists x. apply power_1.
  - destruct S as [A B]. destruct (IHf1 x A) as [u U]. destruct (IHf2 x B) as [w W]. exists (u + w). rewrite U, W. reflexivity.
  - destruct S as [A B]. destruct (IHf1 x A) as [u U]. destruct (IHf2 x B) as [w W]. exists (u * w). rewrite U, W. reflexivity.
  - destruct S as (A & (y & Y & B) & _). rewrite Y. exact (IHf1 y B).
  - contradiction.
Qed.
Lemma safe_le m k f : (k <= m)%nat -> forall x, safe m f x -> safe k f x.
Proof.
  intros H. induction f; intros x S; cbn in S |- *; try exact S.
  - destruct S as (xs & ys & y1 & yN & A & B & C). exists xs, ys, y1, yN. split; [exact A|]. split; [exact B|]. destruct C as [C|(C & C1 & C2)]; [left; lia | right; split; [lia | split; assumption]].
  - destruct S as [A B]. auto.
  - destruct S as [A B]. auto.
  - destruct S as (A & (y & Y & B) & C). repeat split; [auto | exists y; auto | exact C].
Qed.

Lemma near_eval (f : R -> option R) (F G : R -> R) x : near x (fun y => f y = Some (F y)) -> near x (fun y => f y = Some (G y)) -> near x (fun y => F y = G y).
Proof. intros A B. apply (near_mono x (fun y => f y = Some (F y) /\ f y = Some (G y))); [intros y [P Q]; congruence | apply near_and; assumption]. Qed.
Definition continuous_at (f : R -> option R) (x : R) : Prop := exists F, near x (fun y => f y = Some (F y)) /\ continuity_pt F x.
Lemma derivative_continuous f x l : has_derivative f x l -> continuous_at f x.
Proof. intros (F & A & B). exists F. split; [exact A|]. apply derivable_continuous_pt. exists l. exact B. Qed.
Lemma near_continuity f x P : continuity_pt f x -> near (f x) P -> near x (fun y => P (f y)).
Proof.
  intros C (e & He & A). destruct (C e He) as (d & Hd & B). exists d. split; [exact Hd|]. intros y Hy. apply A. destruct (Req_EM_T y x) as [-> |N].
  - unfold Rminus. rewrite Rplus_opp_r, Rabs_R0. exact He.
  - apply B. split; [split; [exact I | congruence] | exact Hy].
Qed.
Lemma log_near x : / 1000000 < x -> near x (fun y => clipped_log y = ln y).
Proof. intros H. apply (near_mono x (fun y => / 1000000 < y)); [intros y Hy; apply clipped_above; lra | apply near_gt, H]. Qed.
Lemma has_log x : / 1000000 < x -> has_derivative (eval Log) x (/ x).
Proof.
  intros H. exists ln. split; [apply (near_mono x (fun y => clipped_log y = ln y)); [intros y Hy; cbn; rewrite Hy; reflexivity | apply log_near, H]|].
  apply derivable_pt_lim_ln. lra.
Qed.
Lemma has_power n x : pow_safe n x -> exists l, has_derivative (fun y => power y n) x l.
Proof. intros H. destruct (power_derivable n x H) as (l & [(_ & A)|(_ & A)]); eexists; exact A. Qed.
Lemma spline_of_nat s d x : (d <= 3)%nat -> spline_value s d x = spline_at s (Z.of_nat d) x.
Proof. intros H. unfold spline_value. destruct (Nat.ltb_spec 3 d); [lia | reflexivity]. Qed.
Lemma continuity_ext f g x : (forall y, f y = g y) -> continuity_pt f x -> continuity_pt g x.
Proof. intros E C e He. destruct (C e He) as (d & Hd & A). exists d. split; [exact Hd|]. intros y Hy. rewrite <- !E. apply A, Hy. Qed.

Lemma safe_continuous m f : forall x, safe m f x -> continuous_at (eval f) x.
Proof.
  induction f; intros x S; cbn [safe] in S.
  - destruct v as [u|]; [|congruence]. exists (fct_cte u). split; [apply near_all; reflexivity | apply continuity_pt_const; intros ? ?; reflexivity].
  - destruct (has_power n x S) as [l H]. exact (derivative_continuous _ _ _ H).
  - exists id. split; [apply near_all; intros y; apply power_1 | apply derivable_continuous_pt, derivable_pt_id].
  - exact (derivative_continuous _ _ _ (has_log x S)).
  - exists exp. split; [apply near_all; reflexivity | apply derivable_continuous_pt, derivable_pt_exp].
  - destruct S as (xs & ys & y1 & yN & A & B & C). exists (spline_value s d). split; [apply near_all; reflexivity|].
    destruct d as [|[|[|d]]]; [| | |lia]; (eapply continuity_ext; [intros y; symmetry; apply spline_of_nat; lia|]).
    + apply derivable_continuous_pt. eexists. exact (proj1 (SplProps.spline_smooth xs ys y1 yN s A B x)).
    + exact (proj2 (SplProps.spline_smooth xs ys y1 yN s A B x)).
    + destruct C as [C|(_ & -> & ->)]; [lia|]. exact (proj2 (SplProps.spline_twice_smooth xs ys s A B x)).
  - destruct S as [A B]. destruct (IHf1 x A) as (F & P & Q). destruct (IHf2 x B) as (G & P' & Q'). exists (F + G)%F. split; [|apply continuity_pt_plus; assumption].
    apply (near_mono x (fun y => eval f1 y = Some (F y) /\ eval f2 y = Some (G y))); [|apply near_and; assumption]. intros y [U V]. cbn. rewrite U, V. reflexivity.
  - destruct S as [A B]. destruct (IHf1 x A) as (F & P & Q). destruct (IHf2 x B) as (G & P' & Q'). exists (F * G)%F. split; [|apply continuity_pt_mult; assumption].
    apply (near_mono x (fun y => eval f1 y = Some (F y) /\ eval f2 y = Some (G y))); [|apply near_and; assumption]. intros y [U V]. cbn. rewrite U, V. reflexivity.
  - destruct S as (A & (y0 & Y & B) & _). destruct (IHf2 x A) as (G & P' & Q'). destruct (IHf1 y0 B) as (F & P & Q).
    assert (E : G x = y0) by (apply near_here in P'; congruence). subst y0. exists (Ranalysis1.comp F G). split; [|apply continuity_pt_comp; assumption].
    apply (near_mono x (fun y => eval f2 y = Some (G y) /\ eval f1 (G y) = Some (F (G y)))); [|apply near_and; [exact P' | exact (near_continuity G x (fun z => eval f1 z = Some (F z)) Q' P)]].
    intros y [U V]. cbn. rewrite U, V. reflexivity.
  - contradiction.
Qed.
Lemma safe_near m f : forall x, safe m f x -> near x (safe m f).
Proof.
  induction f; intros x S; cbn [safe] in S |- *.
  - apply near_all. intros _. exact S.
  - exact (pow_safe_near n x S).
  - apply near_all. intros _. exact I.
  - exact (near_gt _ x S).
  - apply near_all. intros _. exact I.
  - apply near_all. intros _. exact S.
  - destruct S. apply near_and; auto.
  - destruct S. apply near_and; auto.
  - destruct S as (A & (y0 & Y & B) & C). apply near_and; [auto|]. apply near_and.
    + destruct (safe_continuous m f2 x A) as (G & P & Q). assert (E : G x = y0) by (apply near_here in P; congruence). subst y0.
      apply (near_mono x (fun y => eval f2 y = Some (G y) /\ safe m f1 (G y))); [|apply near_and; [exact P | exact (near_continuity G x _ Q (IHf1 _ B))]].
      intros y [U V]. exists (G y). split; assumption.
    + destruct f2; try (apply near_all; intros; exact I). destruct C as [C|C].
      * apply (near_mono x (fun y => 0 < y)); [intros y Hy; left; exact Hy | apply near_gt, C].
      * apply near_all. intros y. right. exact C.
  - contradiction.
Qed.

(** ** kept by the constructors *)
Lemma is_int_add p q : is_int p = true -> is_int q = true -> is_int (p + q) = true.
Proof. rewrite !is_int_ex. intros [a ->] [b ->]. exists (a + b)%Z. rewrite plus_IZR. reflexivity. Qed.
Lemma is_int_mul p q : is_int p = true -> is_int q = true -> is_int (p * q) = true.
Proof. rewrite !is_int_ex. intros [a ->] [b ->]. exists (a * b)%Z. rewrite mult_IZR. reflexivity. Qed.
Lemma is_int_pred p : is_int p = true -> is_int (p - 1) = true.
Proof. rewrite !is_int_ex. intros [a ->]. exists (a - 1)%Z. rewrite minus_IZR. reflexivity. Qed.

Lemma sum_cases a b (P : fn -> Prop) : (forall u v, a = Const u -> b = Const v -> P (Const (oadd u v))) -> P a -> P b -> P (Sum a b) -> P (sum a b).
Proof.
  intros C A B S. unfold sum. destruct (as_const a) as [u|] eqn:CA; [destruct (as_const b) as [v|] eqn:CB|].
  - exact (C u v (as_const_is _ _ CA) (as_const_is _ _ CB)).
  - destruct (is u 0); assumption.
  - destruct (as_const b) as [v|]; [destruct (is v 0)|]; assumption.
Qed.
Lemma safe_sum m a b x : safe m a x -> safe m b x -> safe m (sum a b) x.
Proof.
  intros A B. apply sum_cases; [|exact A|exact B|split; assumption]. intros u v -> ->. cbn in *. destruct u, v; cbn; congruence.
Qed.
Lemma whole_sum a b : whole a -> whole b -> whole (sum a b).
Proof. intros A B. apply sum_cases; [intros; exact I|exact A|exact B|split; assumption]. Qed.

(** What holds of a and b, of constants, and of sums of exponents, holds of the product. *)
Lemma mult_keeps (P : fn -> Prop) :
  (forall u v, P (Const u) -> P (Const v) -> P (Const (omul u v))) ->
  (forall f g p q, P f -> P g -> as_power f = Some p -> as_power g = Some q -> P (Pow (p + q))) ->
  (forall g h, P (Mul g h) <-> P g /\ P h) ->
  forall n a b, P a -> P b -> P (mult_rec n a b).
Proof.
  intros PC PP PM. induction n as [|n IH]; intros a b A B; [apply PM; split; assumption|].
  assert (S : forall a b f, stepped n a b f -> P a -> P b -> P f).
  { clear a b A B. intros a b f H A B. destruct H; subst.
    - apply PM. split; assumption.
    - exact A.
    - exact B.
    - apply PM in B. destruct B as [B C]. apply IH; [apply PC; assumption | exact C].
    - exact (PP a b p q A B H H0).
    - apply PM in B. destruct B as [B C]. apply IH; [exact B | exact (PP a h p q A C H H1)].
    - apply PM in A, B. destruct A as [A A']. destruct B as [B B']. apply IH; [apply PC; assumption | apply IH; assumption].
    - apply PM in A. destruct A as [A A']. apply IH; [exact A | exact (PP ha b p q A' B H0 H1)].
    - apply PM in A, B. destruct A as [A A']. destruct B as [B B']. apply IH; [apply IH; assumption | exact (PP ha hb p q A' B' H0 H2)]. }
  destruct (mult_cases n a b) as [c d -> -> | f _ H | w f _ H]; [apply PC; assumption | exact (S _ _ _ H A B) | exact (S _ _ _ H B A)].
Qed.
Lemma pow_safe_add p q x : pow_safe p x -> pow_safe q x -> pow_safe (p + q) x.
Proof.
  intros [A|(I & A)] [B|(J & B)]; try (left; assumption). right. split; [apply is_int_add; assumption|].
  destruct A as [A|A]; [left; exact A|]. destruct B as [B|B]; [left; exact B | right; lra].
Qed.
Lemma safe_mult m a b x : safe m a x -> safe m b x -> safe m (mult a b) x.
Proof.
  apply (mult_keeps (fun f => safe m f x)).
  - intros u v A B. cbn in *. destruct u, v; cbn; congruence.
  - intros f g p q A B C D. cbn. exact (pow_safe_add p q x (safe_power m f p x A C) (safe_power m g q x B D)).
  - intros g h. cbn. reflexivity.
Qed.
Lemma whole_power_of f p : whole f -> as_power f = Some p -> is_int p = true.
Proof. destruct f; cbn; intros W H; try discriminate; apply some_inj in H; subst; [exact W | exact (is_int_IZR 1)]. Qed.
Lemma whole_mult a b : whole a -> whole b -> whole (mult a b).
Proof.
  apply (mult_keeps whole).
  - intros. exact I.
  - intros f g p q A B C D. cbn. exact (is_int_add p q (whole_power_of f p A C) (whole_power_of g q B D)).
  - intros g h. cbn. reflexivity.
Qed.
Lemma whole_comp b : whole b -> forall a, whole a -> whole (comp a b).
Proof.
  intros B. intros a. induction a as [a IH] using size_ind. intros A. assert (D := comp_cases a b). revert D. generalize (comp a b). intros f D. destruct D; try exact I; try exact A; try exact B.
  - destruct a as [| | | | | | |ga ha| |]; try discriminate. injection H as -> ->. apply whole_mult; [exact I|]. apply IH; [cbn; lia|]. exact (proj2 A).
  - subst. cbn in *. apply is_int_mul; assumption.
  - split; assumption.
Qed.
Lemma whole_d1 f : whole f -> whole (d1 f).
Proof.
  induction f; cbn [d1 whole]; intros W; try exact I.
  - destruct (req n 1); [exact I|]. apply whole_mult; [exact I|]. cbn. apply is_int_pred, W.
  - exact (is_int_IZR (-1)).
  - unfold spl_derivative. destruct (3 <? d + 1)%nat; exact I.
  - destruct W. apply whole_sum; auto.
  - destruct W. apply whole_sum; apply whole_mult; auto.
  - destruct W. apply whole_mult; [apply whole_comp; auto | auto].
Qed.
Lemma safe_comp m b x y : safe m b x -> eval b x = Some y -> forall a, safe m a y -> match b with Pow _ => 0 < x \/ whole a | _ => True end -> safe m (comp a b) x.
Proof.
  intros B Y. intros a. induction a as [a IH] using size_ind. intros A W. assert (D := comp_cases a b). revert D. generalize (comp a b). intros f D. destruct D.
  - subst a. exact A.
  - exact B.
  - destruct a as [| | | | | | |ga ha| |]; try discriminate. injection H as -> ->. cbn [safe] in A. apply safe_mult; [exact (proj1 A)|]. apply IH; [cbn; lia | exact (proj2 A)|].
    destruct b; try exact I. destruct W as [W|W]; [left; exact W | right; exact (proj2 W)].
  - subst b. cbn in Y. subst v. destruct (safe_defined m a y A) as [w ->]. discriminate.
  - subst b. cbn in Y. rewrite power_1 in Y. apply some_inj in Y. subst y. exact A.
  - subst a b. cbn in A, B, Y, W |- *. destruct W as [W|W]; [left; exact W|]. destruct B as [B|(J & B)]; [left; exact B|]. right. split; [apply is_int_mul; assumption|].
    destruct (Req_EM_T x 0) as [-> |X0]; [|left; exact X0]. right. destruct B as [B|B]; [contradiction|]. destruct (Req_EM_T q 0) as [-> |Q0]; [lra|].
    rewrite power_zero in Y. destruct (rltb q 0); [discriminate|]. apply req_false in Q0. rewrite Q0 in Y. apply some_inj in Y. subst y.
    destruct A as [A|(_ & [A|A])]; [lra | lra | nra].
  - exact I.
  - exact I.
  - split; [exact B|]. split; [exists y; split; assumption | exact W].
Qed.
Lemma safe_compatible m b x y : safe m b x -> eval b x = Some y -> forall a, safe m a y -> match b with Pow _ => 0 < x \/ whole a | _ => True end -> compatible a b x.
Proof.
  intros B Y. intros a. induction a as [a IH] using size_ind. intros A W. destruct a; cbn; try exact I.
  - destruct b; try exact I. destruct W as [W|W]; [left; lra | right; exact W].
  - destruct b; try exact I. cbn in *. apply some_inj in Y. subst y. lra.
  - destruct b; try exact I. cbn in *. lra.
  - destruct a1; try exact I. cbn [safe] in A. apply IH; [cbn; lia | exact (proj2 A)|]. destruct b; try exact I. destruct W as [W|W]; [left; exact W | right; exact (proj2 W)].
Qed.

(** * The derivative *)

Lemma d1_correct f : forall m x, safe (S m) f x -> exists l, eval (d1 f) x = Some l /\ has_derivative (eval f) x l /\ safe m (d1 f) x.
Proof.
  induction f; intros m x S.
  - cbn in S. destruct v as [u|]; [|congruence]. exists 0. split; [reflexivity|]. split; [|discriminate].
    exists (fct_cte u). split; [apply near_all; reflexivity | apply derivable_pt_lim_const].
  - cbn [safe] in S. cbn [d1]. destruct (req n 1) eqn:N1.
    { apply req_spec in N1. subst n. exists 1. split; [reflexivity|]. split; [|discriminate].
      exists id. split; [apply near_all; intros y; apply power_1 | apply derivable_pt_lim_id]. }
    destruct (Req_EM_T n 0) as [N0|N0].
    { subst n. exists 0. assert (E : mult (Const (Some 0)) (Pow (0 - 1)) = Const (Some 0)).
      { unfold mult. cbn. rewrite req_refl. reflexivity. }
      rewrite E. split; [reflexivity|]. split; [|discriminate]. exists (fct_cte 1). split; [apply near_all; intros y; apply power_0 | apply derivable_pt_lim_const]. }
    destruct (power_derivable n x S) as (l & [(A & B)|(A & _)]); [|contradiction]. exists (n * l). split; [apply mult_value; [reflexivity | exact A]|].
    split; [exact B|]. apply safe_mult; [discriminate|]. cbn. destruct S as [S|(J & S)]; [left; exact S|]. right. split; [apply is_int_pred, J|].
    destruct S as [S|S]; [left; exact S | right]. apply is_int_ex in J. destruct J as [z ->]. apply (le_IZR 0) in S.
    assert (Z1 : (1 <= z)%Z) by (assert (z <> 0%Z) by congruence; lia). apply IZR_le in Z1. lra.
  - exists 1. split; [reflexivity|]. split; [|discriminate]. exists id. split; [apply near_all; intros y; apply power_1 | apply derivable_pt_lim_id].
  - cbn [safe] in S. exists (/ x). split; [|split; [exact (has_log x S) | left; lra]]. cbn. rewrite (power_int x (-1)).
    assert (F : req x 0 = false) by (apply req_false; lra). rewrite F, andb_false_r. cbn. change (Pos.to_nat 1) with 1%nat. rewrite pow_1. reflexivity.
  - exists (exp x). split; [reflexivity|]. split; [|exact I]. exists exp. split; [apply near_all; reflexivity | apply derivable_pt_lim_exp].
  - cbn [safe] in S. destruct S as (xs & ys & y1 & yN & A & B & C). cbn [d1]. unfold spl_derivative. destruct (Nat.ltb_spec 3 (d + 1)) as [L|L]; [lia|].
    exists (spline_value s (d + 1) x). split; [reflexivity|]. split.
    + exists (spline_value s d). split; [apply near_all; reflexivity|]. rewrite spline_of_nat by lia.
      apply (derive_near (spline_at s (Z.of_nat d))); [apply near_all; intros y; symmetry; apply spline_of_nat; lia|].
      destruct d as [|[|d]]; [| |lia].
      * exact (proj1 (SplProps.spline_smooth xs ys y1 yN s A B x)).
      * destruct C as [C|(_ & -> & ->)]; [lia|]. exact (proj1 (SplProps.spline_twice_smooth xs ys s A B x)).
    + exists xs, ys, y1, yN. split; [exact A|]. split; [exact B|]. destruct C as [C|(C & C1 & C2)]; [left; lia | right; split; [lia | split; assumption]].
  - cbn [safe] in S. destruct S as [A B]. destruct (IHf1 m x A) as (k & K & (F & P & Q) & U). destruct (IHf2 m x B) as (l & L & (G & P' & Q') & U').
    exists (k + l). split; [apply sum_value; assumption|]. split; [|apply safe_sum; assumption]. exists (F + G)%F. split; [|apply derivable_pt_lim_plus; assumption].
    apply (near_mono x (fun y => eval f1 y = Some (F y) /\ eval f2 y = Some (G y))); [|apply near_and; assumption]. intros y [V W]. cbn. rewrite V, W. reflexivity.
  - cbn [safe] in S. destruct S as [A B]. destruct (IHf1 m x A) as (k & K & (F & P & Q) & U). destruct (IHf2 m x B) as (l & L & (G & P' & Q') & U').
    exists (k * G x + F x * l). split; [apply sum_value; apply mult_value; try assumption; apply near_here in P, P'; assumption|].
    split.
    + exists (F * G)%F. split; [|apply derivable_pt_lim_mult; assumption].
      apply (near_mono x (fun y => eval f1 y = Some (F y) /\ eval f2 y = Some (G y))); [|apply near_and; assumption]. intros y [V W]. cbn. rewrite V, W. reflexivity.
    + apply safe_sum; apply safe_mult; try assumption; eapply safe_le; [|eassumption | | eassumption]; lia.
  - cbn [safe] in S. destruct S as (A & (y0 & Y & B) & C). destruct (IHf2 m x A) as (l & L & (G & P' & Q') & U'). destruct (IHf1 m y0 B) as (k & K & (F & P & Q) & U).
    assert (E : G x = y0) by (apply near_here in P'; congruence). subst y0.
    assert (A' : safe m f2 x) by (eapply safe_le; [|exact A]; lia).
    assert (C' : match f2 with Pow _ => 0 < x \/ whole (d1 f1) | _ => True end) by (destruct f2; try exact I; destruct C as [C|C]; [left; exact C | right; apply whole_d1, C]).
    exists (k * l). split; [|split].
    + cbn [d1]. apply mult_value; [|exact L]. apply (comp_value f2 x (G x) Y); [exact K|]. exact (safe_compatible m f2 x (G x) A' Y (d1 f1) U C').
    + exists (Ranalysis1.comp F G). split; [|apply derivable_pt_lim_comp; assumption].
      apply (near_mono x (fun y => eval f2 y = Some (G y) /\ eval f1 (G y) = Some (F (G y)))); [|apply near_and; [exact P' | exact (near_continuous G x l (fun z => eval f1 z = Some (F z)) Q' P)]].
      intros y [V W]. cbn. rewrite V, W. reflexivity.
    + cbn [d1]. apply safe_mult; [|exact U']. exact (safe_comp m f2 x (G x) A' Y (d1 f1) U C').
  - contradiction.
Qed.
