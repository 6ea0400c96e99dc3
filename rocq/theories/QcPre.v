(** Exact rational numbers with decidable order; sums over lists. *)
From Coq Require Import QArith Qcanon Lqa List Lia.
Import ListNotations.
Local Open Scope Qc_scope.

Definition qltb (a b : Qc) : bool := negb (Qle_bool b a).
Definition qleb (a b : Qc) : bool := Qle_bool a b.

Lemma qltb_lt a b : qltb a b = true <-> a < b.
Proof.
  unfold qltb, Qclt. rewrite Bool.negb_true_iff. split; intros H.
  - apply Qnot_le_lt. intros C. apply Qle_bool_iff in C. congruence.
  - destruct (Qle_bool b a) eqn:E; [|reflexivity]. apply Qle_bool_iff in E. apply Qlt_not_le in H. contradiction.
Qed.
Lemma qltb_ge a b : qltb a b = false <-> b <= a.
Proof. unfold qltb, Qcle. rewrite Bool.negb_false_iff. apply Qle_bool_iff. Qed.
Lemma qleb_le a b : qleb a b = true <-> a <= b.
Proof. unfold qleb, Qcle. apply Qle_bool_iff. Qed.
Lemma qleb_gt a b : qleb a b = false <-> b < a.
Proof. unfold qleb. rewrite <- qltb_lt. unfold qltb. rewrite Bool.negb_true_iff. reflexivity. Qed.

(** Linear order goals over Qc by translation to Q. *)
Lemma this_add a b : (this (a + b) == this a + this b)%Q. Proof. apply Qred_correct. Qed.
Lemma this_mul a b : (this (a * b) == this a * this b)%Q. Proof. apply Qred_correct. Qed.
Lemma this_opp a : (this (- a) == - this a)%Q. Proof. apply Qred_correct. Qed.
Lemma this_sub a b : (this (a - b) == this a - this b)%Q.
Proof. unfold Qcminus. rewrite this_add, this_opp. reflexivity. Qed.
Lemma this_inv a : (this (/ a) == / this a)%Q. Proof. apply Qred_correct. Qed.
Lemma this_Q2Qc q : (this (Q2Qc q) == q)%Q. Proof. apply Qred_correct. Qed.
Lemma this_div a b : (this (a / b) == this a / this b)%Q.
Proof. unfold Qcdiv, Qdiv. rewrite this_mul, this_inv. reflexivity. Qed.
Lemma Qc_eq a b : (this a == this b)%Q -> a = b. Proof. apply Qc_is_canon. Qed.
Lemma Qc_eq_this a b : a = b -> (this a == this b)%Q. Proof. intros ->. reflexivity. Qed.

Ltac qc_hyp H := first [rewrite this_add in H | rewrite this_sub in H | rewrite this_mul in H | rewrite this_opp in H | rewrite this_div in H | rewrite this_inv in H | rewrite this_Q2Qc in H].
Ltac qc_goal := first [rewrite this_add | rewrite this_sub | rewrite this_mul | rewrite this_opp | rewrite this_div | rewrite this_inv | rewrite this_Q2Qc].
Ltac qc_prep :=
  repeat match goal with
  | |- _ < _ => unfold Qclt
  | |- _ <= _ => unfold Qcle
  | |- @eq Qc _ _ => apply Qc_eq
  | H : _ < _ |- _ => unfold Qclt in H
  | H : _ <= _ |- _ => unfold Qcle in H
  | H : @eq Qc _ _ |- _ => apply Qc_eq_this in H
  end;
  repeat qc_goal;
  repeat match goal with
  | H : (_ < _)%Q |- _ => qc_hyp H
  | H : (_ <= _)%Q |- _ => qc_hyp H
  | H : (_ == _)%Q |- _ => qc_hyp H
  end;
  change (this 0) with 0%Q in *; change (this 1) with 1%Q in *.
Ltac qlra := qc_prep; lra.
Ltac qnra := qc_prep; nra.

Goal forall a b c : Qc, a < b -> b <= c -> a + a < c + b. Proof. intros. qlra. Qed.
Goal forall a b : Qc, 0 <= a * a + b * b. Proof. intros. qnra. Qed.

(** Finite sums. *)
Fixpoint qsum (n : nat) (f : nat -> Qc) : Qc :=
  match n with O => 0 | S k => qsum k f + f k end.

Lemma qsum_ext n f g : (forall i, (i < n)%nat -> f i = g i) -> qsum n f = qsum n g.
Proof. induction n as [|n IH]; intros H; cbn; [reflexivity|]. rewrite IH by (intros; apply H; lia). rewrite (H n) by lia. reflexivity. Qed.
Lemma qsum_add n f g : qsum n (fun i => f i + g i) = qsum n f + qsum n g.
Proof. induction n as [|n IH]; cbn; [ring|]. rewrite IH. ring. Qed.
Lemma qsum_sub n f g : qsum n (fun i => f i - g i) = qsum n f - qsum n g.
Proof. induction n as [|n IH]; cbn; [ring|]. rewrite IH. ring. Qed.
Lemma qsum_scale n c f : qsum n (fun i => c * f i) = c * qsum n f.
Proof. induction n as [|n IH]; cbn; [ring|]. rewrite IH. ring. Qed.
Lemma qsum_scale_r n c f : qsum n (fun i => f i * c) = qsum n f * c.
Proof. induction n as [|n IH]; cbn; [ring|]. rewrite IH. ring. Qed.
Lemma qsum_0 n : qsum n (fun _ => 0) = 0.
Proof. induction n as [|n IH]; cbn; [reflexivity|]. rewrite IH. ring. Qed.
Lemma qsum_zero n f : (forall i, (i < n)%nat -> f i = 0) -> qsum n f = 0.
Proof. intros H. rewrite (qsum_ext n f (fun _ => 0) H). apply qsum_0. Qed.
Lemma qsum_S_l n f : qsum (S n) f = f O + qsum n (fun i => f (S i)).
Proof. induction n as [|n IH]; [cbn; ring|]. change (qsum (S (S n)) f) with (qsum (S n) f + f (S n)). rewrite IH. cbn. ring. Qed.
Lemma qsum_split n m f : qsum (n + m) f = qsum n f + qsum m (fun i => f (n + i)%nat).
Proof.
  induction m as [|m IH]; cbn; [rewrite Nat.add_0_r; ring|].
  rewrite Nat.add_succ_r. cbn. rewrite IH. ring.
Qed.
Lemma qsum_rev n f : qsum n (fun i => f (n - 1 - i)%nat) = qsum n f.
Proof.
  induction n as [|n IH]; [reflexivity|]. rewrite qsum_S_l. cbn [qsum]. replace (S n - 1 - 0)%nat with n by lia.
  rewrite <- IH. rewrite Qcplus_comm. f_equal. apply qsum_ext. intros i Hi. f_equal. lia.
Qed.
Lemma qsum_swap n m (f : nat -> nat -> Qc) : qsum n (fun i => qsum m (f i)) = qsum m (fun j => qsum n (fun i => f i j)).
Proof.
  induction n as [|n IH]; cbn; [symmetry; apply qsum_0|]. rewrite IH, <- qsum_add. reflexivity.
Qed.
Lemma qsum_only n k f : (k < n)%nat -> (forall i, (i < n)%nat -> i <> k -> f i = 0) -> qsum n f = f k.
Proof.
  induction n as [|n IH]; intros Hk H; [lia|]. cbn. destruct (Nat.eq_dec k n) as [->|Hne].
  - rewrite qsum_zero; [ring|]. intros i Hi. apply H; lia.
  - rewrite IH by (try lia; intros; apply H; lia). rewrite (H n) by lia. ring.
Qed.
