(** Selection of part of a list, in order. *)
From Coq Require Import Bool List Lia.
Import ListNotations.

(** [r] is [l] without the elements that do not satisfy [P], in the same order. *)
Inductive kept {A : Type} (P : A -> Prop) : list A -> list A -> Prop :=
| kept_nil : kept P [] []
| kept_yes x l r : P x -> kept P l r -> kept P (x :: l) (x :: r)
| kept_no x l r : ~ P x -> kept P l r -> kept P (x :: l) r.

Lemma kept_app {A : Type} (P : A -> Prop) a b r s : kept P a r -> kept P b s -> kept P (a ++ b) (r ++ s).
Proof. intros H K. induction H; cbn [app]; [exact K | |]; constructor; assumption. Qed.

Lemma kept_split {A : Type} (P : A -> Prop) a : forall b t, kept P (a ++ b) t ->
  exists r s, t = r ++ s /\ kept P a r /\ kept P b s.
Proof.
  induction a as [|x a IH]; intros b t H.
  - exists [], t. split; [reflexivity | split; [constructor | exact H]].
  - cbn [app] in H. inversion H as [|x' l r Px K|x' l r Px K]; subst.
    + destruct (IH _ _ K) as [r1 [s1 (-> & K1 & K2)]]. exists (x :: r1), s1. split; [reflexivity | split; [now constructor | exact K2]].
    + destruct (IH _ _ K) as [r1 [s1 (-> & K1 & K2)]]. exists r1, s1. split; [reflexivity | split; [now constructor | exact K2]].
Qed.

Lemma kept_drop {A : Type} (P : A -> Prop) a x b t : ~ P x ->
  kept P (a ++ x :: b) t -> kept P (a ++ b) t.
Proof.
  intros N H. apply kept_split in H. destruct H as [r [s (-> & K1 & K2)]].
  apply kept_app; [exact K1|]. inversion K2; subst; [contradiction | assumption].
Qed.

Lemma kept_exists {A : Type} (P : A -> Prop) l : (forall x, P x \/ ~ P x) -> exists w, kept P l w.
Proof.
  intros D. induction l as [|x l [w W]]; [exists []; constructor|].
  destruct (D x); [exists (x :: w) | exists w]; constructor; assumption.
Qed.

Lemma kept_length {A : Type} (P : A -> Prop) l w : kept P l w -> (length w <= length l)%nat.
Proof. intros H. induction H; cbn [length]; lia. Qed.

Lemma kept_full {A : Type} (P : A -> Prop) l w : kept P l w -> length w = length l -> l = w.
Proof.
  intros H. induction H as [|x l r Px K IH|x l r Px K IH]; cbn [length]; intros E; [reflexivity| |].
  - f_equal. apply IH. lia.
  - apply kept_length in K. lia.
Qed.

Lemma kept_ext {A : Type} (P Q : A -> Prop) l w : (forall x, In x l -> (P x <-> Q x)) -> kept P l w -> kept Q l w.
Proof.
  intros E H. induction H as [|x l r Px K IH|x l r Px K IH].
  - constructor.
  - apply kept_yes; [apply E; [now left | exact Px]|]. apply IH. intros y Y. apply E. now right.
  - apply kept_no; [intros Q'; apply Px, E; [now left | exact Q']|]. apply IH. intros y Y. apply E. now right.
Qed.

Lemma kept_filter {A : Type} (P : A -> Prop) f l : (forall x, In x l -> (P x <-> f x = true)) -> kept P l (filter f l).
Proof.
  induction l as [|x l IH]; intros H; cbn [filter]; [constructor|].
  destruct (f x) eqn:F.
  - constructor; [apply H; [now left | exact F] | apply IH; intros y Y; apply H; now right].
  - constructor; [|apply IH; intros y Y; apply H; now right].
    intros C. apply H in C; [congruence | now left].
Qed.

Lemma kept_unique {A : Type} (P : A -> Prop) l r s : kept P l r -> kept P l s -> r = s.
Proof.
  intros H. revert s. induction H as [|x l r Px K IH|x l r Px K IH]; intros s S; inversion S; subst; try contradiction; try reflexivity.
  - f_equal. now apply IH.
  - now apply IH.
Qed.

Lemma kept_in {A : Type} (P : A -> Prop) l r x : kept P l r -> In x r -> In x l /\ P x.
Proof.
  intros H. induction H as [|y l r Py K IH|y l r Py K IH]; intros X; [destruct X | |].
  - destruct X as [<- | X]; [split; [now left | exact Py] | destruct (IH X); split; [now right | assumption]].
  - destruct (IH X). split; [now right | assumption].
Qed.

Lemma in_kept {A : Type} (P : A -> Prop) l r x : kept P l r -> In x l -> P x -> In x r.
Proof.
  intros H. induction H as [|y l r Py K IH|y l r Py K IH]; intros X Px; [destruct X | |].
  - destruct X as [<- | X]; [now left | right; now apply IH].
  - destruct X as [<- | X]; [contradiction | now apply IH].
Qed.

Lemma skipn_add {A : Type} a : forall b (l : list A), skipn a (skipn b l) = skipn (b + a) l.
Proof.
  intros b l. revert b. induction l as [|x l IH]; intros [|b]; cbn [skipn Nat.add]; try reflexivity.
  - destruct a; reflexivity.
  - apply IH.
Qed.
