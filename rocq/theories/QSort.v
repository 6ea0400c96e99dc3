(** Sorting lists of exact rationals, and counting. *)
From Coq Require Import QArith Qcanon List Lia Permutation Sorted.
From Verif Require Import QcPre.
Import ListNotations.
Local Open Scope Qc_scope.

(** Stands for numpy's sort (ascending). *)
Fixpoint qinsert (a : Qc) (l : list Qc) : list Qc :=
  match l with
  | [] => [a]
  | b :: t => if qleb a b then a :: l else b :: qinsert a t
  end.
Fixpoint qsort (l : list Qc) : list Qc :=
  match l with [] => [] | a :: t => qinsert a (qsort t) end.

(** Non-decreasing. *)
Fixpoint qsorted (l : list Qc) : Prop :=
  match l with [] => True | a :: t => (forall b, In b t -> a <= b) /\ qsorted t end.

Lemma qinsert_perm a l : Permutation (a :: l) (qinsert a l).
Proof.
  induction l as [|b t IH]; cbn; [reflexivity|]. destruct (qleb a b); [reflexivity|].
  rewrite perm_swap. constructor. exact IH.
Qed.
Lemma qsort_perm l : Permutation l (qsort l).
Proof. induction l as [|a t IH]; cbn; [constructor|]. rewrite <- qinsert_perm. constructor. exact IH. Qed.
Lemma qinsert_sorted a l : qsorted l -> qsorted (qinsert a l).
Proof.
  induction l as [|b t IH]; cbn; [intros _; split; [intros ? []|exact I]|]. intros [Hb Ht].
  destruct (qleb a b) eqn:E; cbn.
  - apply qleb_le in E. split; [|split; assumption].
    intros c [<- | Hc]; [exact E|]. specialize (Hb c Hc). qlra.
  - apply qleb_gt in E. split; [|apply IH; exact Ht].
    intros c Hc. apply (Permutation_in _ (Permutation_sym (qinsert_perm a t))) in Hc. destruct Hc as [<- | Hc]; [qlra|auto].
Qed.
Lemma qsort_sorted l : qsorted (qsort l).
Proof. induction l as [|a t IH]; cbn; [exact I|]. apply qinsert_sorted, IH. Qed.
Lemma qsort_length l : length (qsort l) = length l.
Proof. symmetry. apply Permutation_length, qsort_perm. Qed.
Lemma qsort_in l a : In a (qsort l) <-> In a l.
Proof. split; apply Permutation_in; [apply Permutation_sym|]; apply qsort_perm. Qed.

Lemma qsorted_nth l : qsorted l -> forall i j, (i <= j < length l)%nat -> nth i l 0 <= nth j l 0.
Proof.
  induction l as [|a t IH]; cbn; intros H i j Hij; [lia|]. destruct H as [Ha Ht].
  destruct i as [|i], j as [|j]; try lia.
  - apply Qcle_refl.
  - apply Ha, nth_In. lia.
  - apply IH; [exact Ht|lia].
Qed.
Lemma qsorted_app l l' : qsorted (l ++ l') <-> qsorted l /\ qsorted l' /\ forall a b, In a l -> In b l' -> a <= b.
Proof.
  induction l as [|x t IH]; cbn; [firstorder|]. rewrite IH. split.
  - intros [H [H1 [H2 H3]]]. split; [split; [|exact H1]|split; [exact H2|]].
    + intros b Hb. apply H, in_or_app. left. exact Hb.
    + intros a b [<- | Ha] Hb; [apply H, in_or_app; right; exact Hb|apply H3; assumption].
  - intros [[H H1] [H2 H3]]. split; [|split; [exact H1|split; [exact H2|]]].
    + intros b Hb. apply in_app_or in Hb. destruct Hb; [apply H; assumption|apply H3; [left; reflexivity|assumption]].
    + intros a b Ha Hb. apply H3; [right|]; assumption.
Qed.
Lemma nth_qsorted l : (forall i j, (i <= j < length l)%nat -> nth i l 0 <= nth j l 0) -> qsorted l.
Proof.
  induction l as [|a t IH]; cbn; intros H; [exact I|]. split.
  - intros b Hb. apply (In_nth _ _ 0) in Hb. destruct Hb as [k [Hk <-]]. apply (H O (S k)). lia.
  - apply IH. intros i j Hij. apply (H (S i) (S j)). lia.
Qed.

(** How many elements satisfy a test. *)
Definition qcount (f : Qc -> bool) (l : list Qc) : nat := length (filter f l).
Lemma qcount_cons f a l : qcount f (a :: l) = ((if f a then 1 else 0) + qcount f l)%nat.
Proof. unfold qcount. cbn. destruct (f a); reflexivity. Qed.
Lemma qcount_app f l l' : qcount f (l ++ l') = (qcount f l + qcount f l')%nat.
Proof. unfold qcount. rewrite filter_app, app_length. reflexivity. Qed.
Lemma qcount_perm f l l' : Permutation l l' -> qcount f l = qcount f l'.
Proof.
  induction 1 as [| a l l' _ IH | a b l | l l' l'' _ IH _ IH']; [reflexivity| | |congruence].
  - rewrite !qcount_cons, IH. reflexivity.
  - rewrite !qcount_cons. lia.
Qed.
Lemma qcount_le f l : (qcount f l <= length l)%nat.
Proof. induction l as [|a t IH]; [apply Nat.le_refl|]. rewrite qcount_cons. cbn. destruct (f a); lia. Qed.
Lemma qcount_all f l : (forall a, In a l -> f a = true) -> qcount f l = length l.
Proof.
  induction l as [|a t IH]; intros H; [reflexivity|]. rewrite qcount_cons, (H a (or_introl eq_refl)).
  rewrite IH by (intros b Hb; apply H; right; exact Hb). reflexivity.
Qed.
Lemma qcount_none f l : (forall a, In a l -> f a = false) -> qcount f l = O.
Proof.
  induction l as [|a t IH]; intros H; [reflexivity|]. rewrite qcount_cons, (H a (or_introl eq_refl)).
  apply IH. intros b Hb. apply H. right. exact Hb.
Qed.
Lemma qcount_impl f g l : (forall a, In a l -> f a = true -> g a = true) -> (qcount f l <= qcount g l)%nat.
Proof.
  induction l as [|a t IH]; intros H; [apply Nat.le_refl|]. rewrite !qcount_cons.
  specialize (IH (fun b Hb => H b (or_intror Hb))). specialize (H a (or_introl eq_refl)).
  destruct (f a), (g a); try lia; specialize (H eq_refl); discriminate.
Qed.

(** [v] is the element at position [k] (from zero) when [l] is put in order. *)
Definition order_statistic (k : nat) (l : list Qc) (v : Qc) : Prop :=
  In v l /\ (qcount (fun x => qltb x v) l <= k < qcount (fun x => qleb x v) l)%nat.

Lemma order_statistic_perm k l l' v : Permutation l l' -> order_statistic k l v -> order_statistic k l' v.
Proof.
  intros P [Hi Hc]. split; [apply (Permutation_in _ P Hi)|]. rewrite <- !(qcount_perm _ l l' P). exact Hc.
Qed.
Lemma sorted_order_statistic l k : qsorted l -> (k < length l)%nat -> order_statistic k l (nth k l 0).
Proof.
  intros Hs Hk. split; [apply nth_In; exact Hk|].
  assert (S : forall f, qcount f l = (qcount f (firstn k l) + qcount f (skipn k l))%nat).
  { intros f. rewrite <- qcount_app, firstn_skipn. reflexivity. }
  rewrite !S.
  assert (L : length (firstn k l) = k) by (rewrite firstn_length; lia).
  split.
  - rewrite (qcount_none _ (skipn k l)).
    + pose proof (qcount_le (fun x => qltb x (nth k l 0)) (firstn k l)). lia.
    + intros a Ha. apply qltb_ge. apply (In_nth _ _ 0) in Ha. destruct Ha as [m [Hm <-]].
      rewrite skipn_length in Hm. 
      assert (E : nth m (skipn k l) 0 = nth (k + m) l 0).
      { rewrite <- (firstn_skipn k l) at 2. rewrite app_nth2 by lia. rewrite L. f_equal. lia. }
      rewrite E. apply qsorted_nth; [exact Hs|lia].
  - rewrite (qcount_all _ (firstn k l)).
    + assert (1 <= qcount (fun x => qleb x (nth k l 0%Qc)) (skipn k l))%nat; [|lia].
      destruct (skipn k l) as [|y t] eqn:E.
      * assert (length (skipn k l) = O) by (rewrite E; reflexivity). rewrite skipn_length in H. lia.
      * rewrite qcount_cons. replace (nth k l 0) with y.
        -- replace (qleb y y) with true; [lia|]. symmetry. apply qleb_le, Qcle_refl.
        -- rewrite <- (firstn_skipn k l), E, app_nth2 by lia. rewrite L, Nat.sub_diag. reflexivity.
    + intros a Ha. apply qleb_le. apply (In_nth _ _ 0) in Ha. destruct Ha as [m [Hm <-]].
      rewrite L in Hm. 
      assert (E : nth m (firstn k l) 0 = nth m l 0).
      { rewrite <- (firstn_skipn k l) at 2. rewrite app_nth1 by lia. reflexivity. }
      rewrite E. apply qsorted_nth; [exact Hs|lia].
Qed.
Lemma order_statistic_unique k l v w : order_statistic k l v -> order_statistic k l w -> v = w.
Proof.
  assert (G : forall v w, order_statistic k l v -> order_statistic k l w -> v <= w).
  { intros a b [_ [H1 H2]] [_ [H3 H4]]. destruct (qleb a b) eqn:E; [apply qleb_le; exact E|]. apply qleb_gt in E.
    exfalso. assert (qcount (fun x => qleb x b) l <= qcount (fun x => qltb x a) l)%nat; [|lia].
    apply qcount_impl. intros c _ Hc. apply qleb_le in Hc. apply qltb_lt. qlra. }
  intros H H'. apply Qcle_antisym; apply G; assumption.
Qed.
