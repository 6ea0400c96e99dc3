(** Proofs about histograms. *)
From Coq Require Import ZArith QArith Bool Lia Lqa Permutation List.
From Verif Require Import Kept CutModel CutHistProofs OffProofs GrpModel GrpProofs HistModel HistSpec.
Import ListNotations.
Local Open Scope nat_scope.

Lemma xltb_spec x y : xltb x y = true <-> xlt x y.
Proof.
  destruct x as [| |a|], y as [| |b|]; cbn; try (split; [discriminate | contradiction]); try tauto.
  - rewrite negb_true_iff. destruct (Qle_bool b a) eqn:E.
    + apply Qle_bool_iff in E. split; [discriminate | intros L; lra].
    + split; [|reflexivity]. intros _. apply Qnot_le_lt. intros L. apply Qle_bool_iff in L. congruence.
Qed.

Lemma xltb_not x y : is_num x -> is_num y -> (xltb x y = false <-> xleq y x).
Proof.
  intros Nx Ny. rewrite <- not_true_iff_false, xltb_spec. unfold xleq. tauto.
Qed.

Lemma isnan_spec x : isnan x = false <-> is_num x.
Proof. destruct x; cbn; unfold is_num; split; congruence. Qed.

Lemma xlt_num x y : xlt x y -> is_num x /\ is_num y.
Proof. unfold is_num. destruct x, y; cbn; intros H; try contradiction; split; congruence. Qed.
Lemma xlt_trans x y z : xlt x y -> xlt y z -> xlt x z.
Proof. destruct x, y, z; cbn; try tauto. apply Qlt_trans. Qed.
Lemma xlt_irrefl x : ~ xlt x x.
Proof. destruct x; cbn; try tauto. apply Qlt_irrefl. Qed.
Lemma xleq_lt x y z : xleq x y -> xlt y z -> xlt x z.
Proof.
  unfold xleq, is_num. destruct x, y, z; cbn; intros (A & B & H) L; try tauto; try congruence.
  lra.
Qed.
Lemma xlt_leq x y z : xlt x y -> xleq y z -> xlt x z.
Proof.
  unfold xleq, is_num. destruct x, y, z; cbn; intros L (A & B & H); try tauto; try congruence.
  lra.
Qed.
Lemma xleq_trans x y z : xleq x y -> xleq y z -> xleq x z.
Proof.
  intros H K. split; [apply H|]. split; [apply K|]. intros L.
  apply (proj2 (proj2 K)). apply (xlt_leq _ x); assumption.
Qed.
Lemma xleq_refl x : is_num x -> xleq x x.
Proof. intros N. repeat split; try exact N. apply xlt_irrefl. Qed.
Lemma xlt_xleq x y : xlt x y -> xleq x y.
Proof.
  intros L. destruct (xlt_num _ _ L). repeat split; try assumption. intros K.
  exact (xlt_irrefl _ (xlt_trans _ _ _ L K)).
Qed.
Lemma xlt_dec x y : is_num x -> is_num y -> {xlt x y} + {xleq y x}.
Proof.
  intros Nx Ny. destruct (xltb x y) eqn:E; [left | right].
  - now apply xltb_spec.
  - now apply xltb_not.
Qed.

(** The order of numpy's sort. *)
Lemma before_trans_neg x y z : before y x = false -> before z y = false -> before z x = false.
Proof.
  unfold before. rewrite !orb_false_iff, !andb_false_iff. intros (A & B) (C & D).
  destruct (isnan x) eqn:Ex; destruct (isnan y) eqn:Ey; destruct (isnan z) eqn:Ez; cbn in *;
    try (destruct B; discriminate); try (destruct D; discriminate);
    split; try (left; reflexivity); try (right; reflexivity).
  - destruct x, z; try discriminate; reflexivity.
  - destruct z; try discriminate; reflexivity.
  - destruct z; try discriminate; reflexivity.
  - apply isnan_spec in Ex, Ey, Ez. rewrite xltb_not in A, C |- * by assumption.
    exact (xleq_trans _ _ _ A C).
Qed.

Definition nle (x y : xval) : Prop := before y x = false.
Fixpoint nsorted (l : list xval) : Prop :=
  match l with [] => True | x :: t => Forall (nle x) t /\ nsorted t end.

Lemma before_asym x y : before x y = true -> before y x = false.
Proof.
  unfold before. rewrite orb_true_iff, orb_false_iff. intros [A | A].
  - apply xltb_spec in A. destruct (xlt_num _ _ A) as [Nx Ny]. split.
    + apply xltb_not; try assumption. now apply xlt_xleq.
    + apply isnan_spec in Nx. now rewrite Nx.
  - apply andb_true_iff in A. destruct A as [A B]. destruct y; try discriminate. split; [reflexivity|].
    cbn. now rewrite andb_comm.
Qed.

Lemma ninsert_perm x l : Permutation (x :: l) (ninsert x l).
Proof.
  induction l as [|y t IH]; cbn [ninsert]; [reflexivity|].
  destruct (before y x); [|reflexivity].
  rewrite perm_swap. now constructor.
Qed.
Lemma nsort_perm l : Permutation l (nsort l).
Proof.
  unfold nsort. induction l as [|x t IH]; cbn [fold_right]; [reflexivity|].
  rewrite <- ninsert_perm. now constructor.
Qed.
Lemma ninsert_sorted x l : nsorted l -> nsorted (ninsert x l).
Proof.
  induction l as [|y t IH]; cbn [ninsert nsorted]; [repeat constructor|].
  intros (F & S). destruct (before y x) eqn:E; cbn [nsorted].
  - split; [|now apply IH].
    apply (Permutation_Forall (ninsert_perm x t)). constructor; [|exact F]. now apply before_asym.
  - split; [|split; assumption]. constructor; [exact E|].
    eapply Forall_impl; [|exact F]. intros z Hz. unfold nle in *. now apply (before_trans_neg x y z).
Qed.
Lemma nsort_sorted l : nsorted (nsort l).
Proof. unfold nsort. induction l as [|x t IH]; cbn [fold_right]; [exact I | now apply ninsert_sorted]. Qed.

Lemma search_count f l : (forall x y, nle x y -> f y = true -> f x = true) -> nsorted l -> search f l = length (filter f l).
Proof.
  intros M. induction l as [|x t IH]; cbn [search filter nsorted]; [reflexivity|].
  intros (F & S). destruct (f x) eqn:E; cbn [length]; [now rewrite IH|].
  assert (filter f t = []) as ->; [|reflexivity].
  clear IH S. induction F as [|y t' H F IH]; cbn [filter]; [reflexivity|].
  destruct (f y) eqn:Ey; [|exact IH]. rewrite (M x y H Ey) in E. discriminate.
Qed.

Definition count {A : Type} (f : A -> bool) (l : list A) : nat := length (filter f l).
Lemma count_perm {A : Type} (f : A -> bool) l l' : Permutation l l' -> count f l = count f l'.
Proof.
  unfold count. induction 1 as [|x l l' P IH|x y l|l l1 l2 P IH Q IH2]; cbn [filter]; auto.
  - destruct (f x); cbn [length]; congruence.
  - destruct (f x), (f y); reflexivity.
  - congruence.
Qed.

Lemma search_left_count l v : search_left (nsort l) v = count (fun x => before x v) l.
Proof.
  unfold search_left. rewrite search_count.
  - symmetry. apply count_perm, nsort_perm.
  - intros x y H K. destruct (before x v) eqn:E; [reflexivity|].
    rewrite (before_trans_neg v x y E H) in K. discriminate.
  - apply nsort_sorted.
Qed.
Lemma search_right_count l v : search_right (nsort l) v = count (fun x => negb (before v x)) l.
Proof.
  unfold search_right. rewrite search_count.
  - symmetry. apply count_perm, nsort_perm.
  - intros x y H K. rewrite negb_true_iff in K |- *. exact (before_trans_neg x y v H K).
  - apply nsort_sorted.
Qed.

Lemma search_inclusive_length l e : length (search_inclusive l e) = length e.
Proof.
  induction e as [|a e IH]; [reflexivity|]. destruct e as [|b t]; [reflexivity|].
  change (search_inclusive l (a :: b :: t)) with (search_left l a :: search_inclusive l (b :: t)).
  cbn [length]. now rewrite IH.
Qed.
Lemma search_inclusive_nth l e : forall i a, nth_error e i = Some a ->
  nth_error (search_inclusive l e) i = Some (if Nat.eqb (S i) (length e) then search_right l a else search_left l a).
Proof.
  induction e as [|x e IH]; intros i a H; [destruct i; discriminate|].
  destruct e as [|y t].
  - destruct i as [|i]; [|destruct i; discriminate]. cbn in H. injection H as <-. reflexivity.
  - change (search_inclusive l (x :: y :: t)) with (search_left l x :: search_inclusive l (y :: t)).
    destruct i as [|i].
    + cbn in H. injection H as <-. reflexivity.
    + cbn [nth_error] in *. rewrite (IH i a H). reflexivity.
Qed.
Lemma diff_length l : length (diff l) = length l - 1.
Proof.
  induction l as [|x l IH]; [reflexivity|]. destruct l as [|y t]; [reflexivity|].
  change (diff (x :: y :: t)) with ((y - x) :: diff (y :: t)). cbn [length] in *. rewrite IH. lia.
Qed.
Lemma diff_nth l : forall i a b, nth_error l i = Some a -> nth_error l (S i) = Some b -> nth_error (diff l) i = Some (b - a).
Proof.
  induction l as [|x l IH]; intros i a b H K; [destruct i; discriminate|].
  destruct l as [|y t]; [destruct i; discriminate|].
  change (diff (x :: y :: t)) with ((y - x) :: diff (y :: t)). destruct i as [|i].
  - cbn in H, K |- *. congruence.
  - cbn [nth_error] in *. now apply IH.
Qed.

Lemma decreases_false e : ordered e -> decreases e = false.
Proof.
  induction e as [|x e IH]; intros (N & O); [reflexivity|]. destruct e as [|y t]; [reflexivity|].
  change (decreases (x :: y :: t)) with (xltb y x || decreases (y :: t)).
  apply orb_false_iff. split.
  - assert (xleq x y) as (Nx & Ny & L) by exact (O 0 x y eq_refl eq_refl).
    rewrite <- not_true_iff_false, xltb_spec. exact L.
  - apply IH. split; [now inversion N|]. intros i a b H K. exact (O (S i) a b H K).
Qed.

Lemma count_sub {A : Type} (f g h : A -> bool) l :
  (forall x, In x l -> g x = f x || h x /\ f x && h x = false) -> count g l - count f l = count h l.
Proof.
  unfold count. intros H.
  assert (length (filter g l) = length (filter f l) + length (filter h l)); [|lia].
  induction l as [|x t IH]; [reflexivity|]. cbn [filter].
  specialize (IH (fun y K => H y (or_intror K))). destruct (H x (or_introl eq_refl)) as [E D]. rewrite E.
  destruct (f x), (h x); cbn in *; try discriminate; lia.
Qed.

Lemma kept_tally {A : Type} (P : A -> Prop) f l : (forall x, In x l -> (P x <-> f x = true)) -> tally P l (count f l).
Proof. intros H. exists (filter f l). split; [now apply kept_filter | reflexivity]. Qed.

Definition binb (last : bool) (a b v : xval) : bool := xle a v && (if last then xle v b else xltb v b).

Lemma before_num x v : is_num v -> before x v = xltb x v.
Proof. intros N. apply isnan_spec in N. unfold before. rewrite N. apply orb_false_r. Qed.

Lemma histogram_ok vs e : ordered e ->
  exists c, histogram vs e = Some c /\ histogram_of (fun i v => in_bin e i v) (length e - 1) vs c.
Proof.
  intros O. unfold histogram. rewrite (decreases_false e O).
  eexists. split; [reflexivity|]. split.
  - now rewrite diff_length, search_inclusive_length.
  - intros i n H.
    assert (B : i < length e - 1).
    { rewrite <- (search_inclusive_length (nsort vs)), <- diff_length. apply nth_error_Some. congruence. }
    destruct (nth_error e i) as [a|] eqn:Ea; [|apply nth_error_None in Ea; lia].
    destruct (nth_error e (S i)) as [b|] eqn:Eb; [|apply nth_error_None in Eb; lia].
    assert (L : xleq a b) by exact (proj2 O i a b Ea Eb).
    pose proof (search_inclusive_nth (nsort vs) e i a Ea) as Sa.
    pose proof (search_inclusive_nth (nsort vs) e (S i) b Eb) as Sb.
    destruct (Nat.eqb_spec (S i) (length e)) as [X | _]; [lia|].
    destruct L as (Na & Nb & L).
    destruct (Nat.eqb_spec (S (S i)) (length e)) as [X | X];
      rewrite (diff_nth _ _ _ _ Sa Sb) in H; apply OffProofs.some_inj in H; subst n; rewrite search_left_count.
    + rewrite search_right_count.
      rewrite (count_sub _ _ (fun v => xle a v && xle v b)).
      * apply kept_tally. intros v _. rewrite andb_true_iff, !xle_spec. split.
        -- intros (a' & b' & E1 & E2 & H1 & H2). rewrite Ea in E1. rewrite Eb in E2.
           injection E1 as <-. injection E2 as <-. split; [exact H1|].
           destruct H2 as [H2 | [_ H2]]; [now apply xlt_xleq | exact H2].
        -- intros [H1 H2]. exists a, b. repeat split; try assumption; try apply H1. right. split; assumption.
      * intros v _. rewrite (before_num v a Na). unfold before. apply isnan_spec in Nb as Nb'. rewrite Nb'.
        destruct (isnan v) eqn:Ev.
        { destruct v; try discriminate. cbn. destruct a, b; now cbn. }
        apply isnan_spec in Ev. cbn [andb negb]. rewrite orb_false_r.
        destruct (xlt_dec v a Ev Na) as [L1 | L1].
        -- assert (xltb v a = true) as -> by now apply xltb_spec.
           assert (xlt v b) as L2 by (apply (xlt_leq _ a); [exact L1 | repeat split; assumption]).
           assert (xltb b v = false) as -> by (apply xltb_not; try assumption; now apply xlt_xleq).
           assert (xle a v = false) as ->.
           { rewrite <- not_true_iff_false, xle_spec. intros (_ & _ & K). contradiction. }
           split; reflexivity.
        -- assert (xltb v a = false) as -> by now apply xltb_not.
           assert (xle a v = true) as -> by now apply xle_spec. cbn. split; [|reflexivity].
           destruct (xlt_dec b v Nb Ev) as [L2 | L2].
           ++ assert (xltb b v = true) as -> by now apply xltb_spec.
              symmetry. cbn. rewrite <- not_true_iff_false, xle_spec. intros (_ & _ & K). contradiction.
           ++ assert (xltb b v = false) as -> by now apply xltb_not.
              symmetry. now apply xle_spec.
    + rewrite search_left_count.
      rewrite (count_sub _ _ (fun v => xle a v && xltb v b)).
      * apply kept_tally. intros v _. rewrite andb_true_iff, xle_spec, xltb_spec. split.
        -- intros (a' & b' & E1 & E2 & H1 & H2). rewrite Ea in E1. rewrite Eb in E2.
           injection E1 as <-. injection E2 as <-. split; [exact H1|].
           destruct H2 as [H2 | [H2 _]]; [exact H2 | contradiction].
        -- intros [H1 H2]. exists a, b. repeat split; try assumption; try apply H1. left. assumption.
      * intros v _. rewrite (before_num v a Na), (before_num v b Nb).
        destruct (isnan v) eqn:Ev.
        { destruct v; try discriminate. cbn. destruct a, b; now cbn. }
        apply isnan_spec in Ev.
        destruct (xlt_dec v a Ev Na) as [L1 | L1].
        -- assert (xltb v a = true) as -> by now apply xltb_spec.
           assert (xltb v b = true) as -> by (apply xltb_spec; apply (xlt_leq _ a); [exact L1 | repeat split; assumption]).
           assert (xle a v = false) as ->.
           { rewrite <- not_true_iff_false, xle_spec. intros (_ & _ & K). contradiction. }
           split; reflexivity.
        -- assert (xltb v a = false) as -> by now apply xltb_not.
           assert (xle a v = true) as -> by now apply xle_spec. cbn. split; reflexivity.
Qed.

(** * Every value within the edges is in exactly one bin *)

Lemma ordered_tail x e : ordered (x :: e) -> ordered e.
Proof. intros (N & O). split; [now inversion N|]. intros i a b H K. exact (O (S i) a b H K). Qed.

Lemma ordered_mono e : ordered e -> forall i j a b, i <= j -> nth_error e i = Some a -> nth_error e j = Some b -> xleq a b.
Proof.
  intros O i j a b L H. revert b. induction L as [|j L IH]; intros b K.
  - rewrite H in K. injection K as <-. apply xleq_refl. apply nth_error_In in H.
    destruct O as [N _]. rewrite Forall_forall in N. now apply N.
  - destruct (nth_error e j) as [c|] eqn:E.
    + apply (xleq_trans _ c); [now apply IH|]. exact (proj2 O j c b E K).
    + apply nth_error_None in E. assert (S j < length e) by (apply nth_error_Some; congruence). lia.
Qed.

Lemma one_bin e v : ordered e -> 2 <= length e -> within e v -> exists i, in_bin e i v.
Proof.
  induction e as [|a e IH]; intros O L (lo & hi & E0 & E1 & H1 & H2); [cbn in L; lia|].
  cbn in E0. injection E0 as <-.
  destruct e as [|b e]; [cbn in L; lia|]. destruct e as [|c t].
  - cbn in E1. injection E1 as <-. exists 0, a, b. repeat split; try reflexivity; try apply H1.
    right. split; [reflexivity | exact H2].
  - assert (Nb : is_num b) by (destruct O as [N _]; inversion N as [|? ? ? N']; now inversion N').
    assert (Nv : is_num v) by apply H1.
    destruct (xlt_dec v b Nv Nb) as [K | K].
    + exists 0, a, b. repeat split; try reflexivity; try apply H1. now left.
    + destruct (IH (ordered_tail _ _ O)) as [i (p & q & P1 & P2 & P3 & P4)].
      * cbn. lia.
      * exists b, hi. split; [reflexivity|]. split; [|split; assumption].
        replace (length (b :: c :: t) - 1) with (S (length t)) by (cbn; lia).
        replace (length (a :: b :: c :: t) - 1) with (S (S (length t))) in E1 by (cbn; lia). exact E1.
      * exists (S i), p, q. repeat split; try assumption; try apply P3.
        destruct P4 as [P4 | [P4 P5]]; [now left|]. right. split; [cbn [length] in *; lia | exact P5].
Qed.

Lemma bins_disjoint e v i j : ordered e -> in_bin e i v -> in_bin e j v -> i = j.
Proof.
  intros O.
  assert (W : forall i j, i < j -> in_bin e i v -> in_bin e j v -> False).
  { clear i j. intros i j L (a & b & A1 & A2 & A3 & A4) (a' & b' & B1 & B2 & B3 & B4).
    assert (S j < length e) by (apply nth_error_Some; congruence).
    destruct A4 as [A4 | [A4 _]]; [|lia].
    assert (M : xleq b a') by (apply (ordered_mono e O (S i) j); [lia | assumption | assumption]).
    apply (xlt_irrefl v). apply (xlt_leq _ b); [exact A4|]. apply (xleq_trans _ a'); assumption. }
  intros Hi Hj. destruct (Nat.lt_trichotomy i j) as [L | [L | L]]; [|exact L|]; exfalso; eapply W; eassumption.
Qed.

Lemma in_bin_within e i v : ordered e -> in_bin e i v -> within e v.
Proof.
  intros O (a & b & A1 & A2 & A3 & A4).
  assert (S i < length e) by (apply nth_error_Some; congruence).
  destruct (nth_error e 0) as [lo|] eqn:E0; [|apply nth_error_None in E0; lia].
  destruct (nth_error e (length e - 1)) as [hi|] eqn:E1; [|apply nth_error_None in E1; lia].
  exists lo, hi. split; [exact E0|]. split; [exact E1|]. split.
  - apply (xleq_trans _ a); [|exact A3]. apply (ordered_mono e O 0 i); [lia | assumption | assumption].
  - apply (xleq_trans _ b).
    + destruct A4 as [A4 | [_ A4]]; [now apply xlt_xleq | exact A4].
    + apply (ordered_mono e O (S i) (length e - 1)); [lia | assumption | assumption].
Qed.

(** * Counting *)

Lemma tally_cons {A : Type} (P : A -> Prop) x l n : tally P (x :: l) n ->
  (P x /\ exists m, n = S m /\ tally P l m) \/ (~ P x /\ tally P l n).
Proof.
  intros (r & K & <-). inversion K as [|y l' r' H K'|y l' r' H K']; subst.
  - left. split; [exact H|]. exists (length r'). split; [reflexivity|]. now exists r'.
  - right. split; [exact H|]. now exists r.
Qed.
Lemma tally_yes {A : Type} (P : A -> Prop) x l n : P x -> tally P l n -> tally P (x :: l) (S n).
Proof. intros H (r & K & <-). exists (x :: r). split; [now constructor | reflexivity]. Qed.
Lemma tally_no {A : Type} (P : A -> Prop) x l n : ~ P x -> tally P l n -> tally P (x :: l) n.
Proof. intros H (r & K & <-). exists r. split; [now constructor | reflexivity]. Qed.
Lemma tally_nil {A : Type} (P : A -> Prop) n : tally P [] n <-> n = 0.
Proof.
  split.
  - intros (r & K & <-). now inversion K.
  - intros ->. exists []. split; [constructor | reflexivity].
Qed.
Lemma tally_ext {A : Type} (P Q : A -> Prop) l n : (forall x, In x l -> (P x <-> Q x)) -> tally P l n -> tally Q l n.
Proof. intros E (r & K & L). exists r. split; [now apply (kept_ext P Q) | exact L]. Qed.
Lemma tally_map {A B : Type} (f : A -> B) (P : B -> Prop) l : forall n, tally (fun x => P (f x)) l n -> tally P (map f l) n.
Proof.
  induction l as [|x l IH]; intros n H; cbn [map].
  - apply tally_nil in H. now apply tally_nil.
  - apply tally_cons in H. destruct H as [[H [m [-> K]]] | [H K]].
    + apply tally_yes; auto.
    + apply tally_no; auto.
Qed.
Lemma tally_unique {A : Type} (P : A -> Prop) l n m : tally P l n -> tally P l m -> n = m.
Proof. intros (r & K & <-) (s & K' & <-). now rewrite (kept_unique P l r s K K'). Qed.

Lemma step_counts {A : Type} x (l : list A) : forall c (P : nat -> A -> Prop),
  (forall i j, P i x -> P j x -> i = j) ->
  (forall i n, nth_error c i = Some n -> tally (P i) (x :: l) n) ->
  exists c', length c' = length c /\ (forall i n, nth_error c' i = Some n -> tally (P i) l n) /\
    (((exists i, i < length c /\ P i x) /\ list_sum c = S (list_sum c')) \/
     ((forall i, i < length c -> ~ P i x) /\ list_sum c = list_sum c')).
Proof.
  induction c as [|n c IH]; intros P D H.
  - exists []. split; [reflexivity|]. split; [intros [|i] n X; discriminate|]. right. split; [|reflexivity].
    intros i L. cbn in L. lia.
  - destruct (IH (fun i => P (S i))) as (c' & L & T & R).
    + intros i j Hi Hj. specialize (D _ _ Hi Hj). lia.
    + intros i m E. exact (H (S i) m E).
    + specialize (H 0 n eq_refl). apply tally_cons in H. destruct H as [[Px [m [-> K]]] | [Px K]].
      * exists (m :: c'). split; [cbn; now rewrite L|]. split.
        { intros [|i] q E; [cbn in E; injection E as <-; exact K | exact (T i q E)]. }
        left. split; [exists 0; split; [cbn; lia | exact Px]|].
        destruct R as [[[i [_ Pi]] _] | [_ R]]; [specialize (D _ _ Pi Px); lia|]. unfold list_sum in *. cbn. lia.
      * exists (n :: c'). split; [cbn; now rewrite L|]. split.
        { intros [|i] q E; [cbn in E; injection E as <-; exact K | exact (T i q E)]. }
        destruct R as [[[i [Li Pi]] R] | [Rn R]].
        -- left. split; [exists (S i); split; [cbn; lia | exact Pi]|]. unfold list_sum in *. cbn. lia.
        -- right. split; [|unfold list_sum in *; cbn; lia]. intros [|i] Li; [exact Px | apply Rn; cbn in Li; lia].
Qed.

Lemma total_counts {A : Type} (P : nat -> A -> Prop) (Q : A -> Prop) l : forall c,
  (forall x, In x l -> forall i j, P i x -> P j x -> i = j) ->
  (forall x, In x l -> (Q x <-> exists i, i < length c /\ P i x)) ->
  (forall i n, nth_error c i = Some n -> tally (P i) l n) -> tally Q l (list_sum c).
Proof.
  induction l as [|x l IH]; intros c D E H.
  - assert (list_sum c = 0) as ->; [|now apply tally_nil].
    assert (F : Forall (fun n => n = 0) c).
    { apply Forall_forall. intros n I. apply In_nth_error in I. destruct I as [i I]. apply H in I. now apply tally_nil in I. }
    clear - F. induction F as [|n c -> F IH]; [reflexivity | exact IH].
  - destruct (step_counts x l c P (D x (or_introl eq_refl)) H) as (c' & L & T & R).
    assert (G : tally Q l (list_sum c')).
    { apply IH; [| |exact T].
      - intros y I. apply D. now right.
      - intros y I. rewrite L. apply E. now right. }
    destruct R as [[X ->] | [X ->]].
    + apply tally_yes; [|exact G]. apply E; [now left | exact X].
    + apply tally_no; [|exact G]. intros Y. apply E in Y; [|now left]. destruct Y as [i [Li Pi]]. exact (X i Li Pi).
Qed.

Lemma histogram_total e vs c : ordered e -> 2 <= length e -> histogram vs e = Some c -> tally (within e) vs (list_sum c).
Proof.
  intros O L H. destruct (histogram_ok vs e O) as (c' & H' & Lc & T). rewrite H in H'. injection H' as <-.
  apply (total_counts (fun i v => in_bin e i v)); [| |exact T].
  - intros x _ i j. now apply bins_disjoint.
  - intros x _. rewrite Lc. split.
    + intros W. destruct (one_bin e x O L W) as [i B]. exists i. split; [|exact B].
      destruct B as (a & b & _ & B2 & _). assert (S i < length e) by (apply nth_error_Some; congruence). lia.
    + intros [i [_ B]]. now apply in_bin_within in B.
Qed.

(** * Centers *)

Lemma centers_ok e : middles e (centers e).
Proof.
  induction e as [|x e IH].
  - split; [reflexivity|]. intros [|i]; discriminate.
  - destruct e as [|y t].
    + split; [reflexivity|]. intros [|[|i]] a b H K; discriminate.
    + change (centers (x :: y :: t)) with (xhalf (xadd y x) :: centers (y :: t)).
      destruct IH as [L M]. split; [cbn [length] in *; lia|].
      intros [|i] a b H K.
      * cbn in H, K. injection H as ->. injection K as ->. exists ((1 # 2) * (b + a))%Q. split; [reflexivity|]. field.
      * cbn [nth_error] in *. now apply M.
Qed.

(** * One channel *)

Lemma nth_and a : forall b k, nth_error (map2 andb a b) k = Some true <-> nth_error a k = Some true /\ nth_error b k = Some true.
Proof.
  induction a as [|x a IH]; intros [|y b] [|k]; cbn [map2 nth_error]; try (split; [discriminate | intros []; discriminate]).
  - split.
    + intros H. injection H as H. apply andb_true_iff in H. destruct H. now subst.
    + intros [H K]. injection H as ->. injection K as ->. reflexivity.
  - apply IH.
Qed.
Lemma nth_map {A : Type} (f : A -> bool) l k : nth_error (map f l) k = Some true <-> exists x, nth_error l k = Some x /\ f x = true.
Proof.
  rewrite nth_error_map. destruct (nth_error l k) as [x|]; cbn [option_map].
  - split.
    + intros H. injection H as H. now exists x.
    + intros (y & E & F). injection E as <-. now rewrite F.
  - split; [discriminate | intros (y & E & _); discriminate].
Qed.
Lemma map2_length {A B C : Type} (f : A -> B -> C) a : forall b, length a = length b -> length (map2 f a b) = length a.
Proof. induction a as [|x a IH]; intros [|y b] L; try discriminate; [reflexivity|]. cbn in *. now rewrite IH by lia. Qed.

Lemma where_tally {A : Type} (P : A -> Prop) l : forall g n, length g = length l -> tally P (where_true g l) n ->
  tally (fun k => nth_error g k = Some true /\ exists v, nth_error l k = Some v /\ P v) (seq 0 (length l)) n.
Proof.
  induction l as [|x l IH]; intros [|c g] n L T; try discriminate.
  - cbn in T |- *. apply tally_nil in T. now apply tally_nil.
  - cbn [length seq]. rewrite <- seq_shift. cbn [where_true] in T.
    assert (Lg : length g = length l) by (cbn in L; lia). destruct c.
    + apply tally_cons in T. destruct T as [[Px [m [-> K]]] | [Px K]].
      * apply tally_yes; [split; [reflexivity | now exists x]|]. apply tally_map. exact (IH g m Lg K).
      * apply tally_no; [intros [_ [v [E Pv]]]; cbn in E; injection E as <-; contradiction|].
        apply tally_map. exact (IH g n Lg K).
    + apply tally_no; [intros [E _]; discriminate|]. apply tally_map. exact (IH g n Lg T).
Qed.

Lemma and_vec_some a b : length a = length b -> and_vec a b = Some (map2 andb a b).
Proof. intros E. unfold and_vec. now rewrite E, Nat.eqb_refl. Qed.

Lemma nth_repeat_true n k : nth_error (repeat true n) k = Some true <-> k < n.
Proof.
  revert k. induction n as [|n IH]; intros [|k]; cbn [repeat nth_error].
  - split; [discriminate | lia].
  - split; [discriminate | lia].
  - split; [lia | reflexivity].
  - rewrite IH. lia.
Qed.

Lemma ds_hist_ok r e t0 tlast cat gf d gd : ordered e -> good r [] cat (masks d) = Some gd ->
  length gd = length (vals d) -> length (times d) = length (vals d) -> length (accepted_by gf d) = length (vals d) ->
  exists c, ds_hist r e t0 tlast cat gf d = Some (centers e, c) /\
    histogram_of (fun i k => counted gd (accepted_by gf d) (times d) (vals d) t0 tlast k /\ value_in_bin e (vals d) i k)
                 (length e - 1) (seq 0 (length (vals d))) c.
Proof.
  intros O G Lg Lt La. unfold ds_hist. rewrite G.
  set (tg := map2 andb _ _).
  assert (Ltg : length tg = length (vals d)) by (unfold tg; rewrite map2_length; rewrite !map_length; [assumption | reflexivity]).
  rewrite and_vec_some by congruence.
  rewrite and_vec_some by (rewrite map2_length, map_length; congruence).
  set (g2 := map2 andb (map2 andb tg gd) _).
  assert (Lg2 : length g2 = length (vals d)).
  { unfold g2. rewrite map2_length; rewrite map2_length; try rewrite map_length; congruence. }
  assert (X : exists g, match gf with None => Some g2 | Some f => and_vec g2 (f d) end = Some g /\ length g = length (vals d) /\
                        forall k, k < length (vals d) -> (nth_error g k = Some true <-> nth_error g2 k = Some true /\ nth_error (accepted_by gf d) k = Some true)).
  { destruct gf as [f|].
    - unfold accepted_by in La. exists (map2 andb g2 (f d)). split; [apply and_vec_some; congruence|].
      split; [rewrite map2_length; congruence|]. intros k _. apply nth_and.
    - exists g2. split; [reflexivity|]. split; [exact Lg2|]. intros k Lk. cbn [accepted_by]. rewrite nth_repeat_true. tauto. }
  destruct X as (g & -> & Lgg & Hg).
  destruct (histogram_ok (where_true g (vals d)) e O) as (c & Hc & Lc & T). rewrite Hc.
  exists c. split; [reflexivity|]. split; [exact Lc|].
  intros i n E. apply T in E. apply where_tally in E; [|exact Lgg].
  revert E. apply tally_ext. intros k Ik. apply in_seq in Ik. rewrite Hg by lia.
  unfold g2, tg. rewrite !nth_and, !nth_map. unfold counted, value_in_bin. split.
  - intros ((((((t & Et & H1) & (t' & Et' & H2)) & Hgd) & (v & Ev & H3)) & Ha) & (v' & Ev' & B)).
    rewrite Et in Et'. injection Et' as <-. rewrite Ev in Ev'. injection Ev' as <-.
    split; [|now exists v]. split; [exact Hgd|]. split; [exact Ha|]. exists t, v.
    apply xltb_spec in H1, H2. apply negb_true_iff, isnan_spec in H3. repeat split; assumption.
  - intros ((Hgd & Ha & t & v & Et & Ev & H1 & H2 & H3) & (v' & Ev' & B)).
    apply xltb_spec in H1, H2. apply isnan_spec in H3.
    repeat split; try assumption; try (exists t; split; assumption).
    + exists v. split; [exact Ev|]. now rewrite H3.
    + exists v'. split; assumption.
Qed.

Lemma ds_hist_total r e t0 tlast cat gf d gd b c : ordered e -> 2 <= length e -> good r [] cat (masks d) = Some gd ->
  length gd = length (vals d) -> length (times d) = length (vals d) -> length (accepted_by gf d) = length (vals d) ->
  ds_hist r e t0 tlast cat gf d = Some (b, c) ->
  tally (fun k => counted gd (accepted_by gf d) (times d) (vals d) t0 tlast k /\
                  exists v, nth_error (vals d) k = Some v /\ within e v) (seq 0 (length (vals d))) (list_sum c).
Proof.
  intros O L G Lg Lt La H. destruct (ds_hist_ok r e t0 tlast cat gf d gd O G Lg Lt La) as (c' & H' & Lc & T).
  rewrite H in H'. injection H' as -> <-.
  eapply (total_counts (fun i k => counted gd (accepted_by gf d) (times d) (vals d) t0 tlast k /\ value_in_bin e (vals d) i k)); [| |exact T].
  - intros k _ i j (_ & v & E & B) (_ & v' & E' & B'). rewrite E in E'. injection E' as <-. now apply (bins_disjoint e v).
  - intros k _. rewrite Lc. split.
    + intros (C & v & E & W). destruct (one_bin e v O L W) as [i B]. exists i. split.
      * destruct B as (x & y & _ & B2 & _). assert (S i < length e) by (apply nth_error_Some; congruence). lia.
      * split; [exact C|]. now exists v.
    + intros (i & _ & C & v & E & B). split; [exact C|]. exists v. split; [exact E|]. now apply in_bin_within in B.
Qed.

(** * Groups *)

Lemma dget_notin {A : Type} (d : dict A) k : ~ In k (map fst d) -> dget d k = None.
Proof.
  induction d as [|[x v] d IH]; intros N; [reflexivity|]. cbn in *.
  destruct (Z.eqb_spec x k) as [E | E]; [exfalso; apply N; now left | apply IH; tauto].
Qed.

Lemma collect_ds_ok {A B : Type} (f : A -> option B) l : forall d, NoDup (map fst d ++ map fst l) ->
  match collect_ds f l d with
  | Some r => exists vs, Forall2 (fun p v => f (snd p) = Some v) l vs /\ r = d ++ combine (map fst l) vs
  | None => exists p, In p l /\ f (snd p) = None
  end.
Proof.
  induction l as [|[k x] l IH]; intros d N; cbn [collect_ds].
  - exists []. split; [constructor|]. now rewrite app_nil_r.
  - destruct (f x) as [v|] eqn:E.
    + assert (D : dset d k v = d ++ [(k, v)]).
      { apply dset_new. cbn [map fst] in N. apply NoDup_remove_2 in N. apply dget_notin. intros I. apply N, in_or_app. now left. }
      rewrite D. specialize (IH (d ++ [(k, v)])).
      destruct (collect_ds f l (d ++ [(k, v)])) as [r|].
      * destruct IH as [vs [F ->]].
        { rewrite map_app, <- app_assoc. exact N. }
        exists (v :: vs). split; [now constructor|]. rewrite <- app_assoc. reflexivity.
      * destruct IH as [p [I H]].
        { rewrite map_app, <- app_assoc. exact N. }
        exists p. split; [now right | exact H].
    + exists (k, x). split; [now left | exact E].
Qed.

Lemma add_up_nth m (cs : list (list nat)) ks : length ks = length cs -> Forall (fun c => length c = m) cs ->
  forall acc, length acc = m -> 
  let r := fold_left (fun a p => map2 Nat.add a (snd p)) (combine ks cs : dict (list nat)) acc in
  length r = m /\ forall i, i < m -> nth i r 0 = nth i acc 0 + list_sum (map (fun c => nth i c 0) cs).
Proof.
  intros L F. revert ks L. induction F as [|c cs H F IH]; intros ks L acc La.
  - destruct ks; cbn; split; try assumption; intros; lia.
  - destruct ks as [|k ks]; [discriminate|]. cbn [combine fold_left snd].
    assert (La' : length (map2 Nat.add acc c) = m) by (rewrite map2_length; congruence).
    destruct (IH ks ltac:(cbn in L; lia) _ La') as [R1 R2]. split; [exact R1|].
    intros i Li. rewrite (R2 i Li). cbn [map list_sum fold_right].
    assert (E : nth i (map2 Nat.add acc c) 0 = nth i acc 0 + nth i c 0).
    { clear - La H Li. revert acc c i La H Li. induction m as [|m IH]; intros acc c i La H Li; [lia|].
      destruct acc as [|x acc]; [discriminate|]. destruct c as [|y c]; [discriminate|].
      destruct i as [|i]; [reflexivity|]. cbn. apply IH; cbn in *; lia. }
    rewrite E. unfold list_sum. lia.
Qed.
Lemma centers_length e : length (centers e) = length e - 1.
Proof. apply (centers_ok e). Qed.
Lemma nth_repeat_0 n i : nth i (repeat 0 n) 0 = 0.
Proof. revert i. induction n as [|n IH]; intros [|i]; cbn; auto. Qed.

Lemma histogram_length vs e c : histogram vs e = Some c -> length c = length e - 1.
Proof.
  unfold histogram. destruct (decreases e); [discriminate|]. intros H. apply some_inj in H. subst c.
  now rewrite diff_length, search_inclusive_length.
Qed.
Lemma ds_hist_length r e t0 tlast cat gf d b c : ds_hist r e t0 tlast cat gf d = Some (b, c) -> b = centers e /\ length c = length e - 1.
Proof.
  unfold ds_hist. destruct (good _ _ _ _) as [gd|]; [|discriminate].
  destruct (and_vec _ gd) as [g1|]; [|discriminate]. destruct (and_vec g1 _) as [g2|]; [|discriminate].
  destruct (match gf with None => _ | Some _ => _ end) as [g|]; [|discriminate].
  destruct (histogram _ e) as [c'|] eqn:E; [|discriminate]. intros H. injection H as <- <-.
  split; [reflexivity|]. now apply histogram_length in E.
Qed.

Lemma sum_up e (ks : list Z) per : length ks = length per -> Forall (fun c => length c = length e - 1) per ->
  sum_of (length e - 1) per (add_up (length (centers e)) (combine ks per)).
Proof.
  intros L F. unfold add_up. rewrite centers_length.
  destruct (add_up_nth (length e - 1) per ks L F (repeat 0 (length e - 1)) (repeat_length _ _)) as [R1 R2].
  split; [exact R1|]. split; [exact F|]. intros i Li. rewrite (R2 i Li), nth_repeat_0. reflexivity.
Qed.

Lemma NoDup_map_filter {A B : Type} (f : A -> B) (p : A -> bool) l : NoDup (map f l) -> NoDup (map f (filter p l)).
Proof.
  induction l as [|x l IH]; cbn [map filter]; intros N; [constructor|]. inversion N as [|? ? H K]; subst.
  destruct (p x); cbn [map]; [|now apply IH]. constructor; [|now apply IH].
  intros I. apply H. apply in_map_iff in I. destruct I as [y [E I]]. apply filter_In in I. apply in_map_iff. exists y. tauto.
Qed.

Lemma Forall2_len {A B : Type} (P : A -> B -> Prop) l m : Forall2 P l m -> length l = length m.
Proof. intros F. induction F; cbn; auto. Qed.
Lemma Forall2_imp {A B : Type} (P Q : A -> B -> Prop) l m : (forall x y, P x y -> Q x y) -> Forall2 P l m -> Forall2 Q l m.
Proof. intros H F. induction F; constructor; auto. Qed.

Lemma tes_hist_ok r s l e t0 tlast cat gf : NoDup (map fst l) ->
  match tes_hist r s l e t0 tlast cat gf with
  | Some (b, c) => b = centers e /\ exists per, sum_of (length e - 1) per c /\
      Forall2 (fun p x => ds_hist r e t0 tlast cat gf (snd p) = Some (b, x)) (good_datasets s l) per /\
      option_map snd (tes_hists r s l e t0 tlast cat gf) = Some (combine (map fst (good_datasets s l)) per)
  | None => exists p, In p (good_datasets s l) /\ ds_hist r e t0 tlast cat gf (snd p) = None
  end.
Proof.
  intros N. unfold tes_hist, tes_hists.
  pose proof (collect_ds_ok (fun d => option_map snd (ds_hist r e t0 tlast cat gf d)) (good_datasets s l) []
                (NoDup_map_filter fst _ l N)) as H.
  destruct (collect_ds _ _ _) as [d|].
  - destruct H as [per [F ->]]. split; [reflexivity|]. exists per. cbn [app].
    assert (F' : Forall2 (fun p x => ds_hist r e t0 tlast cat gf (snd p) = Some (centers e, x)) (good_datasets s l) per).
    { eapply Forall2_imp; [|exact F]. intros p x E. cbn in E.
      destruct (ds_hist r e t0 tlast cat gf (snd p)) as [[b c]|] eqn:G; [|discriminate]. cbn in E. injection E as <-.
      apply ds_hist_length in G as [-> _]. reflexivity. }
    split; [|split; [exact F' | reflexivity]].
    apply sum_up.
    + rewrite map_length. exact (Forall2_len _ _ _ F).
    + clear - F'. induction F' as [|p x l' per H F IH]; constructor; [|exact IH].
      now apply ds_hist_length in H.
  - destruct H as [p [I E]]. exists p. split; [exact I|].
    destruct (ds_hist r e t0 tlast cat gf (snd p)); [discriminate | reflexivity].
Qed.

(** OFF groups *)

Lemma off_hist_ok vs e cal : ordered e ->
  forall v, (match cal with None => Some vs | Some f => f vs end) = Some v ->
  exists c, off_hist (Some vs) e cal = Some (centers e, c) /\ histogram_of (fun i x => in_bin e i x) (length e - 1) v c /\
            (2 <= length e -> tally (within e) v (list_sum c)).
Proof.
  intros O v E. unfold off_hist. rewrite E. destruct (histogram_ok v e O) as (c & H & T). rewrite H.
  exists c. split; [reflexivity|]. split; [exact T|]. intros L. exact (histogram_total e v c O L H).
Qed.

Lemma collect_ok {B : Type} (f : Z -> option B) l : forall d, NoDup (map fst d ++ l) ->
  match collect f l d with
  | Some r => exists vs, Forall2 (fun k v => f k = Some v) l vs /\ r = d ++ combine l vs
  | None => exists k, In k l /\ f k = None
  end.
Proof.
  induction l as [|k l IH]; intros d N; cbn [collect].
  - exists []. split; [constructor|]. now rewrite app_nil_r.
  - destruct (f k) as [v|] eqn:E.
    + assert (D : dset d k v = d ++ [(k, v)]).
      { apply dset_new. apply NoDup_remove_2 in N. apply dget_notin. intros I. apply N, in_or_app. now left. }
      rewrite D. specialize (IH (d ++ [(k, v)])).
      destruct (collect f l (d ++ [(k, v)])) as [r|].
      * destruct IH as [vs [F ->]].
        { rewrite map_app, <- app_assoc. exact N. }
        exists (v :: vs). split; [now constructor|]. rewrite <- app_assoc. reflexivity.
      * destruct IH as [p [I H]].
        { rewrite map_app, <- app_assoc. exact N. }
        exists p. split; [now right | exact H].
    + exists k. split; [now left | exact E].
Qed.

Lemma off_hist_length a e cal b c : off_hist a e cal = Some (b, c) -> b = centers e /\ length c = length e - 1.
Proof.
  unfold off_hist. destruct a as [v|]; [|discriminate].
  destruct (match cal with None => _ | Some _ => _ end) as [v'|]; [|discriminate].
  destruct (histogram v' e) as [c'|] eqn:E; [|discriminate]. intros H. injection H as <- <-.
  split; [reflexivity|]. now apply histogram_length in E.
Qed.

Lemma in_dget_nodup {A : Type} (d : dict A) k v : NoDup (map fst d) -> In (k, v) d -> dget d k = Some v.
Proof.
  induction d as [|[x w] d IH]; intros N I; [contradiction|]. cbn in N. inversion N as [|? ? H K]; subst.
  cbn [dget]. destruct I as [I | I].
  - injection I as -> ->. now rewrite Z.eqb_refl.
  - destruct (Z.eqb_spec x k) as [E | E]; [|now apply IH]. subst. exfalso. apply H.
    apply in_map_iff. exists (k, v). now split.
Qed.

Lemma items_in {C : Type} (g : group C) p : In p (items g) -> In p (chans g).
Proof. unfold items. destruct (incl g); [tauto|]. intros I. now apply filter_In in I. Qed.

Lemma group_hist_ok {C : Type} (attr : chan C -> option (list xval)) (g : group C) e : NoDup (map fst (chans g)) ->
  match group_hist attr g e None with
  | Some (b, c) => b = centers e /\ exists per, sum_of (length e - 1) per c /\
      Forall2 (fun p x => off_hist (attr (snd p)) e None = Some (b, x)) (items g) per
  | None => exists p, In p (items g) /\ off_hist (attr (snd p)) e None = None
  end.
Proof.
  intros N. unfold group_hist, group_hists.
  assert (Nk : NoDup (keys g)).
  { unfold keys, items. destruct (incl g); [exact N | now apply NoDup_map_filter]. }
  pose proof (collect_ok (fun k => match dget (chans g) k with
                          | None => None
                          | Some c => option_map snd (off_hist (attr c) e None)
                          end) (keys g) [] Nk) as H.
  assert (G : forall p, In p (items g) -> dget (chans g) (fst p) = Some (snd p)).
  { intros [k c] I. apply in_dget_nodup; [exact N | now apply items_in]. }
  destruct (collect _ _ _) as [d|].
  - destruct H as [per [F ->]]. split; [reflexivity|]. exists per. cbn [app].
    assert (F' : Forall2 (fun p x => off_hist (attr (snd p)) e None = Some (centers e, x)) (items g) per).
    { unfold keys in F. clear Nk N. revert per F. induction (items g) as [|p l IH]; intros per F; inversion F as [|k x ks xs E K]; subst; constructor.
      - rewrite (G p (or_introl eq_refl)) in E.
        destruct (off_hist (attr (snd p)) e None) as [[b c]|] eqn:X; [|discriminate]. cbn in E. injection E as <-.
        apply off_hist_length in X as [-> _]. reflexivity.
      - apply IH; [|exact K]. intros q I. apply G. now right. }
    split; [|exact F'].
    apply sum_up.
    + unfold keys. rewrite map_length. exact (Forall2_len _ _ _ F').
    + clear - F'. induction F' as [|p x l' per H F IH]; constructor; [|exact IH].
      now apply off_hist_length in H.
  - destruct H as [k [I E]]. unfold keys in I. apply in_map_iff in I. destruct I as [p [<- I]].
    exists p. split; [exact I|]. rewrite (G p I) in E.
    destruct (off_hist (attr (snd p)) e None); [discriminate | reflexivity].
Qed.

Lemma good_datasets_kept s l : kept (fun p => ~ In (fst p) (map fst (bads s))) l (good_datasets s l).
Proof.
  apply kept_filter. intros [k d] _. cbn [fst]. unfold is_bad. rewrite negb_true_iff. split.
  - intros N. now rewrite (dget_notin _ _ N).
  - intros H I. apply in_map_iff in I. destruct I as [[k' v] [E I]]. cbn in E. subst k'.
    assert (X : dget (bads s) k <> None); [|destruct (dget (bads s) k); [discriminate | contradiction]].
    clear H. induction (bads s) as [|[x w] t IH]; [contradiction|]. cbn [dget].
    destruct (Z.eqb_spec x k) as [E | E]; [discriminate|]. destruct I as [I | I]; [congruence | now apply IH].
Qed.

Lemma group_hists_ok {C : Type} (attr : chan C -> option (list xval)) (g : group C) e ks : NoDup ks ->
  let one k := match dget (chans g) k with
               | None => None
               | Some c => option_map snd (off_hist (attr c) e None)
               end in
  match group_hists attr g e (Some ks) with
  | Some (b, d) => b = centers e /\ exists per, Forall2 (fun k x => one k = Some x) ks per /\ d = combine ks per
  | None => exists k, In k ks /\ one k = None
  end.
Proof.
  intros N one. unfold group_hists. pose proof (collect_ok one ks [] N) as H. unfold one in H.
  destruct (collect _ ks []) as [d|]; [|exact H]. split; [reflexivity | exact H].
Qed.
