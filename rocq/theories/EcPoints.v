(** Proofs about sorting and removing points, and about histories. *)
From Coq Require Import Reals ZArith Bool Ascii Lia Lra Permutation Sorted String List.
From Verif Require Import EntModel SplModel SplEval DvModel EcModel EcSpec EcProofs.
Import ListNotations.
Local Open Scope R_scope.
Local Open Scope list_scope.

(** * Removing *)
Lemma settings_refl c : settings_kept c c. Proof. repeat split. Qed.
Lemma settings_trans a b c : settings_kept a b -> settings_kept b c -> settings_kept a c.
Proof. intros (A1 & A2 & A3 & A4) (B1 & B2 & B3 & B4). repeat split; congruence. Qed.

Lemma remove_idx_in c a q b : holds c (a ++ q :: b) ->
  exists c', remove_idx c (length a) = (c', true) /\ holds c' (a ++ b) /\ fresh c' = false /\ settings_kept c c'.
Proof.
  intros (A1 & A2 & A3 & A4 & A5 & A6). unfold remove_idx. rewrite A1, map_length, app_length.
  replace (length a <? length a + length (q :: b))%nat with true by (symmetry; apply Nat.ltb_lt; simpl; lia).
  eexists. split; [reflexivity|]. split; [|split; [reflexivity | repeat split]]. unfold holds. cbn [names phs energies dphs des npts with_points].
  rewrite A2, A3, A4, A5, A6, !without_map. repeat split. rewrite !app_length. simpl. lia.
Qed.
Lemma remove_idx_out c l i : holds c l -> (length l <= i)%nat -> remove_idx c i = (c, false).
Proof. intros (A1 & _) H. unfold remove_idx. rewrite A1, map_length. replace (i <? length l)%nat with false by (symmetry; apply Nat.ltb_ge; exact H). reflexivity. Qed.

Lemma remove_name_in c l s : holds c l -> has_name l s ->
  exists a q b c', l = a ++ q :: b /\ p_name q = s /\ ~ has_name a s /\ remove_name c s = (c', true) /\ holds c' (a ++ b) /\ fresh c' = false /\ settings_kept c c'.
Proof.
  intros H N. unfold remove_name. pose proof H as (A1 & _). rewrite A1. destruct (index_of s (map p_name l)) as [i|] eqn:I.
  - destruct (index_of_some _ _ _ I) as (a & q & b & L1 & <- & L3 & L4). subst l. destruct (remove_idx_in c a q b H) as (c' & R). exists a, q, b, c'. destruct R as (R1 & R2 & R3 & R4). auto 10.
  - destruct (index_of_none _ _ I N).
Qed.
Lemma remove_name_out c l s : holds c l -> ~ has_name l s -> remove_name c s = (c, false).
Proof.
  intros (A1 & _) N. unfold remove_name. rewrite A1. destruct (index_of s (map p_name l)) as [i|] eqn:I; [|reflexivity].
  destruct (index_of_some _ _ _ I) as (a & q & b & L1 & _ & L3 & _). destruct N. exists q. split; [rewrite L1; apply in_elt | exact L3].
Qed.

Lemma starts_with_spec p : forall s, starts_with p s = true <-> begins p s.
Proof.
  induction p as [|a p IH]; intros s; [split; [intros _; exists s; reflexivity | reflexivity]|]. destruct s as [|b s]; cbn [starts_with].
  - split; [discriminate | intros (t & T); discriminate].
  - rewrite andb_true_iff, IH. split.
    + intros (E & t & T). apply Ascii.eqb_eq in E. exists t. subst. reflexivity.
    + intros (t & T). cbn [append] in T. inversion T; subst. split; [apply Ascii.eqb_refl | exists t; reflexivity].
Qed.
Lemma remove_names_prefix p l : forall c u, holds c (u ++ l) -> (forall q, In q u -> starts_with p (p_name q) = false) ->
  exists c', remove_names c (filter (starts_with p) (map p_name l)) = (c', true) /\ holds c' (u ++ filter (fun q => negb (starts_with p (p_name q))) l) /\ settings_kept c c' /\
    (fresh c' = true -> fresh c = true /\ forall q, In q l -> starts_with p (p_name q) = false).
Proof.
  induction l as [|x l IH]; intros c u H U; cbn [map filter].
  - exists c. cbn [remove_names]. repeat split; try exact H; try apply H; auto. intros q [].
  - destruct (starts_with p (p_name x)) eqn:S; cbn [negb].
    + cbn [remove_names]. assert (N : has_name (u ++ x :: l) (p_name x)) by (exists x; split; [apply in_elt | reflexivity]).
      destruct (remove_name_in c _ _ H N) as (a & q & b & c' & L & Q & NA & R & H' & F & K).
      destruct (mid_split (fun r => p_name r = p_name x) u l a b x q L eq_refl Q) as (<- & <- & <-).
      { intros r R' E. rewrite <- E in S. specialize (U r R'). congruence. }
      { intros r R' E. apply NA. exists r; auto. }
      rewrite R. destruct (IH c' u H' U) as (d & D1 & D2 & D3 & D4). exists d. split; [exact D1|]. split; [exact D2|]. split; [exact (settings_trans _ _ _ K D3)|].
      intro Z. destruct (D4 Z) as (Z1 & _). congruence.
    + destruct (IH c (u ++ [x])) as (d & D1 & D2 & D3 & D4).
      * rewrite <- app_assoc. exact H.
      * intros q Q. apply in_app_or in Q. destruct Q as [Q | [<- | []]]; [apply U, Q | exact S].
      * exists d. rewrite <- app_assoc in D2. split; [exact D1|]. split; [exact D2|]. split; [exact D3|]. intro Z. destruct (D4 Z) as (Z1 & Z2). split; [exact Z1|]. intros q [<- | Q]; [exact S | apply Z2, Q].
Qed.

Lemma positions_app f l m : forall i, positions f i (l ++ m) = positions f i l ++ positions f (i + length l) m.
Proof.
  induction l as [|x l IH]; intros i; cbn [app positions length]; [rewrite Nat.add_0_r; reflexivity|]. rewrite IH. replace (S i + length l)%nat with (i + S (length l))%nat by lia. destruct (f x); reflexivity.
Qed.
Lemma positions_none f l : forall i, (forall x, In x l -> f x = false) -> positions f i l = [].
Proof. induction l as [|x l IH]; intros i H; cbn [positions]; [reflexivity|]. rewrite (H x (or_introl eq_refl)). apply IH. intros y Y. apply H. right. exact Y. Qed.
Lemma positions_above f l : forall i j, In j (positions f i l) -> (i <= j < i + length l)%nat.
Proof. induction l as [|x l IH]; intros i j H; cbn [positions] in H; [destruct H|]. destruct (f x); [destruct H as [<- | H]; [simpl; lia|]|]; specialize (IH _ _ H); simpl; lia. Qed.
Lemma positions_sorted f l : forall i, StronglySorted lt (positions f i l).
Proof.
  induction l as [|x l IH]; intros i; cbn [positions]; [constructor|]. destruct (f x); [|apply IH]. constructor; [apply IH|]. apply Forall_forall. intros j J. apply positions_above in J. lia.
Qed.
Lemma part_refl {A} (l : list A) : part_of l l. Proof. induction l; constructor; assumption. Qed.
Lemma part_app {A} (a b c d : list A) : part_of a b -> part_of c d -> part_of (a ++ c) (b ++ d).
Proof. intros P Q. induction P; [exact Q | cbn; constructor; assumption | cbn; constructor; assumption]. Qed.
Lemma part_trans {A} (a b c : list A) : part_of a b -> part_of b c -> part_of a c.
Proof. intros P Q. revert a P. induction Q as [|x l m Q IH | x l m Q IH]; intros a P; [exact P | inversion P; subst; constructor; apply IH; assumption | constructor; apply IH, P]. Qed.
Lemma part_out {A} (a b : list A) x : part_of (a ++ b) (a ++ x :: b). Proof. apply part_app; [apply part_refl | constructor; apply part_refl]. Qed.
(** Removals at positions after those of u do not touch u. *)
Lemma remove_idxs_keeps ix : forall c u v, holds c (u ++ v) -> StronglySorted lt ix -> (forall i, In i ix -> (length u <= i)%nat) ->
  exists c' b w, remove_idxs c ix = (c', b) /\ holds c' (u ++ w) /\ settings_kept c c' /\ part_of w v.
Proof.
  induction ix as [|i ix IH]; intros c u v H S L; cbn [remove_idxs]; [exists c, true, v; repeat split; try apply H; apply part_refl|].
  inversion S as [|? ? S' F]; subst. destruct (Nat.lt_ge_cases i (length (u ++ v))) as [I | I].
  - assert (Li : (length u <= i)%nat) by (apply L; left; reflexivity). rewrite app_length in I.
    destruct (nth_split v (mkPoint "" 0 0 0 0) (n := i - length u)) as (v1 & v2 & V1 & V2); [lia|]. set (q := nth (i - length u) v (mkPoint "" 0 0 0 0)) in *.
    rewrite V1 in H. rewrite app_assoc in H. destruct (remove_idx_in c (u ++ v1) q v2 H) as (c' & R & H' & _ & K).
    replace (length (u ++ v1)) with i in R by (rewrite app_length; lia). rewrite R. rewrite <- app_assoc in H'. destruct (IH c' u (v1 ++ v2) H' S') as (d & b & w & D1 & D2 & D3 & D4).
    + intros j J. rewrite Forall_forall in F. specialize (F j J). lia.
    + exists d, b, w. split; [exact D1|]. split; [exact D2|]. split; [exact (settings_trans _ _ _ K D3)|]. rewrite V1. exact (part_trans _ _ _ D4 (part_out v1 v2 q)).
  - rewrite (remove_idx_out c _ i H I). exists c, false, v. repeat split; try apply H. apply part_refl.
Qed.

Definition within (energy de : R) (q : point) : bool := rltb (Rabs (p_energy q - energy)) de.
Lemma within_spec energy de q : within energy de q = true <-> Rabs (p_energy q - energy) < de. Proof. apply rltb_true. Qed.
Lemma not_within energy de l : (forall r, In r l -> ~ Rabs (p_energy r - energy) < de) -> forall x, In x (map p_energy l) -> rltb (Rabs (x - energy)) de = false.
Proof. intros H x X. apply in_map_iff in X. destruct X as (r & <- & R). apply not_true_is_false. intro T. apply rltb_true in T. exact (H r R T). Qed.

Lemma remove_energy_none c l energy de : holds c l -> (forall r, In r l -> ~ Rabs (p_energy r - energy) < de) -> remove_energy c energy de = (c, true).
Proof. intros (_ & _ & A3 & _) N. unfold remove_energy. rewrite A3, (positions_none _ _ _ (not_within _ _ _ N)). reflexivity. Qed.
Lemma remove_energy_one c a q b energy de : holds c (a ++ q :: b) -> Rabs (p_energy q - energy) < de -> (forall r, In r (a ++ b) -> ~ Rabs (p_energy r - energy) < de) ->
  exists c', remove_energy c energy de = (c', true) /\ holds c' (a ++ b) /\ fresh c' = false /\ settings_kept c c'.
Proof.
  intros H Q N. destruct (remove_idx_in c a q b H) as (c' & R & H' & F & K). exists c'. split; [|auto]. unfold remove_energy. destruct H as (_ & _ & A3 & _). rewrite A3, map_mid, positions_app.
  rewrite (positions_none _ (map p_energy a)) by (apply not_within; intros r X; apply N, in_or_app; left; exact X). cbn [app positions].
  rewrite (positions_none _ (map p_energy b)) by (apply not_within; intros r X; apply N, in_or_app; right; exact X).
  replace (rltb (Rabs (p_energy q - energy)) de) with true by (symmetry; apply rltb_true; exact Q). rewrite map_length. cbn [Nat.add remove_idxs]. rewrite R. reflexivity.
Qed.
Lemma remove_energy_two c a q b q' d energy de : holds c (a ++ q :: b ++ q' :: d) -> Rabs (p_energy q - energy) < de -> Rabs (p_energy q' - energy) < de ->
  (forall r, In r (a ++ b) -> ~ Rabs (p_energy r - energy) < de) ->
  exists c' f w, remove_energy c energy de = (c', f) /\ holds c' (a ++ b ++ q' :: w) /\ settings_kept c c' /\ part_of w d.
Proof.
  intros H Q Q' N. destruct (remove_idx_in c a q (b ++ q' :: d) H) as (c1 & R & H' & F & K). unfold remove_energy. destruct H as (_ & _ & A3 & _).
  rewrite A3, map_mid, positions_app, map_mid. rewrite (positions_none _ (map p_energy a)) by (apply not_within; intros r X; apply N, in_or_app; left; exact X). cbn [app positions].
  replace (rltb (Rabs (p_energy q - energy)) de) with true by (symmetry; apply rltb_true; exact Q). rewrite map_length. cbn [Nat.add remove_idxs]. rewrite R.
  set (ix := positions _ _ _). replace (a ++ b ++ q' :: d) with ((a ++ b ++ [q']) ++ d) in H' by (rewrite <- !app_assoc; reflexivity).
  destruct (remove_idxs_keeps ix c1 (a ++ b ++ [q']) d H') as (c' & f & w & D1 & D2 & D3 & D4).
  - apply positions_sorted.
  - intros i I. unfold ix in I. rewrite positions_app, (positions_none _ (map p_energy b)) in I by (apply not_within; intros r X; apply N, in_or_app; right; exact X).
    apply positions_above in I. rewrite map_length in I. rewrite !app_length. simpl. lia.
  - exists c', f, w. rewrite <- !app_assoc in D2. split; [exact D1|]. split; [exact D2|]. split; [exact (settings_trans _ _ _ K D3) | exact D4].
Qed.

(** * Sorting *)
Lemma picked_map {A B} (f : A -> B) d d' l o : (forall i, In i o -> (i < length l)%nat) -> picked d (map f l) o = map f (picked d' l o).
Proof.
  intro H. unfold picked. rewrite map_map. apply map_ext_in. intros i I. rewrite (nth_indep _ d (f d')) by (rewrite map_length; apply H, I). apply map_nth.
Qed.
Lemma picked_perm {A} (d : A) l o : Permutation o (seq 0 (length l)) -> Permutation (picked d l o) l.
Proof.
  intro P. transitivity (picked d l (seq 0 (length l))); [apply Permutation_map, P|]. replace (picked d l (seq 0 (length l))) with l; [reflexivity|].
  apply (nth_ext _ _ d d); [unfold picked; rewrite map_length, seq_length; reflexivity|]. intros n N. unfold picked.
  rewrite (nth_indep (map _ _) d (nth 0%nat l d)) by (rewrite map_length, seq_length; exact N). rewrite (map_nth (fun i => nth i l d)), seq_nth by exact N. reflexivity.
Qed.
Lemma order_in {A} (l : list A) o : Permutation o (seq 0 (length l)) -> forall i, In i o -> (i < length l)%nat.
Proof. intros P i I. apply (Permutation_in _ P), in_seq in I. lia. Qed.
Lemma order_length {A} (l : list A) o : Permutation o (seq 0 (length l)) -> length o = length l.
Proof. intro P. rewrite (Permutation_length P). apply seq_length. Qed.

Definition nopoint := mkPoint "" 0 0 0 0.
Lemma nth_mid_two {A} (d : A) m a p b q c : m = a ++ p :: b ++ q :: c -> nth (length a) m d = p /\ nth (length a + S (length b)) m d = q /\ (length a <= length a + S (length b) < length m)%nat.
Proof.
  intros ->. split; [rewrite app_nth2, Nat.sub_diag; [reflexivity | lia]|]. split.
  - rewrite app_nth2 by lia. replace (length a + S (length b) - length a)%nat with (S (length b)) by lia. cbn [nth]. rewrite app_nth2, Nat.sub_diag; [reflexivity | lia].
  - rewrite !app_length. cbn [length]. rewrite app_length. cbn [length]. lia.
Qed.

Lemma sorted_nth (l : list R) : (forall i j, (i <= j < length l)%nat -> nth i l 0 <= nth j l 0) -> StronglySorted Rle l.
Proof.
  induction l as [|x l IH]; intro H; constructor.
  - apply IH. intros i j I. apply (H (S i) (S j)). simpl. lia.
  - apply Forall_forall. intros y Y. apply (In_nth _ _ 0) in Y. destruct Y as (n & N & <-). apply (H 0%nat (S n)). simpl. lia.
Qed.
Lemma picked_nth {A} (d : A) l o i : (i < length o)%nat -> nth i (picked d l o) d = nth (nth i o 0%nat) l d.
Proof. intro I. unfold picked. rewrite (nth_indep _ d (nth 0%nat l d)) by (rewrite map_length; exact I). apply (map_nth (fun i => nth i l d)). Qed.
Lemma sorted_list_unique (l : list R) : forall m, StronglySorted Rle l -> StronglySorted Rle m -> Permutation l m -> l = m.
Proof.
  induction l as [|x l IH]; intros [|y m] S T P; [reflexivity | apply Permutation_nil in P; discriminate | symmetry in P; apply Permutation_nil in P; discriminate|].
  inversion S as [|? ? S' F]; subst. inversion T as [|? ? T' G]; subst. rewrite Forall_forall in F, G.
  assert (E : x = y).
  { assert (X : In x (y :: m)) by (apply (Permutation_in _ P); left; reflexivity). assert (Y : In y (x :: l)) by (apply (Permutation_in _ (Permutation_sym P)); left; reflexivity).
    destruct X as [-> | X]; [reflexivity|]. destruct Y as [-> | Y]; [reflexivity|]. apply Rle_antisym; [apply F, Y | apply G, X]. }
  subst y. f_equal. apply IH; [exact S' | exact T' | exact (Permutation_cons_inv P)].
Qed.
Definition orders (l : list R) (o : list nat) : Prop :=
  Permutation o (seq 0 (length l)) /\ forall i j, (i <= j < length l)%nat -> nth (nth i o 0%nat) l 0 <= nth (nth j o 0%nat) l 0.
Lemma orders_sorted l o : orders l o -> StronglySorted Rle (picked 0 l o).
Proof.
  intros (P & S). pose proof (order_length _ _ P) as L. assert (Lp : length (picked 0 l o) = length l) by (unfold picked; rewrite map_length; exact L).
  apply sorted_nth. intros i j I. rewrite Lp in I. rewrite !picked_nth by lia. apply S, I.
Qed.
Lemma orders_unique l o o' : NoDup l -> orders l o -> orders l o' -> o = o'.
Proof.
  intros N O O'. assert (E : picked 0 l o = picked 0 l o').
  { apply sorted_list_unique; [apply orders_sorted, O | apply orders_sorted, O'|]. rewrite (picked_perm 0 l o), (picked_perm 0 l o'); [reflexivity | apply O' | apply O]. }
  destruct O as (P & _), O' as (P' & _). pose proof (order_length _ _ P) as L. pose proof (order_length _ _ P') as L'.
  apply (nth_ext _ _ 0%nat 0%nat); [congruence|]. intros i I. rewrite (NoDup_nth l 0) in N. apply N.
  - apply (order_in _ _ P), nth_In, I.
  - apply (order_in _ _ P'), nth_In. congruence.
  - rewrite <- !picked_nth by congruence. rewrite E. reflexivity.
Qed.

Lemma positive_errors_map (get : point -> R) (l : list point) : exists f, positive_errors (map get l) = map f l /\ forall p, In p l -> forall q, get q = f p -> mended get l p q.
Proof.
  unfold positive_errors. set (pos := filter (fun x => rltb 0 x) (map get l)). assert (PI : forall x, In x pos <-> exists r, In r l /\ 0 < get r /\ x = get r).
  { intro x. unfold pos. rewrite filter_In, in_map_iff, rltb_true. split; [intros ((r & <- & R) & X); exists r; auto | intros (r & R & X & ->); split; [exists r; auto | exact X]]. }
  destruct (existsb (fun x => rleb x 0) (map get l)) eqn:EX.
  - destruct pos as [|x0 t] eqn:PE.
    + exists (fun _ => 0). split; [rewrite !map_map; reflexivity|]. intros p P q E. assert (A : forall r, In r l -> get r <= 0).
      { intros r R. apply Rnot_lt_le. intro X. destruct (proj2 (PI (get r))). exists r; auto. }
      repeat split.
      * intro X. specialize (A p P). lra.
      * intros _ (r & R & X). specialize (A r R). lra.
      * intros _ _. exact E.
    + exists (fun p => if rleb (get p) 0 then rmin_list (x0 :: t) else get p). split; [rewrite map_map; reflexivity|].
      assert (M : In (rmin_list (x0 :: t)) (x0 :: t) /\ forall y, In y (x0 :: t) -> rmin_list (x0 :: t) <= y).
      { unfold rmin_list. cbn [hd]. assert (G : forall u, let m := fold_right Rmin x0 u in (m = x0 \/ In m u) /\ m <= x0 /\ forall y, In y u -> m <= y).
        { induction u as [|z u (I1 & I2 & I3)]; cbn [fold_right]; [repeat split; [left; reflexivity | lra | intros y []]|].
          repeat split.
          - destruct (Rle_dec z (fold_right Rmin x0 u)) as [Z | Z]; [rewrite Rmin_left by exact Z; right; left; reflexivity | rewrite Rmin_right by lra; destruct I1 as [I1 | I1]; [left; exact I1 | right; right; exact I1]].
          - eapply Rle_trans; [apply Rmin_r | exact I2].
          - intros y [<- | Y]; [apply Rmin_l | eapply Rle_trans; [apply Rmin_r | apply I3, Y]]. }
        destruct (G (x0 :: t)) as (G1 & _ & G3). split; [destruct G1 as [G1 | G1]; [rewrite G1; left; reflexivity | exact G1] | exact G3]. }
      destruct M as (M1 & M2). apply PI in M1. destruct M1 as (r & R1 & R2 & R3).
      intros p P q E. repeat split.
      * intro X. rewrite E. destruct (rleb (get p) 0) eqn:B; [apply rleb_true in B; lra | reflexivity].
      * intros X _. exists r. split; [exact R1|]. split; [exact R2|]. split.
        -- rewrite E. replace (rleb (get p) 0) with true by (symmetry; apply rleb_true, X). exact R3.
        -- intros s S1 S2. rewrite <- R3. apply M2, PI. exists s; auto.
      * intros X A. specialize (A r R1). lra.
  - exists get. split; [reflexivity|]. intros p P q E. assert (A : 0 < get p).
    { apply Rnot_le_lt. intro X. apply not_true_iff_false in EX. apply EX. apply existsb_exists. exists (get p). split; [apply in_map, P | apply rleb_true, X]. }
    repeat split; [intros _; exact E | intros X; lra | intros X; lra].
Qed.

Section World.
Variable argsort : list R -> list nat.
Hypothesis sorting : sorts argsort.
Variables parse features : string -> option R.
Variable smoothing : curvetype -> bool -> list R -> list R -> list R -> list R -> option curve.

Lemma agrees_not_decreasing c l : holds c l -> agrees argsort c = true -> not_decreasing l.
Proof.
  intros (_ & A2 & A3 & _) A p q P Q H. unfold agrees in A. destruct (list_eq_dec Nat.eq_dec (argsort (phs c)) (argsort (energies c))) as [E|]; [clear A | discriminate].
  rewrite A2, A3 in E. destruct (sorting (map p_ph l)) as (P1 & S1). destruct (sorting (map p_energy l)) as (_ & S2). rewrite map_length in P1, S1, S2. set (o := argsort (map p_ph l)) in *. rewrite <- E in S2.
  assert (F : forall r, In r l -> exists k, (k < length l)%nat /\ nth (nth k o 0%nat) l nopoint = r).
  { intros r R. apply (In_nth _ _ nopoint) in R. destruct R as (n & N & <-). assert (I : In n o) by (apply (Permutation_in _ (Permutation_sym P1)), in_seq; lia).
    apply (In_nth _ _ 0%nat) in I. destruct I as (k & K & <-). exists k. split; [rewrite <- (order_length l o P1); exact K | reflexivity]. }
  destruct (F p P) as (i & I1 & I2). destruct (F q Q) as (j & J1 & J2).
  assert (VAL : forall (f : point -> R) k, (k < length l)%nat -> nth (nth k o 0%nat) (map f l) 0 = f (nth (nth k o 0%nat) l nopoint)).
  { intros f k K. rewrite (nth_indep _ 0 (f nopoint)); [apply map_nth|]. rewrite map_length. apply (order_in _ _ P1), nth_In. rewrite (order_length l o P1). exact K. }
  destruct (Nat.le_gt_cases i j) as [IJ | IJ].
  - specialize (S2 i j (conj IJ J1)). rewrite !VAL in S2 by assumption. rewrite I2, J2 in S2. exact S2.
  - specialize (S1 j i). rewrite !VAL in S1 by assumption. rewrite I2, J2 in S1. assert (X : (j <= i < length l)%nat) by lia. specialize (S1 X). lra.
Qed.
Lemma agrees_increasing c l : holds c l -> NoDup (map p_ph l) -> NoDup (map p_energy l) -> (agrees argsort c = true <-> increasing l).
Proof.
  intros H N1 N2. assert (INJ : forall (f : point -> R), NoDup (map f l) -> forall p q, In p l -> In q l -> f p = f q -> p = q).
  { intros f N p q P Q E. destruct (in_split _ _ P) as (a & b & L). rewrite L in Q, N. rewrite map_mid in N. apply NoDup_remove_2 in N. apply in_app_or in Q. destruct Q as [Q | [Q | Q]]; [|exact Q|].
    - destruct N. apply in_or_app. left. rewrite E. apply in_map, Q.
    - destruct N. apply in_or_app. right. rewrite E. apply in_map, Q. }
  split.
  - intros A p q P Q. pose proof (agrees_not_decreasing c l H A) as ND. split; intro L.
    + destruct (ND p q P Q L) as [X | X]; [exact X|]. rewrite (INJ p_energy N2 p q P Q X) in L. lra.
    + destruct (Rtotal_order (p_ph p) (p_ph q)) as [X | [X | X]]; [exact X | rewrite (INJ p_ph N1 p q P Q X) in L; lra |]. specialize (ND q p Q P X). lra.
  - intro I. destruct H as (_ & A2 & A3 & _). unfold agrees. rewrite A2, A3. destruct (list_eq_dec Nat.eq_dec (argsort (map p_ph l)) (argsort (map p_energy l))) as [E|E]; [reflexivity|]. destruct E.
    apply (orders_unique (map p_energy l)); [exact N2 | | apply sorting]. destruct (sorting (map p_ph l)) as (P1 & S1). rewrite map_length in P1, S1. split; rewrite map_length; [exact P1|].
    intros i j IJ. specialize (S1 i j IJ). set (o := argsort (map p_ph l)) in *.
    assert (VAL : forall (f : point -> R) k, (k < length l)%nat -> nth (nth k o 0%nat) (map f l) 0 = f (nth (nth k o 0%nat) l nopoint) /\ In (nth (nth k o 0%nat) l nopoint) l).
    { intros f k K. assert (B : (nth k o 0 < length l)%nat) by (apply (order_in _ _ P1), nth_In; rewrite (order_length l o P1); exact K).
      split; [rewrite (nth_indep _ 0 (f nopoint)); [apply map_nth | rewrite map_length; exact B] | apply nth_In, B]. }
    destruct (VAL p_ph i) as (V1 & B1); [lia|]. destruct (VAL p_ph j) as (V2 & B2); [lia|]. destruct (VAL p_energy i) as (V3 & _); [lia|]. destruct (VAL p_energy j) as (V4 & _); [lia|].
    rewrite V1, V2 in S1. rewrite V3, V4. apply Rnot_lt_le. intro X. apply I in X; [lra | exact B2 | exact B1].
Qed.

Lemma sorted_holds c l : holds c l -> exists m, by_height l m /\ holds (sorted_points argsort c) m.
Proof.
  intros (A1 & A2 & A3 & A4 & A5 & A6). destruct (sorting (phs c)) as (P & S). rewrite A2, map_length in P, S. pose proof (order_in _ _ P) as OI.
  exists (picked nopoint l (argsort (phs c))). rewrite A2. set (o := argsort (map p_ph l)) in *. split.
  - split; [apply picked_perm, P|]. intros a p b q d M. destruct (nth_mid_two nopoint _ a p b q d M) as (E1 & E2 & E3). unfold picked in E3. rewrite map_length in E3.
    rewrite picked_nth in E1 by lia. rewrite picked_nth in E2 by lia. specialize (S (length a) (length a + Datatypes.S (length b))%nat). rewrite (order_length l o P) in E3. specialize (S E3).
    rewrite (map_nth p_ph l nopoint (nth (length a) o 0%nat) : nth _ _ 0 = _), (map_nth p_ph l nopoint (nth (length a + Datatypes.S (length b)) o 0%nat) : nth _ _ 0 = _), E1, E2 in S. exact S.
  - unfold holds, sorted_points. cbn [names phs energies dphs des npts with_points]. rewrite A1, A2, A3, A4, A5. fold o.
    rewrite (picked_map p_name _ nopoint), (picked_map p_ph _ nopoint), (picked_map p_energy _ nopoint), (picked_map p_dph _ nopoint), (picked_map p_de _ nopoint) by exact OI.
    repeat split. rewrite A6. unfold picked. rewrite map_length, (order_length l o P). reflexivity.
Qed.

Lemma update_holds c l : holds c l -> exists c' b m n, update_converters argsort smoothing c = (c', b) /\ settings_kept c c' /\ by_height l m /\ holds c' n /\
  (b = false -> fresh c' = fresh c) /\
  Forall2 (fun p q => same_but_errors p q /\ (n = m \/ (approximate c = true /\ (3 <= length l)%nat /\ mended p_dph m p q /\ mended p_de m p q))) m n.
Proof.
  intro H. destruct (sorted_holds c l H) as (m & B & HM). pose proof (Permutation_length (proj1 B)) as BL.
  assert (SAME : forall X : point -> point -> Prop, Forall2 (fun p q => same_but_errors p q /\ (m = m \/ X p q)) m m).
  { intro X. assert (G : forall l0 : list point, Forall2 (fun p q => same_but_errors p q /\ (m = m \/ X p q)) l0 l0) by (induction l0; constructor; [split; [repeat split | left; reflexivity] | assumption]). apply G. }
  unfold update_converters. assert (K : settings_kept c (sorted_points argsort c)) by (repeat split). assert (FR : fresh (sorted_points argsort c) = fresh c) by reflexivity. set (d := sorted_points argsort c) in *. clearbody d.
  destruct (sample_points (phs d)) as [pts|].
  2:{ exists d, false, m, m. split; [reflexivity|]. split; [exact K|]. split; [exact B|]. split; [exact HM|]. split; [intros _; exact FR | apply SAME]. }
  assert (KA : approximate d = approximate c) by apply K.
  destruct (approximate d && (3 <=? npts d)%nat) eqn:AP.
  - apply andb_true_iff in AP. destruct AP as (AP1 & AP2). apply Nat.leb_le in AP2. pose proof HM as (M1 & M2 & M3 & M4 & M5 & M6).
    destruct (positive_errors_map p_dph m) as (f & F1 & F2). destruct (positive_errors_map p_de m) as (g & G1 & G2).
    set (n := map (fun p => mkPoint (p_name p) (p_ph p) (p_energy p) (f p) (g p)) m).
    set (d2 := with_points d (names d) (phs d) (energies d) (positive_errors (dphs d)) (positive_errors (des d)) (npts d) (fresh d)).
    assert (HN : holds d2 n).
    { unfold holds, d2, n. cbn [names phs energies dphs des npts with_points]. rewrite !map_map, map_length. cbn [p_name p_ph p_energy p_dph p_de]. rewrite M4, M5, F1, G1. repeat split; assumption. }
    assert (FA : Forall2 (fun p q => same_but_errors p q /\ (n = m \/ (approximate c = true /\ (3 <= length l)%nat /\ mended p_dph m p q /\ mended p_de m p q))) m n).
    { assert (G : forall u, incl u m -> Forall2 (fun p q => same_but_errors p q /\ (n = m \/ (approximate c = true /\ (3 <= length l)%nat /\ mended p_dph m p q /\ mended p_de m p q))) u
          (map (fun p => mkPoint (p_name p) (p_ph p) (p_energy p) (f p) (g p)) u)).
      { induction u as [|x u IH]; intro I; cbn [map]; constructor; [|apply IH; intros y Y; apply I; right; exact Y]. split; [repeat split|]. right.
        split; [congruence|]. split; [lia|]. split; [apply F2; [apply I; left; reflexivity | reflexivity] | apply G2; [apply I; left; reflexivity | reflexivity]]. }
      apply G, incl_refl. }
    change (phs d2) with (phs d). change (energies d2) with (energies d).
    destruct (smoothing _ _ _ _ _ _) as [h|].
    + exists (converted d2 h pts), true, m, n. split; [reflexivity|]. split; [exact K|]. split; [exact B|]. split; [exact HN|]. split; [discriminate | exact FA].
    + exists d2, false, m, n. split; [reflexivity|]. split; [exact K|]. split; [exact B|]. split; [exact HN|]. split; [intros _; exact FR | exact FA].
  - destruct (exact_curve _ _ _ _) as [h|]; [destruct (gain_ok _ _ _)|].
    + exists (converted d (call h) pts), true, m, m. split; [reflexivity|]. split; [exact K|]. split; [exact B|]. split; [exact HM|]. split; [discriminate | apply SAME].
    + exists d, false, m, m. split; [reflexivity|]. split; [exact K|]. split; [exact B|]. split; [exact HM|]. split; [intros _; exact FR | apply SAME].
    + exists d, false, m, m. split; [reflexivity|]. split; [exact K|]. split; [exact B|]. split; [exact HM|]. split; [intros _; exact FR | apply SAME].
Qed.

End World.
