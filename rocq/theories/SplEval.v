(** Proofs about CubicSpline: the constructed object and its parts. *)
From Coq Require Import Reals ZArith Bool Lra Lia Permutation Sorted List.
From Verif Require Import EntModel SplModel SplSpec SplProofs.
Import ListNotations.
Local Open Scope R_scope.

(** * Sorting *)

Lemma rleb_true a b : rleb a b = true <-> a <= b.
Proof. unfold rleb. destruct (Rle_dec a b); split; intros; try assumption; try reflexivity; try discriminate; contradiction. Qed.
Lemma rltb_true a b : rltb a b = true <-> a < b.
Proof. unfold rltb. destruct (Rlt_dec a b); split; intros; try assumption; try reflexivity; try discriminate; contradiction. Qed.

Lemma insert_pair_perm p l : Permutation (p :: l) (insert_pair p l).
Proof.
  induction l as [|q l IH]; [apply Permutation_refl|]. cbn. destruct (rleb (fst p) (fst q)); [apply Permutation_refl|].
  eapply Permutation_trans; [apply perm_swap|]. apply perm_skip. exact IH.
Qed.
Lemma sort_pairs_perm l : Permutation l (sort_pairs l).
Proof.
  induction l as [|p l IH]; [apply Permutation_refl|]. cbn. eapply Permutation_trans; [apply perm_skip, IH | apply insert_pair_perm].
Qed.
Definition below (p q : R * R) : Prop := fst p < fst q.
Lemma insert_pair_sorted p l : ~ In (fst p) (map fst l) -> StronglySorted below l -> StronglySorted below (insert_pair p l).
Proof.
  intros N H. induction H as [|q l Hl IH Hq]; [repeat constructor|]. cbn.
  destruct (rleb (fst p) (fst q)) eqn:E.
  - apply rleb_true in E. assert (L : fst p < fst q).
    { destruct (Req_dec (fst p) (fst q)) as [C|C]; [exfalso; apply N; left; symmetry; exact C | lra]. }
    constructor; [constructor; assumption|]. constructor; [exact L|].
    eapply Forall_impl; [|exact Hq]. intros r Hr. unfold below in *. lra.
  - constructor; [apply IH; intros C; apply N; right; exact C|].
    assert (L : fst q < fst p). { destruct (Rlt_dec (fst q) (fst p)) as [C|C]; [exact C|]. assert (D : rleb (fst p) (fst q) = true) by (apply rleb_true; lra). congruence. }
    apply Forall_forall. intros r Hr. apply (Permutation_in _ (Permutation_sym (insert_pair_perm p l))) in Hr.
    destruct Hr as [<-|Hr]; [exact L|]. rewrite Forall_forall in Hq. apply Hq. exact Hr.
Qed.
Lemma sort_pairs_sorted l : NoDup (map fst l) -> StronglySorted below (sort_pairs l).
Proof.
  induction l as [|p l IH]; intros H; [constructor|]. cbn in *. inversion H as [|a b N D]; subst.
  apply insert_pair_sorted; [|apply IH; exact D]. intros C. apply N.
  apply (Permutation_in _ (Permutation_sym (Permutation_map fst (sort_pairs_perm l)))). exact C.
Qed.
Lemma map_fst_combine (xs ys : list R) : (length xs <= length ys)%nat -> map fst (combine xs ys) = xs.
Proof. revert ys; induction xs as [|x xs IH]; intros [|y ys] H; cbn in *; [reflexivity|reflexivity|lia|]. f_equal. apply IH. lia. Qed.

(** Two lists in strict order with the same elements are the same. *)
Lemma sorted_unique l l' : StronglySorted below l -> StronglySorted below l' -> Permutation l l' -> l = l'.
Proof.
  intros H. revert l'. induction H as [|p l Hl IH Hp]; intros l' H' P.
  - apply Permutation_nil in P. symmetry. exact P.
  - destruct H' as [|q l' Hl' Hq].
    + apply Permutation_sym, Permutation_nil in P. discriminate.
    + assert (E : p = q).
      { assert (A : In q (p :: l)) by (apply (Permutation_in _ (Permutation_sym P)); left; reflexivity).
        assert (B : In p (q :: l')) by (apply (Permutation_in _ P); left; reflexivity).
        destruct A as [A|A]; [exact A|]. destruct B as [B|B]; [symmetry; exact B|].
        rewrite Forall_forall in Hp, Hq. apply Hp in A. apply Hq in B. unfold below in *. lra. }
      subst q. f_equal. apply IH; [exact Hl'|]. eapply Permutation_cons_inv. exact P.
Qed.

Lemma nth_map_fst (l : list (R * R)) i : nth i (map fst l) 0 = px l i.
Proof. unfold px. change 0 with (fst (0, 0)) at 1. apply map_nth. Qed.
Lemma nth_map_snd (l : list (R * R)) i : nth i (map snd l) 0 = py l i.
Proof. unfold py. change 0 with (snd (0, 0)) at 1. apply map_nth. Qed.
Lemma sorted_px l : StronglySorted below l -> forall i j, (i < j < length l)%nat -> px l i < px l j.
Proof.
  intros H. induction H as [|p l Hl IH Hp]; intros i j Hij; [cbn in Hij; lia|].
  destruct j as [|j]; [lia|]. destruct i as [|i].
  - unfold px. cbn [nth]. rewrite Forall_forall in Hp. apply (Hp (nth j l (0, 0))). apply nth_In. cbn in Hij. lia.
  - unfold px in *. cbn [nth]. apply IH. cbn in Hij. lia.
Qed.
Lemma steps_nth l i : (S i < length l)%nat -> nth i (steps l) 0 = nth (S i) l 0 - nth i l 0.
Proof.
  revert i. induction l as [|a l IH]; intros i H; [cbn in H; lia|]. destruct l as [|b l]; [cbn in H; lia|].
  destruct i as [|i]; [reflexivity|]. exact (IH i ltac:(cbn in *; lia)).
Qed.

(** * The constructed object *)

Record built (s : spline) (l : list (R * R)) (yp1 ypN : option R) (M : nat -> R) : Prop := {
  b_len : (2 <= length l)%nat;
  b_sorted : StronglySorted below l;
  b_x : kx s = map fst l;
  b_y : ky s = map snd l;
  b_m : forall i, (i < length l)%nat -> nth i (ky2 s) 0 = M i;
  b_dx : forall i, (S i < length l)%nat -> nth i (xstep s) 0 = px l (S i) - px l i;
  b_inner : inner_eq (px l) (py l) (length l) M;
  b_start : start_eq (px l) (py l) yp1 M;
  b_end : end_eq (px l) (py l) (length l) ypN M;
  b_s1 : slope1 s = cub_b (px l 1 - px l 0) (py l 0) (py l 1) (M 0%nat) (M 1%nat);
  b_g1 : forall v, yp1 = Some v -> slope1 s = v;
  b_sN : let n := length l in slopeN s = chord (px l) (py l) (n - 2) + (px l (n - 1) - px l (n - 2)) * (M (n - 2)%nat / 6 + M (n - 1)%nat / 3);
  b_gN : forall v, ypN = Some v -> slopeN s = v;
  b_m2 : length (ky2 s) = length l;
  b_xs : xstep s = steps (kx s);
  b_ys : ystep s = steps (ky s) }.

Lemma sorted_hx l : StronglySorted below l -> forall i, (S i < length l)%nat -> px l i < px l (S i).
Proof. intros H i Hi. apply sorted_px; [exact H | lia]. Qed.

Lemma chord_ext x y x' y' i : x i = x' i -> x (S i) = x' (S i) -> y i = y' i -> y (S i) = y' (S i) -> chord x y i = chord x' y' i.
Proof. intros A B C D. unfold chord. rewrite A, B, C, D. reflexivity. Qed.

Lemma some_inj (A : Type) (a b : A) : Some a = Some b -> a = b.
Proof. intros H. congruence. Qed.

(** [built] holds whatever list the functions are read from. *)
Lemma built_make xs ys yp1 ypN : (length xs <= length ys)%nat -> (2 <= length xs)%nat -> NoDup xs ->
  let l := sort_pairs (combine xs ys) in
  exists s, make_spline xs ys yp1 ypN = Some s /\ in_order xs ys l /\ length l = length xs /\
            built s l yp1 ypN (M_of (px l) (py l) (length l) yp1 ypN).
Proof.
  intros HL H2 HD l. assert (HS : StronglySorted below l) by (apply sort_pairs_sorted; rewrite map_fst_combine; assumption).
  assert (HP : Permutation (combine xs ys) l) by apply sort_pairs_perm.
  assert (Hlen : length l = length xs).
  { rewrite <- (Permutation_length HP), combine_length. lia. }
  unfold make_spline. rewrite (proj2 (Nat.ltb_ge _ _)) by exact HL. rewrite (proj2 (Nat.ltb_ge _ _)) by exact H2. fold l.
  rewrite map_length.
  set (x := fun i => nth i (map fst l) 0). set (y := fun i => nth i (map snd l) 0).
  set (n := length l) in *.
  destruct (start x y yp1) as [g0 u0] eqn:ES.
  set (y2 := map (fun k => back x y n g0 u0 (final x y n g0 u0 ypN) (n - 1 - k)) (seq 0 n)).
  eexists. split; [reflexivity|]. split; [split; [exact HP | exact HS]|]. split; [exact Hlen|].
  assert (Ex : forall i, x i = px l i) by (intros i; apply nth_map_fst).
  assert (Ey : forall i, y i = py l i) by (intros i; apply nth_map_snd).
  assert (Hn : (2 <= n)%nat) by lia.
  assert (Hx : forall i, (S i < n)%nat -> x i < x (S i)) by (intros i Hi; rewrite !Ex; apply sorted_hx; assumption).
  assert (Hx' := sorted_hx l HS). fold n in Hx'.
  assert (EM0 : forall i, (i < n)%nat -> nth i y2 0 = M_of x y n yp1 ypN i).
  { intros i Hi. unfold y2. rewrite (nth_indep _ 0 (back x y n g0 u0 (final x y n g0 u0 ypN) (n - 1 - 0))) by (rewrite map_length, seq_length; exact Hi).
    change (back x y n g0 u0 (final x y n g0 u0 ypN) (n - 1 - 0)) with ((fun k => back x y n g0 u0 (final x y n g0 u0 ypN) (n - 1 - k)) 0%nat).
    rewrite map_nth, seq_nth by exact Hi. cbn [Nat.add]. unfold M_of, fin_of. rewrite ES. reflexivity. }
  assert (EC : forall i, chord x y i = chord (px l) (py l) i) by (intros i; apply chord_ext; auto).
  assert (EM : forall i, (i < n)%nat -> nth i y2 0 = M_of (px l) (py l) n yp1 ypN i).
  { intros i Hi. rewrite EM0 by exact Hi. apply (M_unique (px l) (py l) n Hn Hx'); [| | |exact Hi].
    - intros j Hj. cbv zeta. assert (A := M_inner x y n Hn Hx yp1 ypN j Hj). cbv zeta in A. rewrite !EC, !Ex in A. exact A.
    - assert (A := M_start x y n Hn Hx yp1 ypN). unfold start_eq in *. destruct yp1; [|exact A]. rewrite EC, !Ex in A. exact A.
    - assert (A := M_end x y n Hn Hx yp1 ypN). unfold end_eq in *. destruct ypN; [|exact A]. rewrite EC, !Ex in A. exact A. }
  set (M := M_of (px l) (py l) n yp1 ypN) in *.
  assert (SE := M_start (px l) (py l) n Hn Hx' yp1 ypN). assert (EE := M_end (px l) (py l) n Hn Hx' yp1 ypN). fold M in SE, EE.
  constructor; cbn [kx ky ky2 xstep slope1 slopeN]; fold n.
  - exact Hn.
  - exact HS.
  - reflexivity.
  - reflexivity.
  - exact EM.
  - intros i Hi. rewrite steps_nth by (rewrite map_length; exact Hi). rewrite !nth_map_fst. reflexivity.
  - exact (M_inner (px l) (py l) n Hn Hx' yp1 ypN).
  - exact SE.
  - exact EE.
  - destruct yp1 as [v|].
    + unfold start_eq in SE. unfold cub_b. unfold chord in SE. assert (A := Hx' 0%nat ltac:(lia)).
      set (h := px l 1 - px l 0) in *.
      assert (Hh : h <> 0) by (unfold h; lra).
      assert (B : h * (M 0%nat + M 1%nat / 2) = 3 * ((py l 1 - py l 0) / h - v)) by (rewrite SE; field; exact Hh).
      lra.
    + rewrite EC, !nth_map_fst. rewrite !EM by lia. reflexivity.
  - intros v ->. reflexivity.
  - destruct ypN as [v|].
    + unfold end_eq in EE. assert (A := Hx' (n - 2)%nat ltac:(lia)). replace (S (n - 2)) with (n - 1)%nat in A by lia.
      set (h := px l (n - 1) - px l (n - 2)) in *. assert (Hh : h <> 0) by (unfold h; lra).
      assert (B : h * (M (n - 1)%nat + M (n - 2)%nat / 2) = 3 * (v - chord (px l) (py l) (n - 2))) by (rewrite EE; field; exact Hh).
      lra.
    + rewrite EC, !nth_map_fst. rewrite !EM by lia. reflexivity.
  - intros v ->. reflexivity.
  - unfold y2. rewrite map_length, seq_length. reflexivity.
  - reflexivity.
  - reflexivity.
Qed.

(** * Where a value lies *)

Lemma searchsorted_spec l v : StronglySorted Rlt l ->
  (searchsorted l v <= length l)%nat /\ (forall i, (i < searchsorted l v)%nat -> nth i l 0 < v) /\
  (forall i, (searchsorted l v <= i < length l)%nat -> v <= nth i l 0).
Proof.
  unfold searchsorted. intros H. induction H as [|a l Hl IH Ha]; [cbn; repeat split; intros; lia|].
  cbn [filter]. destruct (rltb a v) eqn:E.
  - apply rltb_true in E. cbn [length]. destruct IH as (A & B & C). repeat split; [lia| |].
    + intros [|i] Hi; [exact E|]. cbn [nth]. apply B. lia.
    + intros [|i] Hi; [lia|]. cbn [nth]. apply C. lia.
  - assert (N : v <= a). { destruct (Rle_dec v a) as [K|K]; [exact K|]. assert (rltb a v = true) by (apply rltb_true; lra). congruence. }
    assert (Z : filter (fun b => rltb b v) l = []).
    { clear - N Ha. induction Ha as [|b l Hb _ IH]; [reflexivity|]. cbn. destruct (rltb b v) eqn:E; [apply rltb_true in E; lra | exact IH]. }
    rewrite Z. cbn. repeat split; [lia|intros; lia|]. intros [|i] Hi; [exact N|].
    rewrite Forall_forall in Ha. assert (a < nth i l 0) by (apply Ha, nth_In; lia). cbn. lra.
Qed.
Lemma searchsorted_unique l v c : StronglySorted Rlt l -> (c <= length l)%nat ->
  ((0 < c)%nat -> nth (c - 1) l 0 < v) -> ((c < length l)%nat -> v <= nth c l 0) -> searchsorted l v = c.
Proof.
  intros H Hc A B. destruct (searchsorted_spec l v H) as (P & Q & T). set (k := searchsorted l v) in *.
  destruct (Nat.lt_trichotomy k c) as [L|[L|L]]; [|exact L|].
  - assert (X := T (c - 1)%nat ltac:(lia)). specialize (A ltac:(lia)). lra.
  - assert (X := Q c L). specialize (B ltac:(lia)). lra.
Qed.

Section Built.
Variables (s : spline) (l : list (R * R)) (yp1 ypN : option R) (M : nat -> R).
Hypothesis B : built s l yp1 ypN M.
Let n := length l.
Let Hn : (2 <= n)%nat := b_len _ _ _ _ _ B.
Let HS := b_sorted _ _ _ _ _ B.
Let Hpx : forall i j, (i < j < n)%nat -> px l i < px l j := sorted_px l HS.

Lemma kx_sorted : StronglySorted Rlt (kx s).
Proof.
  rewrite (b_x _ _ _ _ _ B). assert (H := HS). clearbody HS. clear - H. induction H as [|p l Hl IH Hp]; [constructor|]. cbn. constructor; [exact IH|].
  apply Forall_map. exact Hp.
Qed.
Lemma kx_length : length (kx s) = n.
Proof. rewrite (b_x _ _ _ _ _ B). apply map_length. Qed.
Lemma kx_nth i : nth i (kx s) 0 = px l i.
Proof. rewrite (b_x _ _ _ _ _ B). apply nth_map_fst. Qed.
Lemma ky_nth i : nth i (ky s) 0 = py l i.
Proof. rewrite (b_y _ _ _ _ _ B). apply nth_map_snd. Qed.

Definition locate (v : R) : nat := searchsorted (kx s) v.
Lemma locate_spec v : (locate v <= n)%nat /\ ((0 < locate v)%nat -> px l (locate v - 1) < v) /\ ((locate v < n)%nat -> v <= px l (locate v)).
Proof.
  destruct (searchsorted_spec (kx s) v kx_sorted) as (P & Q & T). rewrite kx_length in *. fold (locate v) in *.
  split; [exact P|]. split; intros H.
  - rewrite <- kx_nth. apply Q. lia.
  - rewrite <- kx_nth. apply T. lia.
Qed.
Lemma locate_is v c : (c <= n)%nat -> ((0 < c)%nat -> px l (c - 1) < v) -> ((c < n)%nat -> v <= px l c) -> locate v = c.
Proof. intros H A C. apply searchsorted_unique; rewrite ?kx_length, ?kx_nth; auto using kx_sorted. Qed.

(** The parts around a value. *)
Lemma around v : exists e c', 0 < e /\ (forall t, v - e < t <= v -> locate t = locate v) /\
  (forall t, v < t < v + e -> locate t = c') /\
  (c' = locate v \/ c' = S (locate v) /\ (locate v < n)%nat /\ v = px l (locate v)).
Proof.
  destruct (locate_spec v) as (P & Q & T). set (c := locate v) in *.
  assert (L : exists e, 0 < e /\ forall t, v - e < t <= v -> locate t = c).
  { destruct (Nat.eq_dec c 0) as [Z|Z].
    - exists 1. split; [lra|]. intros t Ht. apply locate_is; [exact P | intros; lia |]. intros K. specialize (T K). lra.
    - exists (v - px l (c - 1)). assert (X := Q ltac:(lia)). split; [lra|]. intros t Ht. apply locate_is; [exact P | intros; lra |].
      intros K. specialize (T K). lra. }
  destruct L as (e1 & E1 & L).
  assert (K : exists e c', 0 < e /\ (forall t, v < t < v + e -> locate t = c') /\ (c' = c \/ c' = S c /\ (c < n)%nat /\ v = px l c)).
  { destruct (Nat.eq_dec c n) as [Z|Z].
    - exists 1, c. split; [lra|]. split; [|left; reflexivity]. intros t Ht. apply locate_is; [exact P | |intros; lia].
      intros K. specialize (Q K). lra.
    - specialize (T ltac:(lia)). destruct (Rlt_dec v (px l c)) as [D|D].
      + exists (px l c - v), c. split; [lra|]. split; [|left; reflexivity]. intros t Ht. apply locate_is; [exact P| |intros; lra].
        intros K. specialize (Q K). lra.
      + assert (E : v = px l c) by lra. destruct (Nat.eq_dec (S c) n) as [F|F].
        * exists 1, (S c). split; [lra|]. split; [|right; repeat split; [lia | exact E]].
          intros t Ht. apply locate_is; [lia | |intros; lia]. intros _. replace (S c - 1)%nat with c by lia. lra.
        * exists (px l (S c) - px l c), (S c). assert (X := Hpx c (S c) ltac:(lia)). split; [lra|]. split; [|right; repeat split; [lia | exact E]].
          intros t Ht. apply locate_is; [lia | |intros; lra]. intros _. replace (S c - 1)%nat with c by lia. lra. }
  destruct K as (e2 & c' & E2 & K & D). exists (Rmin e1 e2), c'.
  assert (A1 := Rmin_l e1 e2). assert (A2 := Rmin_r e1 e2). split; [apply Rmin_pos; assumption|].
  split; [intros t Ht; apply L; lra|]. split; [intros t Ht; apply K; lra | exact D].
Qed.

(** * The parts *)

Definition ph (i : nat) : R := px l (S i) - px l i.
Definition pb (i : nat) : R := cub_b (ph i) (py l i) (py l (S i)) (M i) (M (S i)).
Definition pd (i : nat) : R := cub_d (ph i) (M i) (M (S i)).
Lemma ph_pos i : (S i < n)%nat -> 0 < ph i.
Proof. intros H. unfold ph. assert (A := Hpx i (S i) ltac:(lia)). lra. Qed.

Lemma part_low : part s 0 = low_part s. Proof. reflexivity. Qed.
Lemma part_inner i : (S i < n)%nat -> part s (S i) = inner_part s i.
Proof.
  intros H. unfold part. cbn [Nat.eqb]. rewrite kx_length. rewrite (proj2 (Nat.leb_gt _ _)) by exact H.
  replace (S i - 1)%nat with i by lia. reflexivity.
Qed.
Lemma part_high c : (n <= c)%nat -> part s c = high_part s.
Proof. intros H. unfold part. destruct c as [|c]; [lia|]. cbn [Nat.eqb]. rewrite kx_length. rewrite (proj2 (Nat.leb_le _ _)) by exact H. reflexivity. Qed.

Lemma inner0 i v : (S i < n)%nat -> part s (S i) 0 v = py l i + pb i * (v - px l i) + M i / 2 * (v - px l i) ^ 2 + pd i * (v - px l i) ^ 3.
Proof.
  intros H. rewrite part_inner by exact H. unfold inner_part. cbn [Z.eqb]. rewrite !kx_nth, !ky_nth, !(b_m _ _ _ _ _ B) by (fold n; lia).
  rewrite (b_dx _ _ _ _ _ B) by exact H. apply inner_poly0. assert (A := ph_pos i H). unfold ph in A. lra.
Qed.
Lemma inner1 i v : (S i < n)%nat -> part s (S i) 1 v = pb i + M i * (v - px l i) + 3 * pd i * (v - px l i) ^ 2.
Proof.
  intros H. rewrite part_inner by exact H. unfold inner_part. cbn [Z.eqb Pos.eqb]. rewrite !kx_nth, !ky_nth, !(b_m _ _ _ _ _ B) by (fold n; lia).
  rewrite (b_dx _ _ _ _ _ B) by exact H. apply inner_poly1. assert (A := ph_pos i H). unfold ph in A. lra.
Qed.
Lemma inner2 i v : (S i < n)%nat -> part s (S i) 2 v = M i + 6 * pd i * (v - px l i).
Proof.
  intros H. rewrite part_inner by exact H. unfold inner_part. cbn [Z.eqb Pos.eqb]. rewrite !kx_nth, !(b_m _ _ _ _ _ B) by (fold n; lia).
  rewrite (b_dx _ _ _ _ _ B) by exact H. apply inner_poly2. assert (A := ph_pos i H). unfold ph in A. lra.
Qed.
Lemma low0 v : part s 0 0 v = py l 0 + (v - px l 0) * pb 0.
Proof. rewrite part_low. unfold low_part. cbn [Z.eqb]. rewrite kx_nth, ky_nth, (b_s1 _ _ _ _ _ B). reflexivity. Qed.
Lemma low1 v : part s 0 1 v = pb 0.
Proof. rewrite part_low. unfold low_part. cbn [Z.eqb]. rewrite (b_s1 _ _ _ _ _ B). reflexivity. Qed.
Lemma low2 v : part s 0 2 v = 0.
Proof. reflexivity. Qed.
Lemma high0 c v : (n <= c)%nat -> part s c 0 v = py l (n - 1) + (v - px l (n - 1)) * slopeN s.
Proof. intros H. rewrite part_high by exact H. unfold high_part. cbn [Z.eqb]. rewrite kx_length, kx_nth, ky_nth. reflexivity. Qed.
Lemma high1 c v : (n <= c)%nat -> part s c 1 v = slopeN s.
Proof. intros H. rewrite part_high by exact H. reflexivity. Qed.
Lemma high2 c v : (n <= c)%nat -> part s c 2 v = 0.
Proof. intros H. rewrite part_high by exact H. reflexivity. Qed.

(** ** Values at the ends of an interval *)
Lemma end0 i : (S i < n)%nat -> part s (S i) 0 (px l (S i)) = py l (S i).
Proof. intros H. rewrite inner0 by exact H. assert (A := ph_pos i H). change (px l (S i) - px l i) with (ph i). unfold pb, pd, cub_b, cub_d. field. lra. Qed.
Lemma end1 i : (S i < n)%nat -> part s (S i) 1 (px l (S i)) = chord (px l) (py l) i + ph i * (M i / 6 + M (S i) / 3).
Proof. intros H. rewrite inner1 by exact H. assert (A := ph_pos i H). change (px l (S i) - px l i) with (ph i). unfold chord. change (px l (S i) - px l i) with (ph i). unfold pb, pd, cub_b, cub_d. field. lra. Qed.
Lemma end2 i : (S i < n)%nat -> part s (S i) 2 (px l (S i)) = M (S i).
Proof. intros H. rewrite inner2 by exact H. assert (A := ph_pos i H). change (px l (S i) - px l i) with (ph i). unfold pd, cub_d. field. lra. Qed.
Lemma beg0 i : (S i < n)%nat -> part s (S i) 0 (px l i) = py l i.
Proof. intros H. rewrite inner0 by exact H. ring. Qed.
Lemma beg1 i : (S i < n)%nat -> part s (S i) 1 (px l i) = pb i.
Proof. intros H. rewrite inner1 by exact H. ring. Qed.
Lemma beg2 i : (S i < n)%nat -> part s (S i) 2 (px l i) = M i.
Proof. intros H. rewrite inner2 by exact H. ring. Qed.

(** The slopes agree at the inner knots. *)
Lemma slopes_agree i : (S (S i) < n)%nat -> chord (px l) (py l) i + ph i * (M i / 6 + M (S i) / 3) = pb (S i).
Proof.
  intros H. assert (E := b_inner _ _ _ _ _ B i H). cbv zeta in E.
  assert (P := ph_pos i ltac:(lia)). assert (Q := ph_pos (S i) H).
  unfold pb, cub_b. change (chord (px l) (py l) (S i)) with ((py l (S (S i)) - py l (S i)) / ph (S i)) in E.
  set (C1 := (py l (S (S i)) - py l (S i)) / ph (S i)) in *. set (C0 := chord (px l) (py l) i) in *.
  assert (T : px l (S (S i)) - px l i = ph i + ph (S i)) by (unfold ph; ring). rewrite T in E.
  change (px l (S i) - px l i) with (ph i) in E. set (h := ph i) in *. set (k := ph (S i)) in *.
  assert (E' : h * M i + 2 * (h + k) * M (S i) + k * M (S (S i)) = 6 * (C1 - C0)).
  { transitivity ((h + k) * (h / (h + k) * M i + 2 * M (S i) + (1 - h / (h + k)) * M (S (S i)))); [field; lra|]. rewrite E. field. lra. }
  lra.
Qed.

(** ** Junctions: part [c] and part [S c] at knot [c]. *)
Lemma joint0 c : (c < n)%nat -> part s c 0 (px l c) = part s (S c) 0 (px l c) /\ part s c 0 (px l c) = py l c.
Proof.
  intros H. assert (A : part s c 0 (px l c) = py l c).
  { destruct c as [|i]; [rewrite low0; ring | apply end0; exact H]. }
  split; [|exact A]. rewrite A. destruct (Nat.eq_dec (S c) n) as [E|E].
  - rewrite high0 by lia. replace (n - 1)%nat with c by lia. ring.
  - rewrite beg0 by lia. reflexivity.
Qed.
Lemma joint1 c : (c < n)%nat -> part s c 1 (px l c) = part s (S c) 1 (px l c).
Proof.
  intros H. destruct c as [|i].
  - rewrite low1, beg1 by lia. reflexivity.
  - rewrite end1 by exact H. destruct (Nat.eq_dec (S (S i)) n) as [E|E].
    + rewrite high1 by lia. rewrite (b_sN _ _ _ _ _ B). fold n. replace (n - 2)%nat with i by lia. replace (n - 1)%nat with (S i) by lia. reflexivity.
    + rewrite beg1 by lia. apply slopes_agree. lia.
Qed.
Lemma joint2 c : (c < n)%nat -> (c = 0%nat -> M 0%nat = 0) -> (c = (n - 1)%nat -> M (n - 1)%nat = 0) -> part s c 2 (px l c) = part s (S c) 2 (px l c).
Proof.
  intros H H0 H1. destruct c as [|i].
  - rewrite low2, beg2 by lia. symmetry. apply H0. reflexivity.
  - rewrite end2 by exact H. destruct (Nat.eq_dec (S (S i)) n) as [E|E].
    + rewrite high2 by lia. replace (S i) with (n - 1)%nat by lia. apply H1. lia.
    + rewrite beg2 by lia. reflexivity.
Qed.

(** ** Derivatives of the parts *)
Lemma lim_ext f g v d : (forall t, f t = g t) -> derivable_pt_lim g v d -> derivable_pt_lim f v d.
Proof. intros E H eps He. destruct (H eps He) as [k Hk]. exists k. intros h Hh Hd. rewrite !E. apply Hk; assumption. Qed.
Lemma lim_cubic a b c d u v : derivable_pt_lim (fun t => a + b * (t - u) + c * (t - u) ^ 2 + d * (t - u) ^ 3) v (b + 2 * c * (v - u) + 3 * d * (v - u) ^ 2).
Proof.
  assert (X : derivable_pt_lim (fun t => t - u) v 1).
  { replace 1 with (1 - 0) by ring. apply (derivable_pt_lim_minus (fun t => t) (fun _ => u)); [apply derivable_pt_lim_id | apply derivable_pt_lim_const]. }
  assert (X2 : derivable_pt_lim (fun t => (t - u) ^ 2) v (2 * (v - u))).
  { replace (2 * (v - u)) with ((INR 2 * (v - u) ^ pred 2) * 1) by (cbn; ring).
    apply (derivable_pt_lim_comp (fun t => t - u) (fun t => t ^ 2)); [exact X | apply derivable_pt_lim_pow]. }
  assert (X3 : derivable_pt_lim (fun t => (t - u) ^ 3) v (3 * (v - u) ^ 2)).
  { replace (3 * (v - u) ^ 2) with ((INR 3 * (v - u) ^ pred 3) * 1) by (cbn; ring).
    apply (derivable_pt_lim_comp (fun t => t - u) (fun t => t ^ 3)); [exact X | apply derivable_pt_lim_pow]. }
  replace (b + 2 * c * (v - u) + 3 * d * (v - u) ^ 2) with (0 + b * 1 + c * (2 * (v - u)) + d * (3 * (v - u) ^ 2)) by ring.
  apply (derivable_pt_lim_plus (fun t => a + b * (t - u) + c * (t - u) ^ 2) (fun t => d * (t - u) ^ 3)).
  - apply (derivable_pt_lim_plus (fun t => a + b * (t - u)) (fun t => c * (t - u) ^ 2)).
    + apply (derivable_pt_lim_plus (fun t => a) (fun t => b * (t - u))); [apply derivable_pt_lim_const|].
      apply (derivable_pt_lim_scal (fun t => t - u)). exact X.
    + apply (derivable_pt_lim_scal (fun t => (t - u) ^ 2)). exact X2.
  - apply (derivable_pt_lim_scal (fun t => (t - u) ^ 3)). exact X3.
Qed.

Definition c0 (c : nat) : R := match c with O => py l 0 | S i => if (S i <? n)%nat then py l i else py l (n - 1) end.
Definition c1 (c : nat) : R := match c with O => pb 0 | S i => if (S i <? n)%nat then pb i else slopeN s end.
Definition c2 (c : nat) : R := match c with O => 0 | S i => if (S i <? n)%nat then M i / 2 else 0 end.
Definition c3 (c : nat) : R := match c with O => 0 | S i => if (S i <? n)%nat then pd i else 0 end.
Definition cu (c : nat) : R := match c with O => px l 0 | S i => if (S i <? n)%nat then px l i else px l (n - 1) end.
Lemma part0 c t : part s c 0 t = c0 c + c1 c * (t - cu c) + c2 c * (t - cu c) ^ 2 + c3 c * (t - cu c) ^ 3.
Proof.
  unfold c0, c1, c2, c3, cu. destruct c as [|i]; [rewrite low0; ring|].
  destruct (Nat.ltb_spec (S i) n) as [H|H]; [apply inner0; exact H | rewrite high0 by exact H; ring].
Qed.
Lemma part1 c t : part s c 1 t = c1 c + 2 * c2 c * (t - cu c) + 3 * c3 c * (t - cu c) ^ 2.
Proof.
  unfold c0, c1, c2, c3, cu. destruct c as [|i]; [rewrite low1; ring|].
  destruct (Nat.ltb_spec (S i) n) as [H|H]; [rewrite inner1 by exact H; field | rewrite high1 by exact H; ring].
Qed.
Lemma part2 c t : part s c 2 t = 2 * c2 c + 6 * c3 c * (t - cu c).
Proof.
  unfold c0, c1, c2, c3, cu. destruct c as [|i]; [rewrite low2; ring|].
  destruct (Nat.ltb_spec (S i) n) as [H|H]; [rewrite inner2 by exact H; field | rewrite high2 by exact H; ring].
Qed.
Lemma part_d0 c v : derivable_pt_lim (part s c 0) v (part s c 1 v).
Proof. eapply lim_ext; [intros t; apply part0|]. rewrite part1. apply lim_cubic. Qed.
Lemma part_d1 c v : derivable_pt_lim (part s c 1) v (part s c 2 v).
Proof.
  apply (lim_ext _ (fun t => c1 c + 2 * c2 c * (t - cu c) + 3 * c3 c * (t - cu c) ^ 2 + 0 * (t - cu c) ^ 3)); [intros t; rewrite part1; ring|].
  rewrite part2. replace (2 * c2 c + 6 * c3 c * (v - cu c)) with (2 * c2 c + 2 * (3 * c3 c) * (v - cu c) + 3 * 0 * (v - cu c) ^ 2) by ring. apply lim_cubic.
Qed.
Lemma part_d2 c v : derivable_pt_lim (part s c 2) v (6 * c3 c).
Proof.
  apply (lim_ext _ (fun t => 2 * c2 c + 6 * c3 c * (t - cu c) + 0 * (t - cu c) ^ 2 + 0 * (t - cu c) ^ 3)); [intros t; rewrite part2; ring|].
  assert (E : 6 * c3 c = 6 * c3 c + 2 * 0 * (v - cu c) + 3 * 0 * (v - cu c) ^ 2) by ring.
  assert (L := lim_cubic (2 * c2 c) (6 * c3 c) 0 0 (cu c) v). rewrite <- E in L. exact L.
Qed.

(** * The whole function *)

Lemma at_locate der v : spline_at s der v = part s (locate v) der v. Proof. reflexivity. Qed.
Lemma lim_cont f v d : derivable_pt_lim f v d -> continuity_pt f v.
Proof. intros H. apply derivable_continuous_pt. exists d. exact H. Qed.

Lemma whole_d0 v : derivable_pt_lim (spline_at s 0) v (spline_at s 1 v).
Proof.
  destruct (around v) as (e & c' & He & L & K & D). rewrite at_locate.
  apply (glue_derivable _ (part s (locate v) 0) (part s c' 0) v _ e He).
  - intros t Ht. rewrite at_locate, L by exact Ht. reflexivity.
  - intros t Ht. rewrite at_locate, K by exact Ht. reflexivity.
  - destruct D as [->|(-> & Hc & E)]; [reflexivity|]. rewrite E at 2 4. apply joint0. exact Hc.
  - apply part_d0.
  - destruct D as [->|(-> & Hc & E)]; [apply part_d0|].
    assert (J := joint1 (locate v) Hc). rewrite <- E in J. rewrite J. apply part_d0.
Qed.
Lemma whole_c1 v : continuity_pt (spline_at s 1) v.
Proof.
  destruct (around v) as (e & c' & He & L & K & D).
  apply (glue_continuous _ (part s (locate v) 1) (part s c' 1) v e He).
  - intros t Ht. rewrite at_locate, L by exact Ht. reflexivity.
  - intros t Ht. rewrite at_locate, K by exact Ht. reflexivity.
  - destruct D as [->|(-> & Hc & E)]; [reflexivity|]. assert (J := joint1 (locate v) Hc). rewrite <- E in J. exact J.
  - eapply lim_cont, part_d1.
  - eapply lim_cont, part_d1.
Qed.
Definition tame (v : R) : Prop := (v = px l 0 -> M 0%nat = 0) /\ (v = px l (n - 1) -> M (n - 1)%nat = 0).
Lemma tame_joint v : (locate v < n)%nat -> v = px l (locate v) -> tame v -> part s (locate v) 2 v = part s (S (locate v)) 2 v.
Proof.
  intros Hc E (T0 & TN). assert (J := joint2 (locate v) Hc). rewrite <- E in J. apply J.
  - intros Z. apply T0. rewrite <- Z. exact E.
  - intros Z. apply TN. rewrite <- Z. exact E.
Qed.
Lemma whole_d1 v : tame v -> derivable_pt_lim (spline_at s 1) v (spline_at s 2 v).
Proof.
  intros T. destruct (around v) as (e & c' & He & L & K & D). rewrite at_locate.
  apply (glue_derivable _ (part s (locate v) 1) (part s c' 1) v _ e He).
  - intros t Ht. rewrite at_locate, L by exact Ht. reflexivity.
  - intros t Ht. rewrite at_locate, K by exact Ht. reflexivity.
  - destruct D as [->|(-> & Hc & E)]; [reflexivity|]. assert (J := joint1 (locate v) Hc). rewrite <- E in J. exact J.
  - apply part_d1.
  - destruct D as [->|(-> & Hc & E)]; [apply part_d1|]. rewrite (tame_joint v Hc E T). apply part_d1.
Qed.
Lemma whole_c2 v : tame v -> continuity_pt (spline_at s 2) v.
Proof.
  intros T. destruct (around v) as (e & c' & He & L & K & D).
  apply (glue_continuous _ (part s (locate v) 2) (part s c' 2) v e He).
  - intros t Ht. rewrite at_locate, L by exact Ht. reflexivity.
  - intros t Ht. rewrite at_locate, K by exact Ht. reflexivity.
  - destruct D as [->|(-> & Hc & E)]; [reflexivity|]. apply (tame_joint v Hc E T).
  - eapply lim_cont, part_d2.
  - eapply lim_cont, part_d2.
Qed.

Lemma locate_knot i : (i < n)%nat -> locate (px l i) = i.
Proof.
  intros H. apply locate_is; [lia| |intros; apply Rle_refl]. intros K. apply Hpx. lia.
Qed.
Lemma whole_knot i : (i < n)%nat -> spline_at s 0 (px l i) = py l i.
Proof. intros H. rewrite at_locate, locate_knot by exact H. apply joint0. exact H. Qed.
Lemma whole_slope1 : spline_at s 1 (px l 0) = slope1 s.
Proof. rewrite at_locate, locate_knot by lia. reflexivity. Qed.
Lemma whole_slopeN : spline_at s 1 (px l (n - 1)) = slopeN s.
Proof. rewrite at_locate, locate_knot by lia. rewrite joint1 by lia. rewrite high1 by lia. reflexivity. Qed.
Lemma whole_low v : v <= px l 0 -> spline_at s 0 v = py l 0 + slope1 s * (v - px l 0) /\ spline_at s 1 v = slope1 s /\ spline_at s 2 v = 0.
Proof.
  intros H. assert (E : locate v = 0%nat) by (apply locate_is; [lia | intros; lia | intros; exact H]).
  rewrite !at_locate, E, low0, low1, low2. rewrite (b_s1 _ _ _ _ _ B). change (cub_b (px l 1 - px l 0) (py l 0) (py l 1) (M 0%nat) (M 1%nat)) with (pb 0).
  repeat split. ring.
Qed.
Lemma whole_high v : px l (n - 1) < v -> spline_at s 0 v = py l (n - 1) + slopeN s * (v - px l (n - 1)) /\ spline_at s 1 v = slopeN s /\ spline_at s 2 v = 0.
Proof.
  intros H. assert (E : locate v = n) by (apply locate_is; [lia | intros; exact H | intros; lia]).
  rewrite !at_locate, E, high0, high1, high2 by lia. repeat split. ring.
Qed.
(** The value in a closed interval is given by its polynomial. *)
Lemma whole_piece i v : (S i < n)%nat -> px l i <= v <= px l (S i) ->
  spline_at s 0 v = py l i + pb i * (v - px l i) + M i / 2 * (v - px l i) ^ 2 + pd i * (v - px l i) ^ 3.
Proof.
  intros H Hv. destruct (Req_dec v (px l i)) as [E|E].
  - rewrite E, whole_knot by lia. ring.
  - assert (L : locate v = S i).
    { apply locate_is; [lia | intros _; replace (S i - 1)%nat with i by lia; lra | intros; lra]. }
    rewrite at_locate, L. apply inner0. exact H.
Qed.
Lemma whole_pieces : is_spline l yp1 ypN (py l) pb (fun i => M i / 2) pd /\ on_interval l (spline_at s 0) (py l) pb (fun i => M i / 2) pd.
Proof.
  split; [|intros i v Hi Hv; apply whole_piece; assumption].
  constructor.
  - reflexivity.
  - intros i Hi h. rewrite <- (end0 i Hi). rewrite inner0 by exact Hi. fold h. reflexivity.
  - intros i Hi h. rewrite <- (slopes_agree i Hi). rewrite <- end1 by (fold n; lia). rewrite inner1 by (fold n; lia). fold h. field.
  - intros i Hi h. transitivity (M (S i)); [|field]. rewrite <- (end2 i) by (fold n; lia). rewrite inner2 by (fold n; lia). fold h. field.
  - assert (X := b_start _ _ _ _ _ B). destruct yp1 as [v|] eqn:E.
    + rewrite <- (b_g1 _ _ _ _ _ B v eq_refl). symmetry. exact (b_s1 _ _ _ _ _ B).
    + cbn in X. rewrite X. field.
  - intros i h. assert (X := b_end _ _ _ _ _ B). fold n in i. assert (Hi : (S i < n)%nat) by (unfold i; lia).
    assert (E1 := end1 i Hi). rewrite inner1 in E1 by exact Hi. assert (E2 := end2 i Hi). rewrite inner2 in E2 by exact Hi. fold h in E1, E2.
    destruct ypN as [v|] eqn:E.
    + rewrite <- (b_gN _ _ _ _ _ B v eq_refl). rewrite (b_sN _ _ _ _ _ B). fold n. fold i. replace (n - 1)%nat with (S i) by (unfold i; lia).
      change (px l (S i) - px l i) with (ph i). rewrite <- E1. field.
    + cbn in X. fold n in X. replace (n - 1)%nat with (S i) in X by (unfold i; lia). rewrite <- X. rewrite <- E2. field.
Qed.

(** Any pieces that make a spline are these. *)
Lemma pieces_unique a b c d : is_spline l yp1 ypN a b c d ->
  forall i, (S i < n)%nat -> a i = py l i /\ b i = pb i /\ c i = M i / 2 /\ d i = pd i.
Proof.
  intros [SL SR S1 S2 S0 SE].
  set (h := fun i => px l (S i) - px l i).
  assert (PH : forall i, (S i < n)%nat -> 0 < h i) by (intros i Hi; exact (ph_pos i Hi)).
  set (M' := fun i => if (S i <? n)%nat then 2 * c i else 2 * c (n - 2)%nat + 6 * d (n - 2)%nat * h (n - 2)%nat).
  assert (M1 : forall i, (S i < n)%nat -> M' i = 2 * c i).
  { intros i Hi. unfold M'. rewrite (proj2 (Nat.ltb_lt _ _)) by exact Hi. reflexivity. }
  assert (M2 : forall i, (S i < n)%nat -> M' (S i) = 2 * c i + 6 * d i * h i).
  { intros i Hi. unfold M'. destruct (Nat.ltb_spec (S (S i)) n) as [C|C].
    - symmetry. apply (S2 i C).
    - replace (n - 2)%nat with i by lia. reflexivity. }
  assert (Det : forall i, (S i < n)%nat -> b i = cub_b (h i) (py l i) (py l (S i)) (M' i) (M' (S i)) /\ d i = cub_d (h i) (M' i) (M' (S i))).
  { intros i Hi. rewrite M1, M2 by exact Hi. assert (P := PH i Hi). apply (cubic_determined (h i) (a i)); [lra | apply SL; exact Hi | apply (SR i Hi)]. }
  assert (Ch : forall i, (S i < n)%nat -> b i + 2 * c i * h i + 3 * d i * h i ^ 2 = chord (px l) (py l) i + h i * (M' i / 6 + M' (S i) / 3)).
  { intros i Hi. destruct (Det i Hi) as (D1 & D2). rewrite D1, D2. assert (E : c i = M' i / 2) by (rewrite M1 by exact Hi; field). rewrite E.
    unfold cub_b, cub_d, chord. change (px l (S i) - px l i) with (h i). assert (P := PH i Hi).  field. lra. }
  assert (EQ : forall i, (i < n)%nat -> M' i = M i).
  { intros i Hi. rewrite (M_unique (px l) (py l) n Hn (sorted_hx l HS) yp1 ypN M); [| | | |exact Hi].
    2: exact (b_inner _ _ _ _ _ B). 2: exact (b_start _ _ _ _ _ B). 2: exact (b_end _ _ _ _ _ B).
    apply (M_unique (px l) (py l) n Hn (sorted_hx l HS)); [| | |exact Hi].
    - intros j Hj. cbv zeta. assert (F := S1 j Hj). cbv zeta in F. change (px l (S j) - px l j) with (h j) in F.
      rewrite (Ch j ltac:(lia)) in F. destruct (Det (S j) Hj) as (D1 & _). rewrite D1 in F. unfold cub_b in F.
      assert (P := PH j ltac:(lia)). assert (Q := PH (S j) Hj).  change (ph (S j)) with (h (S j)) in Q.
      assert (T : px l (S (S j)) - px l j = h j + h (S j)) by (unfold h; ring). rewrite T. change (px l (S j) - px l j) with (h j).
      change ((py l (S (S j)) - py l (S j)) / h (S j)) with (chord (px l) (py l) (S j)) in F.
      set (C0 := chord (px l) (py l) j) in *. set (C1 := chord (px l) (py l) (S j)) in *. set (p := h j) in *. set (q := h (S j)) in *.
      assert (F' : p * M' j + 2 * (p + q) * M' (S j) + q * M' (S (S j)) = 6 * (C1 - C0)) by lra.
      rewrite <- F'. field. lra.
    - destruct yp1 as [v|]; cbn.
      + destruct (Det 0%nat ltac:(lia)) as (D1 & _). rewrite S0 in D1. unfold cub_b in D1. assert (P := PH 0%nat ltac:(lia)). 
        change (px l 1 - px l 0) with (h 0%nat). change ((py l 1 - py l 0) / h 0%nat) with (chord (px l) (py l) 0) in D1. rewrite D1.
        set (p := h 0%nat) in *. field. lra.
      + rewrite M1 by lia. rewrite S0. ring.
    - destruct ypN as [v|]; cbn; cbv zeta in SE; fold n in SE.
      + change (px l (S (n - 2)) - px l (n - 2)) with (h (n - 2)%nat) in SE. rewrite Ch in SE by lia. replace (S (n - 2)) with (n - 1)%nat in SE by lia.
        assert (P := PH (n - 2)%nat ltac:(lia)). 
        assert (Eh : px l (n - 1) - px l (n - 2) = h (n - 2)%nat) by (unfold h; replace (S (n - 2)) with (n - 1)%nat by lia; reflexivity).
        rewrite Eh, <- SE. set (p := h (n - 2)%nat) in *. field. lra.
      + replace (n - 1)%nat with (S (n - 2)) by lia. rewrite M2 by lia. exact SE. }
  intros i Hi. destruct (Det i Hi) as (D1 & D2). rewrite !EQ in D1, D2 by lia.
  repeat split; [apply SL; exact Hi | exact D1 | | exact D2]. rewrite <- EQ by lia. rewrite M1 by exact Hi. field.
Qed.
Lemma unique_on_interval a b c d : is_spline l yp1 ypN a b c d -> on_interval l (spline_at s 0) a b c d.
Proof.
  intros H i v Hi Hv. destruct (pieces_unique a b c d H i Hi) as (-> & -> & -> & ->). apply whole_piece; assumption.
Qed.
End Built.
