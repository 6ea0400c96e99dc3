(** Proofs about CubicSpline: in terms of the given points; derivative() and LinterpCubicSpline. *)
From Coq Require Import Reals ZArith Bool Lra Lia Permutation Sorted List.
From Verif Require Import EntModel SplModel SplSpec SplProofs SplEval.
Import ListNotations.
Local Open Scope R_scope.

Lemma combine_in (xs ys : list R) i : (i < length xs)%nat -> (length xs <= length ys)%nat -> In (nth i xs 0, nth i ys 0) (combine xs ys).
Proof.
  revert ys i. induction xs as [|x xs IH]; intros [|y ys] [|i] H K; cbn in *; try lia; [left; reflexivity|]. right. apply IH; lia.
Qed.
Lemma in_combine_nth (xs ys : list R) p : In p (combine xs ys) -> exists i, (i < length xs)%nat /\ p = (nth i xs 0, nth i ys 0).
Proof.
  revert ys. induction xs as [|x xs IH]; intros [|y ys] H; cbn in *; try contradiction.
  destruct H as [<-|H]; [exists 0%nat; split; [lia | reflexivity]|]. destruct (IH ys H) as (i & Hi & E). exists (S i). split; [lia | exact E].
Qed.

Section Given.
Variables (xs ys : list R) (yp1 ypN : option R) (s : spline).
Hypothesis HM : make_spline xs ys yp1 ypN = Some s.
Hypothesis HD : NoDup xs.
Let l := sort_pairs (combine xs ys).
Let M := M_of (px l) (py l) (length l) yp1 ypN.

Lemma made_lengths : (length xs <= length ys)%nat /\ (2 <= length xs)%nat.
Proof.
  unfold make_spline in HM. destruct (Nat.ltb_spec (length ys) (length xs)) as [C|C]; [discriminate|].
  destruct (Nat.ltb_spec (length xs) 2) as [D|D]; [discriminate|]. split; assumption.
Qed.
Lemma made : in_order xs ys l /\ length l = length xs /\ built s l yp1 ypN M.
Proof.
  destruct made_lengths as (A & B). destruct (built_make xs ys yp1 ypN A B HD) as (s' & E & F). rewrite E in HM.
  apply some_inj in HM. rewrite HM in F. exact F.
Qed.
Lemma knot_of i : (i < length xs)%nat -> exists j, (j < length l)%nat /\ px l j = nth i xs 0 /\ py l j = nth i ys 0.
Proof.
  intros H. destruct made as ((P & _) & _ & _). destruct made_lengths as (A & _).
  destruct (In_nth _ _ (0, 0) (Permutation_in _ P (combine_in xs ys i H A))) as (j & Hj & E).
  exists j. split; [exact Hj|]. unfold px, py. rewrite E. split; reflexivity.
Qed.
Lemma of_knot j : (j < length l)%nat -> exists i, (i < length xs)%nat /\ px l j = nth i xs 0 /\ py l j = nth i ys 0.
Proof.
  intros H. destruct made as ((P & _) & _ & _).
  destruct (in_combine_nth xs ys (nth j l (0, 0)) (Permutation_in _ (Permutation_sym P) (nth_In _ _ H))) as (i & Hi & E).
  exists i. split; [exact Hi|]. unfold px, py. rewrite E. split; reflexivity.
Qed.
Lemma given_knot i : (i < length xs)%nat -> spline_at s 0 (nth i xs 0) = nth i ys 0.
Proof.
  intros H. destruct made as (_ & _ & B). destruct (knot_of i H) as (j & Hj & E & F). rewrite <- E, <- F. exact (whole_knot s l yp1 ypN M B j Hj).
Qed.
Lemma given_first i : (i < length xs)%nat -> (forall j, (j < length xs)%nat -> nth i xs 0 <= nth j xs 0) -> px l 0 = nth i xs 0 /\ py l 0 = nth i ys 0.
Proof.
  intros H K. destruct made as (_ & HL & B). destruct made_lengths as (_ & H2).
  destruct (knot_of i H) as (k & Hk & E & F). destruct (of_knot 0 ltac:(lia)) as (i' & Hi' & E' & F').
  destruct k as [|k]; [split; assumption|]. assert (X := sorted_px l (b_sorted _ _ _ _ _ B) 0 (S k) ltac:(lia)).
  assert (Y := K i' Hi'). lra.
Qed.
Lemma given_last i : (i < length xs)%nat -> (forall j, (j < length xs)%nat -> nth j xs 0 <= nth i xs 0) ->
  px l (length l - 1) = nth i xs 0 /\ py l (length l - 1) = nth i ys 0.
Proof.
  intros H K. destruct made as (_ & HL & B). destruct made_lengths as (_ & H2).
  destruct (knot_of i H) as (k & Hk & E & F). destruct (of_knot (length l - 1) ltac:(lia)) as (i' & Hi' & E' & F').
  destruct (Nat.eq_dec k (length l - 1)) as [->|N]; [split; assumption|].
  assert (X := sorted_px l (b_sorted _ _ _ _ _ B) k (length l - 1) ltac:(lia)). assert (Y := K i' Hi'). lra.
Qed.
Lemma px_least j : (j < length xs)%nat -> px l 0 <= nth j xs 0 <= px l (length l - 1).
Proof.
  intros H. destruct made as (_ & HL & B). destruct (knot_of j H) as (k & Hk & E & _). rewrite <- E.
  assert (X := sorted_px l (b_sorted _ _ _ _ _ B)). split.
  - destruct k as [|k]; [lra|]. apply Rlt_le, X. lia.
  - destruct (Nat.eq_dec k (length l - 1)) as [->|N]; [lra|]. apply Rlt_le, X. lia.
Qed.
Lemma given_tame v : ((forall x, In x xs -> v <= x) -> In v xs -> yp1 = None) -> ((forall x, In x xs -> x <= v) -> In v xs -> ypN = None) -> tame l M v.
Proof.
  intros H1 HN. destruct made as (_ & HL & B). destruct made_lengths as (_ & H2). split; intros E.
  - assert (X := b_start _ _ _ _ _ B). rewrite H1 in X; [exact X | |].
    + intros x Hx. destruct (In_nth _ _ 0 Hx) as (j & Hj & <-). rewrite E. apply px_least. exact Hj.
    + destruct (of_knot 0 ltac:(lia)) as (i & Hi & F & _). rewrite E, F. apply nth_In. exact Hi.
  - assert (X := b_end _ _ _ _ _ B). rewrite HN in X; [exact X | |].
    + intros x Hx. destruct (In_nth _ _ 0 Hx) as (j & Hj & <-). rewrite E. apply px_least. exact Hj.
    + destruct (of_knot (length l - 1) ltac:(lia)) as (i & Hi & F & _). rewrite E, F. apply nth_In. exact Hi.
Qed.
Lemma given_below i v : (i < length xs)%nat -> (forall j, (j < length xs)%nat -> nth i xs 0 <= nth j xs 0) -> v <= nth i xs 0 ->
  spline_at s 0 v = nth i ys 0 + spline_at s 1 (nth i xs 0) * (v - nth i xs 0) /\ spline_at s 1 v = spline_at s 1 (nth i xs 0) /\ spline_at s 2 v = 0 /\
  (forall p, yp1 = Some p -> spline_at s 1 (nth i xs 0) = p).
Proof.
  intros H K Hv. destruct made as (_ & _ & B). destruct (given_first i H K) as (E & F). rewrite <- E in *. rewrite <- F.
  rewrite (whole_slope1 s l yp1 ypN M B). destruct (whole_low s l yp1 ypN M B v Hv) as (X & Y & Z).
  split; [exact X|]. split; [exact Y|]. split; [exact Z|]. exact (b_g1 _ _ _ _ _ B).
Qed.
Lemma given_above i v : (i < length xs)%nat -> (forall j, (j < length xs)%nat -> nth j xs 0 <= nth i xs 0) -> nth i xs 0 < v ->
  spline_at s 0 v = nth i ys 0 + spline_at s 1 (nth i xs 0) * (v - nth i xs 0) /\ spline_at s 1 v = spline_at s 1 (nth i xs 0) /\ spline_at s 2 v = 0 /\
  (forall p, ypN = Some p -> spline_at s 1 (nth i xs 0) = p).
Proof.
  intros H K Hv. destruct made as (_ & _ & B). destruct (given_last i H K) as (E & F). rewrite <- E in *. rewrite <- F.
  rewrite (whole_slopeN s l yp1 ypN M B). destruct (whole_high s l yp1 ypN M B v Hv) as (X & Y & Z).
  split; [exact X|]. split; [exact Y|]. split; [exact Z|]. exact (b_gN _ _ _ _ _ B).
Qed.
Lemma order_is l' : in_order xs ys l' -> l' = l.
Proof.
  intros (P & Q). destruct made as ((P' & Q') & _). apply sorted_unique; [exact Q | exact Q'|].
  eapply Permutation_trans; [apply Permutation_sym; exact P | exact P'].
Qed.
Lemma given_unique l' a b c d : in_order xs ys l' -> is_spline l' yp1 ypN a b c d -> on_interval l' (spline_at s 0) a b c d.
Proof. intros H K. rewrite (order_is l' H) in *. destruct made as (_ & _ & B). exact (unique_on_interval s l yp1 ypN M B a b c d K). Qed.

(** The third derivative is too large by the square of the width of the interval. *)
Lemma given_third i v : (S i < length l)%nat -> px l i < v < px l (S i) ->
  derivable_pt_lim (spline_at s 2) v (spline_at s 3 v / (px l (S i) - px l i) ^ 2).
Proof.
  intros Hi Hv. destruct made as (_ & _ & B).
  assert (L : forall t, px l i < t <= px l (S i) -> locate s t = S i).
  { intros t Ht. apply (locate_is s l yp1 ypN M B); [lia | intros _; replace (S i - 1)%nat with i by lia; lra | intros; lra]. }
  assert (E3 : spline_at s 3 v / (px l (S i) - px l i) ^ 2 = 6 * c3 l M (S i)).
  { rewrite at_locate. rewrite (L v) by lra. rewrite (part_inner s l yp1 ypN M B) by exact Hi. unfold inner_part. cbn [Z.eqb Pos.eqb].
    rewrite !(b_m _ _ _ _ _ B) by lia. rewrite (b_dx _ _ _ _ _ B) by exact Hi. unfold c3. rewrite (proj2 (Nat.ltb_lt _ _)) by exact Hi.
    unfold pd, cub_d, ph. field. lra. }
  rewrite E3. apply (glue_derivable _ (part s (S i) 2) (part s (S i) 2) v _ (Rmin (v - px l i) (px l (S i) - v))).
  - apply Rmin_pos; lra.
  - intros t Ht. assert (A := Rmin_l (v - px l i) (px l (S i) - v)). rewrite at_locate, L by lra. reflexivity.
  - intros t Ht. assert (A := Rmin_r (v - px l i) (px l (S i) - v)). rewrite at_locate, L by lra. reflexivity.
  - reflexivity.
  - apply (part_d2 s l yp1 ypN M B).
  - apply (part_d2 s l yp1 ypN M B).
Qed.
End Given.

(** * Polynomials *)
Lemma poly_is_spline l a b c d : StronglySorted below l -> (2 <= length l)%nat ->
  (forall i, (i < length l)%nat -> py l i = a + b * px l i + c * px l i ^ 2 + d * px l i ^ 3) ->
  forall yp1 ypN,
  match yp1 with Some v => v = b + 2 * c * px l 0 + 3 * d * px l 0 ^ 2 | None => 2 * c + 6 * d * px l 0 = 0 end ->
  match ypN with Some v => v = b + 2 * c * px l (length l - 1) + 3 * d * px l (length l - 1) ^ 2 | None => 2 * c + 6 * d * px l (length l - 1) = 0 end ->
  is_spline l yp1 ypN (py l) (fun i => b + 2 * c * px l i + 3 * d * px l i ^ 2) (fun i => c + 3 * d * px l i) (fun _ => d).
Proof.
  intros HS H2 HV yp1 ypN H1 HN. constructor.
  - reflexivity.
  - intros i Hi h. rewrite (HV (S i) Hi), (HV i ltac:(lia)). unfold h. ring.
  - intros i Hi h. unfold h. ring.
  - intros i Hi h. unfold h. ring.
  - destruct yp1; [symmetry; exact H1 | lra].
  - intros i h. replace (length l - 1)%nat with (S i) in HN by (unfold i; lia). destruct ypN; [rewrite HN | rewrite <- HN]; unfold h; ring.
Qed.

Section Poly.
Variables (xs ys : list R) (yp1 ypN : option R) (s : spline).
Hypothesis HM : make_spline xs ys yp1 ypN = Some s.
Hypothesis HD : NoDup xs.
Variables a b c d : R.
Let f (v : R) := a + b * v + c * v ^ 2 + d * v ^ 3.
Let f' (v : R) := b + 2 * c * v + 3 * d * v ^ 2.
Let f'' (v : R) := 2 * c + 6 * d * v.
Hypothesis HV : forall i, (i < length xs)%nat -> nth i ys 0 = f (nth i xs 0).
Variables i0 iN : nat.
Hypothesis H0 : (i0 < length xs)%nat. Hypothesis HN : (iN < length xs)%nat.
Hypothesis Hlo : forall j, (j < length xs)%nat -> nth i0 xs 0 <= nth j xs 0.
Hypothesis Hhi : forall j, (j < length xs)%nat -> nth j xs 0 <= nth iN xs 0.
Hypothesis E0 : match yp1 with Some v => v = f' (nth i0 xs 0) | None => f'' (nth i0 xs 0) = 0 end.
Hypothesis EN : match ypN with Some v => v = f' (nth iN xs 0) | None => f'' (nth iN xs 0) = 0 end.
Let l := sort_pairs (combine xs ys).

Lemma poly_vals i : (i < length l)%nat -> py l i = f (px l i).
Proof. intros Hi. destruct (of_knot xs ys yp1 ypN s HM HD i Hi) as (k & Hk & E & F). fold l in E, F. rewrite E, F. apply HV. exact Hk. Qed.
Lemma poly_spline : is_spline l yp1 ypN (py l) (fun i => f' (px l i)) (fun i => c + 3 * d * px l i) (fun _ => d).
Proof.
  destruct (made xs ys yp1 ypN s HM HD) as ((P & Q) & HL & B). fold l in P, Q, HL, B.
  destruct (given_first xs ys yp1 ypN s HM HD i0 H0 Hlo) as (G1 & _). destruct (given_last xs ys yp1 ypN s HM HD iN HN Hhi) as (G2 & _). fold l in G1, G2.
  apply (poly_is_spline l a b c d Q (b_len _ _ _ _ _ B)); [exact poly_vals | |].
  - rewrite G1. exact E0.
  - rewrite G2. exact EN.
Qed.
(** Every value between the ends is in an interval. *)
Lemma interval_of v : px l 0 <= v <= px l (length l - 1) -> exists i, (S i < length l)%nat /\ px l i <= v <= px l (S i).
Proof.
  destruct (made xs ys yp1 ypN s HM HD) as (_ & HL & B). fold l in HL, B. intros Hv. assert (H2 := b_len _ _ _ _ _ B).
  destruct (locate_spec s l yp1 ypN _ B v) as (P & Q & T). set (k := locate s v) in *.
  destruct (Nat.eq_dec k 0) as [Z|Z].
  - exists 0%nat. split; [lia|]. rewrite Z in T. assert (X := T ltac:(lia)). assert (Y := sorted_px l (b_sorted _ _ _ _ _ B) 0 1 ltac:(lia)). lra.
  - specialize (Q ltac:(lia)). destruct (Nat.eq_dec k (length l)) as [Z'|Z'].
    + rewrite Z' in Q. lra.
    + exists (k - 1)%nat. specialize (T ltac:(lia)). replace (S (k - 1)) with k by lia. split; [lia | lra].
Qed.
Lemma poly_inside v : nth i0 xs 0 <= v <= nth iN xs 0 -> spline_at s 0 v = f v.
Proof.
  intros Hv. destruct (made xs ys yp1 ypN s HM HD) as (O & HL & B). fold l in O, HL, B.
  destruct (given_first xs ys yp1 ypN s HM HD i0 H0 Hlo) as (G1 & _). destruct (given_last xs ys yp1 ypN s HM HD iN HN Hhi) as (G2 & _). fold l in G1, G2.
  rewrite <- G1, <- G2 in Hv. destruct (interval_of v Hv) as (i & Hi & Hiv).
  rewrite (given_unique xs ys yp1 ypN s HM HD l _ _ _ _ O poly_spline i v Hi Hiv). rewrite poly_vals by lia. unfold f, f'. ring.
Qed.
Lemma poly_slopes : spline_at s 1 (nth i0 xs 0) = f' (nth i0 xs 0) /\ spline_at s 1 (nth iN xs 0) = f' (nth iN xs 0).
Proof.
  destruct (made xs ys yp1 ypN s HM HD) as (O & HL & B). fold l in O, HL, B. assert (H2 := b_len _ _ _ _ _ B).
  destruct (given_first xs ys yp1 ypN s HM HD i0 H0 Hlo) as (G1 & _). destruct (given_last xs ys yp1 ypN s HM HD iN HN Hhi) as (G2 & _). fold l in G1, G2.
  assert (U := pieces_unique s l yp1 ypN _ B _ _ _ _ poly_spline). split.
  - rewrite <- G1. rewrite (whole_slope1 s l yp1 ypN _ B), (b_s1 _ _ _ _ _ B). destruct (U 0%nat ltac:(lia)) as (_ & U1 & _). rewrite U1. reflexivity.
  - rewrite <- G2. set (n := length l) in *. assert (Hi : (S (n - 2) < n)%nat) by lia.
    rewrite at_locate. rewrite (locate_knot s l yp1 ypN _ B) by (fold n; lia). replace (n - 1)%nat with (S (n - 2)) by lia.
    rewrite (inner1 s l yp1 ypN _ B) by exact Hi. destruct (U (n - 2)%nat ltac:(lia)) as (_ & U1 & U2 & U3).
    rewrite <- U1, <- U3. set (mm := M_of (px l) (py l) n yp1 ypN) in *. assert (X : mm (n - 2)%nat = 2 * (c + 3 * d * px l (n - 2))) by lra. rewrite X. unfold f'. ring.
Qed.
End Poly.

(** * derivative() *)

Lemma combine_map_fst_snd (l : list (R * R)) : combine (map fst l) (map snd l) = l.
Proof. induction l as [|[a b] l IH]; [reflexivity|]. cbn. rewrite IH. reflexivity. Qed.
Lemma sorted_nodup l : StronglySorted below l -> NoDup (map fst l).
Proof.
  intros H. induction H as [|p l Hl IH Hp]; cbn; constructor; [|exact IH].
  intros C. apply in_map_iff in C. destruct C as (q & E & Hq). rewrite Forall_forall in Hp. apply Hp in Hq. unfold below in Hq. lra.
Qed.
Lemma list_eq_nth (u w : list R) : length u = length w -> (forall i, (i < length u)%nat -> nth i u 0 = nth i w 0) -> u = w.
Proof.
  revert w. induction u as [|a u IH]; intros [|b w] H K; cbn in *; try lia; [reflexivity|]. f_equal; [apply (K 0%nat); lia|].
  apply IH; [lia|]. intros i Hi. apply (K (S i)). lia.
Qed.
Lemma remake xs ys yp1 ypN s : make_spline xs ys yp1 ypN = Some s -> NoDup xs ->
  make_spline (kx s) (ky s) (Some (slope1 s)) (Some (slopeN s)) = Some s.
Proof.
  intros HM HD. destruct (made xs ys yp1 ypN s HM HD) as (O & HL & B). set (l := sort_pairs (combine xs ys)) in *.
  set (M := M_of (px l) (py l) (length l) yp1 ypN) in *.
  assert (Ex := b_x _ _ _ _ _ B). assert (Ey := b_y _ _ _ _ _ B). assert (H2 := b_len _ _ _ _ _ B). assert (HS := b_sorted _ _ _ _ _ B).
  destruct (built_make (kx s) (ky s) (Some (slope1 s)) (Some (slopeN s))) as (s' & E & O' & HL' & B').
  - rewrite Ex, Ey, !map_length. lia.
  - rewrite Ex, map_length. exact H2.
  - rewrite Ex. apply sorted_nodup. exact HS.
  - assert (El : sort_pairs (combine (kx s) (ky s)) = l).
    { rewrite Ex, Ey, combine_map_fst_snd. apply sorted_unique; [|exact HS | apply Permutation_sym, sort_pairs_perm].
      apply sort_pairs_sorted, sorted_nodup. exact HS. }
    rewrite El in *. set (M' := M_of (px l) (py l) (length l) (Some (slope1 s)) (Some (slopeN s))) in *.
    assert (EM : forall i, (i < length l)%nat -> M i = M' i).
    { apply (M_unique (px l) (py l) (length l) H2 (sorted_hx l HS)).
      - exact (b_inner _ _ _ _ _ B).
      - cbn. rewrite (b_s1 _ _ _ _ _ B). unfold cub_b, chord. assert (X := sorted_hx l HS 0%nat ltac:(lia)). field. lra.
      - cbn. rewrite (b_sN _ _ _ _ _ B). assert (X := sorted_hx l HS (length l - 2)%nat ltac:(lia)). replace (S (length l - 2)) with (length l - 1)%nat in X by lia.
        set (C := chord (px l) (py l) (length l - 2)). field. lra. }
    rewrite E. f_equal.
    assert (A1 : kx s' = kx s) by (rewrite (b_x _ _ _ _ _ B'); symmetry; exact Ex).
    assert (A2 : ky s' = ky s) by (rewrite (b_y _ _ _ _ _ B'); symmetry; exact Ey).
    assert (A3 : ky2 s' = ky2 s).
    { apply list_eq_nth; [rewrite (b_m2 _ _ _ _ _ B), (b_m2 _ _ _ _ _ B'); reflexivity|]. intros i Hi. rewrite (b_m2 _ _ _ _ _ B') in Hi.
      rewrite (b_m _ _ _ _ _ B), (b_m _ _ _ _ _ B') by exact Hi. symmetry. apply EM. exact Hi. }
    assert (A4 := b_g1 _ _ _ _ _ B' _ eq_refl). assert (A5 := b_gN _ _ _ _ _ B' _ eq_refl).
    assert (A6 := b_xs _ _ _ _ _ B'). assert (A7 := b_ys _ _ _ _ _ B'). rewrite A1 in A6. rewrite A2 in A7. rewrite <- (b_xs _ _ _ _ _ B) in A6. rewrite <- (b_ys _ _ _ _ _ B) in A7.
    clear - A1 A2 A3 A4 A5 A6 A7. destruct s, s'. cbn in *. subst. reflexivity.
Qed.

(** * LinterpCubicSpline *)

Fixpoint insert_key (a : R) (l : list R) : list R := match l with [] => [a] | b :: t => if rleb a b then a :: l else b :: insert_key a t end.
Lemma insert_pair_fst p l : map fst (insert_pair p l) = insert_key (fst p) (map fst l).
Proof. induction l as [|q l IH]; [reflexivity|]. cbn. destruct (rleb (fst p) (fst q)); [reflexivity|]. cbn. rewrite IH. reflexivity. Qed.
Lemma sort_pairs_fst l : map fst (sort_pairs l) = fold_right insert_key [] (map fst l).
Proof. induction l as [|q l IH]; [reflexivity|]. cbn. rewrite insert_pair_fst. unfold sort_pairs in IH. rewrite IH. reflexivity. Qed.
Lemma wtsums_nth fr u w i : length u = length w -> (i < length u)%nat -> nth i (wtsums fr u w) 0 = wtsum fr (nth i u 0) (nth i w 0).
Proof.
  unfold wtsums. revert w i. induction u as [|a u IH]; intros [|b w] [|i] H K; cbn in *; try lia; [reflexivity|]. apply IH; lia.
Qed.
Lemma wtsums_length fr u w : length u = length w -> length (wtsums fr u w) = length u.
Proof. intros H. unfold wtsums. rewrite map_length, combine_length. lia. Qed.
Lemma existsb_same (u : list R) : existsb (fun p => rltb (1 / 1000) (Rabs (fst p - snd p))) (combine u u) = false.
Proof.
  induction u as [|a u IH]; [reflexivity|]. cbn. rewrite IH. rewrite orb_false_r.
  destruct (rltb (1 / 1000) (Rabs (a - a))) eqn:E; [|reflexivity]. apply rltb_true in E. replace (a - a) with 0 in E by ring. rewrite Rabs_R0 in E. lra.
Qed.
Lemma linterp_lemma xs ys1 p1 pN ys2 q1 qN s1 s2 fr : NoDup xs ->
  make_spline xs ys1 p1 pN = Some s1 -> make_spline xs ys2 q1 qN = Some s2 ->
  exists s, linterp s1 s2 fr = Some s /\ forall der v, spline_at s der v = fr * spline_at s1 der v + (1 - fr) * spline_at s2 der v.
Proof.
  intros HD H1 H2. destruct (made _ _ _ _ _ H1 HD) as (_ & L1 & B1). destruct (made _ _ _ _ _ H2 HD) as (_ & L2 & B2).
  assert (EK : kx s1 = kx s2).
  { rewrite (b_x _ _ _ _ _ B1), (b_x _ _ _ _ _ B2), !sort_pairs_fst. destruct (made_lengths _ _ _ _ _ H1) as (A & _). destruct (made_lengths _ _ _ _ _ H2) as (A' & _).
    rewrite !map_fst_combine by assumption. reflexivity. }
  set (l1 := sort_pairs (combine xs ys1)) in *. set (l2 := sort_pairs (combine xs ys2)) in *.
  set (M1 := M_of (px l1) (py l1) (length l1) p1 pN) in *. set (M2 := M_of (px l2) (py l2) (length l2) q1 qN) in *.
  assert (EX : xstep s1 = xstep s2) by (rewrite (b_xs _ _ _ _ _ B1), (b_xs _ _ _ _ _ B2), EK; reflexivity).
  assert (N1 := b_len _ _ _ _ _ B1).
  assert (K1 : length (kx s1) = length xs) by (rewrite (b_x _ _ _ _ _ B1), map_length; exact L1).
  assert (Y1 : length (ky s1) = length xs) by (rewrite (b_y _ _ _ _ _ B1), map_length; exact L1).
  assert (Y2 : length (ky s2) = length xs) by (rewrite (b_y _ _ _ _ _ B2), map_length; exact L2).
  assert (Z1 : length (ky2 s1) = length xs) by (rewrite (b_m2 _ _ _ _ _ B1); exact L1).
  assert (Z2 : length (ky2 s2) = length xs) by (rewrite (b_m2 _ _ _ _ _ B2); exact L2).
  assert (EXX : forall w, wtsums fr w w = w).
  { intros w. unfold wtsums. induction w as [|a w IH]; [reflexivity|]. cbn. rewrite IH. f_equal. unfold wtsum. ring. }
  unfold linterp. rewrite <- EK, Nat.eqb_refl. cbn [negb]. rewrite existsb_same. eexists. split; [reflexivity|].
  rewrite <- EX, EXX. intros der v. unfold spline_at. cbn [kx]. rewrite <- EK. set (c := searchsorted (kx s1) v).
  assert (Hc : (c <= length xs)%nat).
  { rewrite <- K1. apply searchsorted_spec. exact (kx_sorted s1 l1 p1 pN M1 B1). }
  unfold part. cbn [kx]. rewrite <- EK. destruct (Nat.eqb_spec c 0) as [C|C].
  - unfold low_part. cbn [kx ky slope1]. rewrite wtsums_nth by lia. rewrite <- EK. unfold wtsum.
    destruct (der =? 0)%Z; [ring|]. destruct (der =? 1)%Z; ring.
  - destruct (Nat.leb_spec (length (kx s1)) c) as [D|D].
    + unfold high_part. cbn [kx ky slopeN]. rewrite wtsums_nth by lia. rewrite <- EK. unfold wtsum.
      destruct (der =? 0)%Z; [ring|]. destruct (der =? 1)%Z; ring.
    + unfold inner_part. cbn [kx ky ky2 xstep]. rewrite !wtsums_nth by lia. rewrite <- EK, <- EX. unfold wtsum, Rdiv.
      destruct (der =? 0)%Z; [ring|]. destruct (der =? 1)%Z; [ring|]. destruct (der =? 2)%Z; [ring|]. destruct (der =? 3)%Z; ring.
Qed.
