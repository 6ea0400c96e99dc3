(** Proofs about drift corrections. *)
From Coq Require Import Reals ZArith Bool Lra Lia Psatz Permutation Sorted List.
Import ListNotations.
From Verif Require Import DcModel DcSpec.
Local Open Scope R_scope.

Lemma dc_inj {A} (x y : A) : Some x = Some y -> x = y.
Proof. congruence. Qed.

(* ---------- sorting ---------- *)

Lemma insert_perm x l : Permutation (x :: l) (insert x l).
Proof.
  induction l as [|y l IH]; cbn; [reflexivity|]. destruct (Rle_dec x y); [reflexivity|].
  etransitivity; [apply perm_swap|]. now constructor.
Qed.
Lemma isort_perm l : Permutation l (isort l).
Proof. induction l as [|x l IH]; cbn; [reflexivity|]. etransitivity; [|apply insert_perm]. now constructor. Qed.
Lemma isort_length l : length (isort l) = length l.
Proof. symmetry. apply Permutation_length, isort_perm. Qed.
Lemma insert_sorted x l : StronglySorted Rle l -> StronglySorted Rle (insert x l).
Proof.
  induction 1 as [|y l S IH F]; cbn; [repeat constructor|]. destruct (Rle_dec x y) as [L|L].
  - constructor; [now constructor|]. constructor; [exact L|]. eapply Forall_impl; [|exact F]. intros; cbn in *; lra.
  - constructor; [exact IH|]. rewrite Forall_forall in *. intros z I. apply (Permutation_in z (Permutation_sym (insert_perm x l))) in I.
    destruct I as [<- | I]; [lra|auto].
Qed.
Lemma isort_sorted l : StronglySorted Rle (isort l).
Proof. induction l; cbn; [constructor|]. now apply insert_sorted. Qed.
Lemma sorted_nth l i j : StronglySorted Rle l -> (i <= j < length l)%nat -> nth i l 0 <= nth j l 0.
Proof.
  intros S. revert i j. induction S as [|x l S IH F]; intros i j H; cbn in *; [lia|].
  destruct j as [|j]; [replace i with 0%nat by lia; lra|]. destruct i as [|i]; [|apply IH; lia].
  rewrite Forall_forall in F. apply F. apply nth_In. lia.
Qed.
Lemma insert_shift c x l : insert (x + c) (map (fun v => v + c) l) = map (fun v => v + c) (insert x l).
Proof.
  induction l as [|y l IH]; cbn; [reflexivity|]. destruct (Rle_dec (x + c) (y + c)), (Rle_dec x y); try lra; [reflexivity|]. cbn. now rewrite IH.
Qed.
Lemma isort_shift c l : isort (map (fun v => v + c) l) = map (fun v => v + c) (isort l).
Proof. unfold isort. induction l as [|x l IH]; cbn; [reflexivity|]. rewrite IH. apply insert_shift. Qed.
Lemma nth_shift c l i : (i < length l)%nat -> nth i (map (fun v => v + c) l) 0 = nth i l 0 + c.
Proof. intros H. rewrite (nth_indep _ 0 (0 + c)) by now rewrite map_length. apply (map_nth (fun v => v + c)). Qed.

Lemma half_lt n : (0 < n)%nat -> (n / 2 < n)%nat.
Proof. intros H. apply Nat.div_lt; lia. Qed.
Lemma median_shift c l : median (map (fun v => v + c) l) = option_map (fun m => m + c) (median l).
Proof.
  destruct l as [|x l]; [reflexivity|]. set (k := x :: l). assert (N : (0 < length k)%nat) by (cbn; lia).
  assert (M : forall k', k' <> [] -> median k' = Some (if Nat.even (length k') then (nth (length k' / 2 - 1) (isort k') 0 + nth (length k' / 2) (isort k') 0) / 2 else nth (length k' / 2) (isort k') 0))
    by (intros [|y k'] H; [congruence|reflexivity]).
  rewrite !M by (subst k; discriminate). cbn [option_map]. f_equal. rewrite map_length, isort_shift.
  pose proof (half_lt _ N). rewrite !nth_shift by (rewrite isort_length; lia). destruct (Nat.even (length k)); lra.
Qed.

Lemma at_most_perm x a b : Permutation a b -> at_most x a = at_most x b.
Proof. induction 1; cbn; lia. Qed.
Lemma at_least_perm x a b : Permutation a b -> at_least x a = at_least x b.
Proof. induction 1; cbn; lia. Qed.
Lemma at_most_sorted l i x : StronglySorted Rle l -> (i < length l)%nat -> nth i l 0 <= x -> (i < at_most x l)%nat.
Proof.
  intros S. revert i. induction S as [|y l S IH F]; intros i H L; cbn in *; [lia|].
  destruct i as [|i].
  - destruct (Rle_dec y x); [lia|lra].
  - assert (y <= nth i l 0) by (rewrite Forall_forall in F; apply F, nth_In; lia).
    specialize (IH i ltac:(lia) L). destruct (Rle_dec y x); [lia|lra].
Qed.
Lemma at_least_sorted l i x : StronglySorted Rle l -> (i < length l)%nat -> x <= nth i l 0 -> (length l - i <= at_least x l)%nat.
Proof.
  intros S. revert i. induction S as [|y l S IH F]; intros i H L; cbn in *; [lia|].
  destruct i as [|i].
  - destruct (Rle_dec x y); [|lra]. destruct l as [|z l]; cbn; [lia|].
    specialize (IH 0%nat ltac:(cbn; lia)). cbn in IH. assert (x <= z) by (inversion F; subst; lra). specialize (IH H0). cbn in *. lia.
  - specialize (IH i ltac:(lia) L). destruct (Rle_dec x y); lia.
Qed.

Lemma median_halves l m : median l = Some m -> (length l <= 2 * at_most m l)%nat /\ (length l <= 2 * at_least m l)%nat.
Proof.
  intros H. destruct l as [|x l]; [discriminate|]. set (k := x :: l) in *. assert (N : (0 < length k)%nat) by (cbn; lia).
  change (median k) with (Some (if Nat.even (length k) then (nth (length k / 2 - 1) (isort k) 0 + nth (length k / 2) (isort k) 0) / 2 else nth (length k / 2) (isort k) 0)) in H.
  apply dc_inj in H. rewrite (at_most_perm m _ _ (isort_perm k)), (at_least_perm m _ _ (isort_perm k)).
  pose proof (half_lt _ N) as HL. pose proof (isort_sorted k) as S. rewrite <- (isort_length k) in H, HL, N |- *.
  set (s := isort k) in *. clearbody s. clear k x l.
  destruct (Nat.even (length s)) eqn:E.
  - apply Nat.even_spec in E. destruct E as (h & E). rewrite E in *. replace (2 * h / 2)%nat with h in * by (rewrite Nat.mul_comm, Nat.div_mul; lia).
    assert (A : nth (h - 1) s 0 <= nth h s 0) by (apply sorted_nth; [exact S|lia]).
    pose proof (at_most_sorted s (h - 1) m S ltac:(lia) ltac:(lra)). pose proof (at_least_sorted s h m S ltac:(lia) ltac:(lra)). lia.
  - assert (O : Nat.odd (length s) = true) by (unfold Nat.odd; now rewrite E). apply Nat.odd_spec in O. destruct O as (h & O). rewrite O in *.
    replace ((2 * h + 1) / 2)%nat with h in * by (rewrite Nat.mul_comm, Nat.div_add_l; [|lia]; cbn; lia).
    pose proof (at_most_sorted s h m S ltac:(lia) ltac:(lra)). pose proof (at_least_sorted s h m S ltac:(lia) ltac:(lra)). lia.
Qed.

(* ---------- number of bins ---------- *)

Lemma double_spec fuel : forall p w, (1 <= p)%Z ->
  exists k, double fuel p w = (p * 2 ^ Z.of_nat k)%Z /\ (w <= p * 2 ^ Z.of_nat fuel -> w <= double fuel p w)%Z /\
  (k = 0%nat \/ (p * 2 ^ Z.of_nat (k - 1) < w)%Z).
Proof.
  induction fuel as [|fuel IH]; intros p w P; cbn [double].
  - exists 0%nat. cbn. split; [lia|]. split; [lia|now left].
  - destruct (Z.ltb_spec p w) as [L|L].
    + destruct (IH (p * 2)%Z w ltac:(lia)) as (k & E & B & M). exists (S k). split; [rewrite E, Nat2Z.inj_succ, Z.pow_succ_r; lia|]. split.
      * intros H. apply B. rewrite Nat2Z.inj_succ, Z.pow_succ_r in H; lia.
      * right. replace (S k - 1)%nat with k by lia. destruct M as [->|M]; [cbn; lia|].
        destruct k as [|k]; [cbn; lia|]. replace (S k - 1)%nat with k in M by lia. rewrite Nat2Z.inj_succ, Z.pow_succ_r; lia.
    + exists 0%nat. split; [cbn; lia|]. split; [intros _; exact L|now left].
Qed.
Lemma pow_big n : (Z.of_nat n < 2 ^ Z.of_nat n)%Z.
Proof. apply Z.pow_gt_lin_r; lia. Qed.

Lemma bins_spec sigma lo hi : let n := Z.of_nat (bins sigma lo hi) in
  (1024 <= n)%Z /\ (exists k, n = 2 ^ Z.of_nat k)%Z /\ (wanted_bins sigma lo hi <= n)%Z /\ (n = 1024 \/ n < 2 * wanted_bins sigma lo hi)%Z.
Proof.
  cbn zeta. unfold bins. set (w := wanted_bins sigma lo hi).
  destruct (double_spec (Z.to_nat w) 1024 w ltac:(lia)) as (k & E & B & M).
  assert (P : (1 <= 2 ^ Z.of_nat k)%Z) by (apply (Z.pow_le_mono_r 2 0); lia).
  rewrite Z2Nat.id by lia. rewrite E in *. split; [lia|]. split.
  { exists (10 + k)%nat. rewrite Nat2Z.inj_add, Z.pow_add_r by lia. reflexivity. }
  split.
  - apply B. destruct (Z.le_gt_cases w 0); [assert (0 <= 2 ^ Z.of_nat (Z.to_nat w))%Z by (apply Z.pow_nonneg; lia); lia|].
    pose proof (pow_big (Z.to_nat w)). lia.
  - destruct M as [->|M]; [left; reflexivity|]. destruct k as [|k]; [left; reflexivity|]. right.
    replace (S k - 1)%nat with k in M by lia. rewrite Nat2Z.inj_succ, Z.pow_succ_r; lia.
Qed.
Lemma bins_pos sigma lo hi : (0 < bins sigma lo hi)%nat.
Proof. destruct (bins_spec sigma lo hi) as (H & _). lia. Qed.

(* ---------- sums ---------- *)

Lemma total_sum l : total l = sum l.
Proof. unfold total. induction l; cbn; congruence. Qed.
Lemma sum_app a b : sum (a ++ b) = sum a + sum b.
Proof. induction a; cbn; lra. Qed.
Lemma sum_perm a b : Permutation a b -> sum a = sum b.
Proof. induction 1; cbn; lra. Qed.
Lemma sum_scale {A} (f : A -> R) c l : sum (map (fun x => c * f x) l) = c * sum (map f l).
Proof. induction l; cbn; lra. Qed.
Lemma sum_scale_r {A} (f : A -> R) c l : sum (map (fun x => f x * c) l) = sum (map f l) * c.
Proof. induction l; cbn; lra. Qed.
Lemma sum_plus {A} (f g : A -> R) l : sum (map (fun x => f x + g x) l) = sum (map f l) + sum (map g l).
Proof. induction l; cbn; lra. Qed.
Lemma sum_zero {A} (l : list A) : sum (map (fun _ => 0) l) = 0.
Proof. induction l; cbn; lra. Qed.
Lemma sum_swap {A B} (f : A -> B -> R) l k : sum (map (fun a => sum (map (f a) k)) l) = sum (map (fun b => sum (map (fun a => f a b) l)) k).
Proof.
  induction l as [|a l IH]; cbn; [now rewrite sum_zero|]. rewrite IH. now rewrite <- sum_plus.
Qed.
Lemma sum_pos_all l : (forall x, In x l -> 0 <= x) -> 0 <= sum l.
Proof. induction l as [|a l IH]; cbn; intros H; [lra|]. specialize (IH (fun x I => H x (or_intror I))). specialize (H a (or_introl eq_refl)). lra. Qed.
Lemma sum_positive l : l <> [] -> (forall x, In x l -> 0 < x) -> 0 < sum l.
Proof.
  destruct l as [|a l]; [congruence|]. intros _ H. cbn. assert (0 <= sum l) by (apply sum_pos_all; intros x I; specialize (H x (or_intror I)); lra).
  specialize (H a (or_introl eq_refl)). lra.
Qed.
Lemma nth_map_seq (f : nat -> R) n i : (i < n)%nat -> nth i (map f (seq 0 n)) 0 = f i.
Proof.
  intros H. rewrite (nth_indep _ 0 (f 0%nat)) by now rewrite map_length, seq_length. rewrite map_nth. now rewrite seq_nth.
Qed.
Lemma map_seq_nth (l : list R) : map (fun i => nth i l 0) (seq 0 (length l)) = l.
Proof.
  apply nth_ext with (d := 0) (d' := 0); rewrite map_length, seq_length; [reflexivity|]. intros i H.
  now rewrite (nth_map_seq (fun i => nth i l 0)).
Qed.

(* ---------- the kernel ---------- *)

Lemma gaussian_pos sigma step i : 0 < gaussian sigma step i.
Proof. apply exp_pos. Qed.
Lemma folded_pos sigma step n i : 0 < folded sigma step n i.
Proof. unfold folded. destruct i; [apply gaussian_pos|]. pose proof (gaussian_pos sigma step (S i)). pose proof (gaussian_pos sigma step (n - S i)). lra. Qed.
Lemma folded_total sigma step n : (0 < n)%nat -> 0 < total (map (folded sigma step n) (seq 0 n)).
Proof.
  intros H. rewrite total_sum. apply sum_positive; [destruct n; [lia|discriminate]|]. intros x I. apply in_map_iff in I. destruct I as (i & <- & _). apply folded_pos.
Qed.
Lemma kernel_length sigma step n : length (kernel sigma step n) = n.
Proof. unfold kernel. now rewrite !map_length, seq_length. Qed.
Lemma kernel_nth sigma step n i : (i < n)%nat -> nth i (kernel sigma step n) 0 = folded sigma step n i / total (map (folded sigma step n) (seq 0 n)).
Proof.
  intros H. unfold kernel. rewrite map_map. now rewrite (nth_map_seq (fun i => folded sigma step n i / _)).
Qed.
Lemma kernel_pos sigma step n i : (i < n)%nat -> 0 < nth i (kernel sigma step n) 0.
Proof.
  intros H. rewrite kernel_nth by exact H. apply Rdiv_lt_0_compat; [apply folded_pos|apply folded_total; lia].
Qed.
Lemma kernel_sum sigma step n : (0 < n)%nat -> sum (kernel sigma step n) = 1.
Proof.
  intros H. unfold kernel. pose proof (folded_total sigma step n H) as T. unfold Rdiv. rewrite (sum_scale_r (fun v => v)).
  rewrite map_id, <- total_sum. field. lra.
Qed.
Lemma kernel_symmetric sigma step n i : (0 < i < n)%nat -> nth i (kernel sigma step n) 0 = nth (n - i) (kernel sigma step n) 0.
Proof.
  intros H. rewrite !kernel_nth by lia. f_equal. unfold folded. destruct i as [|i]; [lia|]. destruct (n - S i)%nat as [|j] eqn:E; [lia|].
  replace (n - S j)%nat with (S i) by lia. lra.
Qed.

(* ---------- circular convolution ---------- *)

Lemma circular_length k c : length (circular k c) = length c.
Proof. unfold circular. now rewrite map_length, seq_length. Qed.
Lemma circular_nth k c j : (j < length c)%nat ->
  nth j (circular k c) 0 = sum (map (fun i => nth ((j + length c - i) mod length c) k 0 * nth i c 0) (seq 0 (length c))).
Proof. intros H. unfold circular. rewrite nth_map_seq by exact H. apply total_sum. Qed.

Lemma seq_add_map a m : forall s, map (fun j => (j + a)%nat) (seq s m) = seq (s + a) m.
Proof. induction m as [|m IH]; intros s; [reflexivity|]. cbn [seq map]. f_equal. apply (IH (S s)). Qed.
Lemma rotated n i : (i < n)%nat -> Permutation (map (fun j => ((j + n - i) mod n)%nat) (seq 0 n)) (seq 0 n).
Proof.
  intros H. transitivity (seq (n - i) i ++ seq 0 (n - i)).
  - assert (E : seq 0 n = seq 0 i ++ seq (0 + i) (n - i)) by (rewrite <- seq_app; f_equal; lia). rewrite E.
    rewrite map_app. apply Permutation_app.
    + match goal with |- Permutation ?a ?b => assert (X : a = b); [|rewrite X; reflexivity] end. change (seq (n - i) i) with (seq (0 + (n - i)) i). rewrite <- seq_add_map.
      apply map_ext_in. intros j I. apply in_seq in I. rewrite Nat.mod_small; lia.
    + match goal with |- Permutation ?a ?b => assert (X : a = b); [|rewrite X; reflexivity] end. clear - H. assert (G : forall m s, (s + m <= n)%nat -> (i <= s)%nat -> map (fun j => ((j + n - i) mod n)%nat) (seq s m) = seq (s - i) m).
      { induction m as [|m IH]; intros s L1 L2; [reflexivity|]. cbn [seq map]. rewrite (IH (S s)) by lia. f_equal.
        - replace (s + n - i)%nat with ((s - i) + 1 * n)%nat by lia. rewrite Nat.mod_add by lia. apply Nat.mod_small. lia.
        - f_equal. lia. }
      rewrite G by lia. f_equal. lia.
  - rewrite Permutation_app_comm. rewrite <- (Nat.add_0_l (n - i)) at 2. rewrite <- seq_app. match goal with |- Permutation ?a ?b => assert (X : a = b); [|rewrite X; reflexivity] end. f_equal. lia.
Qed.

Lemma circular_total k c : length k = length c -> sum (circular k c) = sum k * sum c.
Proof.
  intros L. unfold circular. set (n := length c) in *.
  transitivity (sum (map (fun i => sum (map (fun j => nth ((j + n - i) mod n) k 0 * nth i c 0) (seq 0 n))) (seq 0 n))).
  - rewrite <- sum_swap. reflexivity.
  - transitivity (sum k * sum (map (fun i => nth i c 0) (seq 0 n))); [|unfold n; now rewrite map_seq_nth]. rewrite <- sum_scale. f_equal. apply map_ext_in. intros i I. apply in_seq in I.
    rewrite sum_scale_r. f_equal. rewrite <- (map_map (fun j => ((j + n - i) mod n)%nat) (fun a => nth a k 0)).
    transitivity (sum (map (fun a => nth a k 0) (seq 0 n))); [|rewrite <- L; now rewrite map_seq_nth]. apply sum_perm. apply Permutation_map. apply rotated. lia.
Qed.

(* ---------- the histogram ---------- *)

Definition half_open (a h : R) (i : nat) (v : R) : nat := if Rle_dec (a + INR i * h) v then if Rlt_dec v (a + INR (S i) * h) then 1%nat else 0%nat else 0%nat.
Lemma half_open_sum a h v m : 0 <= h ->
  sum (map (fun i => INR (half_open a h i v)) (seq 0 m)) = (if Rle_dec a v then if Rlt_dec v (a + INR m * h) then 1 else 0 else 0).
Proof.
  intros H. induction m as [|m IH].
  - cbn. destruct (Rle_dec a v); [|reflexivity]. destruct (Rlt_dec v (a + 0 * h)); [lra|reflexivity].
  - rewrite seq_S, map_app, sum_app, IH. cbn [map sum Nat.add]. unfold half_open. rewrite S_INR.
    assert (0 <= INR m * h) by (apply Rmult_le_pos; [apply pos_INR|exact H]).
    destruct (Rle_dec a v); destruct (Rlt_dec v (a + INR m * h)); destruct (Rlt_dec v (a + (INR m + 1) * h)); destruct (Rle_dec (a + INR m * h) v); cbn [INR]; try lra.
Qed.
Lemma in_bin_one a b n v : a <= b -> (0 < n)%nat ->
  sum (map (fun i => INR (if in_bin a b n i v then 1 else 0)) (seq 0 n)) = INR (if Rle_dec a v then if Rle_dec v b then 1 else 0 else 0).
Proof.
  intros L N. destruct n as [|m]; [lia|]. rewrite seq_S, map_app, sum_app. cbn [map sum Nat.add].
  set (h := (b - a) / INR (S m)).
  assert (P : 0 < INR (S m)) by (apply lt_0_INR; lia).
  assert (H : 0 <= h) by (unfold h; apply Rmult_le_pos; [lra|left; apply Rinv_0_lt_compat; exact P]).
  assert (B : a + INR (S m) * h = b) by (unfold h; field; lra).
  replace (sum (map (fun i => INR (if in_bin a b (S m) i v then 1 else 0)) (seq 0 m))) with (sum (map (fun i => INR (half_open a h i v)) (seq 0 m))).
  2: { f_equal. apply map_ext_in. intros i I. apply in_seq in I. unfold in_bin, half_open. fold h. destruct (Rle_dec (a + INR i * h) v); [|reflexivity].
       destruct (Rlt_dec v (a + INR (S i) * h)); [reflexivity|]. replace (Nat.eqb (S i) (S m)) with false by (symmetry; apply Nat.eqb_neq; lia). reflexivity. }
  rewrite half_open_sum by exact H. unfold in_bin. fold h. rewrite Nat.eqb_refl, B.
  assert (0 <= INR m * h) by (apply Rmult_le_pos; [apply pos_INR|exact H]).
  rewrite S_INR in B. 
  destruct (Rle_dec a v), (Rlt_dec v (a + INR m * h)), (Rle_dec (a + INR m * h) v), (Rlt_dec v b), (Rle_dec v b); cbn [INR]; lra.
Qed.
Lemma contents_total a b n values : a <= b -> (0 < n)%nat -> sum (contents a b n values) = INR (within a b values).
Proof.
  intros L N. unfold contents. induction values as [|v values IH].
  - cbn [filter length within]. cbn [INR]. apply sum_zero.
  - transitivity (sum (map (fun i => INR (if in_bin a b n i v then 1 else 0) + INR (length (filter (in_bin a b n i) values))) (seq 0 n))).
    + f_equal. apply map_ext. intros i. rewrite <- plus_INR. f_equal. cbn [filter]. destruct (in_bin a b n i v); reflexivity.
    + rewrite sum_plus, IH, in_bin_one by assumption. cbn [within]. now rewrite plus_INR.
Qed.
Lemma contents_length a b n values : length (contents a b n values) = n.
Proof. unfold contents. now rewrite map_length, seq_length. Qed.
Lemma contents_nonneg a b n values i : 0 <= nth i (contents a b n values) 0.
Proof.
  destruct (Nat.lt_ge_cases i n) as [H|H].
  - unfold contents. rewrite (nth_map_seq (fun i => INR (length (filter (in_bin a b n i) values)))) by exact H. apply pos_INR.
  - rewrite nth_overflow by now rewrite contents_length. lra.
Qed.
Lemma contents_perm a b n v v' : Permutation v v' -> contents a b n v = contents a b n v'.
Proof.
  intros P. unfold contents. apply map_ext. intros i. f_equal. apply Permutation_length.
  clear - P. induction P; cbn; [reflexivity | destruct (in_bin a b n i x); [now constructor|assumption] | destruct (in_bin a b n i y), (in_bin a b n i x); try reflexivity; constructor | etransitivity; eassumption].
Qed.

(* ---------- the smoothed histogram ---------- *)

Definition limits (lo hi : R) : R * R := if Req_EM_T lo hi then (lo - / 2, hi + / 2) else (lo, hi).
Lemma limits_le lo hi : lo <= hi -> fst (limits lo hi) <= snd (limits lo hi).
Proof. intros H. unfold limits. destruct (Req_EM_T lo hi); cbn; lra. Qed.
Lemma histogram_value lo hi n v : lo <= hi -> histogram lo hi n v = Some (contents (fst (limits lo hi)) (snd (limits lo hi)) n v).
Proof. intros H. unfold histogram, limits. destruct (Rlt_dec hi lo); [lra|]. destruct (Req_EM_T lo hi); reflexivity. Qed.

Lemma circular_nonneg k c j : length k = length c -> (forall i, (i < length k)%nat -> 0 <= nth i k 0) -> (forall i, 0 <= nth i c 0) -> (j < length c)%nat -> 0 <= nth j (circular k c) 0.
Proof.
  intros L K C J. rewrite circular_nth by exact J. apply sum_pos_all. intros x I. apply in_map_iff in I. destruct I as (i & <- & I).
  apply Rmult_le_pos; [|apply C]. apply K. rewrite L. apply Nat.mod_upper_bound. lia.
Qed.

Lemma map_clip l : (forall i, (i < length l)%nat -> 0 <= nth i l 0) -> map (fun v => if Rlt_dec v 0 then 0 else v) l = l.
Proof.
  intros H. apply nth_ext with (d := 0) (d' := 0); rewrite map_length; [reflexivity|]. intros i I.
  rewrite (nth_indep _ 0 ((fun v => if Rlt_dec v 0 then 0 else v) 0)) by (now rewrite map_length).
  rewrite (map_nth (fun v => if Rlt_dec v 0 then 0 else v)). destruct (Rlt_dec (nth i l 0) 0); [specialize (H i I); lra|reflexivity].
Qed.

Lemma smooth_value sigma lo hi values : sigma <> 0 -> lo <= hi ->
  let n := bins sigma lo hi in
  smooth sigma lo hi values = Some (circular (kernel sigma ((hi - lo) / INR n) n) (contents (fst (limits lo hi)) (snd (limits lo hi)) n values)).
Proof.
  intros S L. cbn zeta. unfold smooth. destruct (Req_EM_T sigma 0); [contradiction|]. rewrite histogram_value by exact L. f_equal.
  apply map_clip. intros i H. rewrite circular_length in H. apply circular_nonneg; [now rewrite kernel_length, contents_length | | apply contents_nonneg | exact H].
  intros j J. rewrite kernel_length in J. left. now apply kernel_pos.
Qed.

Lemma smooth_total sigma lo hi values h : sigma <> 0 -> lo <= hi -> smooth sigma lo hi values = Some h ->
  length h = bins sigma lo hi /\ (forall i, 0 <= nth i h 0) /\ sum h = INR (within (fst (limits lo hi)) (snd (limits lo hi)) values).
Proof.
  intros S L. rewrite smooth_value by assumption. intros H. apply dc_inj in H. subst h. rewrite circular_length, contents_length. split; [reflexivity|]. split.
  - intros i. destruct (Nat.lt_ge_cases i (bins sigma lo hi)) as [I|I].
    + apply circular_nonneg; [now rewrite kernel_length, contents_length | | apply contents_nonneg | now rewrite contents_length].
      intros j J. rewrite kernel_length in J. left. now apply kernel_pos.
    + rewrite nth_overflow; [lra|]. rewrite circular_length, contents_length. exact I.
  - rewrite circular_total by now rewrite kernel_length, contents_length. rewrite kernel_sum by apply bins_pos.
    rewrite contents_total; [lra|now apply limits_le|apply bins_pos].
Qed.

(* ---------- drift_correct ---------- *)

Lemma shifted_minus c l m : map (fun v => v - (m + c)) (map (fun v => v + c) l) = map (fun v => v - m) l.
Proof. rewrite map_map. apply map_ext. intros; lra. Qed.
Lemma drift_shift brent c indicator uncorrected limit :
  drift_correct brent (map (fun v => v + c) indicator) uncorrected limit =
  option_map (fun k => {| slope := slope k; offset := offset k + c |}) (drift_correct brent indicator uncorrected limit).
Proof.
  unfold drift_correct. rewrite median_shift. destruct (median indicator) as [m|]; [|reflexivity]. cbn [option_map].
  rewrite shifted_minus. destruct (match limit with Some l => Some l | None => option_map (fun p => 5 / 4 * p) (percentile 99 uncorrected) end) as [l|]; [|reflexivity].
  destruct (Rlt_dec l 0); reflexivity.
Qed.

Lemma scaled_zero u i : length i = length u -> scaled u i 0 = u.
Proof.
  unfold scaled. revert i. induction u as [|x u IH]; intros [|y i] H; try discriminate; cbn; [reflexivity|]. rewrite IH by (cbn in H; lia). f_equal. lra.
Qed.

Lemma select_map f g l : select g (map f l) = map f (select g l).
Proof.
  unfold select. revert l. induction g as [|b g IH]; intros [|x l]; cbn; try reflexivity. destruct b; cbn; now rewrite IH.
Qed.
Lemma apply_nth c u p i : (i < length u)%nat -> length p = length u -> nth i (apply_correction c u p) 0 = nth i u 0 * (1 + (nth i p 0 - offset c) * slope c).
Proof.
  intros I L. unfold apply_correction. set (f := fun q : R * R => fst q * (1 + (snd q - offset c) * slope c)).
  rewrite (nth_indep _ 0 (f (0, 0))) by (rewrite map_length, combine_length; lia). rewrite map_nth. rewrite combine_nth by congruence. reflexivity.
Qed.
Lemma apply_length c u p : length p = length u -> length (apply_correction c u p) = length u.
Proof. intros L. unfold apply_correction. rewrite map_length, combine_length. lia. Qed.
Lemma apply_shift c d u p : apply_correction {| slope := slope c; offset := offset c + d |} u (map (fun v => v + d) p) = apply_correction c u p.
Proof.
  unfold apply_correction. cbn [slope offset]. revert p. induction u as [|x u IH]; intros [|y p]; cbn; try reflexivity. rewrite IH. f_equal. f_equal. f_equal. f_equal. lra.
Qed.

Lemma all_zero_spec l : all_zero l = true <-> forall x, In x l -> x = 0.
Proof.
  unfold all_zero. rewrite forallb_forall. split; intros H x I; specialize (H x I); destruct (Req_EM_T x 0); congruence.
Qed.

(* ---------- time_drift_correct ---------- *)

Lemma truncate_spec x : 0 <= x -> (0 <= truncate x)%Z /\ IZR (truncate x) <= x < IZR (truncate x) + 1.
Proof.
  intros H. unfold truncate. destruct (Rle_dec 0 x); [|lra]. destruct (base_Int_part x) as [A B].
  split; [|lra]. apply le_IZR. destruct (Z.le_gt_cases 0 (Int_part x)) as [Q|Q]; [now apply IZR_le|].
  exfalso. assert (Int_part x <= -1)%Z by lia. apply IZR_le in H0. lra.
Qed.
Lemma degrees_spec dtime n spd ppd md : 0 <= dtime -> 0 < spd -> 0 < ppd ->
  let d := degrees dtime n spd ppd md in
  (1 <= d)%Z /\ (d <= Z.max md 1)%Z /\ (d = 1%Z \/ (IZR d * spd <= dtime /\ IZR d * ppd <= INR n)).
Proof.
  intros T S P. cbn zeta. unfold degrees. set (m := Rmin (dtime / spd) (INR n / ppd)).
  assert (A : 0 <= dtime / spd) by (apply Rmult_le_pos; [exact T|left; now apply Rinv_0_lt_compat]).
  assert (B : 0 <= INR n / ppd) by (apply Rmult_le_pos; [apply pos_INR|left; now apply Rinv_0_lt_compat]).
  assert (M : 0 <= m) by (unfold m; apply Rmin_glb; assumption).
  destruct (truncate_spec m M) as [Q [W _]]. split; [lia|]. split; [lia|].
  destruct (Z.eq_dec (Z.max (Z.min (truncate m) md) 1) 1) as [E|E]; [now left|]. right.
  set (d := Z.max (Z.min (truncate m) md) 1) in *.
  assert (D : (d <= truncate m)%Z) by lia. apply IZR_le in D.
  assert (IZR d <= dtime / spd) by (pose proof (Rmin_l (dtime / spd) (INR n / ppd)); unfold m in *; lra).
  assert (IZR d <= INR n / ppd) by (pose proof (Rmin_r (dtime / spd) (INR n / ppd)); unfold m in *; lra).
  split.
  - replace dtime with (dtime / spd * spd) by (field; lra). apply Rmult_le_compat_r; lra.
  - replace (INR n) with (INR n / ppd * ppd) by (field; lra). apply Rmult_le_compat_r; lra.
Qed.

Lemma downsampling_spec n d ppd : (1 <= d)%Z -> 0 < ppd ->
  let k := downsampling n d ppd in
  (1 <= k)%Z /\ (k = 1%Z \/ (IZR k * IZR d * ppd <= INR n /\ INR n < (IZR k + 1) * IZR d * ppd)).
Proof.
  intros D P. cbn zeta. unfold downsampling. apply IZR_le in D. set (e := INR n / IZR d).
  destruct (Rle_dec (2 * ppd) e) as [L|L]; [|split; [lia|now left]].
  assert (M : 2 <= e / ppd) by (apply (Rmult_le_reg_r ppd); [exact P|]; unfold Rdiv; rewrite Rmult_assoc, Rinv_l; lra).
  destruct (truncate_spec (e / ppd) ltac:(lra)) as [Q [W X]].
  split; [apply le_IZR; assert (1 < IZR (truncate (e / ppd)) ) by lra; lra|]. right.
  assert (E : INR n = e / ppd * (IZR d * ppd)) by (unfold e; field; split; lra).
  assert (Z0 : 0 < IZR d * ppd) by (apply Rmult_lt_0_compat; lra).
  rewrite E. split.
  - rewrite Rmult_assoc. apply Rmult_le_compat_r; lra.
  - rewrite Rmult_assoc. apply Rmult_lt_compat_r; lra.
Qed.

Lemma strided_length k fuel l : (1 <= k)%nat -> (length l <= fuel)%nat -> (length l <= k * length (strided fuel k l) < length l + k)%nat.
Proof.
  intros K. revert l. induction fuel as [|f IH]; intros l H; destruct l as [|x l]; cbn [strided length] in *; try lia.
  destruct (Nat.le_gt_cases (length l) (k - 1)) as [L|L].
  - rewrite (skipn_all2 l L). destruct f; cbn; lia.
  - specialize (IH (skipn (k - 1) l) ltac:(rewrite skipn_length; lia)). rewrite skipn_length in IH. lia.
Qed.
Lemma strided_incl k fuel l x : In x (strided fuel k l) -> In x l.
Proof.
  revert l. induction fuel as [|f IH]; intros [|y l]; cbn; try easy. intros [<-|H]; [now left|]. right. apply IH in H.
  rewrite <- (firstn_skipn (k - 1) l). apply in_or_app. now right.
Qed.
Lemma strided_nth k fuel l i : (1 <= k)%nat -> (length l <= fuel)%nat -> (k * i < length l)%nat -> nth i (strided fuel k l) 0 = nth (k * i) l 0.
Proof.
  intros K. revert l i. induction fuel as [|f IH]; intros [|x l] i H I; cbn [strided length] in *; try lia.
  destruct i as [|i]; [now rewrite Nat.mul_0_r|]. cbn [nth]. rewrite IH; rewrite ?skipn_length; try lia.
  replace (k * S i)%nat with (S (k - 1 + k * i)) by lia. cbn [nth]. 
  clear. generalize (k * i)%nat as j. generalize (k - 1)%nat as m. intros m. revert l. induction m as [|m IH]; intros l j; cbn; [reflexivity|]. destruct l; [now destruct j|]. apply IH.
Qed.

Lemma min_max_spec l x : In x l -> min_of l <= x <= max_of l.
Proof.
  destruct l as [|a l]; [easy|]. unfold min_of, max_of.
  assert (G : forall l a, fold_left Rmin l a <= a /\ a <= fold_left Rmax l a /\ forall x, In x l -> fold_left Rmin l a <= x <= fold_left Rmax l a).
  { clear. induction l as [|b l IH]; intros a; cbn; [split; [lra|split; [lra|easy]]|].
    destruct (IH (Rmin a b)) as (A & _ & A'). destruct (IH (Rmax a b)) as (_ & B & B'). pose proof (Rmin_l a b). pose proof (Rmin_r a b). pose proof (Rmax_l a b). pose proof (Rmax_r a b).
    split; [lra|]. split; [lra|]. intros x [<-|I]; [lra|]. specialize (A' x I). specialize (B' x I). lra. }
  destruct (G l a) as (A & B & C). intros [<-|I]; [lra|now apply C].
Qed.
Lemma normalize_range a b t : a < b -> a <= t <= b -> -1 <= normalize a b t <= 1.
Proof.
  intros H T. unfold normalize.
  assert (P : 0 < / (b - a)) by (apply Rinv_0_lt_compat; lra).
  assert (0 <= (t - a) / (b - a)) by (apply Rmult_le_pos; lra).
  assert ((t - a) / (b - a) <= 1). { replace 1 with ((b - a) / (b - a)) by (field; lra). apply Rmult_le_compat_r; lra. }
  lra.
Qed.

Lemma set_nth_length l i v : (i < length l)%nat -> length (set_nth l i v) = length l.
Proof. intros H. unfold set_nth. rewrite app_length. cbn [length]. rewrite firstn_length, skipn_length. lia. Qed.
Lemma fit_length brent e leg xs ys todo : forall i coef, (i + todo <= length coef)%nat -> length (fit brent e leg xs ys i todo coef) = length coef.
Proof.
  induction todo as [|k IH]; intros i coef H; cbn [fit]; [reflexivity|]. rewrite IH; rewrite set_nth_length; lia.
Qed.
Lemma uncorrected_model (xs ys : list R) : length xs = length ys -> map (fun xy : R * R => snd xy * (1 + 0)) (combine xs ys) = ys.
Proof.
  revert ys. induction xs as [|x xs IH]; intros [|y ys] L; try discriminate; cbn; [reflexivity|].
  rewrite IH by (cbn in L; lia). f_equal. lra.
Qed.
Lemma set_nth_next (pre : list R) k v : set_nth (pre ++ repeat 0 (S k)) (length pre) v = (pre ++ [v]) ++ repeat 0 k.
Proof.
  unfold set_nth. rewrite firstn_app, firstn_all, Nat.sub_diag. cbn [firstn]. rewrite app_nil_r, <- app_assoc. f_equal. cbn [app]. f_equal.
  rewrite skipn_app. rewrite (skipn_all2 pre) by lia. replace (S (length pre) - length pre)%nat with 1%nat by lia. reflexivity.
Qed.
Lemma fit_greedy brent e leg xs ys k : forall pre, exists r,
  fit brent e leg xs ys (length pre) k (pre ++ repeat 0 k) = pre ++ r /\ length r = k /\
  forall j, (j < k)%nat -> nth j r 0 = brent (cost e leg xs ys (pre ++ firstn j r ++ repeat 0 (k - j)) (length pre + j)).
Proof.
  induction k as [|k IH]; intros pre; cbn [fit].
  - exists []. split; [reflexivity|]. split; [reflexivity|]. intros j J. lia.
  - set (v := brent (cost e leg xs ys (pre ++ repeat 0 (S k)) (length pre))). rewrite set_nth_next.
    destruct (IH (pre ++ [v])) as (r & E & L & V). rewrite app_length in E. cbn [length] in E. rewrite Nat.add_1_r in E. exists (v :: r).
    split; [rewrite E, <- app_assoc; reflexivity|]. split; [cbn; lia|]. intros [|j] J.
    + cbn [nth firstn app]. now rewrite Nat.sub_0_r, Nat.add_0_r.
    + cbn [nth firstn Nat.sub app]. rewrite V by lia. rewrite app_length. cbn [length]. rewrite <- app_assoc. cbn [app].
      replace (length pre + 1 + j)%nat with (length pre + S j)%nat by lia. reflexivity.
Qed.
