From Coq Require Import ZArith QArith Qcanon List Lia Bool.
From Verif Require Import QcPre LagModel DerModel ToepModel WhiModel ToepSpec OptModel OptSpec OptProofs SumProofs WnModel WnSpec.
Import ListNotations.
Local Open Scope Qc_scope.

Lemma scaled_length k l : length (scaled k l) = length l.
Proof. apply map_length. Qed.
Lemma scaled_nth k l i : nth i (scaled k l) 0 = k * nth i l 0.
Proof.
  revert i. induction l as [|x l IH]; intros [|i]; simpl; auto; ring.
Qed.
Lemma scaled_1 l : scaled 1 l = l.
Proof. unfold scaled. rewrite <- (map_id l) at 2. apply map_ext. intros. ring. Qed.
Lemma scaled_app k a b : scaled k (a ++ b) = scaled k a ++ scaled k b.
Proof. apply map_app. Qed.
Lemma scaled_rev k l : rev (scaled k l) = scaled k (rev l).
Proof. symmetry. apply map_rev. Qed.
Lemma scaled_firstn k n l : firstn n (scaled k l) = scaled k (firstn n l).
Proof. apply firstn_map. Qed.
Lemma scaled_skipn k n l : skipn n (scaled k l) = scaled k (skipn n l).
Proof. apply skipn_map. Qed.
Lemma scaled_tl k l : tl (scaled k l) = scaled k (tl l).
Proof. now destruct l. Qed.
Lemma scaled_scaled j k l : scaled j (scaled k l) = scaled (j * k) l.
Proof. unfold scaled. rewrite map_map. apply map_ext. intros. ring. Qed.
Lemma dot_scaled_l k a b : dot (scaled k a) b = k * dot a b.
Proof. revert b. induction a as [|x a IH]; intros [|y b]; simpl; try ring. unfold scaled in *. rewrite IH. ring. Qed.
Lemma dot_scaled_r k a b : dot a (scaled k b) = k * dot a b.
Proof. revert b. induction a as [|x a IH]; intros [|y b]; simpl; try ring. unfold scaled in *. rewrite IH. ring. Qed.
Lemma upto_scaled k T K : upto (scaled k T) K = scaled k (upto T K).
Proof. unfold upto. now rewrite scaled_tl, scaled_firstn. Qed.
Lemma total_scaled k l : total (scaled k l) = k * total l.
Proof.
  unfold total. rewrite scaled_length, <- qsum_scale. apply qsum_ext. intros i _. apply scaled_nth.
Qed.
Lemma mul_nz (a b : Qc) : a <> 0 -> b <> 0 -> a * b <> 0.
Proof. intros A B C. apply Qcmult_integral in C. tauto. Qed.
Lemma qdiv_scaled j k a b : k <> 0 -> qdiv (j * a) (k * b) = option_map (fun x => j / k * x) (qdiv a b).
Proof.
  intros K. unfold qdiv. destruct (Qc_eq_dec b 0) as [->|B].
  - destruct (Qc_eq_dec (k * 0) 0) as [_|N]; [reflexivity|]. exfalso. apply N. ring.
  - destruct (Qc_eq_dec (k * b) 0) as [E|N]; [exfalso; now apply (mul_nz k b)|]. simpl. f_equal. field. auto.
Qed.
Lemma vsubs_scaled j v c u : vsubs (scaled j v) (j * c) u = scaled j (vsubs v c u).
Proof.
  unfold vsubs, scaled. revert u. induction v as [|x v IH]; intros [|y u]; simpl; auto. rewrite IH. f_equal. ring.
Qed.
Lemma extend_scaled k j row v a rhs rhs' d : k <> 0 -> rhs' = k * j * rhs ->
  extend (scaled k row) (scaled j v) a rhs' (k * d) = option_map (scaled j) (extend row v a rhs d).
Proof.
  intros K ->. unfold extend. rewrite dot_scaled_l, dot_scaled_r.
  replace (k * (j * dot row v) - k * j * rhs) with ((k * j) * (dot row v - rhs)) by ring.
  rewrite qdiv_scaled by exact K. destruct (qdiv (dot row v - rhs) d) as [x|]; [|reflexivity]. simpl.
  replace (k * j / k * x) with (j * x) by (field; exact K). rewrite vsubs_scaled, scaled_app. reflexivity.
Qed.
Lemma precompute_scaled k T : k <> 0 -> forall m K g,
  precompute m (scaled k T) K g = option_map (map (fun p => (k * fst p, snd p))) (precompute m T K g).
Proof.
  intros HK. induction m as [|m IH]; intros K g; cbn [precompute]; rewrite !upto_scaled, dot_scaled_l, !scaled_nth.
  - replace (k * dot (upto T K) g - k * nth 0 T 0) with (k * (dot (upto T K) g - nth 0 T 0)) by ring. reflexivity.
  - replace (k * dot (upto T K) g - k * nth 0 T 0) with (k * (dot (upto T K) g - nth 0 T 0)) by ring.
    rewrite scaled_rev.
    pose proof (extend_scaled k 1 (rev (upto T K)) g g (nth (K + 1) T 0) (k * nth (K + 1) T 0) (dot (upto T K) g - nth 0 T 0) HK ltac:(ring)) as E.
    rewrite scaled_1 in E. rewrite E. destruct (extend (rev (upto T K)) g g (nth (K + 1) T 0) (dot (upto T K) g - nth 0 T 0)) as [g'|]; [|reflexivity].
    cbn [option_map]. rewrite scaled_1, IH. destruct (precompute m T (K + 1) g'); reflexivity.
Qed.
Lemma solve_loop_scaled k T y : k <> 0 -> forall pre K x g,
  solve_loop (map (fun p => (k * fst p, snd p)) pre) (scaled k T) y K (scaled (/ k) x) g =
  option_map (scaled (/ k)) (solve_loop pre T y K x g).
Proof.
  intros HK. induction pre as [|[d lead] pre IH]; intros K x g; [reflexivity|].
  cbn [map solve_loop fst snd]. rewrite upto_scaled, scaled_rev.
  rewrite (extend_scaled k (/ k) (rev (upto T K)) x g (nth K y 0) (nth K y 0) d HK).
  2:{ rewrite Qcmult_inv_r by exact HK. ring. }
  destruct (extend (rev (upto T K)) x g (nth K y 0) d) as [x'|]; [|reflexivity]. cbn [option_map].
  destruct pre as [|p pre]; [reflexivity|]. exact (IH (K + 1)%nat x' (vsubs g lead (rev g) ++ [lead])).
Qed.
(* equations with a matrix k times as large have a solution 1/k as large *)
Lemma solve_scaled k T y : k <> 0 -> solve_symmetric (scaled k T) y = option_map (scaled (/ k)) (solve_symmetric T y).
Proof.
  intros HK. unfold solve_symmetric. rewrite scaled_length, !scaled_nth.
  destruct (Nat.leb (length T) 1 || negb (Nat.eqb (length y) (length T))); [reflexivity|].
  rewrite qdiv_scaled by exact HK.
  destruct (qdiv (nth 1 T 0) (nth 0 T 0)) as [g0|]; [|reflexivity]. cbn [option_map].
  replace (k / k * g0) with g0 by (field; exact HK). rewrite precompute_scaled by exact HK.
  destruct (precompute (length T - 2) T 1 [g0]) as [pre|]; [|reflexivity]. cbn [option_map].
  replace (nth 0 y 0) with (1 * nth 0 y 0) by ring. rewrite qdiv_scaled by exact HK.
  replace (1 * nth 0 y 0) with (nth 0 y 0) by ring.
  destruct (qdiv (nth 0 y 0) (nth 0 T 0)) as [x0|]; [|reflexivity]. cbn [option_map].
  replace [1 / k * x0] with (scaled (/ k) [x0]) by (simpl; f_equal; field; exact HK).
  now apply solve_loop_scaled.
Qed.

Lemma mirror_scaled k n l : mirror n (scaled k l) = scaled k (mirror n l).
Proof. unfold mirror. now rewrite scaled_firstn, scaled_rev, scaled_tl, scaled_app. Qed.
Lemma slice_scaled k l a n : slice (scaled k l) a n = scaled k (slice l a n).
Proof. unfold slice. now rewrite scaled_skipn, scaled_firstn. Qed.
Lemma fold_scaled k (f g : nat -> Qc) l x : (forall i, g i = k * f i) ->
  fold_left (fun acc i => acc + g i) l (k * x) = k * fold_left (fun acc i => acc + f i) l x.
Proof.
  intros H. revert x. induction l as [|i l IH]; intros x; simpl; [reflexivity|]. rewrite H.
  replace (k * x + k * f i) with (k * (x + f i)) by ring. apply IH.
Qed.
Lemma bracketR_scaled k q c : bracketR q (scaled k c) = option_map (fun v => k * v) (bracketR q c).
Proof.
  unfold bracketR. rewrite scaled_length. destruct (Nat.ltb (length c) (length q) || Nat.eqb (length q) 0); [reflexivity|].
  cbn [option_map]. f_equal. replace 0 with (k * 0) at 1 by ring.
  apply (fold_scaled k (fun i => nth i q 0 * dot (slice (mirror (length q) c) (length q - i - 1) (length q)) q)).
  intros i. rewrite mirror_scaled, slice_scaled, dot_scaled_l. ring.
Qed.
Lemma parabola_scaled j a b c d e : let '(p0, p1, p2) := parabola a b c d e in
  parabola (j * a) (j * b) (j * c) (j * d) (j * e) = (j * p0, j * p1, j * p2).
Proof. unfold parabola. f_equal; [f_equal|]; ring. Qed.
Lemma normalize_scaled j f s : j <> 0 -> normalize_5lag (scaled j f) s = normalize_5lag f s.
Proof.
  intros J. unfold normalize_5lag. rewrite scaled_length, !dot_scaled_l. destruct (Nat.ltb _ _); [reflexivity|].
  pose proof (parabola_scaled j (dot f (slice s 0 (length f))) (dot f (slice s 1 (length f))) (dot f (slice s 2 (length f)))
                (dot f (slice s 3 (length f))) (dot f (slice s 4 (length f)))) as P.
  destruct (parabola _ _ _ _ _) as [[p0 p1] p2]. rewrite P. rewrite qdiv_scaled by exact J.
  destruct (qdiv p1 p2) as [h|]; [|reflexivity]. cbn [option_map].
  replace (j / j * h) with h by (field; exact J).
  set (ctr := - (qz 1 / qz 2) * h).
  replace (j * p0 + ctr * (j * p1 + ctr * (j * p2))) with (j * (p0 + ctr * (p1 + ctr * p2))) by ring.
  replace 1 with (1 * 1) at 1 by ring. rewrite qdiv_scaled by exact J.
  destruct (qdiv 1 (p0 + ctr * (p1 + ctr * p2))) as [sc|]; [|reflexivity]. cbn [option_map]. f_equal.
  unfold scaled. rewrite map_map. apply map_ext. intros x. field. exact J.
Qed.

(* a maker whose noise is k times as strong *)
Definition noisier (k : Qc) (m : maker) : maker :=
  mkMaker (sig m) (npre m) (option_map (scaled k) (noise m)) (dtm m) (wht m) (upeak m).
Lemma autocorr_scaled k m a b : autocorr (noisier k m) a b = scaled k (autocorr m a b).
Proof. unfold autocorr, noisier. simpl. destruct (noise m); simpl; [apply scaled_firstn|reflexivity]. Qed.
Lemma five_lag_scaled k m a b : k <> 0 ->
  compute_5lag (noisier k m) a b =
  option_map (fun F => mkF5 (values F) (nominal_peak F) (k * variance F) (avg_signal F)) (compute_5lag m a b).
Proof.
  intros K. unfold compute_5lag. change (normalize_signal (noisier k m) a b) with (normalize_signal m a b).
  destruct (normalize_signal m a b) as [[[s peak] d]|]; [|reflexivity]. rewrite autocorr_scaled, scaled_length.
  destruct (Nat.ltb _ _); [reflexivity|]. rewrite scaled_firstn, !solve_scaled by exact K.
  set (corr := firstn (length (cut 2 2 s)) (autocorr m a b)). set (n := length (cut 2 2 s)).
  destruct (solve_symmetric corr (cut 2 2 s)) as [rs|]; [|reflexivity]. cbn [option_map].
  destruct (solve_symmetric corr (repeat 1 n)) as [r1|]; [|reflexivity]. cbn [option_map].
  assert (IK : / k <> 0).
  { intros X. apply K. rewrite <- (Qcmult_1_l k), <- (Qcmult_inv_l (/ k)); [|intros Y; apply (Qcmult_inv_r k) in K; rewrite Y in K; ring_simplify in K; discriminate].
    rewrite X. ring. }
  replace (map (fun i => total (scaled (/ k) r1) * nth i (scaled (/ k) rs) 0 - total (scaled (/ k) rs) * nth i (scaled (/ k) r1) 0) (seq 0 n))
    with (scaled (/ k * / k) (map (fun i => total r1 * nth i rs 0 - total rs * nth i r1 0) (seq 0 n))).
  2:{ unfold scaled at 1. rewrite map_map. apply map_ext. intros i. rewrite !total_scaled, !scaled_nth. ring. }
  rewrite normalize_scaled by (apply mul_nz; exact IK).
  destruct (normalize_5lag _ s) as [f|]; [|reflexivity]. rewrite bracketR_scaled.
  destruct (bracketR f corr); reflexivity.
Qed.

Lemma row_scaled j V i : row (map (scaled j) V) i = scaled j (row V i).
Proof. unfold row. change (@nil Qc) with (scaled j []) at 1. apply map_nth. Qed.
Lemma opt3_scaled j f g l : (forall y, g y = option_map (scaled j) (f y)) -> opt3 g l = option_map (map (scaled j)) (opt3 f l).
Proof.
  intros H. induction l as [|y l IH]; [reflexivity|]. unfold opt3 in *. cbn [fold_right]. rewrite IH, H.
  destruct (f y); [|reflexivity]. cbn [option_map]. clear IH. destruct (fold_right _ _ l); reflexivity.
Qed.
Lemma inv3_scaled j A B : j <> 0 -> (forall i k, B i k = j * A i k) ->
  match inv3 A, inv3 B with
  | None, None => True
  | Some U, Some V => forall i k, V i k = / j * U i k
  | _, _ => False
  end.
Proof.
  intros J H. unfold inv3.
  match goal with |- context [Qc_eq_dec ?d 0] => destruct (Qc_eq_dec d 0) as [E|N] end.
  - match goal with |- context [Qc_eq_dec ?d 0] => destruct (Qc_eq_dec d 0) as [_|N]; [exact I|] end.
    apply N. rewrite !H. match type of E with ?d = 0 => transitivity (j * j * j * d); [ring|rewrite E; ring] end.
  - match goal with |- context [Qc_eq_dec ?d 0] => destruct (Qc_eq_dec d 0) as [E|M] end.
    + revert E. rewrite !H. match type of N with ?d <> 0 => intros E; assert (X : j * j * j * d = 0) by (rewrite <- E; ring); revert X end.
      repeat apply mul_nz; assumption.
    + revert M. rewrite !H. intros M i k. rewrite !H.
      match type of N with ?d <> 0 => match type of M with ?e <> 0 => assert (X : e = j * j * j * d) by ring; rewrite X; clear M X; set (det := d) in * end end.
      field. auto.
Qed.

Definition noisier_ats (k : Qc) (F : filter_ats) : filter_ats :=
  mkFA (f_values F) (f_dt F) (f_baseline F) (a_peak F) (k * a_variance F) (a_signal F) (a_dt F).
Lemma combine3_scaled ns j c c' V : j <> 0 -> (forall i, c' i = / j * c i) -> combine3 ns c' (map (scaled j) V) = combine3 ns c V.
Proof.
  intros J H. unfold combine3. apply map_ext. intros i. rewrite !row_scaled, !scaled_nth, !H. field. exact J.
Qed.
Lemma inv_nz (k : Qc) : k <> 0 -> / k <> 0.
Proof. intros K X. pose proof (Qcmult_inv_r k K) as Y. rewrite X in Y. ring_simplify in Y. discriminate Y. Qed.
Lemma ats_scaled k m a b : k <> 0 -> compute_ats (noisier k m) a b = option_map (noisier_ats k) (compute_ats m a b).
Proof.
  intros K. unfold compute_ats. change (normalize_signal (noisier k m) a b) with (normalize_signal m a b).
  destruct (normalize_signal m a b) as [[[s peak] d]|]; [|reflexivity].
  change (dtm (noisier k m)) with (dtm m). change (wht (noisier k m)) with (wht m).
  change (noise (noisier k m)) with (option_map (scaled k) (noise m)).
  destruct (dtm m) as [d0|]; [|reflexivity]. destruct (negb (Nat.eqb (length s) (length d))); [reflexivity|].
  destruct (wht m) as [[theta phi]|].
  - destruct (opt3 (whiten theta phi) [s; d; repeat 1 (length s)]) as [WM|]; [|reflexivity].
    destruct (opt3 (applyWT theta phi) WM) as [V|]; [|reflexivity].
    destruct (inv3 (fun i j => dot (row WM i) (row WM j))) as [U|]; [|reflexivity].
    destruct (noise m) as [c|]; [|reflexivity]. cbn [option_map]. rewrite bracketR_scaled.
    destruct (bracketR (pad a b (combine3 (length s) (U 0%nat) V)) c); reflexivity.
  - rewrite autocorr_scaled, scaled_length, scaled_firstn. destruct (Nat.ltb _ _); [reflexivity|].
    rewrite (opt3_scaled (/ k) (solve_symmetric (firstn (length s) (autocorr m a b)))) by (intros y; now apply solve_scaled).
    destruct (opt3 (solve_symmetric (firstn (length s) (autocorr m a b))) [s; d; repeat 1 (length s)]) as [RM|]; [|reflexivity].
    cbn [option_map].
    pose proof (inv3_scaled (/ k) (fun i j => dot (row [s; d; repeat 1 (length s)] i) (row RM j))
      (fun i j => dot (row [s; d; repeat 1 (length s)] i) (row (map (scaled (/ k)) RM) j)) (inv_nz k K)) as IV.
    match type of IV with ?P -> _ => assert (H : P) by (intros i j; now rewrite row_scaled, dot_scaled_r); specialize (IV H); clear H end.
    destruct (inv3 (fun i j => dot (row [s; d; repeat 1 (length s)] i) (row RM j))) as [U|];
    destruct (inv3 (fun i j => dot (row [s; d; repeat 1 (length s)] i) (row (map (scaled (/ k)) RM) j))) as [V|]; try contradiction; [|reflexivity].
    rewrite !(combine3_scaled (length s) (/ k) (U _) (V _) RM (inv_nz k K)) by (intros i; apply IV).
    destruct (noise m) as [c|]; [|reflexivity]. cbn [option_map]. rewrite bracketR_scaled.
    destruct (bracketR (pad a b (combine3 (length s) (U 0%nat) RM)) c); reflexivity.
Qed.

(* white noise: the equations solve themselves *)
Lemma white_length v n : length (white v n) = n.
Proof. destruct n; simpl; [reflexivity|]. now rewrite repeat_length. Qed.
Lemma white_nth v n i : nth i (white v n) 0 = if Nat.eqb i 0 && Nat.ltb 0 n then v else 0.
Proof.
  destruct n; [destruct i; reflexivity|]. destruct i; [reflexivity|]. simpl. destruct (Nat.lt_ge_cases i n).
  - apply nth_repeat.
  - apply nth_overflow. now rewrite repeat_length.
Qed.
Lemma firstn_repeat {A} (x : A) k n : (k <= n)%nat -> firstn k (repeat x n) = repeat x k.
Proof. revert n. induction k as [|k IH]; intros [|n] H; simpl; auto; try lia. rewrite IH by lia. reflexivity. Qed.
Lemma upto_white v n K : (K < n)%nat -> upto (white v n) K = repeat 0 K.
Proof. intros H. destruct n; [lia|]. unfold upto. simpl. apply firstn_repeat. lia. Qed.
Lemma rev_repeat {A} (x : A) n : rev (repeat x n) = repeat x n.
Proof.
  induction n as [|n IH]; [reflexivity|]. simpl. rewrite IH. clear IH. induction n as [|n IH]; [reflexivity|]. simpl. now rewrite IH.
Qed.
Lemma dot_zeros_l K v : dot (repeat 0 K) v = 0.
Proof. revert v. induction K as [|K IH]; intros [|x v]; simpl; auto. rewrite IH. ring. Qed.
Lemma vsubs_zeros v c : vsubs v c (repeat 0 (length v)) = v.
Proof. unfold vsubs. induction v as [|x v IH]; [reflexivity|]. simpl. rewrite IH. f_equal. ring. Qed.
Lemma repeat_S0 K : repeat (0 : Qc) K ++ [0] = repeat 0 (K + 1).
Proof. rewrite repeat_app. reflexivity. Qed.
Lemma neg_nz (v : Qc) : v <> 0 -> 0 - v <> 0.
Proof. intros V E. apply V. rewrite <- (Qcopp_involutive v). replace (- v) with (0 - v) by ring. rewrite E. ring. Qed.
Lemma quot_neg (v y : Qc) : v <> 0 -> (0 - y) / (0 - v) = / v * y.
Proof. intros V. pose proof (neg_nz v V) as N. replace (0 - v) with (- v) in N by ring. field. auto. Qed.
Lemma precompute_white v n : v <> 0 -> forall m K, (K + m < n)%nat ->
  precompute m (white v n) K (repeat 0 K) = Some (repeat (0 - v, 0) (m + 1)).
Proof.
  intros V. induction m as [|m IH]; intros K H; cbn [precompute]; rewrite upto_white, dot_zeros_l by lia; rewrite !white_nth;
    replace (Nat.ltb 0 n) with true by (symmetry; apply Nat.ltb_lt; lia); cbn [Nat.eqb andb].
  - reflexivity.
  - replace (Nat.eqb (K + 1) 0) with false by (symmetry; apply Nat.eqb_neq; lia). cbn [andb].
    unfold extend. rewrite rev_repeat, dot_zeros_l. unfold qdiv.
    destruct (Qc_eq_dec (0 - v) 0) as [E|_]; [exfalso; now apply (neg_nz v)|].
    pose proof (vsubs_zeros (repeat 0 K) ((0 - 0) / (0 - v))) as Z. rewrite repeat_length in Z. rewrite Z.
    replace ((0 - 0) / (0 - v)) with 0 by (rewrite quot_neg by exact V; ring).
    rewrite repeat_S0, IH by lia. rewrite nth_repeat. reflexivity.
Qed.
Lemma solve_loop_white v n y : v <> 0 -> length y = n -> forall m K, (K + m + 1 = n)%nat ->
  solve_loop (repeat (0 - v, 0) (m + 1)) (white v n) y K (scaled (/ v) (firstn K y)) (repeat 0 K) = Some (scaled (/ v) y).
Proof.
  intros V L. induction m as [|m IH]; intros K H; cbn [Nat.add repeat solve_loop]; rewrite upto_white, rev_repeat by lia;
    unfold extend; rewrite rev_repeat, dot_zeros_l; unfold qdiv;
    (destruct (Qc_eq_dec (0 - v) 0) as [E|_]; [exfalso; now apply (neg_nz v)|]);
    replace ((0 - nth K y 0) / (0 - v)) with (/ v * nth K y 0) by (now rewrite quot_neg by exact V);
    pose proof (vsubs_zeros (scaled (/ v) (firstn K y)) (/ v * nth K y 0)) as Z; rewrite scaled_length, firstn_length_le in Z by lia; rewrite Z; clear Z;
    change [/ v * nth K y 0] with (scaled (/ v) [nth K y 0]); rewrite <- scaled_app;
    replace (firstn K y ++ [nth K y 0]) with (firstn (K + 1) y) by
      (rewrite <- (firstn_skipn K y) at 1; rewrite firstn_app, firstn_firstn, firstn_length_le by lia; rewrite Nat.min_r by lia; f_equal;
       replace (K + 1 - K)%nat with 1%nat by lia; rewrite <- (firstn_skipn K y) at 2; rewrite app_nth2, firstn_length_le, Nat.sub_diag by (rewrite ?firstn_length_le; lia);
       destruct (skipn K y) eqn:S; [apply (f_equal (@length Qc)) in S; rewrite skipn_length in S; simpl in S; lia|reflexivity]).
  - rewrite firstn_all2 by lia. reflexivity.
  - assert (P : exists p l, repeat (0 - v, 0) (m + 1) = p :: l) by (rewrite Nat.add_comm; simpl; eauto).
    destruct P as (p & l & P). rewrite P. rewrite <- P.
    pose proof (vsubs_zeros (repeat 0 K) 0) as Z. rewrite repeat_length in Z. rewrite Z, repeat_S0. apply IH. lia.
Qed.
Lemma solve_white v n y : v <> 0 -> (2 <= n)%nat -> length y = n -> solve_symmetric (white v n) y = Some (scaled (/ v) y).
Proof.
  intros V N L. unfold solve_symmetric. rewrite white_length, L, Nat.eqb_refl. replace (Nat.leb n 1) with false by (symmetry; apply Nat.leb_gt; lia).
  cbn [orb negb]. rewrite !white_nth. replace (Nat.ltb 0 n) with true by (symmetry; apply Nat.ltb_lt; lia). cbn [Nat.eqb andb].
  unfold qdiv. destruct (Qc_eq_dec v 0) as [E|_]; [contradiction|].
  replace (0 / v) with 0 by (field; exact V). change [0] with (repeat 0 1). rewrite precompute_white by (auto; lia).
  replace [nth 0 y 0 / v] with (scaled (/ v) (firstn 1 y)).
  2:{ destruct y; [simpl in L; lia|]. simpl. f_equal. field. exact V. }
  apply solve_loop_white; auto; lia.
Qed.

Lemma list_as_map (l : list Qc) : l = map (fun i => nth i l 0) (seq 0 (length l)).
Proof. induction l as [|x l IH]; [reflexivity|]. simpl. f_equal. rewrite <- seq_shift, map_map. exact IH. Qed.
Lemma white_firstn v n k : firstn k (white v n) = white v (Nat.min k n).
Proof.
  destruct n as [|n]; [destruct k; reflexivity|]. destruct k as [|k]; [reflexivity|]. simpl. f_equal.
  destruct (Nat.le_ge_cases k n).
  - rewrite Nat.min_l by assumption. now apply firstn_repeat.
  - rewrite Nat.min_r by assumption. apply firstn_all2. now rewrite repeat_length.
Qed.
Lemma ones_nth n i : (i < n)%nat -> nth i (repeat (1 : Qc) n) 0 = 1.
Proof. intros H. rewrite (nth_indep _ 0 1) by now rewrite repeat_length. apply nth_repeat. Qed.
Lemma total_ones n : total (repeat 1 n) = qz (Z.of_nat n).
Proof.
  unfold total. rewrite repeat_length, (qsum_ext n _ (fun _ => 1)) by (intros; now apply ones_nth).
  induction n as [|n IH]; [apply Qc_eq; reflexivity|]. cbn [qsum]. rewrite IH, Nat2Z.inj_succ. apply Qc_eq.
  rewrite this_add. unfold qz. rewrite !this_Q2Qc. unfold Z.succ. rewrite inject_Z_plus. reflexivity.
Qed.
Lemma quad_white v n q : (length q <= n)%nat -> quad (white v n) q = v * sum_of_squares q.
Proof.
  intros H. unfold quad, sum_of_squares. rewrite <- qsum_scale. apply qsum_ext. intros i Hi.
  assert (N0 : Nat.ltb 0 n = true) by (apply Nat.ltb_lt; lia).
  rewrite (qsum_only _ i).
  - unfold sym_toeplitz. rewrite white_nth, N0, Nat.leb_refl, Nat.sub_diag. cbn [andb Nat.eqb]. ring.
  - exact Hi.
  - intros j Hj Nj. unfold sym_toeplitz. rewrite white_nth. replace (Nat.eqb _ 0) with false by (symmetry; apply Nat.eqb_neq; destruct (Nat.leb_spec j i); lia). cbn [andb]. ring.
Qed.
Lemma squares_pad a b f : sum_of_squares (pad a b f) = sum_of_squares f.
Proof.
  unfold sum_of_squares. rewrite pad_length, <- Nat.add_assoc, qsum_split, qsum_split, (qsum_zero a), (qsum_zero b).
  - rewrite Qcplus_0_l, Qcplus_0_r. apply qsum_ext. intros i Hi. rewrite pad_nth. destruct (Nat.ltb_spec (a + i) a); [lia|].
    destruct (Nat.ltb_spec (a + i) (a + length f)); [|lia]. f_equal; f_equal; lia.
  - intros i Hi. rewrite pad_nth. destruct (Nat.ltb_spec (a + (length f + i)) a); [lia|]. destruct (Nat.ltb_spec (a + (length f + i)) (a + length f)); [lia|]. ring.
  - intros i Hi. rewrite pad_nth. destruct (Nat.ltb_spec i a); [|lia]. ring.
Qed.
Lemma five_lag_white m a b v N F : noise m = Some (white v N) -> v <> 0 -> compute_5lag m a b = Some F ->
  (exists c, values F = repeat 0 a ++ scaled c (centred (interior (avg_signal F))) ++ repeat 0 b) /\
  variance F = v * sum_of_squares (values F).
Proof.
  intros HN V. unfold compute_5lag. destruct (normalize_signal m a b) as [[[s peak] d]|]; [|discriminate].
  set (t := cut 2 2 s). destruct (Nat.ltb (length (autocorr m a b)) (length t)) eqn:L; [discriminate|]. apply Nat.ltb_ge in L.
  replace (firstn (length t) (autocorr m a b)) with (white v (length t)).
  2:{ revert L. unfold autocorr. rewrite HN. rewrite white_firstn, white_length. intros L. rewrite white_firstn. f_equal. lia. }
  destruct (Nat.le_gt_cases 2 (length t)) as [T|T].
  2:{ assert (S : solve_symmetric (white v (length t)) t = None).
      { unfold solve_symmetric. rewrite white_length. replace (Nat.leb (length t) 1) with true by (symmetry; apply Nat.leb_le; lia). reflexivity. }
      rewrite S. discriminate. }
  rewrite !solve_white by (auto using repeat_length). 
  set (n := length t) in *.
  replace (map _ (seq 0 n)) with (scaled (/ v * / v * qz (Z.of_nat n)) (centred t)).
  2:{ unfold scaled at 1. unfold centred. rewrite map_map. 
      transitivity (map (fun x => / v * / v * qz (Z.of_nat n) * (x - mean t)) (map (fun i => nth i t 0) (seq 0 n))); [unfold n; now rewrite <- list_as_map|].
      rewrite map_map. apply map_ext_in. intros i Hi. apply in_seq in Hi.
      rewrite !total_scaled, !scaled_nth, total_ones, ones_nth by lia. unfold mean. fold n. unfold total. fold n. field. split; [exact V|].
      intros E. pose proof (qz_pos (Z.of_nat n) ltac:(lia)) as P. rewrite E in P. exact (Qlt_irrefl _ P). }
  unfold normalize_5lag. destruct (Nat.ltb _ _); [discriminate|].
  destruct (parabola _ _ _ _ _) as [[p0 p1] p2]. destruct (qdiv p1 p2) as [h|]; [|discriminate].
  destruct (qdiv 1 _) as [sc|]; [|discriminate].
  set (f := map _ (scaled _ (centred t))).
  assert (Ef : f = scaled (sc * (/ v * / v * qz (Z.of_nat n))) (centred t)).
  { unfold f, scaled. rewrite map_map. apply map_ext. intros x. ring. }
  assert (Lf : length f = n) by (rewrite Ef, scaled_length; unfold centred; apply map_length).
  rewrite bracketR_quad.
  2:{ intros E. rewrite E in Lf. simpl in Lf. lia. }
  2:{ rewrite white_length. lia. }
  intros E. injection E as <-. cbn [values variance avg_signal]. split.
  - exists (sc * (/ v * / v * qz (Z.of_nat n))). unfold pad. rewrite Ef. do 3 f_equal. unfold t, cut, interior. do 2 f_equal. lia.
  - rewrite squares_pad. apply quad_white. lia.
Qed.
