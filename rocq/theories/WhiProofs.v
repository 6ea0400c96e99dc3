From Coq Require Import PeanoNat ZArith QArith Qcanon List Bool Lia.
From Verif Require Import QcPre ToepSpec ToepProofs WhiModel WhiSpec.
Import ListNotations.
Local Open Scope Qc_scope.

Lemma to_list_length N y : length (to_list N y) = N.
Proof. unfold to_list. rewrite map_length, seq_length. reflexivity. Qed.
Lemma to_list_nth N y i : (i < N)%nat -> nth i (to_list N y) 0 = y i.
Proof.
  intros H. unfold to_list. rewrite (nth_indep _ _ (y 0%nat)) by (rewrite map_length, seq_length; exact H).
  rewrite map_nth, seq_nth by exact H. reflexivity.
Qed.
Lemma get_high c i : (order c < i)%nat -> get c i = 0.
Proof. intros H. unfold get. apply nth_overflow. unfold order in H. lia. Qed.

(** Row i of a lower-triangular product. *)
Definition lrow (c : list Qc) (y : arr) (i : nat) : Qc := qsum (S i) (fun j => get c (i - j) * y j).
Lemma mat_lower N c v i : (i < N)%nat -> mat_vec N (lower c) v i = lrow c (of_list v) i.
Proof.
  intros H. unfold mat_vec, lrow. rewrite (qsum_pad (S i) N); [|lia|].
  - apply qsum_ext. intros j Hj. unfold lower. destruct (Nat.leb_spec j i); [reflexivity|lia].
  - intros j Hj. unfold lower. destruct (Nat.leb_spec j i); [lia|]. ring.
Qed.
Lemma lrow_ext c y y' i : (forall j, (j <= i)%nat -> y j = y' j) -> lrow c y i = lrow c y' i.
Proof. intros H. apply qsum_ext. intros j Hj. rewrite H by lia. reflexivity. Qed.

Lemma ar_mult_ok c N v k : (k < N)%nat -> ar_mult c N v k = lrow c v k.
Proof.
  intros Hk. unfold ar_mult.
  assert (G : forall m, (m <= order c)%nat ->
    fold_left (fun (y : arr) i => fun k => if Nat.leb i k && Nat.ltb k N then y k + get c i * v (k - i)%nat else y k) (seq 1 m) (fun k => get c 0 * v k) k
    = qsum (S m) (fun i => if Nat.leb i k then get c i * v (k - i)%nat else 0)).
  { induction m as [|m IH]; intros Hm.
    - cbn. rewrite Nat.sub_0_r. ring.
    - rewrite seq_S, fold_left_app. cbn [fold_left].
      change (qsum (S (S m)) ?f) with (qsum (S m) f + f (S m)). rewrite <- IH by lia.
      change (1 + m)%nat with (S m). destruct (Nat.leb_spec (S m) k).
      + destruct (Nat.ltb_spec k N); [reflexivity|lia].
      + cbn [andb]. ring. }
  rewrite G by lia. unfold lrow.
  rewrite <- (qsum_rev (S k)).
  rewrite (qsum_ext (S k) _ (fun i => get c i * v (k - i)%nat)) by (intros j Hj; f_equal; f_equal; lia).
  transitivity (qsum (S (Nat.max (order c) k)) (fun i => if Nat.leb i k then get c i * v (k - i)%nat else 0)).
  - symmetry. apply qsum_pad; [lia|]. intros i Hi. rewrite get_high by lia. destruct (Nat.leb i k); ring.
  - rewrite (qsum_pad (S k)); [|lia|].
    + apply qsum_ext. intros i Hi. destruct (Nat.leb_spec i k); [reflexivity|lia].
    + intros i Hi. destruct (Nat.leb_spec i k); [lia|reflexivity].
Qed.

(** Forward substitution. *)
Lemma fold_sub (f : nat -> Qc) lo m a : fold_left (fun acc j => acc - f j) (seq lo m) a = a - qsum m (fun k => f (lo + k)%nat).
Proof.
  induction m as [|m IH]; [cbn; ring|]. rewrite seq_S, fold_left_app. cbn [fold_left qsum]. rewrite IH. ring.
Qed.

Lemma fsub_step_eq c lo y i : (lo <= i)%nat -> (i - lo <= order c)%nat \/ lo = 0%nat -> (lo = i - order c \/ lo = 0)%nat -> get c 0 <> 0 ->
  lrow c (fsub_step c lo y i) i = y i.
Proof.
  intros Hlo _ Hlo2 H0. unfold lrow. cbn [qsum].
  rewrite (qsum_ext i _ (fun j => y j * get c (i - j))).
  2:{ intros j Hj. unfold fsub_step, upd. destruct (Nat.eqb_spec j i); [lia|]. ring. }
  rewrite Nat.sub_diag. unfold fsub_step, upd. rewrite Nat.eqb_refl.
  rewrite (fold_sub (fun j => y j * get c (i - j))).
  replace (qsum i (fun j => y j * get c (i - j))) with (qsum (i - lo) (fun k => y (lo + k)%nat * get c (i - (lo + k)))).
  - field. exact H0.
  - assert (E : i = (lo + (i - lo))%nat) by lia. set (f := fun j => y j * get c (i - j)).
    transitivity (qsum (lo + (i - lo)) f); [|f_equal; lia]. rewrite qsum_split. rewrite (qsum_zero lo); [unfold f; ring|].
    unfold f. intros j Hj. rewrite get_high by (destruct Hlo2; lia). ring.
Qed.

Definition fstep (c : list Qc) (y : arr) (i : nat) : arr := fsub_step c (i - order c) y i.
Definition fsub_all (c : list Qc) (N : nat) (z : arr) : arr := fold_left (fstep c) (seq 0 N) z.

Lemma fsub_all_ok c N z : get c 0 <> 0 ->
  (forall i, (i < N)%nat -> lrow c (fsub_all c N z) i = z i) /\ (forall i, (N <= i)%nat -> fsub_all c N z i = z i).
Proof.
  intros H0. unfold fsub_all. induction N as [|N [IH1 IH2]].
  - split; [intros; lia|reflexivity].
  - rewrite seq_S, fold_left_app. cbn [fold_left Nat.add]. set (y := fold_left (fstep c) (seq 0 N) z) in *. split.
    + intros i Hi. destruct (Nat.eq_dec i N) as [->|Hne].
      * unfold fstep. rewrite fsub_step_eq; auto; try lia.
      * rewrite <- (IH1 i) by lia. apply lrow_ext. intros j Hj. unfold fstep, fsub_step, upd. destruct (Nat.eqb_spec j N); [lia|reflexivity].
    + intros i Hi. unfold fstep, fsub_step, upd. destruct (Nat.eqb_spec i N); [lia|]. apply IH2. lia.
Qed.

Lemma fold_fstep_lo0 c l y : (forall i, In i l -> (i <= order c)%nat) -> fold_left (fun y i => fsub_step c 0 y i) l y = fold_left (fstep c) l y.
Proof.
  revert y; induction l as [|i l IH]; intros y H; cbn [fold_left]; [reflexivity|].
  rewrite <- IH by (intros; apply H; right; assumption). unfold fstep. replace (i - order c)%nat with 0%nat; [reflexivity|].
  specialize (H i (or_introl eq_refl)). lia.
Qed.

Lemma fstep_0 c y : fstep c y 0 = upd y 0 (y 0%nat / get c 0).
Proof. unfold fstep, fsub_step. cbn. reflexivity. Qed.

Lemma fsub_is_all c N z : (1 <= N)%nat -> (2 <= length c)%nat -> fsub c N z = fsub_all c N z.
Proof.
  intros HN Hc. unfold fsub, fsub_all. destruct (Nat.eqb_spec N 1) as [->|HN1].
  - cbn [seq fold_left]. rewrite fstep_0. reflexivity.
  - rewrite fold_fstep_lo0 by (intros i Hi; apply in_seq in Hi; lia).
    change (fun y i => fsub_step c (i - order c) y i) with (fstep c). rewrite <- fstep_0.
    change (fstep c z 0) with (fold_left (fstep c) (seq 0 1) z). rewrite <- !fold_left_app. f_equal.
    assert (Ho : (1 <= order c)%nat) by (unfold order; lia).
    destruct (Nat.le_gt_cases (order c) N) as [H|H].
    + rewrite Nat.min_l by lia.
      replace N with (1 + (order c - 1) + (N - order c))%nat at 2 by lia. rewrite !seq_app, <- app_assoc. do 2 f_equal. f_equal. lia.
    + rewrite Nat.min_r by lia. replace (N - order c)%nat with 0%nat by lia. cbn [seq]. rewrite app_nil_r.
      replace N with (1 + (N - 1))%nat at 2 by lia. rewrite seq_app. reflexivity.
Qed.

(** Regular lists: the equations hold. *)
Lemma fsub_ok c v N z : get c 0 <> 0 -> (1 <= N)%nat -> N = length v -> regular c v ->
  forall i, (i < N)%nat -> lrow c (fsub c N z) i = z i.
Proof.
  intros H0 HN Hv [H|[H|H]] i Hi.
  - rewrite fsub_is_all by assumption. apply fsub_all_ok; assumption.
  - destruct (Nat.le_gt_cases 2 (length c)) as [H2|H2]; [rewrite fsub_is_all by assumption; apply fsub_all_ok; assumption|].
    assert (Ho : order c = 0%nat) by (unfold order; lia). fold (get c 0) in H.
    destruct (Nat.eqb_spec N 1) as [HN1|HN1].
    + rewrite <- HN1 in *. unfold fsub. rewrite HN1, Nat.eqb_refl. replace i with 0%nat by lia. unfold lrow, upd. cbn [qsum Nat.eqb Nat.sub]. field. exact H0.
    + unfold fsub. destruct (Nat.eqb_spec N 1); [contradiction|]. rewrite Ho. cbn [Nat.min Nat.sub seq fold_left]. rewrite Nat.sub_0_r.
      rewrite <- (proj1 (fsub_all_ok c N z H0) i Hi).
      apply lrow_ext. intros j Hj. unfold fsub_all.
      assert (E : forall l y y', (forall k, y k = y' k) -> forall k, fold_left (fun y i => fsub_step c (i - 0) y i) l y k = fold_left (fstep c) l y' k).
      { clear - Ho. induction l as [|a l IH]; intros y y' E k; cbn [fold_left]; [apply E|]. apply IH. intros m. unfold fstep. rewrite Ho, Nat.sub_0_r.
        unfold fsub_step, upd. destruct (Nat.eqb m a); [|apply E]. rewrite Nat.sub_diag. cbn [seq fold_left]. rewrite E. reflexivity. }
      apply E. intros k. unfold upd. destruct (Nat.eqb_spec k 0) as [->|]; [|reflexivity]. rewrite H. field. discriminate.
  - assert (HN1 : N = 1%nat) by lia. subst N. rewrite HN1 in *. unfold fsub. rewrite Nat.eqb_refl. replace i with 0%nat by lia. unfold lrow, upd. cbn [qsum Nat.eqb Nat.sub]. field. exact H0.
Qed.

(** Lower-triangular systems have at most one solution. *)
Lemma lrow_unique c N y y' : get c 0 <> 0 -> (forall i, (i < N)%nat -> lrow c y i = lrow c y' i) -> forall i, (i < N)%nat -> y i = y' i.
Proof.
  intros H0 H i. induction i as [i IH] using lt_wf_ind. intros Hi. specialize (H i Hi). unfold lrow in H. cbn [qsum] in H.
  rewrite (qsum_ext i _ (fun j => get c (i - j) * y' j)) in H by (intros j Hj; rewrite IH by lia; reflexivity).
  rewrite Nat.sub_diag in H. set (s := qsum i _) in H.
  assert (E : get c 0 * (y i - y' i) = 0).
  { transitivity ((s + get c 0 * y i) - (s + get c 0 * y' i)); [ring|]. rewrite H. ring. }
  apply Qcmult_integral in E. destruct E as [E|E]; [contradiction|]. qlra.
Qed.

Lemma guard_some v num den r w : guard v num den r = Some w -> v <> [] /\ num <> [] /\ get den 0 <> 0 /\ w = r.
Proof.
  unfold guard. destruct v; [discriminate|]. destruct num; [discriminate|]. destruct (Qc_eq_dec _ _); [discriminate|].
  intros [= <-]. repeat split; try discriminate; auto.
Qed.
Lemma guard_ok v num den r : v <> [] -> num <> [] -> get den 0 <> 0 -> guard v num den r = Some r.
Proof. unfold guard. destruct v; [congruence|]. destruct num; [congruence|]. destruct (Qc_eq_dec _ _); [contradiction|reflexivity]. Qed.

Lemma len_pos {A} (v : list A) : v <> [] -> (1 <= length v)%nat.
Proof. destruct v; [congruence|cbn; lia]. Qed.

Lemma of_to N y i : (i < N)%nat -> of_list (to_list N y) i = y i.
Proof. apply to_list_nth. Qed.

Theorem whiten_whitened theta phi v w : regular theta v -> whiten theta phi v = Some w -> whitened theta phi v w.
Proof.
  intros HR E. unfold whiten in E. apply guard_some in E. destruct E as [Hv [Hp [H0 ->]]]. apply len_pos in Hv.
  split; [apply to_list_length|]. intros i Hi. rewrite !mat_lower by assumption.
  rewrite (lrow_ext _ _ (fsub theta (length v) (ar_mult phi (length v) (of_list v)))) by (intros; apply of_to; lia).
  rewrite (fsub_ok _ v) by (auto; lia). apply ar_mult_ok. exact Hi.
Qed.

Theorem whitened_unique theta phi v w w' : nth 0 theta 0 <> 0 -> whitened theta phi v w -> whitened theta phi v w' -> w = w'.
Proof.
  intros H0 [L1 H1] [L2 H2]. apply (nth_ext _ _ 0 0); [lia|]. intros i Hi. apply (lrow_unique theta (length v) (of_list w) (of_list w')); auto; [|lia].
  intros k Hk. rewrite <- !mat_lower with (N := length v) by assumption. rewrite H1, H2 by assumption. reflexivity.
Qed.

Lemma solveW_whiten theta phi v : solveW theta phi v = whiten phi theta v. Proof. reflexivity. Qed.

Lemma whitened_sym theta phi v w : whitened theta phi v w -> whitened phi theta w v.
Proof. intros [L H]. split; [congruence|]. rewrite L. intros i Hi. symmetry. apply H. exact Hi. Qed.
Lemma regular_len c v w : length v = length w -> regular c v -> regular c w.
Proof. unfold regular. intros ->. tauto. Qed.

Theorem solve_whiten theta phi v w : regular theta v -> regular phi v -> whiten theta phi v = Some w ->
  nth 0 phi 0 <> 0 -> solveW theta phi w = Some v.
Proof.
  intros Rt Rp E H0. pose proof (whiten_whitened _ _ _ _ Rt E) as Hw. pose proof Hw as [L _].
  assert (Ht : theta <> []). { unfold whiten in E. apply guard_some in E. destruct E as [_ [_ [H _]]]. intros ->. apply H. reflexivity. }
  assert (Hwn : w <> []). { unfold whiten in E. apply guard_some in E. destruct E as [H _]. intros ->. destruct v; [congruence|discriminate L]. }
  rewrite solveW_whiten. destruct (whiten phi theta w) as [u|] eqn:Eu.
  - f_equal. apply whiten_whitened in Eu; [|apply (regular_len _ v); auto].
    apply (whitened_unique phi theta w); [exact H0|exact Eu|]. apply whitened_sym. exact Hw.
  - unfold whiten in Eu. rewrite guard_ok in Eu by auto. discriminate.
Qed.
Theorem whiten_solve theta phi v w : regular theta v -> regular phi v -> solveW theta phi v = Some w ->
  nth 0 theta 0 <> 0 -> whiten theta phi w = Some v.
Proof. intros Rt Rp E H0. rewrite <- (solveW_whiten phi theta). apply solve_whiten; assumption. Qed.

(** The transposed operations. *)
Definition urow (c : list Qc) (N : nat) (y : arr) (i : nat) : Qc := qsum (N - i) (fun k => get c k * y (i + k)%nat).

Lemma correlate_ok c N y k : (k < N)%nat -> correlate c N y k = urow c N y k.
Proof.
  intros Hk. unfold correlate, urow.
  transitivity (qsum (Nat.max (length c) (N - k)) (fun n => if Nat.ltb (k + n) N then y (k + n)%nat * get c n else 0)).
  - symmetry. apply qsum_pad; [lia|]. intros i Hi. replace (get c i) with 0 by (symmetry; unfold get; apply nth_overflow; lia).
    destruct (Nat.ltb _ _); ring.
  - rewrite (qsum_pad (N - k)); [|lia|].
    + apply qsum_ext. intros i Hi. destruct (Nat.ltb_spec (k + i) N); [ring|lia].
    + intros i Hi. destruct (Nat.ltb_spec (k + i) N); [lia|reflexivity].
Qed.

Lemma bsub_step_eq c N y i : (i < N)%nat -> get c 0 <> 0 -> urow c N (bsub_step c N y i) i = y i.
Proof.
  intros Hi H0. unfold urow. replace (N - i)%nat with (S (N - i - 1)) by lia. rewrite qsum_S_l. rewrite Nat.add_0_r.
  rewrite (qsum_ext (N - i - 1) _ (fun k => y (i + 1 + k)%nat * get c (1 + k))).
  2:{ intros k Hk. unfold bsub_step, upd. destruct (Nat.eqb_spec (i + S k) i); [lia|]. replace (i + S k)%nat with (i + 1 + k)%nat by lia. cbn [Nat.add]. ring. }
  unfold bsub_step, upd. rewrite Nat.eqb_refl.
  rewrite (qsum_pad (Nat.min (order c + 1) (N - i) - 1) (N - i - 1)); [|lia|].
  - field. exact H0.
  - intros k Hk. rewrite get_high by lia. ring.
Qed.
Lemma urow_ext c N y y' i : (forall j, (i <= j < N)%nat -> y j = y' j) -> urow c N y i = urow c N y' i.
Proof. intros H. apply qsum_ext. intros j Hj. rewrite H by lia. reflexivity. Qed.

Lemma bsub_ok c N v : (1 <= N)%nat -> get c 0 <> 0 -> forall i, (i < N)%nat -> urow c N (bsub c N v) i = v i.
Proof.
  intros HN H0. unfold bsub.
  set (y0 := upd v (N - 1) _).
  assert (G : forall m, (m <= N - 1)%nat ->
    let y := fold_left (bsub_step c N) (rev (seq (N - 1 - m) m)) y0 in
    (forall i, (N - 1 - m <= i < N)%nat -> urow c N y i = v i) /\ (forall i, (i < N - 1 - m)%nat -> y i = v i)).
  { induction m as [|m IH]; intros Hm; cbn zeta.
    - cbn [seq rev fold_left]. split.
      + intros i Hi. replace i with (N - 1)%nat by lia. unfold urow. replace (N - (N - 1))%nat with 1%nat by lia. cbn [qsum].
        rewrite Nat.add_0_r. unfold y0, upd. rewrite Nat.eqb_refl. field. exact H0.
      + intros i Hi. unfold y0, upd. destruct (Nat.eqb_spec i (N - 1)); [lia|reflexivity].
    - specialize (IH ltac:(lia)). cbn zeta in IH. destruct IH as [IH1 IH2].
      cbn [seq rev]. rewrite fold_left_app. cbn [fold_left]. replace (S (N - 1 - S m)) with (N - 1 - m)%nat by lia.
      set (y := fold_left (bsub_step c N) (rev (seq (N - 1 - m) m)) y0) in *. set (i0 := (N - 1 - S m)%nat). split.
      + intros i Hi. destruct (Nat.eq_dec i i0) as [->|Hne].
        * rewrite bsub_step_eq by (auto; lia). apply IH2. lia.
        * rewrite <- (IH1 i) by lia. apply urow_ext. intros j Hj. unfold bsub_step, upd. destruct (Nat.eqb_spec j i0); [lia|reflexivity].
      + intros i Hi. unfold bsub_step, upd. destruct (Nat.eqb_spec i i0); [lia|]. apply IH2. lia. }
  specialize (G (N - 1)%nat ltac:(lia)). cbn zeta in G. rewrite Nat.sub_diag in G. destruct G as [G _]. intros i Hi. apply G. lia.
Qed.

(** <L a, b> = <a, L' b> for a lower-triangular L. *)
Lemma adjoint c N a b : qsum N (fun i => lrow c a i * b i) = qsum N (fun i => a i * urow c N b i).
Proof.
  transitivity (qsum N (fun i => qsum N (fun j => (if Nat.leb j i then get c (i - j) else 0) * a j * b i))).
  - apply qsum_ext. intros i Hi. unfold lrow. rewrite <- qsum_scale_r. symmetry. rewrite (qsum_pad (S i) N); [|lia|].
    + apply qsum_ext. intros j Hj. destruct (Nat.leb_spec j i); [reflexivity|lia].
    + intros j Hj. destruct (Nat.leb_spec j i); [lia|]. ring.
  - rewrite qsum_swap. apply qsum_ext. intros j Hj. unfold urow. rewrite <- qsum_scale.
    replace N with (j + (N - j))%nat at 1 by lia. rewrite qsum_split. rewrite (qsum_zero j).
    + rewrite Qcplus_0_l. apply qsum_ext. intros k Hk. destruct (Nat.leb_spec j (j + k)); [|lia]. replace (j + k - j)%nat with k by lia. ring.
    + intros i Hi. destruct (Nat.leb_spec j i); [lia|]. ring.
Qed.

Theorem whiten_adjoint theta phi u v wu wv : length u = length v -> regular theta u ->
  whiten theta phi u = Some wu -> applyWT theta phi v = Some wv -> inner wu v = inner u wv.
Proof.
  intros L HR Eu Ev. pose proof (whiten_whitened _ _ _ _ HR Eu) as [Lw Hw].
  unfold applyWT in Ev. apply guard_some in Ev. destruct Ev as [Hv [_ [H0 ->]]]. apply len_pos in Hv.
  set (N := length v) in *. set (y := bsub theta N (of_list v)) in *.
  assert (Hy : forall i, (i < N)%nat -> urow theta N y i = of_list v i) by (apply bsub_ok; auto).
  unfold inner. rewrite Lw, L. fold N.
  transitivity (qsum N (fun i => of_list wu i * urow theta N y i)).
  { apply qsum_ext. intros i Hi. rewrite Hy by exact Hi. reflexivity. }
  rewrite <- adjoint.
  transitivity (qsum N (fun i => lrow phi (of_list u) i * y i)).
  { apply qsum_ext. intros i Hi. rewrite L in Hw. fold N in Hw. rewrite <- !mat_lower with (N := N) by exact Hi. rewrite (Hw i Hi). reflexivity. }
  rewrite adjoint. apply qsum_ext. intros i Hi. rewrite to_list_nth by exact Hi. rewrite correlate_ok by exact Hi. reflexivity.
Qed.

(** W(N) times a vector. *)
Theorem whiten_matrix theta phi M v w : regular theta v -> nth 0 theta 0 <> 0 ->
  (forall i j, (i < length v)%nat -> (j < length v)%nat -> qsum (length v) (fun k => lower theta i k * M k j) = lower phi i j) ->
  whiten theta phi v = Some w -> forall i, (i < length v)%nat -> nth i w 0 = mat_vec (length v) M v i.
Proof.
  intros HR H0 HM E. set (N := length v) in *. pose proof (whiten_whitened _ _ _ _ HR E) as Hw.
  set (m := to_list N (mat_vec N M v)).
  assert (Hm : whitened theta phi v m).
  { split; [apply to_list_length|]. intros i Hi. fold N. fold N in Hi. unfold mat_vec at 1.
    rewrite (qsum_ext N _ (fun k => qsum N (fun j => lower theta i k * M k j * nth j v 0))).
    2:{ intros k Hk. unfold m. rewrite to_list_nth by exact Hk. unfold mat_vec. rewrite <- qsum_scale. apply qsum_ext. intros; ring. }
    rewrite qsum_swap. unfold mat_vec. apply qsum_ext. intros j Hj. rewrite qsum_scale_r. rewrite HM by assumption. reflexivity. }
  rewrite (whitened_unique theta phi v w m H0 Hw Hm). intros i Hi. unfold m. apply to_list_nth. exact Hi.
Qed.

(** Delaying the input by zeros delays the output. *)
Lemma nth_pad k (v : list Qc) i : nth i (repeat 0 k ++ v) 0 = if Nat.ltb i k then 0 else nth (i - k) v 0.
Proof.
  destruct (Nat.ltb_spec i k).
  - rewrite app_nth1 by (rewrite repeat_length; lia). apply nth_repeat.
  - rewrite app_nth2 by (rewrite repeat_length; lia). rewrite repeat_length. reflexivity.
Qed.
Lemma lrow_pad c k v i : lrow c (of_list (repeat 0 k ++ v)) i = if Nat.ltb i k then 0 else lrow c (of_list v) (i - k).
Proof.
  unfold lrow, of_list. destruct (Nat.ltb_spec i k) as [H|H].
  - apply qsum_zero. intros j Hj. rewrite nth_pad. destruct (Nat.ltb_spec j k); [ring|lia].
  - replace (S i) with (k + S (i - k))%nat by lia. rewrite qsum_split. rewrite (qsum_zero k).
    + rewrite Qcplus_0_l. apply qsum_ext. intros j Hj. rewrite nth_pad. destruct (Nat.ltb_spec (k + j) k); [lia|].
      f_equal; f_equal; lia.
    + intros j Hj. rewrite nth_pad. destruct (Nat.ltb_spec j k); [ring|lia].
Qed.
Theorem whiten_shift theta phi k v w : regular theta v -> (2 <= length theta)%nat \/ nth 0 theta 0 = 1 ->
  whiten theta phi v = Some w -> whiten theta phi (repeat 0 k ++ v) = Some (repeat 0 k ++ w).
Proof.
  intros HR HR' E. pose proof (whiten_whitened _ _ _ _ HR E) as [L Hw].
  pose proof E as E'. unfold whiten in E'. apply guard_some in E'. destruct E' as [Hv [Hp [H0 _]]].
  destruct (whiten theta phi (repeat 0 k ++ v)) as [u|] eqn:Eu.
  - f_equal. apply whiten_whitened in Eu; [|unfold regular; tauto].
    apply (whitened_unique theta phi (repeat 0 k ++ v)); [exact H0|exact Eu|].
    split; [rewrite !app_length; lia|]. intros i Hi. rewrite !mat_lower by exact Hi. rewrite !lrow_pad.
    destruct (Nat.ltb_spec i k); [reflexivity|]. rewrite app_length, repeat_length in Hi.
    rewrite <- !mat_lower with (N := length v) by lia. apply Hw. lia.
  - unfold whiten in Eu. rewrite guard_ok in Eu; auto; [discriminate|]. destruct v; [congruence|]. destruct k; discriminate.
Qed.
