From Coq Require Import Reals QArith Qround ZArith Bool List Permutation Lia Lra PeanoNat.
From Coq Require Import R_Ifp.
From Verif Require Import FgModel FgSpec FgProofs.
Import ListNotations.

(** * C123: shares of distributions *)
Theorem counts_shared n ws c : (0 <= n)%Z -> (forall w, In w ws -> 0 <= w)%Q -> (0 < qsum ws)%Q -> counts n ws = Some c -> shared n ws c.
Proof. apply counts_spec. Qed.
Print Assumptions counts_shared.
Theorem scales_shared D (rvs : D -> Z -> list R) shuffle n ds ws :
  (forall d k, (0 <= k)%Z -> Z.of_nat (length (rvs d k)) = k) -> (forall l, Permutation (shuffle l) l) ->
  (0 < n)%Z -> (forall w, In w ws -> 0 <= w)%Q -> (0 < qsum ws)%Q -> (length ws <= length ds)%nat ->
  exists s c, scales D rvs shuffle n (Some ds) (Some ws) = Some s /\ Z.of_nat (length s) = n /\ shared n ws c /\
    Permutation s (concat (map (fun p => rvs (snd p) (fst p)) (combine c ds))).
Proof.
  intros R SH N W S L. unfold scales. destruct (counts n ws) as [c|] eqn:C.
  2: { exfalso. apply (counts_some n ws); [|exact C]. intros ->. cbn in S. discriminate. }
  assert (N0 : (0 <= n)%Z) by lia. pose proof (counts_spec n ws c N0 W S C) as SP. destruct SP as (LC & SC & PC & REST).
  assert (LS : Z.of_nat (length (shuffle (draws D rvs c ds))) = n).
  { rewrite (Permutation_length (SH _)), draws_length by (try assumption; lia). exact SC. }
  exists (shuffle (draws D rvs c ds)), c. split; [|split; [exact LS|split; [exact (conj LC (conj SC (conj PC REST)))|apply SH]]].
  destruct (combine c ds) as [|p q] eqn:CO.
  - exfalso. unfold draws in LS. rewrite CO in LS. rewrite (Permutation_length (SH _)) in LS. cbn in LS. lia.
  - rewrite LS, Z.ltb_irrefl. reflexivity.
Qed.
Print Assumptions scales_shared.
(** Without distributions all heights are 1; with distributions but without weights, which the documentation promises to share equally, it raises. *)
Theorem scales_unweighted D (rvs : D -> Z -> list R) shuffle n ws ds : scales D rvs shuffle n None ws = Some (repeat 1%R (Z.to_nat n)) /\ scales D rvs shuffle n (Some ds) None = None.
Proof. split; reflexivity. Qed.
Print Assumptions scales_unweighted.
Example counts_instance : counts 10 [1%Q; 1%Q; 1%Q] = Some [4; 3; 3]%Z /\ counts 7 [1%Q; 3%Q] = Some [1; 6]%Z /\ shared 10 [1%Q; 1%Q; 1%Q] [4; 3; 3]%Z.
Proof.
  assert (C : counts 10 [1%Q; 1%Q; 1%Q] = Some [4; 3; 3]%Z) by reflexivity. split; [exact C|]. split; [reflexivity|].
  apply counts_shared; [lia| |reflexivity|exact C]. intros w [<- | [<- | [<- | []]]]; unfold Qle; cbn; lia.
Qed.
(** A share can be more than one pulse from its part. *)
Theorem shares_within_one_refuted : exists n ws c z, counts n ws = Some c /\ nth_error c 0 = Some z /\ (inject_Z n * 1 / qsum ws + 1 < inject_Z z)%Q /\ nth_error ws 0 = Some 1%Q.
Proof. exists 2%Z, [1%Q; 1%Q; 1%Q], [2; 0; 0]%Z, 2%Z. repeat split; reflexivity. Qed.
Print Assumptions shares_within_one_refuted.

Open Scope R_scope.
(** * Shape of the pulses *)
Theorem shape_value st fall rise p i : 0 < st -> 0 < rise -> rise < fall ->
  (INR i <= p + 1 / 2 -> shape st fall rise p i = 0) /\
  (p + 1 / 2 < INR i -> 0 < shape st fall rise p i /\ shape st fall rise p i = exp (- ((INR i - p - 1 / 2) * st) / fall) - exp (- ((INR i - p - 1 / 2) * st) / rise)).
Proof.
  intros S R F. unfold shape. set (dt := (INR i - p - 1 / 2) * st). split; intros H.
  - assert (dt <= 0). { unfold dt. rewrite <- (Rmult_0_l st). apply Rmult_le_compat_r; lra. } destruct (Rle_dec dt 0); [reflexivity|contradiction].
  - assert (0 < dt) by (unfold dt; apply Rmult_lt_0_compat; lra). destruct (Rle_dec dt 0); [lra|]. split; [|reflexivity].
    apply Rlt_Rminus, exp_increasing. unfold Rdiv. rewrite !Ropp_mult_distr_l_reverse. apply Ropp_lt_contravar. apply Rmult_lt_compat_l; [assumption|]. apply Rinv_lt_contravar; [apply Rmult_lt_0_compat; lra|exact F].
Qed.
Print Assumptions shape_value.
(** With a whole number of presamples exactly one more sample than these is zero. *)
Theorem zero_samples st fall rise p i : 0 < st -> 0 < rise -> rise < fall -> (shape st fall rise (INR p) i = 0 <-> (i <= p)%nat).
Proof.
  intros S R F. destruct (shape_value st fall rise (INR p) i S R F) as [A B]. destruct (Nat.le_gt_cases i p) as [H|H].
  - split; [intros _; exact H|]. intros _. apply A. apply le_INR in H. lra.
  - apply le_INR in H. rewrite S_INR in H. split; [|intros H2; apply le_INR in H2; lra]. intros E. destruct (B ltac:(lra)) as [B' _]. lra.
Qed.
Print Assumptions zero_samples.
(** A model with a peak has that maximum, if there is a sample after the trigger. *)
Theorem model_peak n st fall rise p k : 0 < st -> 0 < rise -> rise < fall -> 0 < k -> p + 1 / 2 < INR n - 1 -> (0 < n)%nat ->
  length (model n st fall rise p (Some k)) = n /\ In k (model n st fall rise p (Some k)) /\ forall x, In x (model n st fall rise p (Some k)) -> 0 <= x <= k.
Proof.
  intros S R F K P N. unfold model. set (m := map (shape st fall rise p) (seq 0 n)).
  assert (LM : length m = n) by (unfold m; now rewrite map_length, seq_length).
  assert (NE : m <> []) by (intros E; rewrite E in LM; cbn in LM; lia). destruct (rmax_in m NE) as [IM MX].
  assert (POS : 0 < rmax m).
  { apply Rlt_le_trans with (shape st fall rise p (n - 1)).
    - apply (shape_value st fall rise p (n - 1) S R F). rewrite minus_INR by lia. cbn. exact P.
    - apply MX. unfold m. apply in_map, in_seq. lia. }
  split; [now rewrite map_length|]. split.
  - apply in_map_iff. exists (rmax m). split; [field; lra|exact IM].
  - intros x I. apply in_map_iff in I as (y & <- & I). assert (0 <= y).
    { unfold m in I. apply in_map_iff in I as (i & <- & _). destruct (shape_value st fall rise p i S R F) as [A B]. destruct (Rle_dec (INR i) (p + 1 / 2)) as [H|H]; [rewrite A by exact H; lra|]. apply Rnot_le_lt in H. destruct (B H). lra. }
    specialize (MX y I). assert (E : k * y / rmax m = k * (y / rmax m)) by (field; lra). rewrite E.
    assert (0 <= y / rmax m <= 1). { split; [apply Rmult_le_pos; [lra|left; now apply Rinv_0_lt_compat]|]. apply (Rmult_le_reg_r (rmax m)); [exact POS|]. unfold Rdiv. rewrite Rmult_assoc, Rinv_l by lra. lra. }
    split; [apply Rmult_le_pos; lra|]. rewrite <- (Rmult_1_r k) at 2. apply Rmult_le_compat_l; lra.
Qed.
Print Assumptions model_peak.
Example model_instance : In 5 (model 4 1 2 1 1 (Some 5)) /\ shape 1 2 1 1 1 = 0 /\ 0 < shape 1 2 1 1 2.
Proof.
  split; [apply model_peak; try lra; try lia; cbn; lra|]. split; [apply (zero_samples 1 2 1 1 1); try lra; lia|]. apply (shape_value 1 2 1 1 2); try lra; cbn; lra.
Qed.

(** * Samples in memory *)
(** Samples below 2^15 are rounded to the nearest whole number; samples at or above it become negative; small negative samples all become zero. *)
Theorem stored_rounds y : - (1 / 2) <= y < 32768 - 1 / 2 -> IZR (stored y) - 1 / 2 <= y < IZR (stored y) + 1 / 2.
Proof.
  intros H. destruct (trunc_bounds (y + 1 / 2) ltac:(lra)) as [T T0]. unfold stored, uint16, int16. set (z := rtrunc (y + 1 / 2)) in *.
  assert (z < 32768)%Z by (apply lt_IZR; lra). rewrite Z.mod_small by lia. destruct (Z.ltb_spec z 32768); [|lia]. lra.
Qed.
Theorem stored_wraps y : 32768 - 1 / 2 <= y < 65536 - 1 / 2 -> (stored y < 0)%Z /\ Rabs (y - 65536 - IZR (stored y)) <= 1 / 2.
Proof.
  intros H. destruct (trunc_bounds (y + 1 / 2) ltac:(lra)) as [T T0]. unfold stored, uint16, int16. set (z := rtrunc (y + 1 / 2)) in *.
  assert (z < 65536)%Z by (apply lt_IZR; lra). assert (32767 < z)%Z by (apply lt_IZR; lra). rewrite Z.mod_small by lia. destruct (Z.ltb_spec z 32768); [lia|]. split; [lia|]. rewrite minus_IZR. apply Rabs_le. lra.
Qed.
Theorem stored_zero y : - (3 / 2) < y < 1 / 2 -> stored y = 0%Z.
Proof. intros H. unfold stored. rewrite trunc_neg by lra. reflexivity. Qed.
Print Assumptions stored_rounds.
Print Assumptions stored_wraps.
Print Assumptions stored_zero.
Theorem stored_nearest_refuted : exists y, -32768 <= y <= 32767 /\ 1 < Rabs (y - IZR (stored y)).
Proof. exists (- (5 / 4)). split; [lra|]. rewrite stored_zero by lra. replace (- (5 / 4) - 0) with (- (5 / 4)) by lra. rewrite Rabs_Ropp, Rabs_right; lra. Qed.
Print Assumptions stored_nearest_refuted.
Example stored_instance : stored (13 / 10) = 1%Z.
Proof.
  destruct (stored_rounds (13 / 10) ltac:(lra)) as [A B].
  assert (0 < stored (13 / 10))%Z by (apply lt_IZR; lra). assert (stored (13 / 10) < 2)%Z by (apply lt_IZR; lra). lia.
Qed.
(** A record: each sample is the model scaled, raised and with its noise, rounded *)
Theorem record_values m s level noise i x e : nth_error m i = Some x -> nth_error noise i = Some e -> - (1 / 2) <= x * s + level + e < 32768 - 1 / 2 ->
  exists z, nth_error (record m s level noise) i = Some z /\ Rabs (x * s + level + e - IZR z) <= 1 / 2.
Proof.
  intros X E H. exists (stored (x * s + level + e)). split; [|destruct (stored_rounds _ H); apply Rabs_le; lra]. unfold record.
  revert m noise X E. induction i as [|i IH]; intros [|a m] [|b noise] X E; try discriminate; cbn in *; [congruence|]. now apply IH.
Qed.
Print Assumptions record_values.

(** * Filtered noise *)
Lemma total_app a b : total (a ++ b) = total a + total b.
Proof. induction a as [|x t IH]; cbn; [unfold total; cbn; lra|]. unfold total in *. cbn. rewrite IH. lra. Qed.
Lemma total_roll k l : length (roll k l) = length l /\ total (roll k l) = total l.
Proof.
  unfold roll. destruct (length l) as [|n] eqn:E; [destruct l; [split; reflexivity|discriminate]|]. set (j := ((S n - k mod S n) mod S n)%nat).
  assert (j < S n)%nat by (apply Nat.mod_upper_bound; lia). split; [rewrite app_length, skipn_length, firstn_length, E; lia|].
  rewrite total_app, Rplus_comm, <- total_app, firstn_skipn. reflexivity.
Qed.
Lemma total_mean a b : length a = length b -> length (map (fun p => (fst p + snd p) / 2) (combine a b)) = length a /\ total (map (fun p => (fst p + snd p) / 2) (combine a b)) = (total a + total b) / 2.
Proof.
  revert b. induction a as [|x a IH]; intros [|y b] L; try discriminate; [split; [reflexivity|unfold total; cbn; lra]|]. injection L as L. destruct (IH b L) as [A B]. cbn [combine map length fst snd]. split; [now rewrite A|].
  unfold total in *. cbn [fold_right]. rewrite B. lra.
Qed.
(** Filtering keeps the number of samples and their sum. *)
Theorem lowpass_total steps i l : length (lowpass i steps l) = length l /\ total (lowpass i steps l) = total l.
Proof.
  revert i l. induction steps as [|s IH]; intros i l; [split; reflexivity|]. cbn [lowpass]. destruct (total_roll (2 ^ i) l) as [A B]. destruct (total_mean l (roll (2 ^ i) l) (eq_sym A)) as [C D].
  destruct (IH (S i) (map (fun p => (fst p + snd p) / 2) (combine l (roll (2 ^ i) l)))) as [E F]. split; [congruence|]. rewrite F, D, B. lra.
Qed.
Print Assumptions lowpass_total.
(** The first sample of a record takes in the last of the record before: filtering does not stop at records. *)
Theorem lowpass_within_records_refuted : exists a b a' : list R, length a = length a' /\ length a = length b /\ nth_error (lowpass 0 1 (a ++ b)) 2 <> nth_error (lowpass 0 1 (a' ++ b)) 2 /\ length a = 2%nat.
Proof. exists [0; 0], [0; 0], [0; 2]. repeat split; try reflexivity. cbn. intros H. injection H. lra. Qed.
Print Assumptions lowpass_within_records_refuted.
Example lowpass_instance : lowpass 0 1 [2; 4; 6] = [4; 3; 5].
Proof. cbn. repeat f_equal; lra. Qed.

(** * Records and channels *)
Theorem read_trace_value A (data : list A) k : 
  ((0 <= k < Z.of_nat (length data))%Z -> read_trace data k = nth_error data (Z.to_nat k) /\ read_trace data k <> None) /\
  ((k < 0)%Z -> (- Z.of_nat (length data) <= k)%Z -> read_trace data k = nth_error (rev data) (Z.to_nat (- k - 1)) /\ read_trace data k <> None) /\
  ((k < - Z.of_nat (length data) \/ Z.of_nat (length data) <= k)%Z -> read_trace data k = None).
Proof.
  unfold read_trace. repeat split; intros.
  - destruct (Z.leb_spec (Z.of_nat (length data)) k); [lia|]. destruct (Z.leb_spec 0 k); [reflexivity|lia].
  - destruct (Z.leb_spec (Z.of_nat (length data)) k); [lia|]. destruct (Z.leb_spec 0 k); [|lia]. apply nth_error_Some. lia.
  - destruct (Z.leb_spec (Z.of_nat (length data)) k); [lia|]. destruct (Z.leb_spec 0 k); [lia|]. destruct (Z.leb_spec 0 (Z.of_nat (length data) + k)); [|lia].
    destruct data as [|d0 t] eqn:E; [cbn in *; lia|]. rewrite <- E in *.
    rewrite (nth_error_nth' data d0), (nth_error_nth' (rev data) d0) by (try rewrite rev_length; lia). rewrite rev_nth by lia. f_equal. f_equal. lia.
  - destruct (Z.leb_spec (Z.of_nat (length data)) k); [lia|]. destruct (Z.leb_spec 0 k); [lia|]. destruct (Z.leb_spec 0 (Z.of_nat (length data) + k)); [|lia]. apply nth_error_Some. lia.
  - destruct (Z.leb_spec (Z.of_nat (length data)) k); [reflexivity|]. destruct (Z.leb_spec 0 k); [lia|]. destruct (Z.leb_spec 0 (Z.of_nat (length data) + k)); [lia|reflexivity].
Qed.
Print Assumptions read_trace_value.
Example read_trace_instance : read_trace [5; 6; 7]%Z 1 = Some 6%Z /\ read_trace [5; 6; 7]%Z (-1) = Some 7%Z /\ read_trace [5; 6; 7]%Z 3 = None.
Proof. repeat split. Qed.
(** Fake channels are numbered 1, 3, 5, … in order. *)
Theorem channels_odd A (l : list A) : map snd (channels 0 l) = l /\ (forall i, (i < length l)%nat -> nth_error (map fst (channels 0 l)) i = Some (2 * i + 1)%nat) /\ NoDup (map fst (channels 0 l)).
Proof.
  assert (G : forall (l : list A) k, map snd (channels k l) = l /\ map fst (channels k l) = map (fun i => (2 * i + 1)%nat) (seq k (length l))).
  { clear l. intros l. induction l as [|x t IH]; intros k; [split; reflexivity|]. destruct (IH (S k)) as [B C]. cbn. rewrite B, C. split; [reflexivity|]. f_equal. lia. }
  destruct (G l 0%nat) as [B C]. split; [exact B|]. rewrite C. split.
  - intros i I. assert (H : nth_error (seq 0 (length l)) i = Some i) by (rewrite (nth_error_nth' _ 0%nat) by (now rewrite seq_length); rewrite seq_nth by exact I; reflexivity). exact (map_nth_error (fun i => (2 * i + 1)%nat) i _ H).
  - apply FinFun.Injective_map_NoDup; [intros a b; lia|apply seq_NoDup].
Qed.
Print Assumptions channels_odd.
Example channels_instance : channels 0 [true; false; true] = [(1, true); (3, false); (5, true)]%nat.
Proof. reflexivity. Qed.
