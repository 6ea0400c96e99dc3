(** C97: the cut learned from residualStdDev. *)
From Coq Require Import ZArith QArith Qcanon Qround Bool Lia List.
From Verif Require Import QcPre LagModel DerModel LocModel LocSpec LocProofs OcModel OcSpec OcProofs RsModel RsSpec RsProofs.
Import ListNotations.
Local Open Scope Qc_scope.

(** C97. With more than four pulses, and minFv below the middle of the first bin: pulses up to minFv need a negative
    residual; a pulse above minFv, up to the middle of bin i and above the middle of the bin before, is kept exactly
    when its residual is below the robust limit of bin i; above the last middle the last bin decides.  A bin without
    pulses has no limit, so everything that it decides on is cut.  The bins are those that end below the largest
    filtValue m. *)
Theorem residual_rule : forall n b min_fv pulses m K l, 0 < b -> (4 < length pulses)%nat -> min_fv < middle_of b 0 ->
  largest (map fst pulses) m -> K = O \/ start_of b K < m -> m <= start_of b (S K) -> learn n b min_fv pulses = Ret l ->
  forall x r,
  (x < min_fv -> (keep l (x, r) = true <-> r < - (1))) /\
  (x = min_fv -> (keep l (x, r) = true <-> r < 0)) /\
  (K = O -> min_fv < x -> (keep l (x, r) = true <-> r < 0)) /\
  (forall i rs, (i < K)%nat -> min_fv < x -> (i = O \/ middle_of b (i - 1) < x) -> (x <= middle_of b i \/ S i = K) ->
     between (start_of b i) (start_of b (S i)) pulses rs -> (keep l (x, r) = true <-> exists t, limit n rs t /\ r < t)).
Proof.
  intros n b min_fv pulses m K l B L M LA KL KU H x r. rewrite (learn_value n b min_fv pulses m K B L LA KL KU) in H. injection H as <-.
  destruct (learned_at n b min_fv pulses K x B M) as (A1 & A2 & A3 & A4). unfold keep. cbn [fst snd]. split; [|split; [|split]].
  - intros X. rewrite (A1 X). apply qltb_lt.
  - intros X. rewrite (A2 X). apply qltb_lt.
  - intros Z X. rewrite (A3 Z X). apply qltb_lt.
  - intros i rs I X LO HI BT. rewrite (A4 i I X LO HI). apply inside_between in BT. subst rs.
    destruct (bin_threshold _ _ _ _) as [t|] eqn:T.
    + rewrite qltb_lt. apply threshold_limit in T as T'. split.
      * intros R. exists t. auto.
      * intros (t' & T2 & R). apply threshold_limit in T2. rewrite T in T2. injection T2 as ->. exact R.
    + split; [discriminate|]. intros (t' & T2 & R). apply threshold_limit in T2. rewrite T in T2. discriminate.
Qed.
Print Assumptions residual_rule.

(** C97. So, as residuals are not negative, no pulse up to minFv is kept. *)
Theorem small_pulses_cut : forall n b min_fv pulses m K l x r, 0 < b -> (4 < length pulses)%nat -> min_fv < middle_of b 0 ->
  largest (map fst pulses) m -> K = O \/ start_of b K < m -> m <= start_of b (S K) -> learn n b min_fv pulses = Ret l ->
  0 <= r -> x <= min_fv -> keep l (x, r) = false.
Proof.
  intros n b min_fv pulses m K l x r B L M LA KL KU H R X. destruct (residual_rule n b min_fv pulses m K l B L M LA KL KU H x r) as (A1 & A2 & _).
  apply Qcle_lt_or_eq in X. destruct (keep l (x, r)) eqn:E; [|reflexivity]. exfalso. destruct X as [X|X].
  - apply A1 in X. pose proof (proj1 X eq_refl) as Q. qlra.
  - apply A2 in X. pose proof (proj1 X eq_refl) as Q. qlra.
Qed.
Print Assumptions small_pulses_cut.

(** C97. With at most four pulses, and also when no filtValue exceeds the bin size, every pulse is cut: also the ones the
    cut was learned from. *)
Theorem few_pulses_all_cut : forall n b min_fv pulses l x r, (length pulses <= 4)%nat -> learn n b min_fv pulses = Ret l -> 0 <= r -> keep l (x, r) = false.
Proof.
  intros n b min_fv pulses l x r L H R. unfold learn in H. destruct (qmax _) as [m|]; [|discriminate]. destruct (arange _ _ _) as [e|]; cbn [bind] in H; [|discriminate].
  replace (Nat.leb (length pulses) 4) with true in H by (symmetry; apply Nat.leb_le; exact L). injection H as <-. replace (0 + n * 0) with 0 by ring.
  unfold keep, threshold_at, sorted. cbn [fold_right place fst snd last find]. destruct (qltb x min_fv); [apply qltb_ge; qlra|]. destruct (qleb x min_fv); apply qltb_ge; exact R.
Qed.
Print Assumptions few_pulses_all_cut.
Theorem one_bin_all_cut : forall n b min_fv pulses m l x r, 0 < b -> largest (map fst pulses) m -> m <= b ->
  learn n b min_fv pulses = Ret l -> 0 <= r -> keep l (x, r) = false.
Proof.
  intros n b min_fv pulses m l x r B LA U H R. destruct (Nat.le_gt_cases (length pulses) 4) as [L|L]; [eapply few_pulses_all_cut; eassumption|].
  rewrite (learn_value n b min_fv pulses m 0 B L LA (or_introl eq_refl)) in H.
  - injection H as <-. cbn [seq map]. unfold keep, threshold_at, sorted. cbn [fold_right place fst snd last find]. destruct (qltb x min_fv); [apply qltb_ge; qlra|]. destruct (qleb x min_fv); apply qltb_ge; exact R.
  - unfold start_of. replace (qz (Z.of_nat 1)) with 1 by (apply Qc_is_canon; reflexivity). qlra.
Qed.
Print Assumptions one_bin_all_cut.

(** C97. A pulse with a smaller residual is kept if one with a larger residual is. *)
Theorem residual_monotone : forall l x r r', keep l (x, r) = true -> r' <= r -> keep l (x, r') = true.
Proof.
  intros l x r r' H L. unfold keep in *. cbn [fst snd] in *. destruct (threshold_at l x) as [t|]; [|discriminate]. apply qltb_lt in H. apply qltb_lt. eapply Qcle_lt_trans; eassumption.
Qed.
Print Assumptions residual_monotone.

(** C97. No pulses at all: numpy raises. *)
Theorem no_pulses_raise : forall n b min_fv, learn n b min_fv [] = Exc ValueErr.
Proof. reflexivity. Qed.
Print Assumptions no_pulses_raise.

(** C97. minFv is no lower limit when it is above the middle of the first bin. *)
Theorem min_fv_refuted : exists n b min_fv pulses l x r, 0 < b /\ (4 < length pulses)%nat /\ learn n b min_fv pulses = Ret l /\ 0 <= r /\ x < min_fv /\ keep l (x, r) = true.
Proof.
  exists (qz 15), (qz 10), (qz 8), [(qz 1, qz 4); (qz 2, qz 4); (qz 3, qz 4); (qz 4, qz 4); (qz 12, qz 4)]. eexists _, (qz 5), (qz 3).
  repeat split; try (vm_compute; reflexivity); try (vm_compute; discriminate).
Qed.
Print Assumptions min_fv_refuted.
(** C97. The limit of the bin of a pulse is not the one used in the upper half of each bin: the limit of the next bin is. *)
Theorem own_bin_refuted : exists n b min_fv pulses l x r rs t, 0 < b /\ (4 < length pulses)%nat /\ learn n b min_fv pulses = Ret l /\ In (x, r) pulses /\
  min_fv < x /\ start_of b 0 < x /\ x < start_of b 1 /\ between (start_of b 0) (start_of b 1) pulses rs /\ limit n rs t /\ r < t /\ keep l (x, r) = false.
Proof.
  set (pulses := [(qz 6, qz 4); (qz 7, qz 3); (qz 8, qz 6); (qz 12, qz 1); (qz 13, qz 1); (qz 14, qz 1); (qz 22, qz 1)]).
  assert (H : exists t, bin_threshold (qz 15) pulses (start_of (qz 10) 0) (start_of (qz 10) 1) = Some t /\ qltb (qz 4) t = true) by (eexists; split; [vm_compute; reflexivity|vm_compute; reflexivity]).
  destruct H as (t & T & R).
  exists (qz 15), (qz 10), (qz 1), pulses. eexists _, (qz 6), (qz 4), (inside pulses (start_of (qz 10) 0) (start_of (qz 10) 1)), t.
  split; [vm_compute; reflexivity|]. split; [cbn [length pulses]; lia|]. split; [vm_compute; reflexivity|]. split; [now left|]. split; [vm_compute; reflexivity|]. split; [vm_compute; reflexivity|].
  split; [vm_compute; reflexivity|]. split; [now apply inside_between|]. split; [now apply threshold_limit|]. split; [now apply qltb_lt|]. vm_compute. reflexivity.
Qed.
Print Assumptions own_bin_refuted.
(** C97. Where the deciding bin has no pulses, even a pulse with residual 0 is cut. *)
Theorem empty_bin_refuted : exists n b min_fv pulses l x, 0 < b /\ (4 < length pulses)%nat /\ min_fv < middle_of b 0 /\ learn n b min_fv pulses = Ret l /\
  In (x, 0) pulses /\ min_fv < x /\ keep l (x, 0) = false.
Proof.
  set (pulses := [(qz 6, 0); (qz 7, qz 3); (qz 8, qz 6); (qz 22, qz 1); (qz 23, qz 1); (qz 24, qz 1); (qz 32, qz 1)]).
  exists (qz 15), (qz 10), (qz 1), pulses. eexists _, (qz 6). repeat split; try (vm_compute; reflexivity); [cbn [length pulses]; lia|now left].
Qed.
Print Assumptions empty_bin_refuted.

Example residual_instance :
  let pulses := [(qz 6, qz 4); (qz 7, qz 3); (qz 8, qz 6); (qz 12, qz 1); (qz 13, qz 1); (qz 14, qz 1); (qz 22, qz 1)] in
  largest (map fst pulses) (qz 22) /\ start_of (qz 10) 2 < qz 22 /\ qz 22 <= start_of (qz 10) 3 /\
  match learn (qz 15) (qz 10) (qz 1) pulses with Ret l => map (keep l) [(qz 1, 0); (qz 3, qz 25); (qz 3, qz 27); (qz 6, 0); (qz 20, qd 1 2)] = [false; true; false; true; true] | _ => False end.
Proof.
  split; [|split; [|split]]; [|vm_compute; reflexivity|vm_compute; discriminate|vm_compute; reflexivity].
  split; [simpl; tauto|]. intros x H. simpl in H. decompose [or] H; subst; try (apply qz_le; lia). contradiction.
Qed.
