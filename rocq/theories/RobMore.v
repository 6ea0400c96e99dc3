(** How far the weighted high median can be from the right one. *)
From Coq Require Import ZArith QArith Qcanon List Bool Lia Permutation.
From Verif Require Import QcPre LagModel QSort FluxModel FluxProofs RobModel RobSpec RobProofs.
Import ListNotations.
Local Open Scope Qc_scope.

Definition times (k : nat) (m : Qc) : Qc := qz (Z.of_nat k) * m.
Lemma times_S k m : times (S k) m = times k m + m.
Proof. unfold times. replace (Z.of_nat (S k)) with (Z.of_nat k + 1)%Z by lia. rewrite qz_add. change (qz 1) with 1. ring. Qed.
Lemma times_le k k' m : 0 <= m -> (k <= k')%nat -> times k m <= times k' m.
Proof. intros Hm H. induction H as [|k' H IH]; [apply Qcle_refl|]. rewrite times_S. qlra. Qed.

Lemma hm_loop_near w n half M : (forall i, (i < n)%nat -> 0 <= w i <= M) -> 0 <= M -> qsum n w = half + half ->
  forall fuel k j lw rw imin imax it, (imax - imin < fuel)%nat -> (imin < imax <= n)%nat -> (imax - imin <= 2 ^ j)%nat ->
  it = Nat.div (imin + imax) 2 ->
  lw = qsum imin w -> half < qsum imax w -> qsum n w - qsum imax w <= rw + times k M ->
  forall r, hm_loop fuel w half lw rw imin imax it = Some r -> half < qsum (S r) w + times (k + j) M.
Proof.
  intros Hw HM Ht. induction fuel as [|f IH]; intros k j lw rw imin imax it Hf Hr Hj Hit Hl Hi Hrw r; [lia|]. cbn [hm_loop].
  assert (T0 : 0 <= times (k + j) M) by (replace 0 with (times 0 M) by (unfold times; cbn; change (qz 0) with 0; ring); apply times_le; [exact HM|lia]).
  destruct (Nat.leb_spec (imax - imin) 1) as [L | L].
  - intros [= <-]. assert (E : imax = S it). { subst it. replace imax with (S imin) by lia. replace (imin + S imin)%nat with (1 + imin * 2)%nat by lia. rewrite Nat.div_add by lia. reflexivity. }
    rewrite <- E. qlra.
  - assert (B : (imin < it < imax)%nat) by (subst it; split; [apply Nat.div_le_lower_bound; lia|apply Nat.div_lt_upper_bound; lia]).
    destruct j as [|j]; [cbn in Hj; lia|]. pose proof (Nat.div_mod (imin + imax) 2 ltac:(lia)) as DM. rewrite <- Hit in DM. pose proof (Nat.mod_upper_bound (imin + imax) 2 ltac:(lia)) as MB.
    cbn [Nat.pow] in Hj.
    rewrite Hl, !wsum_ok by lia.
    replace (qsum imin w + (qsum it w - qsum imin w)) with (qsum it w) by ring.
    destruct (qltb half (qsum it w)) eqn:E1.
    + apply qltb_lt in E1. intros H. replace (k + S j)%nat with (S k + j)%nat by lia. revert H.
      apply IH; try lia; try reflexivity; try exact E1.
      rewrite times_S. replace (it + 1)%nat with (S it) by lia. cbn [qsum]. destruct (Hw it ltac:(lia)) as [W0 W1]. qlra.
    + destruct (qleb half (rw + (qsum imax w - qsum (it + 1) w))) eqn:E2.
      * intros H. apply Qclt_le_trans with (qsum (S r) w + times (k + j) M).
        -- revert H. apply IH; try lia; try reflexivity; assumption.
        -- assert (times (k + j) M <= times (k + S j) M) by (apply times_le; [exact HM|lia]). qlra.
      * intros [= <-]. apply qleb_gt in E2. replace (it + 1)%nat with (S it) in E2 by lia.
        assert (times k M <= times (k + S j) M) by (apply times_le; [exact HM|lia]). rewrite Ht in Hrw. qlra.
Qed.

Lemma weight_at_least x w idx r : length w = length x -> sorts idx x -> (r < length x)%nat ->
  (forall i, (i < length x)%nat -> 0 <= nth i w 0) ->
  qsum (S r) (fun i => nth (nth i idx 0%nat) w 0) <= weight_upto x w (nth (nth r idx 0%nat) x 0).
Proof.
  intros Hl Hso Hr Hw. pose proof Hso as [Hp _].
  assert (L : length idx = length x) by (rewrite (Permutation_length Hp); apply seq_length).
  assert (Hin : forall i, (i < length x)%nat -> (nth i idx 0 < length x)%nat).
  { intros i Hi. assert (In (nth i idx 0%nat) (seq 0 (length x))) by (apply (Permutation_in _ Hp), nth_In; lia). apply in_seq in H. lia. }
  rewrite (weight_upto_positions x w idx _ Hl Hp), L, qtotal_seq.
  replace (length x) with (S r + (length x - S r))%nat by lia. rewrite qsum_split.
  set (F := fun p : nat => if qleb (nth (nth p idx 0%nat) x 0) (nth (nth r idx 0%nat) x 0) then nth (nth p idx 0%nat) w 0 else 0).
  assert (E : qsum (S r) (fun i => nth (nth i idx 0%nat) w 0) = qsum (S r) F).
  { apply qsum_ext. intros i Hi. unfold F. pose proof (sorts_nth idx x Hso i r ltac:(lia)) as H. apply qleb_le in H. rewrite H. reflexivity. }
  rewrite E. change (qsum (S r) F <= qsum (S r) F + qsum (length x - S r) (fun i => F (S r + i)%nat)).
  assert (0 <= qsum (length x - S r) (fun i => F (S r + i)%nat)).
  { apply (qsum_nonneg_le _ 0 (length x - S r)); [lia|]. intros i Hi. unfold F.
    destruct (qleb _ _); [apply Hw, Hin; lia|apply Qcle_refl]. }
  qlra.
Qed.

Lemma high_median_bounds argsort x w M j : x <> [] -> length w = length x -> sorts (argsort x) x ->
  (forall i, (i < length x)%nat -> 0 <= nth i w 0 <= M) -> (length x <= 2 ^ j)%nat ->
  exists v i, high_median argsort x (Some w) = Some (v, i) /\ nth_error x i = Some v /\
    (forall y, In y x -> y < v -> weight_upto x w y + weight_upto x w y <= total_weight w) /\
    (0 < total_weight w -> total_weight w < qz 2 * (weight_upto x w v + times j M)).
Proof.
  intros Hne Hl Hs Hw Hj. set (idx := argsort x) in *. pose proof Hs as [Hp _].
  assert (L : length idx = length x) by (rewrite (Permutation_length Hp); apply seq_length).
  assert (Hw0 : forall i, (i < length x)%nat -> 0 <= nth i w 0) by (intros i Hi; apply Hw; exact Hi).
  destruct (hm_position_ok idx w) as [r [Hr [Hlt Hle]]].
  - destruct x; [contradiction|]. destruct idx; [discriminate L|discriminate].
  - lia.
  - rewrite L. exact Hp.
  - rewrite L. exact Hw0.
  - rewrite L in Hlt. exists (nth (nth r idx 0%nat) x 0), (nth r idx 0%nat).
    unfold high_median, high_median_index. fold idx. rewrite Hr, (nth_error_nth' idx 0%nat) by lia.
    split; [reflexivity|].
    assert (Hin : forall i, (i < length x)%nat -> (nth i idx 0 < length x)%nat).
    { intros i Hi. assert (In (nth i idx 0%nat) (seq 0 (length x))) by (apply (Permutation_in _ Hp), nth_In; lia). apply in_seq in H. lia. }
    split; [apply nth_error_nth'; apply Hin; exact Hlt|].
    split; [exact (proj1 (position_high_median x w idx r Hl Hs Hlt Hw0 Hle))|]. intros Hpos.
    pose proof (weight_at_least x w idx r Hl Hs Hlt Hw0) as WA. set (W := fun i => nth (nth i idx 0%nat) w 0) in *.
    change (total_weight w) with (qtotal w) in *. set (half := qz 1 / qz 2 * qtotal w) in *.
    assert (H2 : half + half = qtotal w).
    { unfold half. rewrite <- Qcmult_plus_distr_l, half_half. ring. }
    assert (TW : qsum (length x) W = qtotal w).
    { rewrite <- qtotal_seq. replace (map W (seq 0 (length x))) with (map (fun i => nth i w 0) idx).
      - rewrite (qtotal_perm _ (map (fun i => nth i w 0) (seq 0 (length x)))) by (apply Permutation_map; exact Hp). f_equal.
        rewrite <- Hl. clear. induction w as [|a t IH]; [reflexivity|]. cbn. f_equal. rewrite <- seq_shift, map_map. exact IH.
      - rewrite <- L. clear. unfold W. induction idx as [|i t IH]; [reflexivity|]. cbn. f_equal. rewrite IH, <- seq_shift, map_map. reflexivity. }
    assert (Hn : (0 < length x)%nat) by lia.
    assert (HM : 0 <= M) by (destruct (Hw 0%nat Hn) as [A B]; qlra).
    unfold hm_position in Hr. rewrite L in Hr.
    assert (K : half < qsum (S r) W + times (0 + j) M).
    { apply (hm_loop_near W (length x) half M) with (fuel := S (length x)) (lw := 0) (rw := 0) (imin := O) (imax := length x) (it := Nat.div (length x) 2); try lia; auto.
      - intros i Hi. apply Hw, Hin, Hi.
      - rewrite TW. symmetry. exact H2.
      - rewrite TW. clearbody half. qlra.
      - unfold times. cbn. change (qz 0) with 0. qlra. }
    cbn [Nat.add] in K. change (qz 2) with (1 + 1). clearbody half. qlra.
Qed.
