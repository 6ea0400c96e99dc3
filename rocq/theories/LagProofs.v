From Coq Require Import PeanoNat ZArith QArith Qcanon Lqa List Bool Lia.
From Verif Require Import QcPre LagModel LagSpec.
Import ListNotations.
Local Open Scope Qc_scope.

Lemma q70_val n : q70 n = Q2Qc (n # 70).
Proof. apply Qc_eq. unfold q70, qz. rewrite this_div, !this_Q2Qc. unfold Qdiv, Qmult, Qinv, inject_Z. cbn. unfold Qeq. cbn. lia. Qed.

Lemma qz_0 : qz 0 = 0. Proof. reflexivity. Qed.

Lemma qz_neq n : n <> 0%Z -> qz n <> 0.
Proof.
  intros H C. apply Qc_eq_this in C. unfold qz in C. rewrite this_Q2Qc in C. change (this 0) with 0%Q in C. unfold Qeq, inject_Z in C. cbn in C. lia.
Qed.

Definition normal (y : nat -> Qc) (a b c : Qc) : Prop :=
  qsum 5 (fun m => y m - poly a b c (qz (Z.of_nat m - 2))) = 0 /\
  qsum 5 (fun m => qz (Z.of_nat m - 2) * (y m - poly a b c (qz (Z.of_nat m - 2)))) = 0 /\
  qsum 5 (fun m => qz (Z.of_nat m - 2) * qz (Z.of_nat m - 2) * (y m - poly a b c (qz (Z.of_nat m - 2)))) = 0.

Lemma sq_nonneg x : 0 <= sq x. Proof. unfold sq. qnra. Qed.
Lemma qsum_nonneg n f : (forall i, (i < n)%nat -> 0 <= f i) -> 0 <= qsum n f.
Proof.
  induction n as [|n IH]; intros H; cbn; [apply Qcle_refl|]. specialize (IH ltac:(intros; apply H; lia)). specialize (H n ltac:(lia)). qlra.
Qed.

Lemma normal_best y a b c : normal y a b c -> best_parabola y a b c.
Proof.
  intros [H1 [H2 H3]] a' b' c'. unfold misfit. change (Q2Qc (inject_Z ?z)) with (qz z).
  set (r := fun m => y m - poly a b c (qz (Z.of_nat m - 2))) in *.
  assert (E : qsum 5 (fun m => sq (y m - poly a' b' c' (qz (Z.of_nat m - 2)))) =
              qsum 5 (fun m => sq (r m)) + qsum 5 (fun m => sq (poly (a - a') (b - b') (c - c') (qz (Z.of_nat m - 2)))) +
              qz 2 * ((a - a') * qsum 5 r + (b - b') * qsum 5 (fun m => qz (Z.of_nat m - 2) * r m) + (c - c') * qsum 5 (fun m => qz (Z.of_nat m - 2) * qz (Z.of_nat m - 2) * r m))).
  { rewrite <- !qsum_scale, <- !qsum_add, <- qsum_scale, <- qsum_add. apply qsum_ext. intros m _. unfold r, sq, poly.
    change (qz 2) with (1 + 1). ring. }
  change (qsum 5 (fun m => qz (Z.of_nat m - 2) * r m) = 0) in H2.
  change (qsum 5 (fun m => qz (Z.of_nat m - 2) * qz (Z.of_nat m - 2) * r m) = 0) in H3.
  change (qsum 5 (fun m => sq (r m)) <= qsum 5 (fun m => sq (y m - poly a' b' c' (qz (Z.of_nat m - 2))))).
  rewrite E, H1, H2, H3. pose proof (qsum_nonneg 5 (fun m => sq (poly (a - a') (b - b') (c - c') (qz (Z.of_nat m - 2)))) (fun i _ => sq_nonneg _)) as G.
  set (u := qsum 5 (fun m => sq (poly _ _ _ _))) in *. set (w := qsum 5 (fun m => sq (r m))).
  replace (w + u + qz 2 * ((a - a') * 0 + (b - b') * 0 + (c - c') * 0)) with (w + u) by ring. qlra.
Qed.

Lemma parabola_normal y a b c :
  parabola (y 0%nat) (y 1%nat) (y 2%nat) (y 3%nat) (y 4%nat) = (a, b, c) -> normal y a b c.
Proof.
  unfold parabola. intros [= <- <- <-]. unfold normal, poly. cbn [qsum].
  change (Z.of_nat 0 - 2)%Z with (-2)%Z. change (Z.of_nat 1 - 2)%Z with (-1)%Z. change (Z.of_nat 2 - 2)%Z with 0%Z.
  change (Z.of_nat 3 - 2)%Z with 1%Z. change (Z.of_nat 4 - 2)%Z with 2%Z.
  rewrite !q70_val. unfold qz. repeat split; qc_prep; unfold inject_Z; lra.
Qed.

Lemma vertex_ok p0 p1 p2 x v :
  vertex (p0, p1, p2) = Some (x, v) -> is_vertex p0 p1 p2 x v.
Proof.
  unfold vertex. destruct (Qc_eq_dec p2 0) as [|Hn]; [discriminate|]. intros [= <- <-] t. unfold poly, sq.
  assert (H2 : qz 2 <> 0) by (apply qz_neq; lia). assert (H4 : qz 4 <> 0) by (apply qz_neq; lia).
  change (qz 4) with ((1 + 1) * (1 + 1)) in *. change (qz 2) with (1 + 1) in *. change (qz 1) with 1.
  field. repeat split; auto.
Qed.

Lemma vertex_none p0 p1 p2 : vertex (p0, p1, p2) = None <-> p2 = 0.
Proof. unfold vertex. destruct (Qc_eq_dec p2 0); split; intros; congruence || auto; try discriminate; contradiction. Qed.

(* ----- the sliding loop ----- *)

Definition part (F P : nat -> Qc) (m k : nat) : Qc := qsum k (fun i => F i * P (i + m)%nat).

Record lag_inv (F P : nat -> Qc) (k : nat) (s : lag_state) : Prop := {
  li_c0 : c0 s = part F P 0 k; li_c1 : c1 s = part F P 1 (k - 1); li_c2 : c2 s = part F P 2 (k - 2);
  li_c3 : c3 s = part F P 3 (k - 3); li_c4 : c4 s = part F P 4 (k - 4);
  li_f0 : f0 s = F (k - 4)%nat; li_f1 : f1 s = F (k - 3)%nat; li_f2 : f2 s = F (k - 2)%nat; li_f3 : f3 s = F (k - 1)%nat }.

Lemma part_S F P m k : part F P m (S k) = part F P m k + F k * P (k + m)%nat.
Proof. reflexivity. Qed.

Lemma lag_step_inv F P k s : (4 <= k)%nat -> lag_inv F P k s -> lag_inv F P (S k) (lag_step F P s k).
Proof.
  intros Hk [A0 A1 A2 A3 A4 B0 B1 B2 B3]. split; cbn [lag_step c0 c1 c2 c3 c4 f0 f1 f2 f3].
  - rewrite part_S, A0, Nat.add_0_r. ring.
  - replace (S k - 1)%nat with (S (k - 1)) by lia. rewrite part_S, A1, B3. replace (k - 1 + 1)%nat with k by lia. ring.
  - replace (S k - 2)%nat with (S (k - 2)) by lia. rewrite part_S, A2, B2. replace (k - 2 + 2)%nat with k by lia. ring.
  - replace (S k - 3)%nat with (S (k - 3)) by lia. rewrite part_S, A3, B1. replace (k - 3 + 3)%nat with k by lia. ring.
  - replace (S k - 4)%nat with (S (k - 4)) by lia. rewrite part_S, A4, B0. replace (k - 4 + 4)%nat with k by lia. ring.
  - rewrite B1; f_equal; lia.
  - rewrite B2; f_equal; lia.
  - rewrite B3; f_equal; lia.
  - f_equal; lia.
Qed.

Lemma lag_fold_inv F P n : forall k s, (4 <= k)%nat -> lag_inv F P k s ->
  lag_inv F P (k + n) (fold_left (lag_step F P) (seq k n) s).
Proof.
  induction n as [|n IH]; intros k s Hk H; cbn [seq fold_left]; [rewrite Nat.add_0_r; exact H|].
  replace (k + S n)%nat with (S k + n)%nat by lia. apply IH; [lia|]. apply lag_step_inv; assumption.
Qed.

Lemma lag_convs_ok F P n a b c d e : (8 <= n)%nat -> lag_convs F P n = (a, b, c, d, e) ->
  a = part F P 0 (n - 4) /\ b = part F P 1 (n - 4) /\ c = part F P 2 (n - 4) /\ d = part F P 3 (n - 4) /\ e = part F P 4 (n - 4).
Proof.
  intros Hn. unfold lag_convs. set (s0 := mkLag _ _ _ _ _ _ _ _ _).
  assert (I0 : lag_inv F P 4 s0) by (split; unfold s0, part; cbn; ring).
  pose proof (lag_fold_inv F P (n - 8) 4 s0 (le_n _) I0) as H. set (s := fold_left _ _ _) in *.
  replace (4 + (n - 8))%nat with (n - 4)%nat in H by lia. destruct H as [A0 A1 A2 A3 A4 B0 B1 B2 B3].
  intros [= <- <- <- <- <-]. remember (n - 8)%nat as k eqn:Ek.
  replace (n - 4)%nat with (S (S (S (S k)))) in * by lia. replace (n - 3)%nat with (S (S (S (S (S k))))) by lia.
  replace (n - 2)%nat with (S (S (S (S (S (S k)))))) by lia. replace (n - 1)%nat with (S (S (S (S (S (S (S k))))))) by lia.
  cbn [Nat.sub] in *. rewrite A0, A1, A2, A3, A4, B0, B1, B2, B3. rewrite Nat.sub_0_r in *.
  unfold part. repeat split; cbn [qsum]; rewrite ?Nat.add_succ_l; repeat (rewrite Nat.add_succ_r); rewrite ?Nat.add_0_r; ring.
Qed.

Lemma part_lagged filter pulse m k : (k <= length filter)%nat -> part (fun i => nth i filter 0) (fun i => nth i pulse 0) m k = lagged (firstn k filter) pulse m.
Proof.
  intros Hk. unfold part, lagged. rewrite firstn_length_le by exact Hk. apply qsum_ext. intros i Hi. f_equal.
  revert k Hk Hi. revert i. induction filter as [|x t IH]; intros [|i] [|k] Hk Hi; cbn in *; try lia; auto. apply IH; lia.
Qed.

Lemma lag_row_ok filter pulse :
  (8 <= length pulse)%nat -> (length filter + 4 = length pulse)%nat ->
  lag_row filter pulse = Some (vertex (parabola (lagged filter pulse 0) (lagged filter pulse 1) (lagged filter pulse 2) (lagged filter pulse 3) (lagged filter pulse 4))).
Proof.
  intros Hn HL. unfold lag_row. rewrite (proj2 (Nat.ltb_ge _ _) Hn), (proj2 (Nat.ltb_ge (length filter) (length pulse - 4)) ltac:(lia)). cbn [orb].
  destruct (lag_convs _ _ _) as [[[[a b] c] d] e] eqn:E. apply lag_convs_ok in E as [-> [-> [-> [-> ->]]]]; [|exact Hn].
  replace (length pulse - 4)%nat with (length filter) by lia. rewrite !part_lagged, firstn_all by lia. reflexivity.
Qed.

Lemma dot_lagged filter pulse : (length filter <= length pulse)%nat -> dot (firstn (length filter) pulse) filter = lagged filter pulse 0.
Proof.
  revert pulse; induction filter as [|f filter IH]; intros pulse H.
  - destruct pulse; reflexivity.
  - destruct pulse as [|p pulse]; [cbn in H; lia|]. cbn [length firstn dot]. rewrite IH by (cbn in H; lia).
    unfold lagged. cbn [length]. rewrite qsum_S_l. cbn [nth Nat.add]. f_equal. ring.
Qed.

Lemma window_lagged m filter pulse : (length filter + 4 = length pulse)%nat -> (m <= 4)%nat -> dot (window m pulse) filter = lagged filter pulse m.
Proof.
  intros HL Hm. unfold window. replace (length pulse - 4)%nat with (length filter) by lia.
  rewrite dot_lagged by (rewrite skipn_length; lia). unfold lagged. apply qsum_ext. intros k Hk. f_equal. rewrite Nat.add_0_r.
  clear. revert pulse; induction m as [|m IH]; intros pulse; [rewrite Nat.add_0_r; reflexivity|].
  destruct pulse as [|p pulse]; cbn [skipn]; [destruct k; destruct (_ + _)%nat; reflexivity|]. rewrite Nat.add_succ_r. cbn [nth]. apply IH.
Qed.

Lemma segment_row_ok filter pt pulse :
  (length filter + 4 = length pulse)%nat ->
  segment_row filter None pt pulse = Some (vertex (parabola (lagged filter pulse 0) (lagged filter pulse 1) (lagged filter pulse 2) (lagged filter pulse 3) (lagged filter pulse 4))).
Proof.
  intros HL. unfold segment_row. rewrite (proj2 (Nat.eqb_eq _ _) HL). cbn [negb]. rewrite !window_lagged by lia. reflexivity.
Qed.

Lemma five_lag_estimate filter pulse x v (cython : bool) pt :
  (8 <= length pulse)%nat -> (length filter + 4 = length pulse)%nat ->
  filter_data_row cython None filter pt pulse = Some (Some (x, v)) ->
  exists a b c, best_parabola (lagged filter pulse) a b c /\ c <> 0 /\ is_vertex a b c x v.
Proof.
  intros Hn HL. unfold filter_data_row. rewrite lag_row_ok, segment_row_ok by assumption.
  replace (if cython then _ else _) with (Some (vertex (parabola (lagged filter pulse 0) (lagged filter pulse 1) (lagged filter pulse 2) (lagged filter pulse 3) (lagged filter pulse 4)))) by (destruct cython; reflexivity).
  destruct (parabola _ _ _ _ _) as [[a b] c] eqn:E. intros H. apply (f_equal (fun o => match o with Some y => y | None => None end)) in H. cbv beta iota in H. exists a, b, c.
  split; [apply normal_best, (parabola_normal (lagged filter pulse)), E|]. split; [|apply vertex_ok, H].
  intros C. apply vertex_none with (p0 := a) (p1 := b) in C. congruence.
Qed.

Lemma five_lag_total filter pulse (cython : bool) pt :
  (8 <= length pulse)%nat -> (length filter + 4 = length pulse)%nat ->
  (exists xv, filter_data_row cython None filter pt pulse = Some (Some xv)) \/
  (filter_data_row cython None filter pt pulse = Some None /\
   exists a b, best_parabola (lagged filter pulse) a b 0).
Proof.
  intros Hn HL. unfold filter_data_row. rewrite lag_row_ok, segment_row_ok by assumption.
  replace (if cython then _ else _) with (Some (vertex (parabola (lagged filter pulse 0) (lagged filter pulse 1) (lagged filter pulse 2) (lagged filter pulse 3) (lagged filter pulse 4)))) by (destruct cython; reflexivity).
  destruct (parabola _ _ _ _ _) as [[a b] c] eqn:E. destruct (vertex (a, b, c)) as [xv|] eqn:V; [left; eauto|right].
  split; [reflexivity|]. apply vertex_none in V. subst c. exists a, b. apply normal_best, (parabola_normal (lagged filter pulse)), E.
Qed.

Lemma implementations_agree filter pulse pt :
  (8 <= length pulse)%nat -> (length filter + 4 = length pulse)%nat ->
  filter_data_row true None filter pt pulse = filter_data_row false None filter pt pulse.
Proof. intros. unfold filter_data_row. rewrite lag_row_ok, segment_row_ok by assumption. reflexivity. Qed.
