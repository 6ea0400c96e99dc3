(** C20-C21: the ARMA whitener. *)
From Coq Require Import PeanoNat ZArith QArith Qcanon List Lia.
From Verif Require Import QcPre LagModel ToepSpec WhiModel WhiSpec WhiProofs.
Import ListNotations.
Local Open Scope Qc_scope.

(** C20. whiten returns for all non-empty data and coefficients with theta[0] <> 0; its result is the unique solution
    of the ARMA equation. *)
Theorem whiten_is_arma : forall theta phi v, nth 0 theta 0 <> 0 -> phi <> [] -> v <> [] -> regular theta v ->
  exists w, whiten theta phi v = Some w /\ whitened theta phi v w /\ (forall w', whitened theta phi v w' -> w' = w).
Proof.
  intros theta phi v H0 Hp Hv HR. unfold whiten. eexists. split; [apply guard_ok; assumption|].
  assert (E : whiten theta phi v = Some (to_list (length v) (fsub theta (length v) (ar_mult phi (length v) (of_list v))))) by (apply guard_ok; assumption).
  apply whiten_whitened in E; [|exact HR]. split; [exact E|]. intros w' Hw'. exact (whitened_unique theta phi v _ _ H0 Hw' E).
Qed.
Print Assumptions whiten_is_arma.

(** C20. whiten and solveW undo each other. *)
Theorem whiten_solveW_inverse : forall theta phi v w, nth 0 theta 0 <> 0 -> nth 0 phi 0 <> 0 -> regular theta v -> regular phi v ->
  (whiten theta phi v = Some w -> solveW theta phi w = Some v) /\ (solveW theta phi v = Some w -> whiten theta phi w = Some v).
Proof.
  intros theta phi v w Ht Hp Rt Rp. split; intros E; [apply solve_whiten|apply whiten_solve]; assumption.
Qed.
Print Assumptions whiten_solveW_inverse.

(** C20. Multiplying by the matrix W(N), the solution of MA W = AR, is whitening. *)
Theorem whiten_is_matrix : forall theta phi M v w, regular theta v -> nth 0 theta 0 <> 0 ->
  (forall i j, (i < length v)%nat -> (j < length v)%nat -> qsum (length v) (fun k => lower theta i k * M k j) = lower phi i j) ->
  whiten theta phi v = Some w -> forall i, (i < length v)%nat -> nth i w 0 = mat_vec (length v) M v i.
Proof. exact whiten_matrix. Qed.
Print Assumptions whiten_is_matrix.

(** C20. Time invariance: zeros put before the data come out as zeros before the whitened data. *)
Theorem whiten_time_invariant : forall theta phi k v w, regular theta v -> (2 <= length theta)%nat \/ nth 0 theta 0 = 1 ->
  whiten theta phi v = Some w -> whiten theta phi (repeat 0 k ++ v) = Some (repeat 0 k ++ w).
Proof. exact whiten_shift. Qed.
Print Assumptions whiten_time_invariant.

Definition qs (l : list Z) : list Qc := map qz l.
Definition qvals (o : option (list Qc)) : list (Z * positive) := match o with Some l => map (fun q => (Qnum (this q), Qden (this q))) l | None => [] end.

Example whiten_instance :
  qvals (whiten (qs [2; 1; 1]%Z) (qs [4; 2]%Z) (qs [1; 2; 3; 4]%Z)) = [(2, 1%positive); (4, 1%positive); (5, 1%positive); (13, 2%positive)]%Z /\
  qvals (solveW (qs [2; 1; 1]%Z) (qs [4; 2]%Z) [qz 2; qz 4; qz 5; Q2Qc (13 # 2)]) = [(1, 1%positive); (2, 1%positive); (3, 1%positive); (4, 1%positive)]%Z.
Proof. split; vm_compute; reflexivity. Qed.

(** C20. A pure autoregressive model (one MA coefficient, not 1) breaks it: the first sample is divided twice, so the
    equation fails and solveW does not undo whiten. *)
Theorem whiten_pure_ar_refuted : exists theta phi v w, nth 0 theta 0 <> 0 /\ nth 0 phi 0 <> 0 /\ (2 <= length phi)%nat /\
  whiten theta phi v = Some w /\ ~ whitened theta phi v w /\ solveW theta phi w <> Some v.
Proof.
  exists (qs [2]%Z), (qs [4; 2]%Z), (qs [1; 2]%Z). eexists. split; [intro C; discriminate C|]. split; [intro C; discriminate C|].
  split; [cbn; lia|]. split; [vm_compute; reflexivity|]. split.
  - intros [_ H]. specialize (H 0%nat ltac:(cbn; lia)). apply (f_equal (fun q => this q)) in H. vm_compute in H. discriminate H.
  - intros H. apply (f_equal qvals) in H. vm_compute in H. discriminate H.
Qed.
Print Assumptions whiten_pure_ar_refuted.

(** C21. applyWT is the transpose of whiten. *)
Theorem applyWT_is_transpose : forall theta phi u v wu wv, length u = length v -> regular theta u ->
  whiten theta phi u = Some wu -> applyWT theta phi v = Some wv -> inner wu v = inner u wv.
Proof. exact whiten_adjoint. Qed.
Print Assumptions applyWT_is_transpose.
(** C21. solveWT is the transpose of solveW. *)
Theorem solveWT_is_transpose : forall theta phi u v wu wv, length u = length v -> regular phi u ->
  solveW theta phi u = Some wu -> solveWT theta phi v = Some wv -> inner wu v = inner u wv.
Proof. intros theta phi. exact (whiten_adjoint phi theta). Qed.
Print Assumptions solveWT_is_transpose.

Example transpose_instance :
  qvals (applyWT (qs [2; 1; 1]%Z) (qs [4; 2]%Z) (qs [1; 0; 2]%Z)) = [(0, 1%positive); (0, 1%positive); (4, 1%positive)]%Z /\
  qvals (solveWT (qs [2; 1; 1]%Z) (qs [4; 2]%Z) (qs [1; 0; 2]%Z)) = [(1, 1%positive); (0, 1%positive); (1, 1%positive)]%Z.
Proof. split; vm_compute; reflexivity. Qed.

(** C21. For a pure autoregressive model they are not transposes. *)
Theorem applyWT_pure_ar_refuted : exists theta phi u v wu wv, length u = length v /\ nth 0 theta 0 <> 0 /\
  whiten theta phi u = Some wu /\ applyWT theta phi v = Some wv /\ inner wu v <> inner u wv.
Proof.
  exists (qs [2]%Z), (qs [4; 2]%Z), (qs [1; 2]%Z), (qs [1; 0]%Z). do 2 eexists. split; [reflexivity|]. split; [intro C; discriminate C|].
  split; [vm_compute; reflexivity|]. split; [vm_compute; reflexivity|].
  intro C. apply (f_equal (fun q => this q)) in C. vm_compute in C. discriminate C.
Qed.
Print Assumptions applyWT_pure_ar_refuted.
