(** Property C11: five-lag filtering. *)
From Coq Require Import QArith Qcanon List.
From Verif Require Import QcPre LagModel LagSpec LagProofs.
Import ListNotations.
Local Open Scope Qc_scope.

(** Whatever implementation is used, phase x and value v are the vertex of the least-squares parabola through
    the five lagged dot products of filter and record. *)
Theorem five_lag_vertex : forall filter pulse x v cython ptmean,
  (8 <= length pulse)%nat -> (length filter + 4 = length pulse)%nat ->
  filter_data_row cython None filter ptmean pulse = Some (Some (x, v)) ->
  exists a b c, best_parabola (lagged filter pulse) a b c /\ c <> 0 /\ is_vertex a b c x v.
Proof. exact five_lag_estimate. Qed.
Print Assumptions five_lag_vertex.

(** It always succeeds, except when the best parabola is a straight line. *)
Theorem five_lag_defined : forall filter pulse cython ptmean,
  (8 <= length pulse)%nat -> (length filter + 4 = length pulse)%nat ->
  (exists xv, filter_data_row cython None filter ptmean pulse = Some (Some xv)) \/
  (filter_data_row cython None filter ptmean pulse = Some None /\
   exists a b, best_parabola (lagged filter pulse) a b 0).
Proof. exact five_lag_total. Qed.
Print Assumptions five_lag_defined.

Theorem five_lag_implementations_agree : forall filter pulse ptmean,
  (8 <= length pulse)%nat -> (length filter + 4 = length pulse)%nat ->
  filter_data_row true None filter ptmean pulse = filter_data_row false None filter ptmean pulse.
Proof. exact implementations_agree. Qed.
Print Assumptions five_lag_implementations_agree.

(** The Python implementation applies a requested transform: it filters the transformed record. *)
Theorem five_lag_transform : forall g filter ptmean pulse,
  (forall l, length (g l) = length l) ->
  filter_data_row false (Some g) filter ptmean pulse = filter_data_row false None filter 0 (g (map (fun x => x - ptmean) pulse)).
Proof. intros g filter ptmean pulse Hg. unfold filter_data_row, segment_row. rewrite Hg, map_length. reflexivity. Qed.
Print Assumptions five_lag_transform.

(** With a transform the implementations differ: the default implementation ignores it. *)
Theorem five_lag_transform_refuted : exists f filter ptmean pulse,
  (8 <= length pulse)%nat /\ (length filter + 4 = length pulse)%nat /\
  filter_data_row true (Some f) filter ptmean pulse = filter_data_row true None filter ptmean pulse /\
  filter_data_row true (Some f) filter ptmean pulse <> filter_data_row false (Some f) filter ptmean pulse.
Proof.
  exists (map (fun x => x * qz 2)), (map qz [1; 2; 3; 1]%Z), 0, (map qz [0; 0; 1; 5; 9; 7; 2; 1]%Z).
  split; [cbn; repeat constructor|]. split; [reflexivity|]. split; [reflexivity|].
  intros C. assert (D : match filter_data_row true (Some (map (fun x => x * qz 2))) (map qz [1; 2; 3; 1]%Z) 0 (map qz [0; 0; 1; 5; 9; 7; 2; 1]%Z), filter_data_row false (Some (map (fun x => x * qz 2))) (map qz [1; 2; 3; 1]%Z) 0 (map qz [0; 0; 1; 5; 9; 7; 2; 1]%Z) with Some (Some (_, a)), Some (Some (_, b)) => Qeq_bool a b | _, _ => false end = false) by (vm_compute; reflexivity).
  rewrite C in D. revert D. clear C. vm_compute. discriminate.
Qed.
Print Assumptions five_lag_transform_refuted.

Example five_lag_instance :
  filter_data_row true None (map qz [1; 2; 3; 1; 1]%Z) 0 (map qz [0; 0; 1; 5; 9; 7; 2; 1; 1]%Z) <> None /\
  filter_data_row true None (map qz [1; 2; 3; 1; 1]%Z) 0 (map qz [0; 0; 1; 5; 9; 7; 2; 1; 1]%Z) <> Some None.
Proof. split; vm_compute; discriminate. Qed.
Example five_lag_transform_instance :
  filter_data_row false (Some (map (fun x => x * qz 2))) (map qz [1; 2; 3; 1; 1]%Z) 1 (map qz [1; 1; 2; 6; 10; 8; 3; 2; 2]%Z)
  = filter_data_row false None (map qz [1; 2; 3; 1; 1]%Z) 0 (map qz [0; 0; 2; 10; 18; 14; 4; 2; 2]%Z) /\
  (forall l, length (map (fun x => x * qz 2) l) = length l).
Proof. split; [vm_compute; reflexivity|intros l; apply map_length]. Qed.
