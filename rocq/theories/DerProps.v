(** Property C10: largest derivative of a record. *)
From Coq Require Import QArith Qcanon List.
From Verif Require Import QcPre DerModel DerSpec DerProofs.
Import ListNotations.
Local Open Scope Qc_scope.

(** With spike rejection: for every record the result is the largest, over all positions j, of the smaller of the
    derivative estimates at j and j+2. [skipn ign row] are the samples after the ignored ones. *)
Theorem max_deriv_spike : forall data ign k,
  length (filter_coef k) = 5%nat -> (forall row, In row data -> (7 <= length row - ign)%nat) ->
  exists out, compute_max_deriv data ign true k = Some (map Some out) /\
    Forall2 (fun row m => largest (length (skipn ign row) - 5 - 1)
                            (fun j => lesser (slope (filter_coef k) (skipn ign row) j)
                                             (slope (filter_coef k) (skipn ign row) (j + 2))) m) data out.
Proof. intros data ign k Hk H. rewrite <- Hk. exact (fast_ok data ign true k Hk H). Qed.
Print Assumptions max_deriv_spike.

(** Without: the largest derivative estimate. *)
Theorem max_deriv_plain : forall data ign k,
  length (filter_coef k) = 5%nat -> (forall row, In row data -> (5 <= length row - ign)%nat) ->
  exists out, compute_max_deriv data ign false k = Some (map Some out) /\
    Forall2 (fun row m => largest (length (skipn ign row) - 5 + 1) (slope (filter_coef k) (skipn ign row)) m) data out.
Proof. intros data ign k Hk H. rewrite <- Hk. exact (fast_ok data ign false k Hk H). Qed.
Print Assumptions max_deriv_plain.

(** The optimised and the reference implementation agree. *)
Theorem max_deriv_versions_agree : forall data ign (spike : bool) k,
  length (filter_coef k) = 5%nat ->
  (forall row, In row data -> (5 + (if spike then 2 else 0) <= length row - ign)%nat) ->
  compute_max_deriv data ign spike k = option_map (map Some) (python_compute_max_deriv data ign spike k).
Proof. exact versions_equal. Qed.
Print Assumptions max_deriv_versions_agree.

(** They differ for kernels of another length: the optimised version raises, the reference does not. *)
Theorem max_deriv_kernel_length_refuted : exists data ign spike k out,
  python_compute_max_deriv data ign spike k = Some out /\ compute_max_deriv data ign spike k = None.
Proof. exists [[1; 1; 0]], O, false, (Custom [1; 1]), [1 + 1]. split; vm_compute; reflexivity. Qed.
Print Assumptions max_deriv_kernel_length_refuted.

Definition demo : list Qc := map (fun z => Q2Qc (inject_Z z)) [9; 9; 0; 0; 10; 20; 30; 40; 40; 90; 40; 40]%Z.
Example max_deriv_instance :
  (forall row, In row [demo] -> (7 <= length row - 2)%nat) /\
  compute_max_deriv [demo] 2 true DefaultKernel = Some [Some (Q2Qc 10)] /\
  compute_max_deriv [demo] 2 false DefaultKernel = Some [Some (Q2Qc 15)] /\
  length (filter_coef SG) = 5%nat.
Proof. split; [intros row [<-|[]]; cbn; repeat constructor|]. split; [vm_compute; reflexivity|]. split; [vm_compute; reflexivity|]. reflexivity. Qed.
