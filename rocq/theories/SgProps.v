(** C55: savitzky_golay. *)
From Coq Require Import ZArith QArith Qcanon Bool List Lia.
From Verif Require Import QcPre SgModel SgSpec SgProofs.
Import ListNotations.
Local Open Scope Qc_scope.

(** C55. Value [i] is, up to the sign (-1)^d, coefficient [d] of the polynomial that fits best the samples
    within half a window of [i]; beyond the ends the samples are continued downwards and upwards. *)
Theorem savgol_fits : forall pinv y window order d o half,
  accepted window order o half -> (half < length y)%nat -> (d <= o)%nat ->
  pseudo_inverse (2 * half + 1) (S o) (powers_matrix o half) (pinv (powers_matrix o half)) ->
  exists out, savgol pinv y window order (Z.of_nat d) = Some out /\ length out = length y /\
    forall i, (i < length y)%nat -> forall e, best_fit o half (fun k => continued y (Z.of_nat i + k)) e ->
      nth i out 0 = sign d * nth d e 0.
Proof. exact savgol_value. Qed.
Print Assumptions savgol_fits.
Theorem savgol_fit_exists : forall pinv o half v,
  pseudo_inverse (2 * half + 1) (S o) (powers_matrix o half) (pinv (powers_matrix o half)) -> exists e, best_fit o half v e.
Proof. exact best_fit_exists. Qed.
Print Assumptions savgol_fit_exists.

(** C55. Polynomials away from the ends: derivative number [d], divided by d!, with the sign (-1)^d. *)
Theorem savgol_polynomial : forall pinv y window order d o half out c i e,
  accepted window order o half -> (d <= o)%nat ->
  pseudo_inverse (2 * half + 1) (S o) (powers_matrix o half) (pinv (powers_matrix o half)) ->
  savgol pinv y window order (Z.of_nat d) = Some out -> (half <= i)%nat -> (i + half < length y)%nat -> (length c <= S o)%nat ->
  (forall t, (t < length y)%nat -> nth t y 0 = poly c (zc (Z.of_nat t))) ->
  expansion c (zc (Z.of_nat i)) e -> nth i out 0 = sign d * nth d e 0.
Proof. exact savgol_inside. Qed.
Print Assumptions savgol_polynomial.
Theorem savgol_expansion : forall c t, exists e, expansion c t e.
Proof. exact expansion_exists. Qed.
Print Assumptions savgol_expansion.

(** C55. Without derivative polynomials come out unchanged, away from the ends. *)
Theorem savgol_reproduces : forall pinv y window order o half out c i,
  accepted window order o half ->
  pseudo_inverse (2 * half + 1) (S o) (powers_matrix o half) (pinv (powers_matrix o half)) ->
  savgol pinv y window order 0 = Some out -> (half <= i)%nat -> (i + half < length y)%nat -> (length c <= S o)%nat ->
  (forall t, (t < length y)%nat -> nth t y 0 = poly c (zc (Z.of_nat t))) -> nth i out 0 = nth i y 0.
Proof. exact savgol_smooth. Qed.
Print Assumptions savgol_reproduces.

(** C55. Rising straight lines come out unchanged, the ends included. *)
Theorem savgol_rising_line : forall pinv y window order o half out a b,
  accepted window order o half -> (half < length y)%nat -> (1 <= o)%nat \/ b = 0 -> 0 <= b ->
  pseudo_inverse (2 * half + 1) (S o) (powers_matrix o half) (pinv (powers_matrix o half)) ->
  (forall t, (t < length y)%nat -> nth t y 0 = a + b * zc (Z.of_nat t)) ->
  savgol pinv y window order 0 = Some out -> out = y.
Proof. exact savgol_line. Qed.
Print Assumptions savgol_rising_line.

(** C55. Even windows, windows less than order + 2, no samples, and derivatives above the order are refused. *)
Theorem savgol_refused : forall pinv y window order d,
  (Z.even window = true \/ (Z.abs window < Z.abs order + 2)%Z \/ y = [] \/
   (Z.of_nat (length (pinv (powers_matrix (Z.abs_nat order) (Nat.div2 (Z.abs_nat window - 1))))) <= d)%Z) ->
  savgol pinv y window order d = None.
Proof. exact savgol_none. Qed.
Print Assumptions savgol_refused.

(** A concrete pseudo-inverse: window 3, order 1. *)
Example savgol_instance :
  pseudo_inverse 3 2 (powers_matrix 1 1) (pinv31 (powers_matrix 1 1)) /\ accepted 3 1 1 1 /\
  option_map (map this) (savgol pinv31 [zc 1; zc 3; zc 5; zc 13] 3 1 0) = Some [1; 3; 7; 13]%Q /\
  option_map (map this) (savgol pinv31 [zc 1; zc 3; zc 5; zc 13] 3 1 1) = Some [-2; -2; -5; -8]%Q /\
  expansion [zc 1; zc 2] (zc 1) [zc 3; zc 2].
Proof.
  split; [exact pinv31_ok|]. split; [unfold accepted; lia|]. split; [vm_compute; reflexivity|]. split; [vm_compute; reflexivity|].
  split; [reflexivity|]. intros s. cbn. change (zc 3) with (zc 1 + zc 2). change (zc 1) with 1. ring.
Qed.

(** C55. So an odd derivative has the wrong sign. *)
Theorem savgol_derivative_refuted : exists pinv y out i e,
  pseudo_inverse 3 2 (powers_matrix 1 1) (pinv (powers_matrix 1 1)) /\ savgol pinv y 3 1 1 = Some out /\
  (forall t, (t < length y)%nat -> nth t y 0 = poly [0; 1] (zc (Z.of_nat t))) /\
  (1 <= i)%nat /\ (i + 1 < length y)%nat /\ expansion [0; 1] (zc (Z.of_nat i)) e /\ nth 1 e 0 = 1 /\ nth i out 0 = - (1).
Proof.
  exists pinv31, [zc 0; zc 1; zc 2]. eexists. exists 1%nat, [1; 1].
  split; [exact pinv31_ok|]. split; [reflexivity|]. split.
  { intros t Ht. cbn in Ht. destruct t as [|[|[|t]]]; [| | |lia]; apply Qc_is_canon; vm_compute; reflexivity. }
  split; [lia|]. split; [cbn; lia|]. split.
  { split; [reflexivity|]. intros s. cbn. change (zc 1) with 1. ring. }
  split; [reflexivity|]. apply Qc_is_canon; vm_compute; reflexivity.
Qed.
Print Assumptions savgol_derivative_refuted.

(** C55. Falling lines are changed at the ends. *)
Theorem savgol_falling_line_refuted : exists pinv y out,
  pseudo_inverse 3 2 (powers_matrix 1 1) (pinv (powers_matrix 1 1)) /\ savgol pinv y 3 1 0 = Some out /\
  (forall t, (t < length y)%nat -> nth t y 0 = zc 2 + - (1) * zc (Z.of_nat t)) /\ nth 0 out 0 <> nth 0 y 0.
Proof.
  exists pinv31, [zc 2; zc 1; zc 0]. eexists. split; [exact pinv31_ok|]. split; [reflexivity|]. split.
  { intros t Ht. cbn in Ht. destruct t as [|[|[|t]]]; [| | |lia]; apply Qc_is_canon; vm_compute; reflexivity. }
  intros H. apply Qc_eq_this in H. revert H. vm_compute. discriminate.
Qed.
Print Assumptions savgol_falling_line_refuted.

(** C55. With few samples the length is not that of the input. *)
Theorem savgol_short_refuted : exists pinv y out,
  pseudo_inverse 3 2 (powers_matrix 1 1) (pinv (powers_matrix 1 1)) /\ savgol pinv y 3 1 0 = Some out /\ length y = 1%nat /\ length out = 3%nat.
Proof. exists pinv31, [1]. eexists. split; [exact pinv31_ok|]. split; [reflexivity|]. split; reflexivity. Qed.
Print Assumptions savgol_short_refuted.
