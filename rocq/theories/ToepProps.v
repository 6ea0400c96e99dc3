(** C17-C19: Toeplitz systems. *)
From Coq Require Import PeanoNat ZArith QArith Qcanon List Lia.
From Verif Require Import QcPre LagModel ToepModel ToepSpec ToepProofs.
Import ListNotations.
Local Open Scope Qc_scope.

(** C17. Whatever the symmetric solver returns satisfies T x = y, and is the only such vector. *)
Theorem toeplitz_symmetric_solution : forall T y x, solve_symmetric T y = Some x ->
  solves (length T) (sym_toeplitz T) x y /\ (forall z, solves (length T) (sym_toeplitz T) z y -> z = x).
Proof. intros T y x E. split; [exact (solve_symmetric_solves T y x E)|]. intros z. exact (solve_symmetric_unique T y x z E). Qed.
Print Assumptions toeplitz_symmetric_solution.

(** C17. For a positive definite matrix of order at least two no division by zero occurs: the solver returns. *)
Theorem toeplitz_symmetric_returns : forall T y, (2 <= length T)%nat -> length y = length T ->
  positive_definite (length T) (sym_toeplitz T) -> exists x, solve_symmetric T y = Some x.
Proof. exact solve_symmetric_pd. Qed.
Print Assumptions toeplitz_symmetric_returns.

Definition qs (l : list Z) : list Qc := map qz l.
Definition qvals (o : option (list Qc)) : list (Z * positive) := match o with Some l => map (fun q => (Qnum (this q), Qden (this q))) l | None => [] end.

Example toeplitz_symmetric_instance : exists x, solve_symmetric (qs [4; 2; 1]%Z) (qs [1; 2; 3]%Z) = Some x /\ qvals (Some x) = [(0, 1%positive); (1, 6%positive); (2, 3%positive)]%Z.
Proof. eexists. split; [vm_compute; reflexivity|vm_compute; reflexivity]. Qed.
(** The identity-like matrix [2,1] is positive definite. *)
Example toeplitz_pd_instance : positive_definite 2 (sym_toeplitz (qs [2; 1]%Z)).
Proof.
  intros v [i [Hi Hv]]. cbn [qsum]. unfold sym_toeplitz. cbn [Nat.leb Nat.sub qs map nth].
  change (qz 2) with (1 + 1). change (qz 1) with 1.
  destruct i as [|[|i]]; [| |lia].
  - set (a := v 0%nat) in *. set (b := v 1%nat). assert (P : 0 < a * a).
    { pose proof (qsq_nonneg a) as Q. apply Qcle_lt_or_eq in Q. destruct Q as [Q|Q]; [exact Q|]. symmetry in Q. apply Qcmult_integral in Q. tauto. }
    pose proof (qsq_nonneg (a + b)). pose proof (qsq_nonneg b).
    replace (0 + (0 + a * (1 + 1) * a + a * 1 * b) + (0 + b * 1 * a + b * (1 + 1) * b)) with (a * a + (a + b) * (a + b) + b * b) by ring.
    generalize dependent (a * a). generalize dependent ((a + b) * (a + b)). generalize dependent (b * b). intros. qlra.
  - set (a := v 0%nat) in *. set (b := v 1%nat) in *. assert (P : 0 < b * b).
    { pose proof (qsq_nonneg b) as Q. apply Qcle_lt_or_eq in Q. destruct Q as [Q|Q]; [exact Q|]. symmetry in Q. apply Qcmult_integral in Q. tauto. }
    pose proof (qsq_nonneg (a + b)). pose proof (qsq_nonneg a).
    replace (0 + (0 + a * (1 + 1) * a + a * 1 * b) + (0 + b * 1 * a + b * (1 + 1) * b)) with (a * a + (a + b) * (a + b) + b * b) by ring.
    generalize dependent (a * a). generalize dependent ((a + b) * (a + b)). generalize dependent (b * b). intros. qlra.
Qed.

(** C17. Order one always fails, although [4] x = [8] has a solution: the constructor reads T[1]. *)
Theorem toeplitz_order_one_refuted : exists T y x, solves (length T) (sym_toeplitz T) x y /\ solve_symmetric T y = None.
Proof.
  exists (qs [4%Z]), (qs [8%Z]), (qs [2%Z]). split; [|reflexivity]. split; [reflexivity|]. intros i Hi. cbn in Hi. replace i with 0%nat by lia.
  apply Qc_is_canon. vm_compute. reflexivity.
Qed.
Print Assumptions toeplitz_order_one_refuted.

(** C17. Not every regular matrix can be handled: [0,1] is the exchange matrix, [1,1,0] has determinant -1. *)
Theorem toeplitz_regular_refuted : exists T, (forall y, length y = length T -> exists x, solves (length T) (sym_toeplitz T) x y) /\
  nth 0 T 0 <> 0 /\ forall y, solve_symmetric T y = None.
Proof.
  exists (qs [1; 1; 0]%Z). split; [|split].
  - intros [|a [|b [|c [|d y]]]] Hy; try discriminate Hy.
    exists [b - c; a - b + c; b - a]. split; [reflexivity|]. intros i Hi. cbn in Hi. unfold mat_vec, sym_toeplitz. cbn [length qs map qsum].
    change (qz 1) with 1. change (qz 0) with 0. destruct i as [|[|[|i]]]; cbn [Nat.leb Nat.sub nth]; try ring; lia.
  - intro C. discriminate C.
  - intros y. unfold solve_symmetric. destruct (_ || _); reflexivity.
Qed.
Print Assumptions toeplitz_regular_refuted.

(** C18. Whatever the solver for general Toeplitz matrices returns satisfies sum_j T[i-j+n-1] x[j] = y[i]. *)
Theorem toeplitz_asymmetric_solution : forall n T y x, length T = (2 * n - 1)%nat -> solve_asymmetric T y = Some x ->
  solves n (toeplitz n T) x y.
Proof. exact solve_asymmetric_solves. Qed.
Print Assumptions toeplitz_asymmetric_solution.

Example toeplitz_asymmetric_instance : exists x, solve_asymmetric (qs [3; 1; 4; 2; 1]%Z) (qs [1; 2; 3]%Z) = Some x /\ qvals (Some x) = [(-15, 49%positive); (25, 49%positive); (4, 7%positive)]%Z.
Proof. eexists. split; [vm_compute; reflexivity|]. vm_compute; reflexivity. Qed.

(** C19. mult of a floating-point vector is the matrix product ... *)
Theorem toeplitz_mult_product : forall T x y, mult_symmetric false T x = Some y ->
  length y = length T /\ forall i, (i < length T)%nat -> nth i y 0 = mat_vec (length T) (sym_toeplitz T) x i.
Proof. exact mult_symmetric_ok. Qed.
Print Assumptions toeplitz_mult_product.

(** C19. ... so solving its result gives the vector back; with solve first, so does multiplying. *)
Theorem toeplitz_solve_mult : forall T x y z, length x = length T -> mult_symmetric false T x = Some y -> solve_symmetric T y = Some z -> z = x.
Proof.
  intros T x y z Lx Em Es. apply mult_symmetric_ok in Em. destruct Em as [Ly Hy]. symmetry.
  apply (solve_symmetric_unique T y z x Es). split; [exact Lx|]. intros i Hi. symmetry. apply Hy. exact Hi.
Qed.
Print Assumptions toeplitz_solve_mult.
Theorem toeplitz_mult_solve : forall T x y z, solve_symmetric T y = Some x -> mult_symmetric false T x = Some z -> z = y.
Proof.
  intros T x y z Es Em. pose proof (solve_lengths T y x Es) as Ly. apply mult_symmetric_ok in Em. destruct Em as [Lz Hz].
  apply solve_symmetric_solves in Es. destruct Es as [Lx Hx]. apply (nth_ext _ _ 0 0); [lia|]. intros i Hi. rewrite Hz, Hx by lia. reflexivity.
Qed.
Print Assumptions toeplitz_mult_solve.
Example toeplitz_mult_instance : qvals (mult_symmetric false (qs [4; 2; 1]%Z) (qs [1; 2; 3]%Z)) = [(11, 1%positive); (16, 1%positive); (17, 1%positive)]%Z.
Proof. vm_compute. reflexivity. Qed.

(** C19. With integer x the product is truncated: T = [3/2, 1/2], x = [1, 0]. *)
Theorem toeplitz_mult_integer_refuted : exists T x y, mult_symmetric true T x = Some y /\ nth 0 y 0 <> mat_vec (length T) (sym_toeplitz T) x 0.
Proof.
  exists [Q2Qc (3 # 2); Q2Qc (1 # 2)], (qs [1; 0]%Z). eexists. split; [vm_compute; reflexivity|]. intro C.
  apply (f_equal (fun q => this q)) in C. vm_compute in C. discriminate C.
Qed.
Print Assumptions toeplitz_mult_integer_refuted.
