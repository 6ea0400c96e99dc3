(** Toeplitz matrices and linear systems. *)
From Coq Require Import ZArith QArith Qcanon List.
From Verif Require Import QcPre.
Import ListNotations.
Local Open Scope Qc_scope.

(** Entry i of the product of the n x n matrix A with a vector. *)
Definition mat_vec (n : nat) (A : nat -> nat -> Qc) (x : list Qc) (i : nat) : Qc := qsum n (fun j => A i j * nth j x 0).
(** x has n entries and A x = y. *)
Definition solves (n : nat) (A : nat -> nat -> Qc) (x y : list Qc) : Prop :=
  length x = n /\ forall i, (i < n)%nat -> mat_vec n A x i = nth i y 0.

(** The symmetric Toeplitz matrix with first row T. *)
Definition sym_toeplitz (T : list Qc) (i j : nat) : Qc := nth (if Nat.leb j i then i - j else j - i)%nat T 0.
(** The Toeplitz matrix whose entry (i,j) is T[i-j+n-1]. *)
Definition toeplitz (n : nat) (T : list Qc) (i j : nat) : Qc := nth (i + (n - 1) - j)%nat T 0.

Definition positive_definite (n : nat) (A : nat -> nat -> Qc) : Prop :=
  forall v : nat -> Qc, (exists i, (i < n)%nat /\ v i <> 0) -> 0 < qsum n (fun i => qsum n (fun j => v i * A i j * v j)).
