(** What a Gaussian-process smoothing spline should be. *)
From Coq Require Import Reals List.
From Verif Require Import GprModel.
Open Scope R_scope.

(** The routines of linear algebra: a solution is given only for a matrix with an inverse. *)
Definition inverses (n : nat) (M N : mat) : Prop :=
  forall i j, (i < n)%nat -> (j < n)%nat ->
    sm n (fun k => M i k * N k j) = (if Nat.eqb i j then 1 else 0) /\ sm n (fun k => N i k * M k j) = (if Nat.eqb i j then 1 else 0).
Definition solves (msolve : nat -> nat -> mat -> mat -> option mat) : Prop :=
  forall n m M B X, msolve n m M B = Some X ->
    (exists N, inverses n M N) /\ forall i j, (i < n)%nat -> (j < m)%nat -> sm n (fun k => M i k * X k j) = B i j.
Definition factors (chol : nat -> mat -> option mat) : Prop :=
  forall n M L, chol n M = Some L -> forall i j, (i < n)%nat -> (j < n)%nat -> sm n (fun k => L i k * L j k) = M i j.

(** The covariance of the data: the kernel, times the variance of the function, and the errors *)
Definition covar (sf2 : R) (x err : vec) (i j : nat) : R := sf2 * kern (x i) (x j) + (if Nat.eqb i j then err i ^ 2 else 0).
(** Weights of the data that give every straight line exactly at [v] *)
Definition unbiased (n : nat) (x : vec) (v : R) (u : vec) : Prop := sm n u = 1 /\ sm n (fun i => u i * x i) = v.
(** The mean square error of the prediction at [v] with the weights [u] *)
Definition mse (n : nat) (sf2 : R) (x err : vec) (v : R) (u : vec) : R :=
  sf2 * kern v v - 2 * sm n (fun i => u i * (sf2 * kern v (x i))) + sm n (fun i => u i * sm n (fun j => covar sf2 x err i j * u j)).
(** The best such weights and Lagrange multipliers *)
Definition kriging (n : nat) (sf2 : R) (x err : vec) (v : R) (w : vec) (nu0 nu1 : R) : Prop :=
  unbiased n x v w /\ forall i, (i < n)%nat -> sm n (fun j => covar sf2 x err i j * w j) + nu0 + nu1 * x i = sf2 * kern v (x i).
(** A function of a natural cubic spline: a line and cubes that start at the knots, whose coefficients have no sum and no first moment. *)
Definition natural (n : nat) (x a : vec) : Prop := sm n a = 0 /\ sm n (fun i => a i * x i) = 0.
Definition cube_from (k v : R) : R := if Rle_dec v k then 0 else (v - k) ^ 3.
