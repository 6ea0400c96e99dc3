(** Five-lag filtering from the coefficients stored in an OFF file: mass/off/fivelag.py, MatMulAB_FixedB of
    mass/off/recipe_classes.py, and Channel.add5LagRecipes, mass/off/channels.py:843-850.
    Numbers are exact rationals; a matrix is the list of its rows. *)
From Coq Require Import ZArith QArith Qcanon List.
From Verif Require Import QcPre LagModel.
Import ListNotations.
Local Open Scope Qc_scope.

Notation matrix := (list (list Qc)).
(** Column c of a matrix. *)
Definition column (c : nat) (m : matrix) : list Qc := map (fun r => nth c r 0) m.
(** np.matmul(vector, matrix) for a matrix with [w] columns; None is the ValueError about the shapes. *)
Definition vec_mat (w : nat) (v : list Qc) (m : matrix) : option (list Qc) :=
  if Nat.eqb (length v) (length m) then Some (map (fun c => dot v (column c m)) (seq 0 w)) else None.

(** basis[j:j - 4, :] and, for j = 4, basis[4:, :]; fivelag.py:8-12.  A negative stop counts from the end. *)
Definition lag_rows (basis : matrix) (j : nat) : matrix :=
  let n := length basis in
  if Nat.eqb j 4 then skipn 4 basis
  else let stop := Z.to_nat (Z.max 0 (Z.of_nat n + (Z.of_nat j - 4))) in
       let start := Nat.min j n in
       firstn (stop - start) (skipn start basis).

Fixpoint all {A} (l : list (option A)) : option (list A) :=
  match l with [] => Some [] | x :: t => match x, all t with Some a, Some r => Some (a :: r) | _, _ => None end end.

(** fivelag.py:14-17 *)
Definition fit_array : matrix :=
  [[q70 (-6); q70 24; q70 34; q70 24; q70 (-6)]; [q70 (-14); q70 (-7); 0; q70 7; q70 14]; [q70 10; q70 (-5); q70 (-10); q70 (-5); q70 10]].

(** fivelag.py:6-19, calc_5lag_fit_matrix: the second result, the transposed product; [w] is basis.shape[1]. *)
Definition in_basis (w : nat) (filter : list Qc) (basis : matrix) : option matrix :=
  all (map (fun j => vec_mat w filter (lag_rows basis j)) (seq 0 5)).
Definition fit_in_basis (w : nat) (filter : list Qc) (basis : matrix) : option matrix :=
  match in_basis w filter basis with
  | None => None
  | Some lags => Some (map (fun c => map (fun r => dot r (column c lags)) fit_array) (seq 0 w))
  end.

(** recipe_classes.py:32-37: MatMulAB_FixedB on the coefficients of one record *)
Definition cba (b : matrix) (coefs : list Qc) : option (list Qc) := vec_mat 3 coefs b.
(** fivelag.py:22-32; None: division by zero *)
Definition filt_value (p : list Qc) : option Qc :=
  match p with [c; b; a] => if Qc_eq_dec a 0 then None else Some (c - qz 1 / qz 4 * (b * b) / a) | _ => None end.
Definition peak_x (p : list Qc) : option Qc :=
  match p with [c; b; a] => if Qc_eq_dec a 0 then None else Some (- (qz 1 / qz 2) * b / a) | _ => None end.

(** The recipes filtValue5Lag and peakX5Lag for one record, after add5LagRecipes; the outer None is the exception when
    the recipes are added or crafted, the inner None a division by zero. *)
Definition off_five_lag (w : nat) (filter : list Qc) (basis : matrix) (coefs : list Qc) : option (option Qc * option Qc) :=
  match fit_in_basis w filter basis with
  | None => None
  | Some b => match cba b coefs with None => None | Some p => Some (peak_x p, filt_value p) end
  end.
