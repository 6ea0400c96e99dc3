(** Model of ToeplitzWhitener, /repo/mass/core/optimal_filtering.py:14-168, for one vector (the two-dimensional
    case works column by column). Arrays are functions from positions to exact rationals together with a length;
    all arrays are taken to hold floating-point numbers (integer arrays would truncate). None: IndexError for empty
    arguments, or division by zero. *)
From Coq Require Import ZArith QArith Qcanon List.
From Verif Require Import QcPre.
Import ListNotations.
Local Open Scope Qc_scope.

Definition arr := nat -> Qc.
Definition upd (y : arr) (i : nat) (v : Qc) : arr := fun k => if Nat.eqb k i then v else y k.
Definition get (c : list Qc) (i : nat) : Qc := nth i c 0.
Definition order (c : list Qc) : nat := (length c - 1)%nat.

(** Lines 79-81 and 111-113: y = c[0]*v; y[i:] += c[i] * v[:-i] for i = 1..order. *)
Definition ar_mult (c : list Qc) (N : nat) (v : arr) : arr :=
  fold_left (fun (y : arr) i => fun k => if Nat.leb i k && Nat.ltb k N then y k + get c i * v (k - i)%nat else y k)
    (seq 1 (order c)) (fun k => get c 0 * v k).

(** Lines 88-91 / 92-95: y[i] -= y[j]*c[i-j] for lo <= j < i; y[i] /= c[0]. *)
Definition fsub_step (c : list Qc) (lo : nat) (y : arr) (i : nat) : arr :=
  upd y i ((fold_left (fun acc j => acc - y j * get c (i - j)) (seq lo (i - lo)) (y i)) / get c 0).

(** Lines 83-96 and 115-128: the first element, then min(order, N) - 1 full rows, then the banded rows. *)
Definition fsub (c : list Qc) (N : nat) (z : arr) : arr :=
  let q := order c in
  let y := upd z 0 (z 0%nat / get c 0) in
  if Nat.eqb N 1 then y else
  let y := fold_left (fun y i => fsub_step c 0 y i) (seq 1 (Nat.min q N - 1)) y in
  fold_left (fun y i => fsub_step c (i - q) y i) (seq q (N - q)) y.

(** Lines 141-147 and 161-167: back substitution with the transposed matrix. *)
Definition bsub_step (c : list Qc) (N : nat) (y : arr) (i : nat) : arr :=
  let f := Nat.min (order c + 1) (N - i) in
  upd y i ((y i - qsum (f - 1) (fun k => y (i + 1 + k)%nat * get c (1 + k))) / get c 0).
Definition bsub (c : list Qc) (N : nat) (v : arr) : arr :=
  fold_left (bsub_step c N) (rev (seq 0 (N - 1))) (upd v (N - 1) (v (N - 1)%nat / get c 0)).

(** np.correlate(y, c, "full")[order:], lines 148 and 168: entry k is the sum of y[k+n] c[n] over the entries
    that exist. *)
Definition correlate (c : list Qc) (N : nat) (y : arr) : arr :=
  fun k => qsum (length c) (fun n => if Nat.ltb (k + n) N then y (k + n)%nat * get c n else 0).

Definition of_list (v : list Qc) : arr := fun i => nth i v 0.
Definition to_list (N : nat) (y : arr) : list Qc := map y (seq 0 N).
Definition guard (v num den : list Qc) (r : list Qc) : option (list Qc) :=
  match v, num with
  | [], _ | _, [] => None
  | _, _ => if Qc_eq_dec (get den 0) 0 then None else Some r
  end.

(** whiten / __call__, lines 62-96. *)
Definition whiten (theta phi v : list Qc) : option (list Qc) :=
  let N := length v in guard v phi theta (to_list N (fsub theta N (ar_mult phi N (of_list v)))).
(** solveW, lines 98-128. *)
Definition solveW (theta phi v : list Qc) : option (list Qc) :=
  let N := length v in guard v theta phi (to_list N (fsub phi N (ar_mult theta N (of_list v)))).
(** solveWT, lines 130-148. *)
Definition solveWT (theta phi v : list Qc) : option (list Qc) :=
  let N := length v in guard v theta phi (to_list N (correlate theta N (bsub phi N (of_list v)))).
(** applyWT, lines 150-168. *)
Definition applyWT (theta phi v : list Qc) : option (list Qc) :=
  let N := length v in guard v phi theta (to_list N (correlate phi N (bsub theta N (of_list v)))).
