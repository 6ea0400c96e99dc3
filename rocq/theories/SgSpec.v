(** What a Savitzky-Golay filter should return. *)
From Coq Require Import ZArith QArith Qcanon Bool List.
From Verif Require Import QcPre SgModel.
Import ListNotations.
Local Open Scope Qc_scope.

(** The polynomial with coefficients [c], the constant one first. *)
Fixpoint poly (c : list Qc) (x : Qc) : Qc := match c with [] => 0 | a :: t => a + x * poly t x end.

(** Entry of a matrix. *)
Definition entry (a : list (list Qc)) (i j : nat) : Qc := nth j (nth i a []) 0.
(** Two of the four conditions that define the pseudo-inverse [p] of the matrix [b] with [n] rows and [m]
    columns: [b p b = b] and [b p] is symmetric. *)
Record pseudo_inverse (n m : nat) (b p : list (list Qc)) : Prop := {
  pi_rows : length p = m;
  pi_cols : forall r, In r p -> length r = n;
  pi_inverse : forall i j, (i < n)%nat -> (j < m)%nat ->
    qsum n (fun k => qsum m (fun l => entry b i l * entry p l k) * entry b k j) = entry b i j;
  pi_symmetric : forall i k, (i < n)%nat -> (k < n)%nat ->
    qsum m (fun l => entry b i l * entry p l k) = qsum m (fun l => entry b k l * entry p l i) }.

(** The samples continued beyond the ends: downwards before the first one and upwards after the last. *)
Definition sample (y : list Qc) (t : Z) : Qc := nth (Z.to_nat t) y 0.
Definition continued (y : list Qc) (t : Z) : Qc :=
  let n := Z.of_nat (length y) in
  if (t <? 0)%Z then sample y 0 - absq (sample y (- t) - sample y 0)
  else if (t <? n)%Z then sample y t
  else sample y (n - 1) + absq (sample y (2 * (n - 1) - t) - sample y (n - 1)).

(** Sum of the squared differences between [v] and the polynomial [c], [half] places to either side. *)
Definition misfit (half : nat) (v : Z -> Qc) (c : list Qc) : Qc :=
  qsum (2 * half + 1) (fun j => let k := (Z.of_nat j - Z.of_nat half)%Z in (v k - poly c (zc k)) * (v k - poly c (zc k))).
(** [e] is a polynomial of order [o] that fits [v] best. *)
Definition best_fit (o half : nat) (v : Z -> Qc) (e : list Qc) : Prop :=
  length e = S o /\ forall c, length c = S o -> misfit half v e <= misfit half v c.

(** [e] is [c] expanded around [t]: [nth d e] is the d-th derivative at [t], divided by d!. *)
Definition expansion (c : list Qc) (t : Qc) (e : list Qc) : Prop :=
  length e = length c /\ forall s, poly c (t + s) = poly e s.

Definition sign (d : nat) : Qc := if Nat.even d then 1 else - (1).
