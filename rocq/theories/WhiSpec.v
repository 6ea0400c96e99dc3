(** Lower-triangular banded Toeplitz matrices of an ARMA noise model and the whitening equation. *)
From Coq Require Import ZArith QArith Qcanon List.
From Verif Require Import QcPre ToepSpec.
Import ListNotations.
Local Open Scope Qc_scope.

(** Entry (i,j) of the matrix with c[k] on the k-th subdiagonal. *)
Definition lower (c : list Qc) (i j : nat) : Qc := if Nat.leb j i then nth (i - j) c 0 else 0.

(** w = W v: the moving-average matrix times w is the autoregressive matrix times v. *)
Definition whitened (theta phi v w : list Qc) : Prop :=
  length w = length v /\
  forall i, (i < length v)%nat -> mat_vec (length v) (lower theta) w i = mat_vec (length v) (lower phi) v i.

Definition inner (u v : list Qc) : Qc := qsum (length u) (fun i => nth i u 0 * nth i v 0).

(** The library's ways of dividing by a constant coefficient list: more than one coefficient, or the only one is
    1, or there is only one sample. *)
Definition regular (c v : list Qc) : Prop := (2 <= length c)%nat \/ nth 0 c 0 = 1 \/ length v = 1%nat.
