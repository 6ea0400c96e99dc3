(** Linear responses and predicted variances of filters. *)
From Coq Require Import ZArith QArith Qcanon List.
From Verif Require Import QcPre LagSpec ToepSpec.
Import ListNotations.
Local Open Scope Qc_scope.

(** The variance of the filter q for noise with the given autocorrelation. *)
Definition quad (noise q : list Qc) : Qc :=
  qsum (length q) (fun i => qsum (length q) (fun j => nth i q 0 * sym_toeplitz noise i j * nth j q 0)).
(** No filter has negative variance. *)
Definition covariance (n : nat) (noise : list Qc) : Prop := forall q, length q = n -> 0 <= quad noise q.

(** Response of a filter to a record, aligned at its first sample. *)
Definition response (f rec : list Qc) : Qc := lagged f rec 0.

(** From sample a on, the record is alpha * s + beta * d + gamma. *)
Definition follows (rec : list Qc) (a : nat) (s d : list Qc) (alpha beta gamma : Qc) : Prop :=
  forall i, (i < length s)%nat -> nth (a + i) rec 0 = alpha * nth i s 0 + beta * nth i d 0 + gamma.
