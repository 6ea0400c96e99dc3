(** What a fit range should be. *)
From Coq Require Import QArith Qcanon List.
Import ListNotations.
Local Open Scope Qc_scope.

Definition dist (a b : Qc) : Qc := if Qclt_le_dec a b then b - a else a - b.

(** The energies at most [h] from the line at [e] and at least as close to it as to any of the
    lines [others]. *)
Definition nearby (others : list Qc) (h e x : Qc) : Prop :=
  dist x e <= h /\ forall e', In e' others -> dist x e <= dist x e'.
