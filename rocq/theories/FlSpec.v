(** The record that stored coefficients stand for. *)
From Coq Require Import QArith Qcanon List.
From Verif Require Import QcPre.
Import ListNotations.
Local Open Scope Qc_scope.

(** Sample i of the modelled record: the sum of the basis elements' samples times their coefficients. *)
Definition modelled (w : nat) (basis : list (list Qc)) (coefs : list Qc) : list Qc :=
  map (fun row => qsum w (fun c => nth c row 0 * nth c coefs 0)) basis.
