(** What merging two sorted lists means. *)
From Coq Require Import QArith Qcanon List.
From Verif Require Import QcPre QSort.
Import ListNotations.

(** The values are in order, those flagged are the first list in its order, the others the second. *)
Definition merges (x1 x2 : list Qc) (out : list (Qc * bool)) : Prop :=
  qsorted (map fst out) /\
  map fst (filter (fun p => snd p) out) = x1 /\
  map fst (filter (fun p => negb (snd p)) out) = x2.
