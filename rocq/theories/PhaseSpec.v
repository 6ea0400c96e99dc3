(** What the phase correction should do, and what is found in a file after several saves. *)
From Coq Require Import String Reals ZArith Bool List.
Import ListNotations.
Local Open Scope R_scope.

(** Height of line [i], and what is added to a pulse with this height and phase. *)
Definition line (cs : list (R -> R)) (i : nat) : R := nth i cs (fun _ => 0) 0.
Definition shift (cs : list (R -> R)) (phase : R) (i : nat) : R := nth i cs (fun _ => 0) 0 - nth i cs (fun _ => 0) phase.
(** The lines are in order and positive. *)
Definition lines_in_order (cs : list (R -> R)) : Prop :=
  (forall i, (i < length cs)%nat -> 0 < line cs i) /\ (forall i j, (i < j < length cs)%nat -> line cs i < line cs j).
(** Value at [v] of the straight line through (x0, y0) and (x1, y1). *)
Definition through (x0 y0 x1 y1 v : R) : R := ((x1 - v) * y0 + (v - x0) * y1) / (x1 - x0).

(** Lists saved one after the other under numbered names, without removing old ones: item [i] is that of the last list
    that has one. *)
Fixpoint overlay {A : Type} (hist : list (list A)) : list A :=
  match hist with
  | [] => []
  | h :: t => let later := overlay t in later ++ skipn (length later) h
  end.
