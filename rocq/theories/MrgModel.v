(** Model of _merge_orderedlists, /repo/mass/mathstat/entropy.pyx:138-190. Values are exact rationals (no NaN). *)
From Coq Require Import QArith Qcanon List.
From Verif Require Import QcPre.
Import ListNotations.
Local Open Scope Qc_scope.

(** _merge_orderedlists_arrays, lines 166-190: the loop, with the unread parts of both inputs as state. The code
    enters it with two non-empty inputs and leaves it when one is used up, copying the rest of the other. *)
Fixpoint merge_loop (fuel : nat) (x1 x2 : list Qc) : list (Qc * bool) :=
  match fuel, x1, x2 with
  | S f, a :: t1, b :: t2 =>
      if qltb a b then (a, true) :: match t1 with [] => map (fun v => (v, false)) x2 | _ => merge_loop f t1 x2 end
      else (b, false) :: match t2 with [] => map (fun v => (v, true)) x1 | _ => merge_loop f x1 t2 end
  | _, _, _ => []
  end.

(** _merge_orderedlists, lines 138-163: (x, wasfirst) as a list of pairs; None is ValueError. *)
Definition merge_orderedlists (x1 x2 : list Qc) : option (list (Qc * bool)) :=
  match x2, x1 with
  | [], [] => None
  | [], _ => Some (map (fun v => (v, true)) x1)
  | _, [] => Some (map (fun v => (v, true)) x2)
  | _, _ => Some (merge_loop (length x1 + length x2) x1 x2)
  end.
