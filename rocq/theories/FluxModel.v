(** Model of correct_flux_jumps, /repo/mass/core/analysis_algorithms.pyx:782-821, for a positive flux
    quantum. Values are exact rationals. *)
From Coq Require Import ZArith QArith Qround Qcanon List Bool.
From Verif Require Import QcPre LagModel.
Import ListNotations.
Local Open Scope Qc_scope.

(** numpy's [%] with a positive divisor *)
Definition qmod (v q : Qc) : Qc := v - q * qz (Qfloor (this (v / q))).

(** np.amax - np.amin; None is the ValueError on an empty array. *)
Definition spread (l : list Qc) : option Qc :=
  match l with
  | [] => None
  | x :: t => Some (fold_left (fun m y => if qltb m y then y else m) t x -
                    fold_left (fun m y => if qltb y m then y else m) t x)
  end.

(** corrected[g] for a boolean mask *)
Fixpoint pick (g : list bool) (l : list Qc) : list Qc :=
  match g, l with
  | b :: g', x :: l' => if b then x :: pick g' l' else pick g' l'
  | _, _ => []
  end.

(** lines 811-821. None: ValueError (no values, or no good values) or IndexError (mask of another length). *)
Definition correct_flux_jumps (vals : list Qc) (g : list bool) (q : Qc) : option (list Qc) :=
  match vals, spread vals with
  | v0 :: _, Some s =>
      if qleb q s then
        if negb (Nat.eqb (length g) (length vals)) then None else
        let corrected := map (fun v => qmod v q) vals in
        match spread (pick g corrected) with
        | None => None
        | Some sg =>
            let corrected :=
              if qltb (qz 3 / qz 4 * q) sg
              then map (fun v => qmod (v + q / qz 4) q - q / qz 4 + q) vals
              else corrected in
            match corrected with
            | [] => None
            | c0 :: _ => Some (map (fun c => c - (c0 - v0)) corrected)
            end
        end
      else Some vals
  | _, _ => None
  end.
