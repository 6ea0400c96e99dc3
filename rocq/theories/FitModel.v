(** Model of the choice of fit ranges, mass/calibration/algorithms.py:23-34, 114-165.

    Energies are exact rationals.  A line is given by its name or its energy; [energy] stands for
    [STANDARD_FEATURES.get(x, x)].  The approximate calibration enters through its methods
    energy2ph and energy2dedph, which are arbitrary functions here.  [None] is an exception. *)
From Coq Require Import QArith Qcanon Bool List.
From Verif Require Import QcPre QSort LagModel NameModel.
Import ListNotations.
Local Open Scope Qc_scope.

(** algorithms.py:23-34, [line_names_and_energies]. *)
Definition names_and_energies {A : Type} (energy : A -> Qc) (lines : list A) : list A * list Qc :=
  let s := stable_sort (fun a b => qleb (energy a) (energy b)) lines in
  (s, map energy s).

(** [np.unique] of a sorted array. *)
Fixpoint unique (l : list Qc) : list Qc :=
  match l with
  | [] => []
  | x :: t => match t with
              | [] => [x]
              | y :: _ => if Qc_eq_bool x y then unique t else x :: unique t
              end
  end.

Fixpoint last_opt (l : list Qc) : option Qc :=
  match l with [] => None | x :: t => match last_opt t with Some y => Some y | None => Some x end end.

(** Python's max and min of two arguments. *)
Definition py_max (a b : Qc) : Qc := if qltb a b then b else a.
Definition py_min (a b : Qc) : Qc := if qltb b a then b else a.

(** algorithms.py:146-161: the range of one line, among the sorted energies [all_e]. *)
Definition fit_range (all_e : list Qc) (half_width e : Qc) : Qc * Qc :=
  let lo := match last_opt (filter (fun x => qltb x e) all_e) with
            | Some b => py_max (e - half_width) ((e + b) / qz 2)
            | None => e - half_width
            end in
  let hi := match filter (fun x => qltb e x) all_e with
            | a :: _ => py_min (e + half_width) ((e + a) / qz 2)
            | [] => e + half_width
            end in
  (lo, hi).

(** algorithms.py:128-165, [build_fit_ranges]: (energies, ranges, slopes). *)
Definition build_fit_ranges {A : Type} (energy : A -> Qc) (e2dedph : Qc -> Qc)
           (lines excluded : list A) (width : Qc) : option (list Qc * list (Qc * Qc) * list Qc) :=
  let e_e := snd (names_and_energies energy lines) in
  let x_e := snd (names_and_energies energy excluded) in
  let all_e := qsort (e_e ++ x_e) in
  if Nat.eqb (length all_e) (length (unique all_e))
  then Some (e_e, map (fit_range all_e (width / qz 2)) e_e, map e2dedph e_e)
  else None.

(** algorithms.py:114-125, [build_fit_ranges_ph]. *)
Definition build_fit_ranges_ph {A : Type} (energy : A -> Qc) (e2dedph e2ph : Qc -> Qc)
           (lines excluded : list A) (width : Qc) : option (list Qc * list (Qc * Qc) * list Qc) :=
  match build_fit_ranges energy e2dedph lines excluded width with
  | Some (e_e, ranges, slopes) => Some (e_e, map (fun r => (e2ph (fst r), e2ph (snd r))) ranges, slopes)
  | None => None
  end.
