(** Finding peaks and assigning them to lines: find_local_maxima and find_opt_assignment,
    mass/calibration/algorithms.py:37-111.  Exact rationals; not-a-number is [None]. *)
From Coq Require Import ZArith QArith Qcanon List Bool.
From Verif Require Import QcPre LagModel DerModel QSort NameModel FitModel.
Import ListNotations.
Local Open Scope Qc_scope.

(* ---------- find_local_maxima, 37-64 ---------- *)

Definition qmin_list (l : list Qc) : Qc := match l with [] => 0 | a :: t => fold_left (fun m v => if qltb v m then v else m) t a end.
Definition qmax_list (l : list Qc) : Qc := match l with [] => 0 | a :: t => fold_left (fun m v => if qltb m v then v else m) t a end.
(** np.linspace(lo, hi, n + 1)[i] *)
Definition edge (lo hi : Qc) (n i : nat) : Qc := lo + (hi - lo) * qz (Z.of_nat i) / qz (Z.of_nat n).
(** np.histogram with increasing edges; the last bin includes its upper edge. *)
Definition bin_count (p : list Qc) (lo hi : Qc) (n i : nat) : nat :=
  length (filter (fun v => qleb (edge lo hi n i) v && (qltb v (edge lo hi n (i + 1)) || (Nat.eqb (i + 1) n && qleb v (edge lo hi n (i + 1)))))%bool p).
Definition center (lo hi : Qc) (n i : nat) : Qc := (edge lo hi n (i + 1) + edge lo hi n i) / qz 2.
(** 60-61 *)
Definition is_peak (y : list Qc) (i : nat) : bool := (qltb (nth (i - 1) y 0) (nth i y 0) && qltb (nth (i + 1) y 0) (nth i y 0))%bool.
(** [n] is 131072 in the code.  [smooth] is the filtering by Fourier transforms, lines 57-59: it depends on the histogram and
    on the ratio of the width to the range.  [argsort] is np.argsort. *)
Definition find_local_maxima (n : nat) (smooth : list nat -> Qc -> list Qc) (argsort : list Qc -> list nat) (p : list Qc) (fwhm : Qc) : option (list Qc * list Qc) :=
  match p with
  | [] => None
  | _ =>
      let lo := qmin_list p - qz 3 * fwhm in
      let hi := qmax_list p + qz 3 * fwhm in
      let y := smooth (map (bin_count p lo hi n) (seq 0 n)) (fwhm / (hi - lo)) in
      let lm := filter (is_peak y) (seq 1 (n - 2)) in
      let lm := map (fun j => nth j lm 0%nat) (argsort (map (fun i => - nth i y 0) lm)) in
      Some (map (center lo hi n) lm, map (fun i => nth i y 0) lm)
  end.

(* ---------- find_opt_assignment, 67-111 ---------- *)

(** itertools.combinations *)
Fixpoint combos {A : Type} (k : nat) (l : list A) : list (list A) :=
  match k, l with
  | O, _ => [[]]
  | S _, [] => []
  | S k', x :: t => map (cons x) (combos k' t) ++ combos k t
  end.
(** [:-2], [1:-1] and [2:] side by side *)
Fixpoint windows {A : Type} (l : list A) : list (A * A * A) :=
  match l with
  | x :: ((y :: z :: _) as t) => (x, y, z) :: windows t
  | _ => []
  end.
(** 93-96: one term of the norm, squared. *)
Definition deviation (e a : Qc * Qc * Qc) : option Qc :=
  let '(e0, e1, e2) := e in
  let '(a0, a1, a2) := a in
  if Qc_eq_dec (e2 - e0) 0 then None
  else if Qc_eq_dec (a2 - a0) 0 then None
  else
    let f := (e1 - e0) / (e2 - e0) in
    let d := (a0 * (1 - f) + a2 * f - a1) / (a2 - a0) in
    Some (d * d).
Definition add_nan (x y : option Qc) : option Qc := match x, y with Some a, Some b => Some (a + b) | _, _ => None end.
(** acc_est, squared *)
Definition accuracy (e a : list Qc) : option Qc :=
  fold_right (fun p s => add_nan (deviation (fst p) (snd p)) s) (Some 0) (combine (windows e) (windows a)).
(** np.argmin takes the first not-a-number, if there is one. *)
Definition less_nan (x y : option Qc) : bool :=
  match x, y with
  | None, None => false
  | None, Some _ => true
  | Some _, None => false
  | Some a, Some b => qltb a b
  end.
Fixpoint pick {A : Type} (key : A -> option Qc) (cur : A) (l : list A) : A :=
  match l with [] => cur | x :: t => pick key (if less_nan (key x) (key cur) then x else cur) t end.
(** 90-100: the best choice among the first [n] peaks; without any, sort(axis=1) raises. *)
Definition attempt (e peaks : list Qc) (n : nat) : option (list Qc) :=
  match map qsort (combos (length e) (firstn n peaks)) with
  | [] => None
  | a :: t => Some (pick (accuracy e) a t)
  end.
(** 102: acc > maxacc * sqrt(n), in squares. *)
Definition too_bad (maxacc : Qc) (n : nat) (acc : option Qc) : bool :=
  match acc with
  | None => false
  | Some s => ((qltb maxacc 0 && negb (Nat.eqb n 0)) || qltb (maxacc * maxacc * qz (Z.of_nat n)) s)%bool
  end.
Inductive outcome := Found (a : list Qc) | Raises | Unfinished.
(** 89-111: the loop, cut off after [fuel] rounds. *)
Fixpoint search (e peaks : list Qc) (maxacc : Qc) (nincrement nmax fuel n : nat) : outcome :=
  match fuel with
  | O => Unfinished
  | S f =>
      match attempt e peaks n with
      | None => Raises
      | Some a =>
          if too_bad maxacc (length e) (accuracy e a)
          then if Nat.ltb nmax (n + nincrement) then Raises else search e peaks maxacc nincrement nmax f (n + nincrement)
          else Found a
      end
  end.
(** Defaults: nextra = 2, nincrement = 3, nextramax = 8, maxacc = 0.015; natural numbers here. *)
Definition find_opt_assignment {A : Type} (energy : A -> Qc) (peaks : list Qc) (lines : list A) (nextra nincrement nextramax : nat) (maxacc : Qc) (fuel : nat) : list A * list Qc * outcome :=
  let '(names, e) := names_and_energies energy lines in
  (names, e, search e peaks maxacc nincrement (length lines + nextramax) fuel (length lines + nextra)).
