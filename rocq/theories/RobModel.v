(** Model of the robust statistics in /repo/mass/mathstat/robust.pyx. Data are exact rationals
    (floating-point rounding is not modelled). *)
From Coq Require Import ZArith QArith Qcanon List Bool.
From Verif Require Import QcPre LagModel QSort.
Import ListNotations.
Local Open Scope Qc_scope.

(** numpy's argmin: index of the first smallest element; None (ValueError) on an empty array. *)
Fixpoint argmin_from (i best : nat) (b : Qc) (l : list Qc) : nat :=
  match l with
  | [] => best
  | a :: t => if qltb a b then argmin_from (S i) i a t else argmin_from (S i) best b t
  end.
Definition argmin (l : list Qc) : option nat :=
  match l with [] => None | a :: t => Some (argmin_from 1 0 a t) end.

Definition qtotal (l : list Qc) : Qc := fold_right Qcplus 0 l.
Definition qmean (l : list Qc) : Qc := qtotal l / qz (Z.of_nat (length l)).

(** Result of a call: the returned value, None for an exception, and the caller's data afterwards. *)
Record shorth_result := mkShorth { sh_range : Qc; sh_mean : Qc; sh_center : Qc }.

(** lines 190-212, the small-sample corrections; None is ZeroDivisionError (one data value). *)
Definition shorth_normalize (n : nat) (r : Qc) : option Qc :=
  let r := r / (qz 2 * (qz 67448 / qz 100000)) in
  let m := Z.of_nat n in
  if Nat.even n then Some (r * (qz (m + 1) / qz m))
  else if Nat.eqb n 1 then None else Some (r * (qz (m + 1) / qz (m - 1))).

(** shorth_range, lines 147-213. [is_array]: the data are a numpy array. The location estimators, which the
    code computes only on request, are always in the result. *)
Definition shorth_range (x : list Qc) (is_array normalize sort_inplace : bool) : option shorth_result * list Qc :=
  let n := length x in
  let nhalves := Nat.div (n + 1) 2 in
  let nobs := (1 + Nat.div n 2)%nat in
  if sort_inplace && negb is_array then (None, x) else
  let s := qsort x in
  let after := if sort_inplace then s else x in
  let each := map (fun p => fst p - snd p) (combine (skipn (n - nhalves) s) (firstn nhalves s)) in
  match argmin each with
  | None => (None, after)
  | Some ia =>
      let a := nth ia s 0 in
      let b := nth (ia + nobs - 1) s 0 in
      let mk r := mkShorth r (qmean (firstn nobs (skipn ia s))) (qz 1 / qz 2 * (a + b)) in
      if normalize then (match shorth_normalize n (b - a) with Some r => Some (mk r) | None => None end, after)
      else (Some (mk (b - a)), after)
  end.

(** sum of weights[sort_idx[i]] for i in range(a, b) (lines 354-357); [w i] is weights[sort_idx[i]]. *)
Definition wsum (w : nat -> Qc) (a b : nat) : Qc := fold_left (fun s i => s + w i) (seq a (b - a)) 0.

(** the while loop of _high_median, lines 351-369. [fuel] bounds the number of rounds; the theorems show that
    it is never used up. *)
Fixpoint hm_loop (fuel : nat) (w : nat -> Qc) (half lw rw : Qc) (imin imax it : nat) : option nat :=
  match fuel with
  | O => None
  | S f =>
      if Nat.leb (imax - imin) 1 then Some it
      else
        let tl := wsum w imin it in
        let tr := wsum w (it + 1) imax in
        if qltb half (lw + tl) then hm_loop f w half lw (rw + tr) imin it (Nat.div (imin + it) 2)
        else if qleb half (rw + tr) then hm_loop f w half (lw + tl) rw it imax (Nat.div (it + imax) 2)
        else Some it
  end.

(** _high_median, lines 322-371: position in the sorted order. *)
Definition hm_position (sort_idx : list nat) (weights : list Qc) : option nat :=
  let n := length sort_idx in
  let half := qz 1 / qz 2 * qtotal weights in
  hm_loop (S n) (fun i => nth (nth i sort_idx 0%nat) weights 0) half 0 0 0 n (Nat.div n 2).
(** the returned data index; None also when there are no data (read out of bounds). *)
Definition high_median_index (sort_idx : list nat) (weights : list Qc) : option nat :=
  match hm_position sort_idx weights with Some i => nth_error sort_idx i | None => None end.

(** high_median, lines 223-248. [argsort] is numpy's argsort, whose order among equal values is not fixed. *)
Definition high_median (argsort : list Qc -> list nat) (x : list Qc) (weights : option (list Qc)) : option (Qc * nat) :=
  let w := match weights with Some w => w | None => repeat 1 (length x) end in
  match high_median_index (argsort x) w with
  | Some ri => Some (nth ri x 0, ri)
  | None => None
  end.

(** element of an array by a possibly negative index (wrapping is not switched off, line 407 only drops the
    bounds check). *)
Definition zn (x : list Qc) (i : Z) : Qc :=
  if Z.ltb i 0 then nth (Z.to_nat (Z.of_nat (length x) + i)) x 0 else nth (Z.to_nat i) x 0.

(** C unsigned int arithmetic. *)
Definition u32 (z : Z) : Z := (z mod 4294967296)%Z.

(** _choose_trial_val, lines 374-402; [rows] are (left[i], right[i]) with their index. The result is
    (trial_val, chosen_row, chosen_col). The single-precision rounding of trial_val (line 382) is not modelled. *)
Definition center_index (n : Z) (l r : Z) : Z :=
  let c := ((l + r) / 2)%Z in if Z.leb n c then (n - 1)%Z else c.
Definition choose_trial (argsort : list Qc -> list nat) (x : list Qc) (rows : list (Z * Z)) : option (Qc * nat * Z) :=
  let n := Z.of_nat (length x) in
  let weights := map (fun lr => if Z.ltb (snd lr) (fst lr) then 0 else qz (snd lr + 1 - fst lr)) rows in
  let med := map (fun p => zn x (center_index n (fst (snd p)) (snd (snd p))) - nth (fst p) x 0)
                 (combine (seq 0 (length rows)) rows) in
  match high_median_index (argsort med) weights with
  | None => None
  | Some row =>
      let lr := nth row rows (0, 0)%Z in
      let col := center_index n (fst lr) (snd lr) in
      (* line 435: a negative column cannot be stored in an unsigned int: OverflowError *)
      if Z.ltb col 0 then None else Some (nth row med 0, row, col)
  end.

(** lines 462-471: bisection for the last column below the trial value. *)
Fixpoint bisect (fuel : nat) (x : list Qc) (tv : Qc) (ia ib : Z) : Z :=
  match fuel with
  | O => ia
  | S f =>
      if Z.leb (ib - ia) 1 then ia else
      let m := ((ib + ia) / 2)%Z in
      if qltb (zn x m) tv then bisect f x tv m ib
      else if qltb tv (zn x m) then bisect f x tv ia m
      else (m - 1)%Z
  end.

(** lines 446-472: trial_column[i]. *)
Definition trial_column (x : list Qc) (t : Qc) (trow : nat) (tcol : Z) (p : nat * (Z * Z)) : Z :=
  let '(i, (l, r)) := p in
  let tv := t + nth i x 0 in
  if Nat.eqb i trow then (tcol - 1)%Z
  else if Z.ltb r l || qleb tv (zn x l) then (l - 1)%Z
  else if qleb (zn x r) tv then r
  else bisect (length x) x tv l r.

Definition ztotal (l : list Z) : Z := fold_right Z.add 0%Z l.

(** lines 432-490: the search; None is an exception. [passes] rounds remain out of n+10. *)
Fixpoint qscale_loop (argsort : list Qc -> list nat) (x : list Qc) (k : Z) (passes : nat) (counter : nat)
  (rows : list (Z * Z)) : option (Qc * nat) :=
  match passes with
  | O => Some (0, (counter - 1)%nat) (* line 490: the last trial value; the caller then raises because of the count *)
  | S m =>
      match choose_trial argsort x rows with
      | None => None
      | Some (t, trow, tcol) =>
          let n := Z.of_nat (length x) in
          let irows := combine (seq 0 (length rows)) rows in
          let tc := map (trial_column x t trow tcol) irows in
          let below := (ztotal tc - u32 (u32 (n - 2) * u32 (n - 1)) / 2)%Z in
          if Z.eqb below k then Some (t, counter)
          else if Z.ltb k below then
            qscale_loop argsort x k m (S counter)
              (map (fun p => (fst (snd p), if Z.leb n (fst p) then (n - 1)%Z else fst p)) (combine tc rows))
          else
            qscale_loop argsort x k m (S counter)
              (map (fun p => ((fst p + 1 + (if Nat.eqb (fst (snd p)) trow then 1 else 0))%Z, snd (snd (snd p))))
                   (combine tc irows))
      end
  end.

(** lines 287-301. *)
Definition target_k (n : nat) : nat := let h := (n / 2 + 1)%nat in (h * (h - 1) / 2 - 1)%nat.
(** line 312: np.hstack([x[j] - x[:j] for j in range(1, n)]). *)
Definition all_distances (x : list Qc) : list Qc :=
  flat_map (fun j => map (fun a => nth j x 0 - a) (firstn j x)) (seq 1 (length x - 1)).

(** Qscale, lines 251-321, without the final constant factor that depends only on n. None is an exception:
    fewer than two data, too many rounds (line 318), or the overflow of line 435. *)
Definition qscale_statistic (argsort : list Qc -> list nat) (x0 : list Qc) : option Qc :=
  let n := length x0 in
  let x := qsort x0 in
  if Nat.ltb n 2 then None
  else if Nat.leb n 5 then Some (nth (target_k n) (qsort (all_distances x)) 0)
  else
    match qscale_loop argsort x (Z.of_nat (target_k n)) (n + 10) 0 (repeat (0, Z.of_nat n - 1)%Z (n - 1)) with
    | Some (q, passes) => if Nat.ltb n passes then None else Some q
    | None => None
    end.

(** An argsort for computing examples: stable insertion. *)
Fixpoint arg_insert (key : nat -> Qc) (a : nat) (l : list nat) : list nat :=
  match l with [] => [a] | b :: t => if qleb (key a) (key b) then a :: l else b :: arg_insert key a t end.
Definition argsort_ins (x : list Qc) : list nat :=
  fold_right (arg_insert (fun i => nth i x 0)) [] (seq 0 (length x)).
