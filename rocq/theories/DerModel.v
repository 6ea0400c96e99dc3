(** Model of compute_max_deriv and python_compute_max_deriv,
    /repo/mass/core/analysis_algorithms.pyx:96-226. Samples and coefficients are exact rationals;
    the final conversion to float32 (line 226) is not modelled. *)
From Coq Require Import QArith Qcanon List.
From Verif Require Import QcPre.
Import ListNotations.
Local Open Scope Qc_scope.

Definition qd (n : Z) (d : positive) : Qc := Q2Qc (n # d).

(** The kernel argument (lines 110-122, 175-187). *)
Inductive kernel := DefaultKernel | SG | Custom (c : list Qc).
Definition filter_coef (k : kernel) : list Qc :=
  match k with
  | DefaultKernel => [qd 2 10; qd 1 10; 0; qd (-1) 10; qd (-2) 10]
  | SG => rev [qd (-45238) 100000; qd (-2381) 100000; qd 28571 100000; qd 30952 100000; qd (-11905) 100000]
  | Custom c => c
  end.

(** lines 195-197, 202-203, 211, 216-217: five products, oldest sample first; [j] is the newest. *)
Definition five (f0 f1 f2 f3 f4 : Qc) (p : list Qc) (j : nat) : Qc :=
  f4 * nth (j - 4) p 0 + f3 * nth (j - 3) p 0 + f2 * nth (j - 2) p 0 + f1 * nth (j - 1) p 0 + f0 * nth j p 0.

(** lines 201-208: one step of the loop with spike rejection; state (t0, t1, t2, t_max_deriv). *)
Definition spike_step (t : nat -> Qc) (s : Qc * Qc * Qc * Qc) (j : nat) : Qc * Qc * Qc * Qc :=
  let '(t0, t1, t2, m) := s in
  let t3 := t j in
  let t4 := if qltb t3 t1 then t3 else t1 in
  (t1, t2, t3, if qltb m t4 then t4 else m).

(** lines 192-210 for one record. None: the record is shorter than the samples read unconditionally
    (bounds checks are switched off, so the result is undefined). *)
Definition row_spike (f0 f1 f2 f3 f4 : Qc) (p : list Qc) : option Qc :=
  if Nat.ltb (length p) 7 then None else
  let t := five f0 f1 f2 f3 f4 p in
  let m0 := if qltb (t 6%nat) (t 4%nat) then t 6%nat else t 4%nat in
  let '(_, _, _, m) := fold_left (spike_step t) (seq 7 (length p - 7)) (t 4%nat, t 5%nat, t 6%nat, m0) in
  Some m.

(** lines 212-224 for one record. *)
Definition row_plain (f0 f1 f2 f3 f4 : Qc) (p : list Qc) : option Qc :=
  if Nat.ltb (length p) 5 then None else
  let t := five f0 f1 f2 f3 f4 p in
  Some (fold_left (fun m j => if qltb m (t j) then t j else m) (seq 5 (length p - 5)) (t 4%nat)).

(** lines 137-226. None at the top: ValueError when the kernel has not five entries (line 186). *)
Definition compute_max_deriv (data : list (list Qc)) (ignore_leading : nat) (spike : bool) (k : kernel)
  : option (list (option Qc)) :=
  match filter_coef k with
  | [f0; f1; f2; f3; f4] =>
      Some (map (fun row => (if spike then row_spike else row_plain) f0 f1 f2 f3 f4 (skipn ignore_leading row)) data)
  | _ => None
  end.

(** np.convolve(a, v, mode="valid") with len(v) <= len(a). *)
Definition convolve_long (a v : list Qc) : list Qc :=
  map (fun i => qsum (length v) (fun k => nth k v 0 * nth (i + (length v - 1) - k) a 0)) (seq 0 (length a - length v + 1)).
(** np.convolve swaps its arguments when the second is longer and raises on empty input. *)
Definition convolve_valid (a v : list Qc) : option (list Qc) :=
  match a, v with
  | [], _ | _, [] => None
  | _, _ => Some (if Nat.ltb (length a) (length v) then convolve_long v a else convolve_long a v)
  end.
Definition fmin (a b : Qc) : Qc := if qltb a b then a else b.
Fixpoint zipmin (a b : list Qc) : list Qc :=
  match a, b with x :: a', y :: b' => fmin x y :: zipmin a' b' | _, _ => [] end.
(** np.max; None is the ValueError on an empty array. *)
Definition npmax (l : list Qc) : option Qc :=
  match l with [] => None | x :: t => Some (fold_left (fun m y => if qltb m y then y else m) t x) end.

(** lines 128-132: one record of python_compute_max_deriv. *)
Definition python_row (v : list Qc) (spike : bool) (p : list Qc) : option Qc :=
  match convolve_valid p v with
  | None => None
  | Some c => npmax (if spike then zipmin (skipn 2 c) (firstn (length c - 2) c) else c)
  end.
Fixpoint all_some {A} (l : list (option A)) : option (list A) :=
  match l with
  | [] => Some []
  | Some x :: t => option_map (cons x) (all_some t)
  | None :: _ => None
  end.
Definition python_compute_max_deriv (data : list (list Qc)) (ignore_leading : nat) (spike : bool) (k : kernel)
  : option (list Qc) :=
  all_some (map (fun row => python_row (filter_coef k) spike (skipn ignore_leading row)) data).
