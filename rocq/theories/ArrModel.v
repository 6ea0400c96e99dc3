(** Model of nearest_arrivals and python_nearest_arrivals,
    /repo/mass/core/analysis_algorithms.pyx:636-759.
    Simplification: times are unbounded integers (the code uses int64; differences are assumed
    not to wrap). [max_value] is the int64 maximum. *)
From Coq Require Import ZArith List Bool.
Import ListNotations.
Local Open Scope Z_scope.

Definition max_value : Z := 2 ^ 63 - 1.

(** analysis_algorithms.pyx:709-719: pulses before the first trigger. Returns the rows written
    (delay_from_last, delay_until_next) and the pulses left. *)
Fixpoint before_first (a : Z) (ps : list Z) : list (Z * Z) * list Z :=
  match ps with
  | [] => ([], [])
  | pt :: rest =>
      if pt <? a then let '(e, rst) := before_first a rest in ((max_value, a - pt) :: e, rst)
      else ([], ps)
  end.

(** analysis_algorithms.pyx:723-730: the branch [pt < b] of the main loop, repeated. *)
Fixpoint between (a b : Z) (ps : list Z) : list (Z * Z) * list Z :=
  match ps with
  | [] => ([], [])
  | pt :: rest =>
      if pt <? b then let '(e, rst) := between a b rest in ((pt - a, b - pt) :: e, rst)
      else ([], ps)
  end.

(** analysis_algorithms.pyx:723-741: main loop and the pulses after the last trigger.
    [ts] are the triggers from index j+1 on. *)
Fixpoint scan (a b : Z) (ts : list Z) (ps : list Z) : list (Z * Z) :=
  let '(e, rst) := between a b ps in
  match rst with
  | [] => e
  | _ => match ts with
         | [] => e ++ map (fun pt => (pt - b, max_value)) rst
         | t :: ts' => e ++ scan b t ts' rst
         end
  end.

(** The result: a pair of arrays (as a list of rows), or one empty array (line 696). *)
Inductive arrivals := SingleEmptyArray | Pair (rows : list (Z * Z)).

(** analysis_algorithms.pyx:662-759. In the single-trigger branch the value a - pt is assigned to
    a misspelled local variable (line 752), so the array keeps its initial 0. *)
Definition nearest_arrivals (ps ts : list Z) : arrivals :=
  match ps with
  | [] => SingleEmptyArray
  | _ =>
      match ts with
      | a :: b :: ts' =>
          let '(e, rst) := before_first a ps in
          match rst with
          | [] => Pair e
          | _ => Pair (e ++ scan a b ts' rst)
          end
      | [a] => Pair (map (fun pt => if a <? pt then (pt - a, max_value) else (max_value, 0)) ps)
      | [] => Pair (map (fun _ => (max_value, max_value)) ps)
      end
  end.

(** np.searchsorted(ts, x) (side="left") on a sorted array: how many elements are below x. *)
Definition searchsorted (ts : list Z) (x : Z) : nat := length (filter (fun t => t <? x) ts).

(** analysis_algorithms.pyx:637-656 python_nearest_arrivals; None stands for np.Inf.
    The outer result is None for an IndexError (no trigger at all). *)
Definition python_row (ts : list Z) (pt : Z) : option (option Z * option Z) :=
  let after := searchsorted ts pt in
  let before := if Nat.ltb after 1 then Some None
                else option_map (fun t => Some (pt - t)) (nth_error ts (after - 1)) in
  let aft := if Nat.leb (length ts) after then Some None
             else option_map (fun t => Some (t - pt)) (nth_error ts after) in
  match before, aft with Some b, Some a => Some (b, a) | _, _ => None end.
Definition python_nearest_arrivals (ps ts : list Z) : option (list (option Z * option Z)) :=
  match ps, ts with
  | _ :: _, [] => None
  | _, _ => fold_right (fun pt acc => match python_row ts pt, acc with
                                      | Some r, Some l => Some (r :: l)
                                      | _, _ => None end) (Some []) ps
  end.
