(** Model of 5-lag filtering: filter_data_5lag_cython, /repo/mass/core/analysis_algorithms.pyx:824-886,
    _filter_data_segment_5lag and the dispatch in filter_data, /repo/mass/core/channel.py:1299-1437.
    Samples and filters are exact rationals. *)
From Coq Require Import QArith Qcanon List.
From Verif Require Import QcPre.
Import ListNotations.
Local Open Scope Qc_scope.

Definition qz (n : Z) : Qc := Q2Qc (inject_Z n).
Definition q70 (n : Z) : Qc := qz n / qz 70.

(** analysis_algorithms.pyx:880-882; channel.py:1414-1417, 1433: the parabola through five lags. *)
Definition parabola (c0 c1 c2 c3 c4 : Qc) : Qc * Qc * Qc :=
  (c0 * q70 (-6) + c1 * q70 24 + c2 * q70 34 + c3 * q70 24 + c4 * q70 (-6),
   c0 * q70 (-14) + c1 * q70 (-7) + c3 * q70 7 + c4 * q70 14,
   c0 * q70 10 + c1 * q70 (-5) + c2 * q70 (-10) + c3 * q70 (-5) + c4 * q70 10).

(** analysis_algorithms.pyx:884-885 and channel.py:1434-1435. None: division by zero (an exception in
    Cython, infinities or NaN in numpy). *)
Definition vertex (p : Qc * Qc * Qc) : option (Qc * Qc) :=
  let '(p0, p1, p2) := p in
  if Qc_eq_dec p2 0 then None
  else Some (- (qz 1 / qz 2) * p1 / p2, p0 - (qz 1 / qz 4) * (p1 * p1) / p2).

Record lag_state := mkLag { c0 : Qc; c1 : Qc; c2 : Qc; c3 : Qc; c4 : Qc; f0 : Qc; f1 : Qc; f2 : Qc; f3 : Qc }.

(** analysis_algorithms.pyx:864-872: one turn of the sliding loop. *)
Definition lag_step (F P : nat -> Qc) (s : lag_state) (k : nat) : lag_state :=
  let f4 := F k in
  let sample := P k in
  mkLag (c0 s + sample * f4) (c1 s + sample * f3 s) (c2 s + sample * f2 s) (c3 s + sample * f1 s) (c4 s + sample * f0 s)
        (f1 s) (f2 s) (f3 s) f4.

(** analysis_algorithms.pyx:855-878: the five correlations of one record of n samples. *)
Definition lag_convs (F P : nat -> Qc) (n : nat) : Qc * Qc * Qc * Qc * Qc :=
  let start := mkLag (P 0%nat * F 0%nat + P 1%nat * F 1%nat + P 2%nat * F 2%nat + P 3%nat * F 3%nat)
                     (P 1%nat * F 0%nat + P 2%nat * F 1%nat + P 3%nat * F 2%nat)
                     (P 2%nat * F 0%nat + P 3%nat * F 1%nat)
                     (P 3%nat * F 0%nat) 0
                     (F 0%nat) (F 1%nat) (F 2%nat) (F 3%nat) in
  let s := fold_left (lag_step F P) (seq 4 (n - 8)) start in
  (c0 s,
   c1 s + P (n - 4)%nat * f3 s,
   c2 s + (P (n - 4)%nat * f2 s + P (n - 3)%nat * f3 s),
   c3 s + (P (n - 4)%nat * f1 s + P (n - 3)%nat * f2 s + P (n - 2)%nat * f3 s),
   c4 s + (P (n - 4)%nat * f0 s + P (n - 3)%nat * f1 s + P (n - 2)%nat * f2 s + P (n - 1)%nat * f3 s)).

(** One record: (phase, value). The outer None: the record or the filter is shorter than the entries read
    (bounds checks are off, so the result is undefined); the inner None: division by zero. *)
Definition lag_row (filter pulse : list Qc) : option (option (Qc * Qc)) :=
  let n := length pulse in
  if Nat.ltb n 8 || Nat.ltb (length filter) (n - 4) then None
  else let '(a, b, c, d, e) := lag_convs (fun i => nth i filter 0) (fun i => nth i pulse 0) n in
       Some (vertex (parabola a b c d e)).

(** np.dot of two vectors of the same length *)
Fixpoint dot (a b : list Qc) : Qc :=
  match a, b with x :: a', y :: b' => x * y + dot a' b' | _, _ => 0 end.
(** data[m : len-4+m] *)
Definition window (m : nat) (l : list Qc) : list Qc := firstn (length l - 4) (skipn m l).

(** channel.py:1408-1437 _filter_data_segment_5lag for one record; None is the AssertionError. [f] is the
    optional transform applied to the pretrigger-subtracted record. *)
Definition segment_row (filter : list Qc) (f : option (list Qc -> list Qc)) (ptmean : Qc) (pulse : list Qc)
  : option (option (Qc * Qc)) :=
  if negb (Nat.eqb (length filter + 4) (length pulse)) then None else
  let d := match f with None => pulse | Some g => g (map (fun x => x - ptmean) pulse) end in
  Some (vertex (parabola (dot (window 0 d) filter) (dot (window 1 d) filter) (dot (window 2 d) filter)
                         (dot (window 3 d) filter) (dot (window 4 d) filter))).

(** channel.py:1299-1326, 1340-1342: filter_data for a 5-lag filter. The Cython branch, which is the default,
    does not look at the transform. *)
Definition filter_data_row (use_cython : bool) (f : option (list Qc -> list Qc)) (filter : list Qc) (ptmean : Qc) (pulse : list Qc)
  : option (option (Qc * Qc)) :=
  if use_cython then lag_row filter pulse else segment_row filter f ptmean pulse.
