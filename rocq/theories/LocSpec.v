(** What robust averages are for. *)
From Coq Require Import ZArith QArith Qcanon List.
From Verif Require Import QcPre LagModel QSort.
Import ListNotations.
Local Open Scope Qc_scope.

Definition magnitude (q : Qc) : Qc := if qleb 0 q then q else - q.
Definition sum_of (f : Qc -> Qc) (l : list Qc) : Qc := fold_right (fun v s => f v + s) 0 l.

(** How many data are below, and above, a value. *)
Definition below (v : Qc) (l : list Qc) : nat := qcount (fun x => qltb x v) l.
Definition above (v : Qc) (l : list Qc) : nat := qcount (fun x => qltb v x) l.
Definition equal_to (v : Qc) (l : list Qc) : nat := qcount (fun x => if Qc_eq_dec x v then true else false) l.

(** The value a fraction p/q of the way through the ordered data, interpolated between neighbours. *)
Definition quantile (p q : nat) (l : list Qc) (v : Qc) : Prop :=
  exists k r a b, ((length l - 1) * p = k * q + r)%nat /\ (r < q)%nat /\ order_statistic k l a /\
    ((r = 0)%nat /\ v = a \/ order_statistic (k + 1) l b /\ v = a + qz (Z.of_nat r) / qz (Z.of_nat q) * (b - a)).

(** [m] is the mean of the data with the given weights. *)
Definition weighted_mean_is (w : Qc -> Qc) (l : list Qc) (m : Qc) : Prop :=
  sum_of w l <> 0 /\ m * sum_of w l = sum_of (fun v => w v * v) l.

(** Weights and losses as functions of the deviation. *)
Definition bisquare_w (k t : Qc) : Qc := if qltb k (magnitude t) then 0 else (1 - (t / k) * (t / k)) * (1 - (t / k) * (t / k)).
Definition bisquare_loss (k t : Qc) : Qc :=
  if qltb k (magnitude t) then 1
  else 1 - (1 - (t / k) * (t / k)) * (1 - (t / k) * (t / k)) * (1 - (t / k) * (t / k)).
Definition huber_w (k t : Qc) : Qc := if qltb k (magnitude t) then k / magnitude t else 1.
Definition huber_loss (k t : Qc) : Qc :=
  if qltb k (magnitude t) then k * magnitude t - k * k / qz 2 else t * t / qz 2.
(** The deviation limited to k. *)
Definition limited (k t : Qc) : Qc := if qltb k t then k else if qltb t (- k) then - k else t.
(** Weighted means with weights depending on the distance from the previous one, from [c] until the change is below
    [tol], within 100 rounds. *)
Definition reweighted (w : Qc -> Qc) (x : list Qc) (c tol : Qc) (m : Qc) : Prop :=
  exists (i : nat) (s : nat -> Qc), (i < 100)%nat /\ s 0%nat = c /\
    (forall j, (j <= i)%nat -> weighted_mean_is (fun v => w (v - s j)) x (s (S j))) /\
    (forall j, (j < i)%nat -> tol <= magnitude (s (S j) - s j)) /\ magnitude (s (S i) - s i) < tol /\ m = s (S i).

(** Half of the data are within this distance of the median. *)
Definition median_deviation (x : list Qc) (d : Qc) : Prop :=
  exists m, quantile 1 2 x m /\ quantile 1 2 (map (fun v => magnitude (v - m)) x) d.
(** The optional arguments of the weighted means: a centre, or the median; a tolerance, or 1e-5 of the median absolute
    deviation divided by 0.67448. *)
Definition starts_at (x : list Qc) (center : option Qc) (c : Qc) : Prop := center = Some c \/ center = None /\ quantile 1 2 x c.
Definition stops_at (x : list Qc) (tol : option Qc) (t : Qc) : Prop := tol = Some t \/ tol = None /\ exists d, median_deviation x d /\ t * qz 67448 = d.
