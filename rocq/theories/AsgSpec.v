(** Peaks and assignments. *)
From Coq Require Import ZArith QArith Qcanon List Permutation Sorted.
From Verif Require Import QcPre LagModel QSort.
Import ListNotations.
Local Open Scope Qc_scope.

(** A strict maximum that is not at an end. *)
Definition local_maximum (y : list Qc) (i : nat) : Prop :=
  (1 <= i)%nat /\ (i + 1 < length y)%nat /\ nth (i - 1) y 0 < nth i y 0 /\ nth (i + 1) y 0 < nth i y 0.
(** np.argsort: the positions, in an order in which the values do not decrease. *)
Definition argsorts (argsort : list Qc -> list nat) : Prop :=
  forall l, Permutation (argsort l) (seq 0 (length l)) /\
    forall i j, (i <= j < length l)%nat -> nth (nth i (argsort l) 0%nat) l 0 <= nth (nth j (argsort l) 0%nat) l 0.

(** [k] different positions below [n], in order. *)
Definition choice (n k : nat) (is : list nat) : Prop := length is = k /\ StronglySorted lt is /\ (forall i, In i is -> (i < n)%nat).
(** The order of dictionaries. *)
Inductive earlier : list nat -> list nat -> Prop :=
  | earlier_here i j s t : (i < j)%nat -> earlier (i :: s) (j :: t)
  | earlier_later i s t : earlier s t -> earlier (i :: s) (i :: t).
(** The chosen peaks in increasing order. *)
Definition arranged (peaks : list Qc) (is : list nat) (a : list Qc) : Prop :=
  Permutation (map (fun i => nth i peaks 0) is) a /\ qsorted a.

(** Where the second of three values is between the first and the third. *)
Definition fraction (x y z : Qc) : Qc := (y - x) / (z - x).
(** Sum of the squared differences of these fractions, over all three neighbours. *)
Fixpoint misfit (e a : list Qc) : Qc :=
  match e, a with
  | e0 :: ((e1 :: e2 :: _) as e'), a0 :: ((a1 :: a2 :: _) as a') =>
      (fraction e0 e1 e2 - fraction a0 a1 a2) * (fraction e0 e1 e2 - fraction a0 a1 a2) + misfit e' a'
  | _, _ => 0
  end.
(** No three neighbours begin and end with the same value. *)
Fixpoint spread (l : list Qc) : Prop :=
  match l with
  | x :: ((y :: z :: _) as t) => x <> z /\ spread t
  | _ => True
  end.
(** No value occurs three times. *)
Definition never_thrice (l : list Qc) : Prop := forall v, (qcount (fun x => if Qc_eq_dec x v then true else false) l <= 2)%nat.
(** Good enough: the root of the sum is at most maxacc times the root of the number of lines. *)
Definition good (maxacc : Qc) (e a : list Qc) : Prop := misfit e a <= maxacc * maxacc * qz (Z.of_nat (length e)) /\ (0 <= maxacc \/ e = []).
(** All lines on one straight line with the peaks. *)
Definition straight (e a : list Qc) : Prop := exists s c, 0 <= s /\ a = map (fun x => s * x + c) e.
(** The best choice among the first [n] peaks; the earliest of equally good ones. *)
Definition best (e peaks : list Qc) (n : nat) (a : list Qc) : Prop :=
  exists is, choice (Nat.min n (length peaks)) (length e) is /\ arranged peaks is a /\
    forall js b, choice (Nat.min n (length peaks)) (length e) js -> arranged peaks js b -> misfit e a <= misfit e b /\ (earlier js is -> misfit e a < misfit e b).
(** Some choice among the first [n] peaks is good enough. *)
Definition any_good (maxacc : Qc) (e peaks : list Qc) (n : nat) : Prop :=
  exists is a, choice (Nat.min n (length peaks)) (length e) is /\ arranged peaks is a /\ good maxacc e a.
(** The numbers of peaks that are tried. *)
Definition tries (n0 nincrement nmax n : nat) : Prop := n = n0 \/ exists j, n = (n0 + j * nincrement)%nat /\ (n <= nmax)%nat.

(** Bin [i] of [n] equal bins from [lo] to [hi]. *)
Definition in_bin (lo hi : Qc) (n i : nat) (v : Qc) : Prop :=
  lo + (hi - lo) * qz (Z.of_nat i) / qz (Z.of_nat n) <= v /\ v < lo + (hi - lo) * qz (Z.of_nat (i + 1)) / qz (Z.of_nat n).
(** The number of values that satisfy a condition, as a relation. *)
Inductive counted (P : Qc -> Prop) : list Qc -> nat -> Prop :=
  | counted_nil : counted P [] 0
  | counted_yes v l k : P v -> counted P l k -> counted P (v :: l) (S k)
  | counted_no v l k : ~ P v -> counted P l k -> counted P (v :: l) k.
(** The smallest and the largest value. *)
Definition smallest (l : list Qc) (m : Qc) : Prop := In m l /\ forall v, In v l -> m <= v.
Definition largest (l : list Qc) (m : Qc) : Prop := In m l /\ forall v, In v l -> v <= m.
