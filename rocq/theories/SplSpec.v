(** What a cubic spline is. *)
From Coq Require Import Reals ZArith Bool Permutation Sorted List.
Import ListNotations.
Local Open Scope R_scope.

(** The points in order of x. *)
Definition in_order (xs ys : list R) (l : list (R * R)) : Prop :=
  Permutation (combine xs ys) l /\ StronglySorted (fun p q => fst p < fst q) l.

(** A cubic spline through the points [l] as polynomials a + b t + c t^2 + d t^3 of the distance t from the
    left end of each interval: the values are those at the knots, first and second derivatives agree, and
    at the ends the slope is the one given or the second derivative is 0. *)
Definition px (l : list (R * R)) (i : nat) : R := fst (nth i l (0, 0)).
Definition py (l : list (R * R)) (i : nat) : R := snd (nth i l (0, 0)).
Record is_spline (l : list (R * R)) (yp1 ypN : option R) (a b c d : nat -> R) : Prop := {
  sp_left : forall i, (S i < length l)%nat -> a i = py l i;
  sp_right : forall i, (S i < length l)%nat -> let h := px l (S i) - px l i in a i + b i * h + c i * h ^ 2 + d i * h ^ 3 = py l (S i);
  sp_first : forall i, (S (S i) < length l)%nat -> let h := px l (S i) - px l i in b i + 2 * c i * h + 3 * d i * h ^ 2 = b (S i);
  sp_second : forall i, (S (S i) < length l)%nat -> let h := px l (S i) - px l i in 2 * c i + 6 * d i * h = 2 * c (S i);
  sp_start : match yp1 with Some v => b O = v | None => c O = 0 end;
  sp_end : let i := (length l - 2)%nat in let h := px l (S i) - px l i in
           match ypN with Some v => b i + 2 * c i * h + 3 * d i * h ^ 2 = v | None => 2 * c i + 6 * d i * h = 0 end }.

(** [f] on interval [i] is the polynomial. *)
Definition on_interval (l : list (R * R)) (f : R -> R) (a b c d : nat -> R) : Prop :=
  forall i v, (S i < length l)%nat -> px l i <= v <= px l (S i) ->
  f v = a i + b i * (v - px l i) + c i * (v - px l i) ^ 2 + d i * (v - px l i) ^ 3.
