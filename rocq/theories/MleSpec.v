(** Likelihood of counts. *)
From Coq Require Import Reals List Arith.
Import ListNotations.
Local Open Scope R_scope.

(** The Poisson probability of [n] counts where [y] are expected. *)
Definition poisson (y : R) (n : nat) : R := y ^ n * exp (- y) / INR (fact n).
Definition likelihood (ys : list R) (ns : list nat) : R := fold_right (fun p acc => poisson (fst p) (snd p) * acc) 1 (combine ys ns).
(** The expected numbers are not negative, and positive where there are counts. *)
Definition expects (ys : list R) (ns : list nat) : Prop := Forall2 (fun y n => 0 <= y /\ ((0 < n)%nat -> 0 < y)) ys ns.
Definition sum_squares (l : list R) : R := fold_right (fun r acc => r * r + acc) 0 l.
