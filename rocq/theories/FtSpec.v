(** What filtering in frequency should do, without complex numbers and transforms: how much of each oscillation a
    vector contains, and how much of it is to be kept. *)
From Coq Require Import Reals ZArith Bool List.
Import ListNotations.
Local Open Scope R_scope.

Fixpoint rsum (n : nat) (f : nat -> R) : R := match n with O => 0 | S m => rsum m f + f m end.
(** the oscillation that turns k times over n samples *)
Definition turn (n k j : nat) : R := 2 * PI * INR j * INR k / INR n.
(** how much of it a vector contains *)
Definition cosines (x : list R) (k : nat) : R := rsum (length x) (fun j => nth j x 0 * cos (turn (length x) k j)).
Definition sines (x : list R) (k : nat) : R := rsum (length x) (fun j => nth j x 0 * sin (turn (length x) k j)).
Definition tone (n k : nat) (a b : R) : list R := map (fun j => a * cos (turn n k j) + b * sin (turn n k j)) (seq 0 n).
Definition energy (x : list R) : R := rsum (length x) (fun j => nth j x 0 ^ 2).
Definition combined (a : R) (x : list R) (b : R) (y : list R) : list R := map (fun j => a * nth j x 0 + b * nth j y 0) (seq 0 (length x)).
(** the vector moved on by s samples, its end coming round to its start *)
Definition moved (s : nat) (x : list R) : list R := map (fun j => nth ((j + (length x - s mod length x)) mod length x)%nat x 0) (seq 0 (length x)).
(** The part g that is kept of an oscillation of frequency f: nothing above the largest frequency, and less and less
    beyond the frequency of a one-pole filter. *)
Definition kept (fmax f_3db : option R) (f g : R) : Prop :=
  (exists m, fmax = Some m /\ m < f /\ g = 0) \/
  ((forall m, fmax = Some m -> f <= m) /\ match f_3db with Some c => g * (c ^ 2 + f ^ 2) = c ^ 2 | None => g = 1 end).
(** the same oscillations, each scaled by its own factor *)
Definition scaled_by (n : nat) (P : nat -> R -> Prop) (x y : list R) : Prop :=
  length x = n /\ length y = n /\
  forall k, (2 * k <= n)%nat -> exists g, P k g /\ cosines y k = g * cosines x k /\ sines y k = g * sines x k.
