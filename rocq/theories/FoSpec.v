(** What the convolutions should give, as sums and in terms of the contents of oscillations. *)
From Coq Require Import Reals ZArith Bool List.
From Verif Require Import FtSpec.
Import ListNotations.
Local Open Scope R_scope.

Definition sum (x : list R) : R := rsum (length x) (fun j => nth j x 0).
(** the contents of an oscillation, moved by an angle and scaled: a cosine and b sine contents give
    u a + v b and u b - v a *)
Definition turned_by (x y : list R) (k : nat) (u v : R) : Prop :=
  cosines y k = u * cosines x k + v * sines x k /\ sines y k = u * sines x k - v * cosines x k.
(** the vector read backwards, its first sample in place *)
Definition mirrored (x : list R) : list R := map (fun j => nth ((length x - j) mod length x)%nat x 0) (seq 0 (length x)).
