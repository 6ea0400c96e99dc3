(** What a least-squares fit of a kinked line is. *)
From Coq Require Import ZArith QArith Qcanon Bool List.
From Verif Require Import QcPre.
Import ListNotations.
Local Open Scope Qc_scope.

(** The line with a kink at (k, a) and slopes [b] and [c] is at height [h] at [x]. *)
Inductive on_kink (k a b c : Qc) (x : Qc) : Qc -> Prop :=
| on_left : x < k -> on_kink k a b c x (a + b * (x - k))
| on_right : k <= x -> on_kink k a b c x (a + c * (x - k)).

(** Sum of the squared differences between samples and a kinked line. *)
Inductive squares (k a b c : Qc) : list Qc -> list Qc -> Qc -> Prop :=
| squares_nil : squares k a b c [] [] 0
| squares_cons x y xs ys h s : on_kink k a b c x h -> squares k a b c xs ys s ->
    squares k a b c (x :: xs) (y :: ys) ((h - y) * (h - y) + s).

(** The samples determine a kinked line with its kink at [k]: there are samples on the left, a sample
    beyond [k] on the right, and two different positions on one side. *)
Definition determined (k : Qc) (x : list Qc) : Prop :=
  (exists u, In u x /\ u < k) /\ (exists v, In v x /\ k < v) /\
  ((exists u v, In u x /\ In v x /\ u < k /\ v < k /\ u <> v) \/ (exists u v, In u x /\ In v x /\ k <= u /\ k <= v /\ u <> v)).
