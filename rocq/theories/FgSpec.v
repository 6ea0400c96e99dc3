(** What fake data should be. *)
From Coq Require Import QArith ZArith Reals List.
Import ListNotations.

(** [c] shares [n] pulses among weights: all pulses, none negative, each share within a pulse of its part, except for one largest share, which
    takes what the others leave. *)
Definition shared (n : Z) (ws : list Q) (c : list Z) : Prop :=
  length c = length ws /\ fold_right Z.add 0%Z c = n /\ (forall z, In z c -> 0 <= z)%Z /\
  exists i, forall j w, nth_error ws j = Some w -> exists z, nth_error c j = Some z /\
    let part := (inject_Z n * w / fold_right Qplus 0 ws)%Q in
    (part - 1 < inject_Z z)%Q /\
    (if Nat.eqb i j then (inject_Z z < part + inject_Z (Z.of_nat (length ws)))%Q /\ (forall y, In y c -> y <= z)%Z else (inject_Z z <= part)%Q).
Definition total (l : list R) : R := fold_right Rplus 0%R l.
