(* What the group's tools should do, said without the code. *)
From Coq Require Import ZArith Bool QArith QArith.Qcanon List.
From Verif Require Import LjhSpec.
Import ListNotations.
Open Scope Z_scope.

(* between two limits, given in either order *)
Definition within (a b x : Qc) : Prop := ((a <= x <= b) \/ (b <= x <= a))%Qc.

(* how many whole records of r bytes there are in n bytes *)
Definition holds (r n k : Z) : Prop := k * r <= n < (k + 1) * r.

(* the good pulses lie from i to j *)
Definition good_from_to (g : list bool) (i j : nat) : Prop :=
  nth_error g i = Some true /\ nth_error g j = Some true /\
  forall k, nth_error g k = Some true -> (i <= k <= j)%nat.
Definition number_good (g : list bool) : Z := Z.of_nat (count_occ Bool.bool_dec g true).

(* a count as eight bytes *)
Definition eight_bytes (x : Z) : list Z := map (byte_of x) (seq 0 8).

(* d is the distance of p from the nearest of ts *)
Definition nearest_of (ts : list Z) (p d : Z) : Prop :=
  (exists t, In t ts /\ d = Z.abs (t - p)) /\ forall t, In t ts -> d <= Z.abs (t - p).
