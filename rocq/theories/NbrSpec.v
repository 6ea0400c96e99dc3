(* What a list of nearest neighbours should hold, said without the code. *)
From Coq Require Import ZArith Lia List.
Import ListNotations.
Open Scope Z_scope.

(* the sum of the squared differences of the coordinates *)
Definition total (l : list Z) : Z := fold_right Z.add 0 l.
Definition distance2 (p q : list Z) : Z := total (map (fun xy => (fst xy - snd xy) * (fst xy - snd xy)) (combine p q)).

(* the position of a channel: that of its first line *)
Definition stands_at (m : list (Z * list Z)) (c : Z) (p : list Z) : Prop :=
  exists before after, m = before ++ (c, p) :: after /\ ~ In c (map fst before).

(* steps ks, one for each coordinate, no longer than the array is wide *)
Definition fits (m : list (Z * list Z)) (k : nat) (ks : list Z) : Prop :=
  List.length ks = k /\
  forall i, (i < k)%nat ->
    0 <= nth i ks 0 /\ exists r1 r2, In r1 m /\ In r2 m /\ nth i ks 0 <= nth i (snd r1) 0 - nth i (snd r2) 0.
(* a squared distance between two places of the box around the array, used or not *)
Definition possible (m : list (Z * list Z)) (k : nat) (x : Z) : Prop :=
  exists ks, fits m k ks /\ x = total (map (fun a => a * a) ks).
(* d is at place n among them, from zero *)
Definition place (m : list (Z * list Z)) (k : nat) (d n : Z) : Prop :=
  exists l, NoDup l /\ Z.of_nat (List.length l) = n /\ forall x, In x l <-> possible m k x /\ x < d.

(* a table of at least two lines and, with the channel numbers, at least two columns *)
Definition rectangular (m : list (Z * list Z)) (k : nat) : Prop :=
  (2 <= List.length m)%nat /\ (1 <= k)%nat /\ forall r, In r m -> List.length (snd r) = k.

(* all positions moved by t *)
Definition moved (t : list Z) (m : list (Z * list Z)) : list (Z * list Z) :=
  map (fun r => (fst r, map (fun xy => fst xy + snd xy) (combine (snd r) t))) m.

(* a line of the list for a line r of the map, seen from here: the channel, how far, and which place that distance has *)
Definition row_right (m : list (Z * list Z)) (k : nat) (here : list Z) (r : Z * list Z) (n : Z * Z * Z) : Prop :=
  exists p d i, n = (fst r, d, i) /\ stands_at m (fst r) p /\ d = distance2 here p /\ place m k d i.

(* a dataset which is not there yet, or has n entries *)
Definition of_size {A : Type} (n : nat) (d : option (list A)) : Prop := match d with None => True | Some l => List.length l = n end.
(* nothing but zeros, or not there yet *)
Definition blank (d : option (list (Z * Z * Z))) : Prop := match d with None => True | Some l => Forall (fun r => r = (0, 0, 0)) l end.
