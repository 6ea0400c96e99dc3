(** What the projectors and the basis of a pulse model should be. *)
From Coq Require Import Reals ZArith Bool List.
From Verif Require Import PmModel.
Local Open Scope R_scope.

Definition unit_entry (i j : nat) : R := if (i =? j)%nat then 1 else 0.
(** The entry i, j of a product, as a sum. *)
Definition entry (n : nat) (a b : nat -> nat -> R) (i j : nat) : R := msum n (fun k => a i k * b k j).

(** The projectors are a left inverse of the basis. *)
Definition dual (P B : mat) : Prop :=
  nr P = nc B /\ nc P = nr B /\ forall i j, (i < nr P)%nat -> (j < nr P)%nat -> entry (nc P) (el P) (el B) i j = unit_entry i j.
(** No combination of the columns is 0. *)
Definition independent (Y : mat) : Prop :=
  forall z, (forall i, (i < nr Y)%nat -> msum (nc Y) (fun j => el Y i j * z j) = 0) -> forall j, (j < nc Y)%nat -> z j = 0.
Definition orthonormal (Q : mat) : Prop :=
  forall i j, (i < nc Q)%nat -> (j < nc Q)%nat -> msum (nr Q) (fun k => el Q k i * el Q k j) = unit_entry i j.
(** The vector t of n samples is a combination of the columns of Y. *)
Definition spanned (Y : mat) (t : nat -> R) : Prop :=
  exists z, forall i, (i < nr Y)%nat -> t i = msum (nc Y) (fun j => el Y i j * z j).

(** numpy's contract for qr (reduced) ... *)
Definition qr_ok (qr : mat -> mat * mat) : Prop := forall Y,
  let Q := fst (qr Y) in let R := snd (qr Y) in
  nr Q = nr Y /\ nc Q = Nat.min (nr Y) (nc Y) /\ orthonormal Q /\
  (forall i j, (j < i)%nat -> (i < nc Q)%nat -> (j < nc Y)%nat -> el R i j = 0) /\
  forall i j, (i < nr Y)%nat -> (j < nc Y)%nat -> el Y i j = msum (nc Q) (fun k => el Q i k * el R k j).
(** ... for pinv (the four conditions of Penrose), needed here for orthonormal columns only ... *)
Definition pinv_ok (pinv : mat -> mat) : Prop := forall A, orthonormal A ->
  let X := pinv A in
  nr X = nc A /\ nc X = nr A /\
  (forall i j, (i < nr A)%nat -> (j < nc A)%nat -> el (mul (mul A X) A) i j = el A i j) /\
  (forall i j, (i < nc A)%nat -> (j < nr A)%nat -> el (mul (mul X A) X) i j = el X i j) /\
  (forall i j, (i < nr A)%nat -> (j < nr A)%nat -> el (mul A X) i j = el (mul A X) j i) /\
  (forall i j, (i < nc A)%nat -> (j < nc A)%nat -> el (mul X A) i j = el (mul X A) j i).
(** ... for svd (reduced) of A: A = u diag(w) v, u and the transpose of v with orthonormal columns ... *)
Definition svd_ok (svd : mat -> mat * (nat -> R) * mat) (A : mat) : Prop :=
  let u := fst (fst (svd A)) in let w := snd (fst (svd A)) in let v := snd (svd A) in
  nr u = nr A /\ nc u = Nat.min (nr A) (nc A) /\ nr v = nc u /\ nc v = nc A /\ orthonormal u /\ orthonormal (tr v) /\
  (forall i, (i < nc u)%nat -> 0 <= w i) /\
  forall i j, (i < nr A)%nat -> (j < nc A)%nat -> el A i j = msum (nc u) (fun k => el u i k * w k * el v k j).
(** ... and for the random numbers. *)
Definition om_ok (om : nat -> nat -> mat) : Prop := forall n l, nr (om n l) = n /\ nc (om n l) = l.

(** The value of the model at sample i of the pulse t, and its residual. *)
Definition modelled (P B : mat) (t : nat -> R) (i : nat) : R := msum (nc B) (fun a => el B i a * msum (nc P) (fun k => el P a k * t k)).
Definition residual (P B : mat) (t : nat -> R) (i : nat) : R := t i - modelled P B t i.
Definition norm2 (n : nat) (t : nat -> R) : R := msum n (fun i => t i * t i).

(** Pointwise equality within the shape. *)
Definition same (A B : mat) : Prop := nr A = nr B /\ nc A = nc B /\ forall i j, (i < nr A)%nat -> (j < nc A)%nat -> el A i j = el B i j.
