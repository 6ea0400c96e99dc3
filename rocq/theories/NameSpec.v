(** What the file-name helpers should do, without reference to the model's scanning. *)
From Coq Require Import ZArith Ascii String Bool Sorted Permutation List.
From Verif Require Import LjhModel NameModel Kept.
Import ListNotations.
Open Scope Z_scope.

Definition all_digits (l : bytes) : Prop := forall x, In x l -> 48 <= x <= 57.

(** "_chan" followed by a digit somewhere in the text. *)
Definition mentions_channel (l : bytes) : Prop :=
  exists a d b, l = a ++ bs "_chan" ++ d :: b /\ 48 <= d <= 57.

(** The decimal number written by a list of digits. *)
Fixpoint decimal (l : bytes) : Z :=
  match l with
  | [] => 0
  | d :: t => (d - 48) * 10 ^ Z.of_nat (length t) + decimal t
  end.

(** [f] is [base], then "_chan" and the digits of [c], then text that neither continues the
    number nor mentions a channel. *)
Definition named (f base : bytes) (c : Z) : Prop :=
  exists ds rest, f = base ++ bs "_chan" ++ ds ++ rest /\ ds <> [] /\ all_digits ds /\ decimal ds = c /\
    (forall d r, rest = d :: r -> ~ 48 <= d <= 57) /\ ~ mentions_channel rest.

Definition contains_chan (l : bytes) : Prop := exists a b, l = a ++ bs "_chan" ++ b.

(** The channels that are to be kept. *)
Definition wanted (files2 : list bytes) (never_use use_only : option (list Z)) (c : option Z) : Prop :=
  (files2 = [] \/ exists g, In g files2 /\ channum g = c) /\
  (forall l, never_use = Some l -> forall z, In z l -> c <> Some z) /\
  (forall l, use_only = Some l -> exists z, In z l /\ c = Some z).

(** Two names, each with its channel, are in order: by channel number, then by name. *)
Definition text_le (a b : bytes) : Prop :=
  a = b \/ (exists t, b = a ++ t) \/
  exists p x y a' b', a = p ++ x :: a' /\ b = p ++ y :: b' /\ x < y.
Definition name_order (a b : bytes) : Prop :=
  exists x y, channum a = Some x /\ channum b = Some y /\ (x < y \/ (x = y /\ text_le a b)).
