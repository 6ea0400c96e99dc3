(** More of what a user relies on: ranges with missing limits, careful unregistration, and harmless crashes. *)
From Coq Require Import PeanoNat NArith QArith String Bool List.
From Verif Require Import CutModel CutSpec CutMaskProofs CutHistProofs.
Import ListNotations.
Local Open Scope N_scope.

(** At or beyond one of the limits. *)
Definition beyond (a b : option xval) (x : xval) : Prop :=
  (exists v, a = Some v /\ xleq x v) \/ (exists v, b = Some v /\ xleq v x).

(** Does the element have a limit?  The word 'invert' counts as one that has. *)
Definition limited (e : range_elt) : bool := match e with Pair None None => false | _ => true end.
(** The first range of the list has no limits. *)
Fixpoint starts_unlimited (l : list range_elt) : bool :=
  match l with [] => false | Invert :: t => starts_unlimited t | Pair None None :: _ => true | _ => false end.

(** Fields are unregistered only while no pulse is bad for them, categorical fields only while every pulse is in the default category. *)
Definition clean_event (s : registry * list N) (e : cut_event) : Prop :=
  match e with
  | Reg (UnregB ns) => forall n, In n ns -> bad_for (fst s) n (snd s) = Some (map (fun _ => false) (snd s))
  | Reg (UnregC f) => category_codes (fst s) f (snd s) = Some (map (fun _ => 0) (snd s))
  | _ => True
  end.
Fixpoint clean_history (es : list cut_event) (s : registry * list N) : Prop :=
  match es with [] => True | e :: t => clean_event s e /\ clean_history t (cut_step s e) end.

(** Any crash but the one between the new descriptions and the used word of a registration. *)
Definition harmless_crash (e : event) : Prop :=
  match e with
  | Call _ => True
  | Crash (RegB _) k => k <> 1%nat
  | Crash (RegC _ _ _) k => k <> 2%nat
  | Crash _ _ => True
  end.
(** Anything but the registration of a categorical field. *)
Definition no_categorical (e : event) : Prop :=
  match e with Call (RegC _ _ _) | Crash (RegC _ _ _) _ => False | _ => True end.

