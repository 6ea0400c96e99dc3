(** What setting parameters should do. *)
From Coq Require Import String Bool List.
From Verif Require Import PrmModel.
Import ListNotations.

Section Spec.
Context {V T : Type}.
Variable typeof : V -> T.
Variable sub : T -> T -> bool.
(** The value of the first dictionary that has the name *)
Fixpoint param (l : list (dict V)) (k : string) : option V := match l with [] => None | d :: t => match get d k with Some v => Some v | None => param t k end end.
(** A check that a value passes, given the value before *)
Definition passes (c : option (check T)) (old v : V) : Prop :=
  match c with
  | None => True
  | Some (Flag _ true) => sub (typeof v) (typeof old) = true
  | Some (Types _ l) => exists t, In t l /\ sub (typeof v) t = true
  | _ => False
  end.
(** The last value given for a name *)
Fixpoint last_given (kw : list (string * V)) (k : string) : option V :=
  match kw with [] => None | (k', v) :: t => match last_given t k with Some w => Some w | None => if String.eqb k k' then Some v else None end end.
(** The names in a list of dictionaries *)
Definition names (l : list (dict V)) : list (list string) := map (map fst) l.
(** No name in two dictionaries, or twice in one *)
Definition separate (l : list (dict V)) : Prop := NoDup (concat (names l)).
End Spec.
