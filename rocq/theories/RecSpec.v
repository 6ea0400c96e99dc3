(** What recipes mean. *)
From Coq Require Import String Bool List.
From Verif Require Import RecModel.
Import ListNotations.
Local Open Scope string_scope.

(** A definition: name, function, names of the ingredients. *)
Definition entry (V : Type) := (name * (list V -> option V) * list name)%type.

(** The value of a name after definitions, the latest first: that of the latest definition of
    it, on the values its ingredients had when it was made; a name never defined is a base
    ingredient. *)
Fixpoint meaning {V : Type} (look : name -> option V) (h : list (entry V)) (n : name) : option V :=
  match h with
  | [] => look n
  | (k, f, ings) :: t =>
      if String.eqb n k
      then match sequence (map (meaning look t) ings) with Some args => f args | None => None end
      else meaning look t n
  end.

(** The ingredients asked for: those named, or else the parameters of the function. *)
Definition asked {V : Type} (d : def V) : list name :=
  match d_ings d with
  | Some l => l
  | None => filter (fun p => negb (String.eqb p "self")) (params (d_fn d))
  end.
Definition entry_of {V : Type} (d : def V) : entry V := (d_name d, call (d_fn d), asked d).

(** Definitions as Python allows them (no parameter named twice), asking for no ingredient twice
    and not using the reserved name. *)
Definition proper {V : Type} (d : def V) : Prop :=
  NoDup (params (d_fn d)) /\ NoDup (asked d) /\ d_name d <> "__temp__".

(** A name after [k] exclamation marks. *)
Fixpoint banged (k : nat) (n : name) : name := match k with O => n | S k => "!" ++ banged k n end.

Definition is_substring (a s : string) : Prop := exists p q, s = p ++ a ++ q.

(** The records numbered from start to stop - 1, as far as they exist. *)
Definition in_slice {A : Type} (zero : A) (off : list A) (s : nat * nat) : list A :=
  map (fun j => nth j off zero) (seq (fst s) (Nat.min (snd s) (length off) - fst s)).
