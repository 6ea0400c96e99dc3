(** What groups of channels should do. *)
From Coq Require Import ZArith Bool List.
From Verif Require Import GrpModel.
Import ListNotations.
Open Scope Z_scope.

(** * includeBad as a context: inside the body, and only there *)

Definition at_channel {C : Type} (cs : dict (chan C)) (k : Z) (f : chan C -> chan C) : dict (chan C) :=
  map (fun p => if fst p =? k then (fst p, f (snd p)) else p) cs.

Fixpoint ideal {C : Type} (all : bool) (p : prog) (cs : dict (chan C)) : dict (chan C) * list seen * bool :=
  match p with
  | Nothing => (cs, [], false)
  | Then p q =>
      let '(c1, o1, r1) := ideal all p cs in
      if r1 then (c1, o1, true) else let '(c2, o2, r2) := ideal all q c1 in (c2, o1 ++ o2, r2)
  | Iterate => (cs, [SawKeys (map fst (filter (fun p => all || negb (bad (snd p))) cs))], false)
  | Why => (cs, [SawWhy (map (fun p => (fst p, reason (snd p))) (filter (fun p => bad (snd p)) cs))], false)
  | MarkBad c why =>
      if existsb (Z.eqb c) (map fst cs) then (at_channel cs c (fun ch => mkChan true why (data ch)), [], false) else (cs, [], true)
  | MarkGood c =>
      if existsb (Z.eqb c) (map fst cs) then (at_channel cs c (fun ch => mkChan false [] (data ch)), [], false) else (cs, [], true)
  | With x body => ideal x body cs
  | Raise => (cs, [], true)
  | Try p => let '(c1, o, _) := ideal all p cs in (c1, o, false)
  end.

(** No context is opened, not even by whyChanBad. *)
Fixpoint plain (p : prog) : Prop :=
  match p with
  | With _ _ | Why => False
  | Then p q => plain p /\ plain q
  | Try p => plain p
  | _ => True
  end.
(** No context is opened inside another. *)
Fixpoint flat (p : prog) : Prop :=
  match p with
  | With _ b => plain b
  | Then p q => flat p /\ flat q
  | Try p => flat p
  | _ => True
  end.

(** * Loops *)

(** The channel after its call, in a loop that goes on after failures. *)
Definition after {C V : Type} (method : chan C -> chan C * outcome V) (fmt : text -> text) (c : chan C) : chan C :=
  match method c with
  | (c', Raised m) => mkChan true (fmt m) (data c')
  | (c', _) => c'
  end.
Definition result {C V : Type} (method : chan C -> chan C * outcome V) (p : Z * chan C) : dict V :=
  match snd (method (snd p)) with Returned v => [(fst p, v)] | _ => [] end.

Definition without {A : Type} (j : Z) (d : dict A) : dict A := filter (fun p => negb (fst p =? j)) d.

(** * Good and bad channels *)

Definition member (c : Z) (l : list Z) : bool := existsb (Z.eqb c) l.
(** The comments on a channel after commands: those since it was last set good. *)
Definition reasons (h : list command) (c : Z) (r0 : list text) : list text :=
  fold_left (fun r cmd => match cmd with
                          | Good l => if member c l then [] else r
                          | Bad l m => if member c l then r ++ [m] else r
                          | AllGood => []
                          end) h r0.
Definition noted (s : tes) (c : Z) : list text := match dget (bads s) c with Some l => l | None => [] end.

(** Comments that can be stored and read back. *)
Definition storable (limit : nat) (l : list text) : Prop :=
  (forall t c, In t l -> In c t -> 0 <= c < 128) /\
  exists w, (1 <= w)%nat /\ (forall t, In t l -> (length t <= w)%nat) /\ (length l * w <= limit)%nat.
Definition clean (t : text) : Prop := last t 1 <> 0.

(** Memory and file agree on the channels of the group. *)
Definition agree (limit : nat) (s : tes) : Prop :=
  (forall c, In c (members s) -> In c (h5groups s)) /\
  (forall c l, dget (bads s) c = Some l -> l <> [] /\ In c (h5groups s) /\ storable limit l /\
     exists a, dget (attrs s) c = Some a /\ length a = length l /\
       (* the stored strings are the comments padded with zeros to one length *)
       exists w, forall i, (i < length l)%nat -> exists n, nth i a [] = nth i l [] ++ repeat 0 n /\ length (nth i a []) = w) /\
  (forall c, In c (members s) -> dget (bads s) c = None -> dget (attrs s) c = None).

Definition sets (c : command) : Prop := match c with Good l | Bad l _ => NoDup l | AllGood => True end.
Definition clean_command (c : command) : Prop := match c with Bad _ m => clean m | _ => True end.
