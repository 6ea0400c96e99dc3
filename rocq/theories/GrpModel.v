(** Groups of channels: iteration and includeBad (mass/off/channels.py), methods looped over the
    channels (mass/off/util.py, mass/core/channel.py), and the good and bad channels of a
    TESGroup (mass/core/channel_group.py). *)
From Coq Require Import ZArith Bool List.
Import ListNotations.
Open Scope Z_scope.

(** Text: a list of code points. *)
Definition text := list Z.

(** Dictionaries with integer keys, in insertion order. *)
Definition dict (A : Type) := list (Z * A).
Fixpoint dget {A : Type} (d : dict A) (k : Z) : option A :=
  match d with [] => None | (x, v) :: t => if x =? k then Some v else dget t k end.
Fixpoint dset {A : Type} (d : dict A) (k : Z) (v : A) : dict A :=
  match d with [] => [(k, v)] | (x, w) :: t => if x =? k then (x, v) :: t else (x, w) :: dset t k v end.
Definition ddel {A : Type} (d : dict A) (k : Z) : dict A := filter (fun p => negb (fst p =? k)) d.

(** * ChannelGroup *)

(** A channel: its marks (channels.py:684-697) and the rest of its contents. *)
Record chan (C : Type) := mkChan { bad : bool; reason : text; data : C }.
Arguments mkChan {C} _ _ _. Arguments bad {C} _. Arguments reason {C} _. Arguments data {C} _.
Definition mark_bad {C : Type} (c : chan C) (why : text) : chan C := mkChan true why (data c).
Definition mark_good {C : Type} (c : chan C) : chan C := mkChan false [] (data c).

Record group (C : Type) := mkGroup { chans : dict (chan C); incl : bool; desired : bool }.
Arguments mkGroup {C} _ _ _. Arguments chans {C} _. Arguments incl {C} _. Arguments desired {C} _.

(** channels.py:1268-1281, [__iter__], [keys], [items] *)
Definition items {C : Type} (g : group C) : dict (chan C) :=
  if incl g then chans g else filter (fun p => negb (bad (snd p))) (chans g).
Definition keys {C : Type} (g : group C) : list Z := map fst (items g).

(** channels.py:1286-1302, [includeBad], [__enter__], [__exit__] *)
Definition include_bad {C : Type} (g : group C) (x : bool) : group C := mkGroup (chans g) (incl g) x.
Definition enter {C : Type} (g : group C) : group C := mkGroup (chans g) (desired g) (desired g).
Definition exit {C : Type} (g : group C) : group C := mkGroup (chans g) false false.

(** channels.py:1239-1246, [whyChanBad] *)
Definition why_chan_bad {C : Type} (g : group C) : group C * dict text :=
  let g1 := enter (include_bad g true) in
  (exit g1, map (fun p => (fst p, reason (snd p))) (filter (fun p => bad (snd p)) (items g1))).

(** Programs using a group. *)
Inductive prog :=
| Nothing
| Then (p q : prog)
| Iterate                           (* list(group.keys()) *)
| Why                               (* group.whyChanBad *)
| MarkBad (c : Z) (why : text)      (* group[c].markBad(why) *)
| MarkGood (c : Z)                  (* group[c].markGood() *)
| With (x : bool) (body : prog)     (* with group.includeBad(x): body *)
| Raise                             (* an exception *)
| Try (p : prog).                   (* try: p; except Exception: pass *)

(** What a program sees. *)
Inductive seen := SawKeys (l : list Z) | SawWhy (d : dict text).

(** The group afterwards, what was seen, and whether an exception was raised.  A channel that is
    not in the group is a KeyError. *)
Fixpoint exec {C : Type} (p : prog) (g : group C) : group C * list seen * bool :=
  match p with
  | Nothing => (g, [], false)
  | Then p q =>
      let '(g1, o1, r1) := exec p g in
      if r1 then (g1, o1, true) else let '(g2, o2, r2) := exec q g1 in (g2, o1 ++ o2, r2)
  | Iterate => (g, [SawKeys (keys g)], false)
  | Why => let '(g1, w) := why_chan_bad g in (g1, [SawWhy w], false)
  | MarkBad c why =>
      match dget (chans g) c with
      | None => (g, [], true)
      | Some ch => (mkGroup (dset (chans g) c (mark_bad ch why)) (incl g) (desired g), [], false)
      end
  | MarkGood c =>
      match dget (chans g) c with
      | None => (g, [], true)
      | Some ch => (mkGroup (dset (chans g) c (mark_good ch)) (incl g) (desired g), [], false)
      end
  | With x body =>
      let '(g1, o, r) := exec body (enter (include_bad g x)) in (exit g1, o, r)
  | Raise => (g, [], true)
  | Try p => let '(g1, o, _) := exec p g in (g1, o, false)
  end.

(** * Methods looped over the channels *)

(** How a call of the method ends. *)
Inductive outcome (V : Type) := Returned (v : V) | Raised (msg : text) | Interrupted.
Arguments Returned {V} _. Arguments Raised {V} _. Arguments Interrupted {V}.

(** How the loop ends: the returned values, or an exception. *)
Inductive ending (V : Type) := Completed (d : dict V) | Reraised (msg : text) | KeyboardInterrupt.
Arguments Completed {V} _. Arguments Reraised {V} _. Arguments KeyboardInterrupt {V}.

(** util.py:241-257, the loop over the items found at its start.  A call may change its own
    channel, whose marks included; [fmt] makes the reason from the message. *)
Fixpoint off_loop {C V : Type} (method : chan C -> chan C * outcome V) (fmt : text -> text) (rethrow : bool)
         (todo : dict (chan C)) (cs : dict (chan C)) (vals : dict V) : dict (chan C) * ending V :=
  match todo with
  | [] => (cs, Completed vals)
  | (k, _) :: t =>
      match dget cs k with
      | None => (cs, Completed vals)
      | Some c =>
          match method c with
          | (c', Returned v) => off_loop method fmt rethrow t (dset cs k c') (dset vals k v)
          | (c', Interrupted) => (dset cs k c', KeyboardInterrupt)
          | (c', Raised m) =>
              let cs' := dset cs k (mark_bad c' (fmt m)) in
              if rethrow then (cs', Reraised m) else off_loop method fmt rethrow t cs' vals
          end
      end
  end.
Definition group_loop {C V : Type} (method : chan C -> chan C * outcome V) (fmt : text -> text) (rethrow : bool) (g : group C)
  : group C * ending V :=
  let '(cs, e) := off_loop method fmt rethrow (items g) (chans g) [] in (mkGroup cs (incl g) (desired g), e).

(** * Good and bad channels of a TESGroup *)

Definition maxlen (l : list text) : nat := fold_right Nat.max 1%nat (map (@length Z) l).
Definition pad (w : nat) (t : text) : text := t ++ repeat 0 (w - length t).
(** np.asarray(comments, dtype=np.bytes_), stored as an attribute of the HDF5 group: an array of
    byte strings of one length.  Only ASCII text can be converted, and attributes have a maximal
    size.  Elements are read without trailing zeros. *)
Definition store (limit : nat) (l : list text) : option (list text) :=
  if forallb (forallb (fun c => (0 <=? c) && (c <? 128))) l
  then if Nat.leb (length l * maxlen l) limit then Some (map (pad (maxlen l)) l) else None
  else None.
Fixpoint strip_zeros (t : text) : text :=
  match t with
  | [] => []
  | c :: r => match strip_zeros r with [] => if c =? 0 then [] else [c] | s => c :: s end
  end.
(** comment.decode() *)
Definition unstore (l : list text) : list text := map strip_zeros l.

(** The group in memory and its file: the channels, in order, the number of file names given, the
    bad channels with their comments, the channels that have a group in the HDF5 file and the
    stored attributes why_bad. *)
Record tes := mkTes { members : list Z; n_files : Z; bads : dict (list text); h5groups : list Z; attrs : dict (list text) }.

Definition is_bad (s : tes) (c : Z) : bool := match dget (bads s) c with Some _ => true | None => false end.
(** channel_group.py:380-410, 479-489 *)
Definition good_channels (s : tes) : list Z := filter (fun c => negb (is_bad s c)) (members s).
Definition num_good_channels (s : tes) : Z := Z.of_nat (length (good_channels s)).
(** channel_group.py:463-464 *)
Definition n_good_channels (s : tes) : Z := n_files s - Z.of_nat (length (bads s)).

(** channel_group.py:425-429, for one channel; whether an exception was raised. *)
Definition good1 (s : tes) (c : Z) : tes * bool :=
  match dget (bads s) c with
  | None => (s, false)
  | Some _ =>
      let s' := mkTes (members s) (n_files s) (ddel (bads s) c) (h5groups s) (attrs s) in
      if existsb (Z.eqb c) (h5groups s) then
        match dget (attrs s) c with
        | Some _ => (mkTes (members s) (n_files s) (bads s') (h5groups s) (ddel (attrs s) c), false)
        | None => (s', true)
        end
      else (s', true)
  end.
(** channel_group.py:448-453 *)
Definition bad1 (limit : nat) (comment : text) (s : tes) (c : Z) : tes * bool :=
  let new := match dget (bads s) c with Some l => l | None => [] end ++ [comment] in
  let s' := mkTes (members s) (n_files s) (dset (bads s) c new) (h5groups s) (attrs s) in
  if existsb (Z.eqb c) (h5groups s) then
    match store limit new with
    | Some a => (mkTes (members s) (n_files s) (bads s') (h5groups s) (dset (attrs s) c a), false)
    | None => (s', true)
    end
  else (s', true).
Fixpoint each (f : tes -> Z -> tes * bool) (s : tes) (l : list Z) : tes * bool :=
  match l with
  | [] => (s, false)
  | c :: t => let '(s', r) := f s c in if r then (s', true) else each f s' t
  end.
(** channel_group.py:412-461; [l] is the set of the channels, in the order of its iteration. *)
Definition set_chan_good (s : tes) (l : list Z) : tes * bool := each good1 s l.
Definition set_chan_bad (limit : nat) (s : tes) (l : list Z) (comment : text) : tes * bool := each (bad1 limit comment) s l.
Definition set_all_chan_good (s : tes) : tes * bool := each good1 s (map fst (bads s)).

Inductive command := Good (l : list Z) | Bad (l : list Z) (comment : text) | AllGood.
Definition command1 (limit : nat) (s : tes) (c : command) : tes * bool :=
  match c with
  | Good l => set_chan_good s l
  | Bad l m => set_chan_bad limit s l m
  | AllGood => set_all_chan_good s
  end.
(** Commands none of which raises. *)
Fixpoint commands (limit : nat) (s : tes) (cs : list command) : option tes :=
  match cs with
  | [] => Some s
  | c :: t => let '(s', r) := command1 limit s c in if r then None else commands limit s' t
  end.

(** Opening the files again: channel_group.py:247-275. *)
Definition reopen (s : tes) (ms : list Z) (n : Z) : tes :=
  mkTes ms n
    (fold_left (fun b c => match dget (attrs s) c with Some a => dset b c (unstore a) | None => b end) ms [])
    (h5groups s ++ filter (fun c => negb (existsb (Z.eqb c) (h5groups s))) ms) (attrs s).

(** core/channel.py:530-545: the loop of a TESGroup; [ds] are the data of its channels.  The
    channels are those not bad when their turn comes. *)
Fixpoint core_loop {C V : Type} (limit : nat) (method : C -> C * outcome V) (fmt : text -> text) (rethrow : bool)
         (todo : list Z) (ds : dict C) (s : tes) : dict C * tes * ending unit :=
  match todo with
  | [] => (ds, s, Completed [])
  | k :: t =>
      if is_bad s k then core_loop limit method fmt rethrow t ds s
      else match dget ds k with
           | None => (ds, s, Completed [])
           | Some c =>
               match method c with
               | (c', Returned _) => core_loop limit method fmt rethrow t (dset ds k c') s
               | (c', Interrupted) => (dset ds k c', s, KeyboardInterrupt)
               | (c', Raised m) =>
                   if rethrow then (dset ds k c', s, Reraised m)
                   else let '(s', r) := set_chan_bad limit s [k] (fmt m) in
                        if r then (dset ds k c', s', Reraised []) else core_loop limit method fmt rethrow t (dset ds k c') s'
               end
           end
  end.
