(** Settings of a whole group of OFF channels: mass/off/channels.py:183-191, 223-232 (a channel), 1135, 1150-1155,
    1162-1171, 1186-1190, 1401-1407, 1416-1427 (the group), on top of the groups of GrpModel.  A recipe book is a list of named
    recipes of any kind; which names can be read as attributes is a fact of the class (util.py:88-92). *)
From Coq Require Import String ZArith Bool List.
From Verif Require Import GrpModel.
Import ListNotations.
Open Scope Z_scope.

Section Books.
Variable (recipe model : Type).
Definition book := list (string * recipe).
(** [number] is ds.channum, which is the key of the channel if the file is named after its channel. *)
Record off_chan := mkOff { number : Z; recipes : book; default_cut : string; bin_size : option Z; pulse_model : option model }.
Definition ogroup := group off_chan.
(** The group, its own settings, and the names that have become properties of the class Channel. *)
Record session := mkSession { grp : ogroup; group_cut : string; group_bin : option Z; properties : list string }.

Definition has_recipe (n : string) (b : book) : bool := existsb (fun p => String.eqb (fst p) n) b.
(** channels.py:1186-1190; None: the exception. *)
Definition first_good (g : ogroup) : option (chan off_chan) := option_map snd (find (fun p => negb (bad (snd p))) (items g)).
(** channels.py:228-232 *)
Definition channel_cut (o : off_chan) (n : option string) : string := match n with None => default_cut o | Some n => n end.
(** channels.py:1150-1155; None: an exception. *)
Definition handle_default_cut (g : ogroup) (n : option string) : option string :=
  match first_good g with
  | None => None
  | Some c => let n := channel_cut (data c) n in
              if forallb (fun p => has_recipe n (recipes (data (snd p)))) (items g) then Some n else None
  end.
(** channels.py:223-226; false: an exception. *)
Definition channel_set_default (n : string) (o : off_chan) : off_chan * bool :=
  if prefix "cut" n && has_recipe n (recipes o) then (mkOff (number o) (recipes o) n (bin_size o) (pulse_model o), true) else (o, false).
Definition set_bin (b : option Z) (o : off_chan) : off_chan := mkOff (number o) (recipes o) (default_cut o) b (pulse_model o).
Definition set_book (b : book) (o : off_chan) : off_chan := mkOff (number o) b (default_cut o) (bin_size o) (pulse_model o).
Definition on_data (f : off_chan -> off_chan) (c : chan off_chan) : chan off_chan := mkChan (bad c) (reason c) (f (data c)).
(** Each of the channels iterated over. *)
Definition each_of (f : off_chan -> off_chan) (g : ogroup) : ogroup :=
  mkGroup (map (fun p => if incl g || negb (bad (snd p)) then (fst p, on_data f (snd p)) else p) (chans g)) (incl g) (desired g).
(** channels.py:1401-1407 *)
Definition group_set_bin (b : option Z) (s : session) : session :=
  mkSession (exit (each_of (set_bin b) (enter (include_bad (grp s) true)))) (group_cut s) b (properties s).

(** channels.py:1416-1421: what the file holds. *)
Definition save_books (g : ogroup) : dict book := fold_left (fun d p => dset d (number (data (snd p))) (recipes (data (snd p)))) (items g) [].
(** channels.py:1423-1427; the channels so far and whether a KeyError was raised at the end (false).  No property is made. *)
Fixpoint load_books (d : dict book) (cs : dict (chan off_chan)) : dict (chan off_chan) * bool :=
  match d with
  | [] => (cs, true)
  | (k, b) :: t => match dget cs k with None => (cs, false) | Some c => load_books t (dset cs k (on_data (set_book b) c)) end
  end.
Definition load (d : dict book) (s : session) : session * bool :=
  let '(cs, ok) := load_books d (chans (grp s)) in
  (mkSession (mkGroup cs (incl (grp s)) (desired (grp s))) (group_cut s) (group_bin s) (properties s), ok).

(** util.py:84-92 for a new name: the recipe of one channel, and the property of all. *)
Definition add_recipe (k : Z) (n : string) (r : recipe) (s : session) : session * bool :=
  match dget (chans (grp s)) k with
  | None => (s, false)
  | Some c => if has_recipe n (recipes (data c)) || prefix "!" n then (s, false)
              else (mkSession (mkGroup (dset (chans (grp s)) k (on_data (fun o => set_book (recipes o ++ [(n, r)]) o) c)) (incl (grp s)) (desired (grp s)))
                              (group_cut s) (group_bin s) (n :: properties s), true)
  end.
(** ds.name and ds.getAttr(name) for a recipe: whether they can be read. *)
Definition readable (s : session) (o : off_chan) (n : string) : bool := existsb (String.eqb n) (properties s) && has_recipe n (recipes o).
Definition gettable (o : off_chan) (n : string) : bool := has_recipe n (recipes o).

(** channels.py:1162-1171: [models] by channel number; [addlag] adds the recipes of a model to a channel (None: an exception, with the model kept). *)
Definition with_model (m : model) (o : off_chan) : off_chan := mkOff (number o) (recipes o) (default_cut o) (bin_size o) (Some m).
Fixpoint add_models (models : dict model) (addlag : model -> off_chan -> option off_chan) (ks : list Z) (cs : dict (chan off_chan)) : dict (chan off_chan) * bool :=
  match ks with
  | [] => (cs, true)
  | k :: t =>
      match dget cs k with
      | None => (cs, false)
      | Some c =>
          match dget models (number (data c)) with
          | None => (cs, false)
          | Some m => match addlag m (with_model m (data c)) with
                      | None => (dset cs k (on_data (with_model m) c), false)
                      | Some o => add_models models addlag t (dset cs k (on_data (fun _ => o) c))
                      end
          end
      end
  end.
Definition group_add_5lag (models : dict model) (addlag : model -> off_chan -> option off_chan) (g : ogroup) : ogroup * bool :=
  let '(cs, ok) := add_models models addlag (keys g) (chans g) in (mkGroup cs (incl g) (desired g), ok).
End Books.
Arguments mkOff {recipe model} _ _ _ _ _. Arguments number {recipe model} _. Arguments recipes {recipe model} _. Arguments default_cut {recipe model} _.
Arguments bin_size {recipe model} _. Arguments pulse_model {recipe model} _. Arguments mkSession {recipe model} _ _ _ _. Arguments grp {recipe model} _.
Arguments group_cut {recipe model} _. Arguments group_bin {recipe model} _. Arguments properties {recipe model} _.
Arguments has_recipe {recipe} _ _. Arguments first_good {recipe model} _. Arguments channel_cut {recipe model} _ _. Arguments handle_default_cut {recipe model} _ _.
Arguments channel_set_default {recipe model} _ _. Arguments set_bin {recipe model} _ _. Arguments set_book {recipe model} _ _.
Arguments on_data {recipe model} _ _. Arguments each_of {recipe model} _ _. Arguments group_set_bin {recipe model} _ _. Arguments save_books {recipe model} _.
Arguments load_books {recipe model} _ _. Arguments load {recipe model} _ _. Arguments add_recipe {recipe model} _ _ _ _. Arguments readable {recipe model} _ _ _.
Arguments gettable {recipe model} _ _. Arguments with_model {recipe model} _ _. Arguments add_models {recipe model} _ _ _ _. Arguments group_add_5lag {recipe model} _ _ _.
