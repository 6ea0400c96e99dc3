(** HDF5 output of OFF channels: histsToHDF5 and energyTimestampLabelToHDF5, mass/off/channels.py:760-798 and 1304-1320.
    A file is a list of paths with their contents, None for a group.  str(channum) is an argument. *)
From Coq Require Import Ascii String Bool ZArith QArith Qcanon List.
Import ListNotations.
Local Open Scope string_scope.
Local Open Scope list_scope.
Local Infix "^^" := String.append (right associativity, at level 60).
Local Notation length := List.length.

(** * Names in an HDF5 file *)
Notation path := (list string).
(** The parts of a name between slashes; HDF5 skips empty ones and dots. *)
Fixpoint split (cur : string) (s : string) : list string :=
  match s with
  | EmptyString => [cur]
  | String c t => if Ascii.eqb c "/" then cur :: split "" t else split (cur ^^ String c "") t
  end.
Definition parts (s : string) : path := filter (fun p => negb (String.eqb p "" || String.eqb p ".")) (split "" s).
(** A name in a group: a leading slash leads to the root. *)
Definition resolve (base : path) (name : string) : path :=
  if String.prefix "/" name then parts name else base ++ parts name.

Fixpoint same (p q : path) : bool :=
  match p, q with
  | [], [] => true
  | a :: p', b :: q' => String.eqb a b && same p' q'
  | _, _ => false
  end.

(** * Files *)
Section File.
Context {V : Type}.
Definition file := list (path * option V).
Definition lookup (f : file) (p : path) : option (option V) := option_map snd (find (fun e => same (fst e) p) f).
Definition is_data (f : file) (p : path) : bool := match lookup f p with Some (Some _) => true | _ => false end.
(** The groups on the way to p. *)
Fixpoint above (base p : path) : list path :=
  match p with
  | [] => []
  | [_] => []
  | a :: t => (base ++ [a]) :: above (base ++ [a]) t
  end.
Definition add_group (f : file) (p : path) : file := match lookup f p with None => f ++ [(p, None)] | Some _ => f end.
(** group[name] = value: h5py makes the groups on the way and raises for a name that exists. *)
Definition put (f : file) (p : path) (v : V) : option file :=
  match p with
  | [] => None
  | _ => if existsb (is_data f) (above [] p) then None
         else match lookup f p with
              | Some _ => None
              | None => Some (fold_left add_group (above [] p) f ++ [(p, Some v)])
              end
  end.
(** group.require_group(name) *)
Definition require_group (f : file) (p : path) : option file :=
  if existsb (is_data f) (above [] p ++ [p]) then None else Some (fold_left add_group (above [] p ++ [p]) f).

(** Assignments one after another in the group [base]; one whose value raised has none.  The flag says that one raised. *)
Fixpoint run (base : path) (ops : list (string * option V)) (f : file) : file * bool :=
  match ops with
  | [] => (f, false)
  | (_, None) :: _ => (f, true)
  | (n, Some v) :: t => match put f (resolve base n) v with None => (f, true) | Some f' => run base t f' end
  end.
(** The same after require_group. *)
Definition run_in (name : string) (ops : list (string * option V)) (f : file) : file * bool :=
  match require_group f (parts name) with None => (f, true) | Some f' => run (parts name) ops f' end.
End File.
Arguments file V : clear implicits.

(** What is written. *)
Inductive value := Numbers (l : list Qc) | Counts (l : list nat) | Times (l : list Z) | Text (s : string).

(** * histsToHDF5 *)
(** 513-520: the centres and counts of a state, of all pulses without one; None if getAttr or np.histogram raises. *)
Notation hist := (option string -> option (list Qc * list nat)).
Definition state_ops (h : hist) (s : string) : list (string * option value) :=
  match h (Some s) with
  | None => [(s, None)]
  | Some (c, n) => [(s ^^ "/bin_centers", Some (Numbers c)); (s ^^ "/counts", Some (Counts n))]
  end.
(** 760-771, Channel.histsToHDF5 *)
Definition channel_ops (labels : list string) (attr : string) (h : hist) : list (string * option value) :=
  flat_map (state_ops h) labels ++
  match h None with
  | None => [("", None)]
  | Some (c, n) => [("bin_centers_ev", Some (Numbers c)); ("counts", Some (Counts n)); ("name_of_energy_indicator", Some (Text attr))]
  end.
Definition hists_to_hdf5 (chan : string) (labels : list string) (attr : string) (h : hist) (f : file value) : file value * bool :=
  run_in chan (channel_ops labels attr h) f.

(** ChannelGroup.hists and hist, 1211-1237: the sum over the good channels *)
Fixpoint add_counts (a b : list nat) : list nat :=
  match a, b with x :: a', y :: b' => (x + y)%nat :: add_counts a' b' | _, _ => [] end.
Fixpoint sum_hists (centers : list Qc) (chans : list (string * hist)) (s : option string) : option (list nat) :=
  match chans with
  | [] => Some (map (fun _ => 0%nat) centers)
  | (_, h) :: t => match h s, sum_hists centers t s with Some (_, n), Some m => Some (add_counts n m) | _, _ => None end
  end.
Definition group_hist (centers : list Qc) (chans : list (string * hist)) : hist :=
  fun s => option_map (fun n => (centers, n)) (sum_hists centers chans s).
(** ChannelGroup.histsToHDF5, 1304-1320, for the good channels [chans]; [cut] is the cut recipe used, None if
    _handleDefaultCut raises.  Without a good channel usedCutRecipeName is not set. *)
Fixpoint channels_loop (cut : option string) (labels : list string) (attr : string) (chans : list (string * hist)) (f : file value) : file value * bool :=
  match chans with
  | [] => (f, false)
  | (c, h) :: t =>
      match cut with
      | None => (f, true)
      | Some _ => let '(f', raised) := hists_to_hdf5 c labels attr h f in if raised then (f', true) else channels_loop cut labels attr t f'
      end
  end.
Definition all_ops (off_filename cut : string) (labels : list string) (attr : string) (h : hist) : list (string * option value) :=
  flat_map (state_ops h) labels ++
  match h None with
  | None => [("", None)]
  | Some (c, n) => [("off_filename", Some (Text off_filename)); ("attr", Some (Text attr)); ("used_cut_recipe_name", Some (Text cut));
                    ("bin_centers_ev", Some (Numbers c)); ("counts", Some (Counts n)); ("name_of_energy_indicator", Some (Text attr))]
  end.
Definition group_hists_to_hdf5 (off_filename : string) (cut : option string) (centers : list Qc) (labels : list string) (attr : string)
    (chans : list (string * hist)) (f : file value) : file value * bool :=
  let '(f', raised) := channels_loop cut labels attr chans f in
  if raised then (f', true)
  else match chans, cut with
       | _ :: _, Some cut => run_in "all_channels" (all_ops off_filename cut labels attr (group_hist centers chans)) f'
       | _, _ => run_in "all_channels" [("", None)] f'
       end.

(** * energyTimestampLabelToHDF5, 773-798 *)
(** A channel: the energy (by its recipe), time and cut of each record, and the seconds to external triggers that were
    calculated; a list of seconds goes with a name. *)
Record channel := mkChannel { energy : list Qc; nano : list Z; passes : list bool; seconds : list (string * list Qc) }.
Notation slice := (nat * nat)%type.
Definition cut_slice {A} (l : list A) (s : slice) : list A := firstn (snd s - fst s) (skipn (fst s) l).
(** Indexing with truth values raises for another length. *)
Fixpoint select {A} (l : list A) (g : list bool) : option (list A) :=
  match l, g with
  | [], [] => Some []
  | x :: l', b :: g' => match select l' g' with Some r => Some (if b then x :: r else r) | None => None end
  | _, _ => None
  end.
(** 378-407: the records of the slices that pass the cut, one slice after another *)
Fixpoint get_attr {A} (l : list A) (g : list bool) (ss : list slice) : option (list A) :=
  match ss with
  | [] => Some []
  | s :: t => match select (cut_slice l s) (cut_slice g s), get_attr l g t with Some a, Some b => Some (a ++ b) | _, _ => None end
  end.
(** array[tuple of slices][mask]: a one-dimensional array takes one slice at most. *)
Definition index_seconds (l : list Qc) (ss : list slice) (mask : list bool) : option (list Qc) :=
  match ss with
  | [] => select l mask
  | [s] => select (cut_slice l s) mask
  | _ => None
  end.
Definition mask_of (c : channel) (ss : list slice) : list bool := flat_map (cut_slice (passes c)) ss.
(** 777-791: one state with its slices *)
Definition label_ops (c : channel) (st : string * list slice) : list (string * option value) :=
  let '(s, ss) := st in
  match get_attr (energy c) (passes c) ss, get_attr (nano c) (passes c) ss with
  | Some e, Some t =>
      (s ^^ "/energy", Some (Numbers e)) :: (s ^^ "/unixnano", Some (Times t)) ::
      map (fun p => (s ^^ "/" ^^ fst p, option_map Numbers (index_seconds (snd p) ss (mask_of c ss)))) (seconds c)
  | _, _ => [(s, None)]
  end.
(** 773-798; without state labels the name [state] is not set.  [cut] is the name of the cut recipe used. *)
Definition label_all (c : channel) (states : list (string * list slice)) (off_filename cut : string) : list (string * option value) :=
  match states with
  | [] => [("", None)]
  | _ => flat_map (label_ops c) states ++ [("off_filename", Some (Text off_filename)); ("used_cut_recipe_name", Some (Text cut))]
  end.
Definition labels_to_hdf5 (chan : string) (c : channel) (states : list (string * list slice)) (off_filename cut : string) (f : file value) : file value * bool :=
  run_in chan (label_all c states off_filename cut) f.
