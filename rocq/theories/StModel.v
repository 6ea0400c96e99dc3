(** Model of the experiment states, mass/off/experiment_state.py, and of their refreshing,
    mass/off/channels.py:333-338 and 1192-1209.

    The state file is ASCII text with newlines only.  Times of states are stored as float64
    (unixnanos starts as np.zeros(0)) and compared with the times of the records as such: [rnd]
    is the conversion of an integer.  Aliases are a function: they cannot be changed once
    calcStatesDict has been called.  Times of records are sorted wherever np.searchsorted is
    used.  [None] is an exception. *)
From Coq Require Import ZArith Ascii String Bool List.
From Verif Require Import LjhModel.
Import ListNotations.
Open Scope Z_scope.

Inductive excludes := Auto | Excluded (l : list bytes).
Record esf := mkEsf {
  parse_start : nat;
  allLabels : list bytes;
  nanos : list Z;
  unaliased : list bytes;
  excl : excludes }.
(** experiment_state.py:15-28 *)
Definition esf_init (e : excludes) : esf := mkEsf 0 [] [] [] e.

(** [f.readlines()] *)
Fixpoint readlines (cur : bytes) (l : bytes) : list bytes :=
  match l with
  | [] => match cur with [] => [] | _ => [rev cur] end
  | c :: t => if c =? 10 then rev (c :: cur) :: readlines [] t else readlines (c :: cur) t
  end.

(** [line.split(",")] into exactly two, experiment_state.py:55-59 *)
Fixpoint split_comma (l : bytes) : option (bytes * bytes) :=
  match l with
  | [] => None
  | c :: t => if c =? 44 then (if existsb (Z.eqb 44) t then None else Some ([], t))
              else match split_comma t with Some (a, b) => Some (c :: a, b) | None => None end
  end.
Definition parse_line (line : bytes) : option (Z * bytes) :=
  do ab <- split_comma line;
  do t <- py_int (strip (fst ab));
  Some (t, strip (snd ab)).

Definition mem (x : bytes) (l : list bytes) : bool := existsb (beq x) l.
Definition normally_ignore : list bytes := [bs "START"; bs "STOP"; bs "END"; bs "IGNORE"].
(** experiment_state.py:67-78, [calculateAutoExcludes] *)
Definition auto_excludes (labels : list bytes) : list bytes :=
  if forallb (fun x => mem x normally_ignore) labels then [bs "IGNORE"] else normally_ignore.
(** experiment_state.py:80-93, [applyExcludesToLabels] *)
Fixpoint apply_excludes (ex r labels : list bytes) : list bytes :=
  match labels with
  | [] => r
  | x :: t => if mem x ex || mem x r then apply_excludes ex r t else apply_excludes ex (r ++ [x]) t
  end.

(** experiment_state.py:36-65, [parse]; nothing changes before the last possible exception. *)
Definition esf_parse (rnd : Z -> Z) (file : bytes) (e : esf) : option esf :=
  let lines := readlines [] (skipn (parse_start e) file) in
  do lines' <- (if Nat.eqb (parse_start e) 0 then
                  match lines with
                  | h :: (_ :: _) as t => if starts [35] h then Some (tl lines) else None
                  | _ => None
                  end
                else Some lines);
  match lines' with
  | [] => Some e
  | _ =>
      do ps <- all_some (map parse_line lines');
      let labels := allLabels e ++ map snd ps in
      let ex := match excl e with Auto => auto_excludes labels | Excluded l => l end in
      Some (mkEsf (length file) labels (nanos e ++ map (fun p => rnd (fst p)) ps)
                  (apply_excludes ex [] labels) (Excluded ex))
  end.

(** * The dictionary of states *)

Definition slice := (nat * nat)%type.
Inductive sval := One (s : slice) | Many (l : list slice).
Definition sdict := list (bytes * sval).
Fixpoint sget (d : sdict) (k : bytes) : option sval :=
  match d with
  | [] => None
  | (k', v) :: t => if beq k' k then Some v else sget t k
  end.
Fixpoint sset (d : sdict) (k : bytes) (v : sval) : sdict :=
  match d with
  | [] => [(k, v)]
  | (k', v') :: t => if beq k' k then (k', v) :: t else (k', v') :: sset t k v
  end.

(** experiment_state.py:151-165 *)
Definition add_slice (d : sdict) (a : bytes) (s : slice) : sdict :=
  match sget d a with
  | None => sset d a (One s)
  | Some (One v) => sset d a (Many [v; s])
  | Some (Many l) => sset d a (Many (l ++ [s]))
  end.
(** experiment_state.py:143-165; [n] is the number of all the records. *)
Fixpoint add_all (ok : bytes -> bool) (alias : bytes -> bytes) (d : sdict) (labels : list bytes) (inds : list nat)
         (n : nat) : sdict :=
  match labels, inds with
  | x :: ls, i :: js =>
      let stop := match js with j :: _ => j | [] => n end in
      add_all ok alias (if ok x then add_slice d (alias x) (i, stop) else d) ls js n
  | _, _ => d
  end.

(** np.searchsorted(us, v) for sorted [us]: how many are below. *)
Definition searchsorted (rnd : Z -> Z) (us : list Z) (v : Z) : nat :=
  length (filter (fun u => rnd u <? v) us).

Fixpoint last_entry (d : sdict) : option (bytes * sval) :=
  match d with
  | [] => None
  | e :: t => match last_entry t with Some x => Some x | None => Some e end
  end.
(** The slice of the state active last, extended to [n]. *)
Definition extend (v : sval) (n : nat) : sval :=
  match v with
  | One s => One (fst s, n)
  | Many l => Many (map (fun j => let s := nth j l (0%nat, 0%nat) in
                                  if Nat.eqb (S j) (length l) then (fst s, n) else s) (seq 0 (length l)))
  end.

(** experiment_state.py:95-168, [calcStatesDict]; no dictionary is the empty one. *)
Definition calc_states (rnd : Z -> Z) (alias : bytes -> bytes) (e : esf) (us : list Z) (d : sdict) (i0l i0u : nat)
  : option sdict :=
  let newl := skipn i0l (allLabels e) in
  let n := (i0u + length us)%nat in
  let inds := map (fun t => searchsorted rnd us t + i0u)%nat (skipn i0l (nanos e)) in
  let ok := fun x => mem x (unaliased e) in
  match last_entry d with
  | None => Some (add_all ok alias d newl inds n)
  | Some (k, v) =>
      if Nat.eqb i0l 0 then None
      else match newl with
           | [] => Some (sset d k (extend v n))
           | _ => match v with
                  | One s => Some (add_all ok alias (sset d k (One (fst s, hd 0%nat inds))) newl inds n)
                  | Many _ => None
                  end
           end
  end.

(** channels.py:333-338, [Channel.statesDict]; the argument is [_statesDict]. *)
Definition states_dict (rnd : Z -> Z) (alias : bytes -> bytes) (e : esf) (us : list Z) (d : option sdict) : option sdict :=
  match d with Some d => Some d | None => calc_states rnd alias e us [] 0 0 end.

(** channels.py:1192-1209, [refreshFromFiles], for one channel: [us] are the times of all the
    records now in its file, [n0] the number of those known before. *)
Definition refresh (rnd : Z -> Z) (alias : bytes -> bytes) (file : bytes) (e : esf) (us : list Z) (n0 : nat) (d : option sdict)
  : option (esf * sdict) :=
  do e' <- esf_parse rnd file e;
  do d' <- states_dict rnd alias e' us d;
  do d'' <- calc_states rnd alias e' (skipn n0 us) d' (length (allLabels e)) n0;
  Some (e', d'').

(** The record numbers selected by a state: getStatesIndicies, channels.py:309-328, and
    indexing with the slices. *)
Definition slices (d : sdict) (a : bytes) : list slice :=
  match sget d a with None => [] | Some (One s) => [s] | Some (Many l) => l end.
Definition indices (d : sdict) (a : bytes) : list nat :=
  flat_map (fun s => seq (fst s) (snd s - fst s)) (slices d a).
