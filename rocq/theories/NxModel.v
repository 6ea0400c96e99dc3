(** The X-ray line database: mass/calibration/nist_xray_database.py:38-148 and LineEnergies,
    mass/calibration/energy_calibration.py:15-51.  Texts are ASCII; float() is an argument; numbers are of any type. *)
From Coq Require Import Ascii Bool Arith String List.
Import ListNotations.
Local Open Scope string_scope.
Local Open Scope list_scope.
Local Infix "^^" := String.append (right associativity, at level 60).

(** * Texts *)
(** str.upper, lower and capitalize *)
Definition upper_ascii (c : ascii) : ascii :=
  let n := nat_of_ascii c in if ((97 <=? n) && (n <=? 122))%nat then ascii_of_nat (n - 32) else c.
Definition lower_ascii (c : ascii) : ascii :=
  let n := nat_of_ascii c in if ((65 <=? n) && (n <=? 90))%nat then ascii_of_nat (n + 32) else c.
Fixpoint smap (f : ascii -> ascii) (s : string) : string := match s with EmptyString => EmptyString | String c t => String (f c) (smap f t) end.
Definition upper := smap upper_ascii.
Definition lower := smap lower_ascii.
Definition capitalize (s : string) : string := match s with EmptyString => EmptyString | String c t => String (upper_ascii c) (lower t) end.
(** white space, rstrip and split *)
Definition space (c : ascii) : bool := let n := nat_of_ascii c in ((n =? 32) || ((9 <=? n) && (n <=? 13)) || ((28 <=? n) && (n <=? 31)))%nat.
Fixpoint rstrip (s : string) : string :=
  match s with
  | EmptyString => EmptyString
  | String c t => match rstrip t with EmptyString => if space c then EmptyString else String c EmptyString | r => String c r end
  end.
Fixpoint words_from (cur : string) (s : string) : list string :=
  match s with
  | EmptyString => match cur with EmptyString => [] | _ => [cur] end
  | String c t => if space c then match cur with EmptyString => words_from "" t | _ => cur :: words_from "" t end
                  else words_from (cur ^^ String c "") t
  end.
Definition words := words_from "".
(** text.split(" ", 1) of a text with a space *)
Fixpoint first_space (s : string) : option (string * string) :=
  match s with
  | EmptyString => None
  | String c t => if Ascii.eqb c " " then Some ("", t) else match first_space t with None => None | Some (a, b) => Some (String c a, b) end
  end.
(** sub in text, and text.replace(old, new) for [old] not empty *)
Fixpoint contains (sub s : string) : bool := String.prefix sub s || match s with EmptyString => false | String _ t => contains sub t end.
Fixpoint replace_from (old new : string) (skip : nat) (s : string) : string :=
  match s with
  | EmptyString => EmptyString
  | String c t =>
      match skip with
      | S k => replace_from old new k t
      | O => if String.prefix old s then new ^^ replace_from old new (String.length old - 1) t else String c (replace_from old new 0 t)
      end
  end.
Definition replace (old new s : string) : string := replace_from old new 0 s.
(** the last character, and the text without it *)
Fixpoint without_last (s : string) : string := match s with EmptyString => EmptyString | String _ EmptyString => EmptyString | String c t => String c (without_last t) end.
Fixpoint ends_with (a : ascii) (s : string) : bool := match s with EmptyString => false | String c EmptyString => Ascii.eqb c a | String _ t => ends_with a t end.

(** * Dictionaries: insertion-ordered, a new value keeps the place of the old one *)
Section Dict.
Context {V : Type}.
Fixpoint put (k : string) (v : V) (d : list (string * V)) : list (string * V) :=
  match d with [] => [(k, v)] | (k', v') :: t => if String.eqb k k' then (k', v) :: t else (k', v') :: put k v t end.
Fixpoint get (k : string) (d : list (string * V)) : option V :=
  match d with [] => None | (k', v) :: t => if String.eqb k k' then Some v else get k t end.
End Dict.

Section Numbers.
Variable num : Type.
(** Python's float of a text; None: ValueError. *)
Variable to_float : string -> option num.

(** * A line of the table, 127-145 *)
Record line := mkLine { element : string; transition : string; peak : num; peak_unc : num; blend : string; ref : string; raw : string }.
Definition name (l : line) : string := element l ^^ " " ^^ transition l.
(** columns a to b, counted from one *)
Definition columns (a b : nat) (text : string) : string := rstrip (substring (a - 1) (b - (a - 1)) text).
Definition parse (text : string) : option line :=
  match to_float (columns 45 59 text), to_float (columns 61 72 text) with
  | Some p, Some u => Some (mkLine (columns 1 4 text) (columns 10 16 text) p u (columns 74 79 text) (columns 81 91 text) (rstrip text))
  | _, _ => None
  end.

(** * The database, 41-75.  A file is the lines in it, None: it cannot be opened. *)
Record db := mkDb { lines : list (string * line); alllines : list line; loaded : nat }.
Definition is_header (text : string) : bool := contains "Theory" text && contains "Blend" text && contains "Ref." text.
(** What follows the header line.  None: there is none, and the loop in 59-62 never ends. *)
Fixpoint after_header (f : list string) : option (list string) :=
  match f with [] => None | t :: r => if is_header t then Some r else after_header r end.
Definition add_text (d : db) (text : string) : db :=
  match parse text with None => d | Some l => mkDb (put (name l) l (lines d)) (alllines d ++ [l]) (loaded d) end.
Definition add_file (d : option db) (f : option (list string)) : option db :=
  match d, f with
  | None, _ => None
  | Some d, None => Some d
  | Some d, Some f =>
      match after_header f with
      | None => None
      | Some rows => let d := fold_left add_text rows d in Some (mkDb (lines d) (alllines d) (S (loaded d)))
      end
  end.
Definition load (files : list (option (list string))) : option db := fold_left add_file files (Some (mkDb [] [] 0)).

(** LINE_NICKNAMES, 77-90 *)
Definition nicknames : list (string * string) :=
  [("KA1", "KL3"); ("KA2", "KL2"); ("KB1", "KM3"); ("KB3", "KM2"); ("KB5", "KM5"); ("LA1", "L3M5"); ("LA2", "L3M4"); ("Ll", "L3M1");
   ("LB3", "L1M3"); ("LB1", "L2M4"); ("LB2", "L3N5"); ("LG1", "L2N4")].
(** 92-108; [elements] is ELEMENTS. *)
Definition short (t : string) : string :=
  if contains "ALPHA" t then replace "ALPHA" "A" t else if contains "BETA" t then replace "BETA" "B" t
  else if contains "GAMMA" t then replace "GAMMA" "G" t else t.
Definition line_type (t : string) : string := let t := short (upper t) in match get t nicknames with Some n => n | None => t end.
Fixpoint get_lines_by_type (elements : list string) (d : db) (t : string) : list line :=
  match elements with
  | [] => []
  | e :: r => match get (e ^^ " " ^^ line_type t) (lines d) with Some l => l :: get_lines_by_type r d t | None => get_lines_by_type r d t end
  end.
(** 110-124; None: an exception. *)
Definition getitem (d : db) (key : string) : option line :=
  match words key with
  | e :: t :: _ =>
      let e := capitalize e in let t := upper t in
      match get (e ^^ " " ^^ t) (lines d) with
      | Some l => Some l
      | None =>
          let lc := replace "gamma" "g" (replace "beta" "b" (replace "alpha" "a" (lower t))) in
          match get lc nicknames with Some n => get (e ^^ " " ^^ n) (lines d) | None => None end
      end
  | _ => None
  end.

(** * LineEnergies, energy_calibration.py:28-51 *)
(** 29: the last of several nicknames of a line counts; there are no two *)
Definition alternates : list (string * string) := fold_left (fun d kv => put (snd kv) (fst kv) d) nicknames [].
Definition all_names (t : string) : list string :=
  match get t alternates with
  | None => [t]
  | Some n =>
      let long := replace "G" "Gamma" (replace "B" "Beta" (replace "A" "Alpha" n)) in
      [t; n; long] ++ (if ends_with "1" n then [without_last n; without_last long] else [])
  end.
(** None: an exception (a name without a space). *)
Fixpoint energies_of (rows : list (string * line)) (data : list (string * num)) : option (list (string * num)) :=
  match rows with
  | [] => Some data
  | (full, l) :: r =>
      match first_space full with
      | None => None
      | Some (e, t) => energies_of r (fold_left (fun d n => put (e ^^ n) (peak l) d) (all_names t) data)
      end
  end.
Definition line_energies (d : db) : option (list (string * num)) := energies_of (lines d) [].
End Numbers.
