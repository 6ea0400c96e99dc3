(** Levels of highly charged ions: NIST_ASD and the lines made from it, mass/calibration/hci_lines.py:23-204, and the conversion of a dump of the
    levels, mass/calibration/import_asd.py.  A number is a rational or NaN (None); a level is its energy and uncertainty in cm^-1.
    [None] as a result is an exception. *)
From Coq Require Import ZArith QArith Qcanon Ascii Bool Arith String DecimalString DecimalZ List.
From Verif Require Import NxModel.
Import ListNotations.
Local Open Scope string_scope.
Local Open Scope list_scope.
Local Infix "^^" := String.append (right associativity, at level 60).

Definition num := option Qc.
Definition level := (num * num)%type.
(** a dictionary with any keys *)
Section Dict.
Context {K V : Type} (eqb : K -> K -> bool).
Fixpoint dput (k : K) (v : V) (d : list (K * V)) : list (K * V) :=
  match d with [] => [(k, v)] | (k', v') :: t => if eqb k k' then (k', v) :: t else (k', v') :: dput k v t end.
Fixpoint dget (k : K) (d : list (K * V)) : option V :=
  match d with [] => None | (k', v) :: t => if eqb k k' then Some v else dget k t end.
End Dict.
Definition levels := list (string * level).
Definition asd := list (string * list (Z * levels)).

(** * getAvailableLevels, 57-113, and getSingleLevel, 115-142 *)
Inductive units := Ev | InvCm | OtherUnit.
(** what a level is given as: a list of two numbers, or the energy *)
Inductive given := Both (a b : num) | One (a : num).
(** text.split('=')[1]; None: IndexError *)
Fixpoint up_to (c : ascii) (s : string) : string := match s with EmptyString => EmptyString | String d t => if Ascii.eqb c d then EmptyString else String d (up_to c t) end.
Fixpoint after (c : ascii) (s : string) : option string := match s with EmptyString => None | String d t => if Ascii.eqb c d then Some t else after c t end.
Definition second_part (s : string) : option string := option_map (up_to "=") (after "=" s).
Definition allows (required : option string) (s : string) : bool := match required with None => true | Some r => String.eqb s r end.
Section Levels.
(** INVCM_TO_EV *)
Variable factor : Qc.
Definition times (a : num) : num := option_map (fun x => (x * factor)%Qc) a.
Definition give (u : units) (uncertainty : bool) (l : level) : option given :=
  match u with
  | InvCm => Some (if uncertainty then Both (fst l) (snd l) else One (fst l))
  | Ev => Some (if uncertainty then Both (times (fst l)) (times (snd l)) else One (times (fst l)))
  | OtherUnit => None
  end.
(** The loop in 74-112.  [n]: numLevels; [out]: levelsDict, None being Python's None. *)
Fixpoint available_loop (rc rt rj : option string) (max : option Z) (u : units) (unc : bool) (n : Z) (out : option (list (string * given))) (ls : levels)
  : option (option (list (string * given))) :=
  match ls with
  | [] => Some out
  | (name, l) :: r =>
      if match max with Some m => Z.eqb n m | None => false end then Some out
      else match words name with
           | [conf; term; j] =>
               match second_part j with
               | None => None
               | Some jv =>
                   if allows rc conf && allows rt term && allows rj jv then
                     available_loop rc rt rj max u unc (n + 1)
                       match give u unc l with
                       | None => None
                       | Some g => match out with Some d => Some (dput String.eqb name g d) | None => None end
                       end r
                   else available_loop rc rt rj max u unc n out r
               end
           | _ => available_loop rc rt rj max u unc n out r
           end
  end.
Definition find_levels (db : asd) (element : string) (charge : Z) : option levels :=
  match dget String.eqb element db with None => None | Some e => dget Z.eqb charge e end.
Definition available (db : asd) (element : string) (charge : Z) (rc rt rj : option string) (max : option Z) (u : units) (unc : bool) : option (option (list (string * given))) :=
  match find_levels db element charge with None => None | Some ls => available_loop rc rt rj max u unc 0 (Some []) ls end.
Definition level_name (conf term j : string) : string := conf ^^ " " ^^ term ^^ " J=" ^^ j.
Definition single (db : asd) (element : string) (charge : Z) (conf term j : string) (u : units) (unc : bool) : option (option given) :=
  match u with
  | OtherUnit => Some None
  | _ => match find_levels db element charge with
         | None => None
         | Some ls => match dget String.eqb (level_name conf term j) ls with None => None | Some l => Some (give u unc l) end
         end
  end.

(** * Lines from levels, 146-204.  The registry of spectra as in fluorescence_lines.addline (SpcModel): here the energy of each line by its name. *)
Definition show (z : Z) : string := NilZero.string_of_int (Z.to_int z).
Definition line_name (element : string) (charge : Z) (level : string) : string := element ^^ show charge ^^ " " ^^ level.
Definition zero (a : num) : bool := match a with Some x => if Qc_eq_dec x 0 then true else false | None => false end.
(** 156-166 for one energy, width 0.1 and ratio 1: the nominal energy is e*1/1.  None: the name is taken; the registry stays as it is. *)
Definition add_line (reg : list (string * num)) (element : string) (charge : Z) (lv : string) (e : num) : option (list (string * num)) :=
  match dget String.eqb (line_name element charge lv) reg with Some _ => None | None => Some (dput String.eqb (line_name element charge lv) e reg) end.
(** the registry afterwards, and the lines added or None for an exception *)
Fixpoint add_lines (reg : list (string * num)) (element : string) (charge : Z) (ls : list (string * given)) (added : list (string * num)) : list (string * num) * option (list (string * num)) :=
  match ls with
  | [] => (reg, Some added)
  | (lv, g) :: r =>
      match g with
      | One _ => (reg, None)
      | Both e _ =>
          if zero e then add_lines reg element charge r added
          else match add_line reg element charge lv e with
               | None => (reg, None)
               | Some reg => add_lines reg element charge r (added ++ [(line_name element charge lv, e)])
               end
      end
  end.
(** [charge]: the atomic number for H-like lines (173-187), one less for He-like ones (190-204) *)
Definition add_ion_lines (db : asd) (reg : list (string * num)) (element : string) (charge : Z) (max : option Z) : list (string * num) * option (list (string * num)) :=
  match available db element charge None None None (match max with Some m => Some (m + 1)%Z | None => None end) Ev true with
  | Some (Some ls) => add_lines reg element charge ls []
  | _ => (reg, None)
  end.
Definition add_H_like (atomic_number : string -> option Z) db reg element max :=
  match atomic_number element with None => (reg, None) | Some z => add_ion_lines db reg element z max end.
Definition add_He_like (atomic_number : string -> option Z) db reg element max :=
  match atomic_number element with None => (reg, None) | Some z => add_ion_lines db reg element (z - 1) max end.
End Levels.

(** * import_asd.py *)
Section Import.
(** int and float of a text, and ast.literal_eval of what follows VALUES: rows of texts, or one row *)
Variable to_int : string -> option Z.
Variable to_float : string -> option num.
Inductive literal := Rows (rows : list (list string)) | OneRow (row : list string).
Variable literal_eval : string -> option literal.
(** list.index *)
Fixpoint index_of (s : string) (l : list string) : option nat := match l with [] => None | x :: r => if String.eqb s x then Some 0%nat else option_map S (index_of s r) end.
Definition entry (fields : list string) (row : list string) (f : string) : option string :=
  match index_of f fields with None => None | Some i => nth_error row i end.
Definition number (s : string) : num := match to_float s with Some x => x | None => None end.
Definition tables := list (string * list (Z * levels)).
Definition store_level (d : tables) (element : string) (charge : Z) (name : string) (l : level) : tables :=
  let e := match dget String.eqb element d with Some e => e | None => [] end in
  let c := match dget Z.eqb charge e with Some c => c | None => [] end in
  dput String.eqb element (dput Z.eqb charge (dput String.eqb name l c) e) d.
(** 62-86 for one entry *)
Definition parse_entry (fields : list string) (d : tables) (row : list string) : option tables :=
  match entry fields row "element" with
  | None => None
  | Some element =>
      match match entry fields row "spectr_charge" with None => None | Some c => to_int c end with
      | None => None
      | Some charge =>
          match entry fields row "conf", entry fields row "term", entry fields row "j_val", entry fields row "energy", entry fields row "unc" with
          | Some conf, Some term, Some j, Some en, Some un =>
              if negb (String.eqb conf "") && negb (String.eqb term "") && negb (String.eqb term "*")
              then Some (store_level d element charge (level_name conf term j) (number en, number un)) else Some d
          | _, _, _, _, _ => None
          end
      end
  end.
(** the characters of a text, as texts *)
Fixpoint characters (s : string) : list string := match s with EmptyString => [] | String c t => String c EmptyString :: characters t end.
(** np.array: rows of different lengths raise; the entries of one row are its texts, and their entries are characters *)
Definition same_length (rows : list (list string)) : bool := match rows with [] => true | r :: t => forallb (fun x => Nat.eqb (List.length x) (List.length r)) t end.
Definition entries (l : literal) : option (list (list string)) := match l with Rows rows => if same_length rows then Some rows else None | OneRow row => Some (map characters row) end.
Fixpoint parse_entries (fields : list string) (d : tables) (rows : list (list string)) : option tables :=
  match rows with [] => Some d | r :: t => match parse_entry fields d r with None => None | Some d => parse_entries fields d t end end.
(** 59-86.  fieldNamesDict['ASD_Levels'] is looked up for each entry. *)
Definition parse_line (fields : list (string * list string)) (d : tables) (text : string) : option tables :=
  match literal_eval text with
  | None => None
  | Some l => match entries l with
              | None => None
              | Some [] => Some d
              | Some rows => match dget String.eqb "ASD_Levels" fields with None => None | Some f => parse_entries f d rows end
              end
  end.

(** The loop over the lines of the file, 24-42.  [tab]: tableName. *)
Fixpoint lstrip (s : string) : string := match s with EmptyString => EmptyString | String c t => if space c then lstrip t else s end.
Definition strip (s : string) : string := rstrip (lstrip s).
(** re.search of something between back quotes *)
Definition quoted (s : string) : option string := match after "`" s with None => None | Some t => match after "`" t with None => None | Some _ => Some (up_to "`" t) end end.
(** text.partition(' VALUES ')[-1] *)
Fixpoint after_text (sub s : string) : string := if String.prefix sub s then substring (String.length sub) (String.length s - String.length sub) s else match s with EmptyString => EmptyString | String _ t => after_text sub t end.
Definition formatted (s : string) : option string :=
  let p := replace "NULL" "''" (strip (after_text " VALUES " s)) in
  match p with EmptyString => None | _ => Some (if ends_with ";" p then without_last p else p) end.
Record state := mkState { tab : string; fields : list (string * list string); found : tables }.
Definition read_line (s : state) (text : string) : option state :=
  if String.prefix "CREATE TABLE" text then match quoted text with None => None | Some t => Some (mkState t (dput String.eqb t [] (fields s)) (found s)) end
  else if negb (String.eqb (tab s) "") && String.prefix "`" (strip text) then
    match quoted text, dget String.eqb (tab s) (fields s) with
    | Some f, Some fs => Some (mkState (tab s) (dput String.eqb (tab s) (fs ++ [f]) (fields s)) (found s))
    | _, _ => None
    end
  else if String.prefix "INSERT INTO `ASD_Levels` VALUES" text then
    match formatted text with
    | None => None
    | Some t => match parse_line (fields s) (found s) t with None => None | Some d => Some (mkState (tab s) (fields s) d) end
    end
  else Some s.
Fixpoint read_lines (s : state) (ls : list string) : option state := match ls with [] => Some s | t :: r => match read_line s t with None => None | Some s => read_lines s r end end.
Definition start : state := mkState "" [] [].
(** 44-57: for iElement, element in energyLevelsDict.values().  Each value is a dictionary; unpacking it gives its keys, which are integers, and
    raises unless there are two; integers have no values().  None: an exception, and the output file is not opened. *)
Definition two_keys (e : list (Z * levels)) : option (Z * Z) := match e with [(a, _); (b, _)] => Some (a, b) | _ => None end.
Definition values_of_int (z : Z) : option tables := None.
Definition sorted_levels (d : tables) : option tables :=
  match d with
  | [] => Some []
  | (_, e) :: _ => match two_keys e with None => None | Some (_, b) => values_of_int b end
  end.
Definition write_asd_pickle (ls : list string) : option tables := match read_lines start ls with None => None | Some s => sorted_levels (found s) end.
End Import.
