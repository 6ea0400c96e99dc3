(** What levels and lines of ions should be given. *)
From Coq Require Import ZArith QArith Qcanon Ascii Bool Arith String List.
From Verif Require Import NxModel NxSpec AsdModel.
Import ListNotations.
Local Open Scope string_scope.
Local Open Scope list_scope.
Local Infix "^^" := String.append (right associativity, at level 60).

(** * Levels: configuration, term and J, or a name that is not of three words *)
Inductive row_ := Level (conf term j : string) (l : level) | Odd (name : string) (l : level).
Fixpoint lacks (c : ascii) (s : string) : bool := match s with EmptyString => true | String d t => negb (Ascii.eqb c d) && lacks c t end.
Definition word (s : string) : Prop := plain s = true /\ s <> "".
Definition proper (r : row_) : Prop :=
  match r with
  | Level conf term j _ => word conf /\ word term /\ plain j = true /\ lacks "=" j = true
  | Odd name _ => List.length (words name) <> 3%nat
  end.
Definition row_name (r : row_) : string := match r with Level conf term j _ => conf ^^ " " ^^ term ^^ " J=" ^^ j | Odd name _ => name end.
Definition row_level (r : row_) : level := match r with Level _ _ _ l => l | Odd _ l => l end.
Definition is_wanted (required : option string) (s : string) : Prop := forall r, required = Some r -> s = r.
Definition wanted (rc rt rj : option string) (r : row_) : Prop :=
  match r with Level conf term j _ => is_wanted rc conf /\ is_wanted rt term /\ is_wanted rj j | Odd _ _ => False end.
(** [out] is the rows that pass, in order *)
Inductive picked {A : Type} (P : A -> Prop) : list A -> list A -> Prop :=
| picked_nil : picked P [] []
| picked_in a l out : P a -> picked P l out -> picked P (a :: l) (a :: out)
| picked_out a l out : ~ P a -> picked P l out -> picked P (a :: l) out.
Definition at_most {A : Type} (max : option Z) (l : list A) : list A :=
  match max with Some m => if (m <? 0)%Z then l else firstn (Z.to_nat m) l | None => l end.
(** a number in eV *)
Definition in_units (factor : Qc) (u : units) (a : num) : num := match u, a with Ev, Some x => Some (factor * x)%Qc | Ev, None => None | _, _ => a end.
Definition given_as (factor : Qc) (u : units) (unc : bool) (l : level) : given :=
  if unc then Both (in_units factor u (fst l)) (in_units factor u (snd l)) else One (in_units factor u (fst l)).
(** the energy is not zero; NaN is not *)
Definition nonzero (a : num) : Prop := a <> Some 0%Qc.
Fixpoint letters (s : string) : bool := match s with EmptyString => true | String c t => (is_upper c || is_lower c) && letters t end.

(** * Rows of a dump *)
Record dump_row := mkRow { d_element : string; d_charge : string; d_conf : string; d_term : string; d_j : string; d_energy : string; d_unc : string }.
Definition kept (r : dump_row) : Prop := d_conf r <> "" /\ d_term r <> "" /\ d_term r <> "*".
(** the text of a field in a row of the table *)
Definition in_row (fields row : list string) (f v : string) : Prop := In (f, v) (combine fields row).
Definition reads (fields row : list string) (r : dump_row) : Prop :=
  in_row fields row "element" (d_element r) /\ in_row fields row "spectr_charge" (d_charge r) /\ in_row fields row "conf" (d_conf r) /\ in_row fields row "term" (d_term r) /\
  in_row fields row "j_val" (d_j r) /\ in_row fields row "energy" (d_energy r) /\ in_row fields row "unc" (d_unc r).
(** a row for the level n of the ion of element e and charge z *)
Definition row_for (to_int : string -> option Z) (e : string) (z : Z) (n : string) (r : dump_row) : Prop :=
  kept r /\ d_element r = e /\ to_int (d_charge r) = Some z /\ d_conf r ^^ " " ^^ d_term r ^^ " J=" ^^ d_j r = n.
(** * Lines of a dump *)
Definition create_line : string := "CREATE TABLE `ASD_Levels` (".
Definition field_line (f : string) : string := "  `" ^^ f ^^ "` text,".
Definition insert_line (body : string) : string := "INSERT INTO `ASD_Levels` VALUES " ^^ body ^^ ";".
