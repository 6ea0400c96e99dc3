(** What the line database should hold and give. *)
From Coq Require Import Ascii Bool Arith String List.
From Verif Require Import NxModel.
Import ListNotations.
Local Open Scope string_scope.
Local Open Scope list_scope.
Local Infix "^^" := String.append (right associativity, at level 60).

(** * A row of the table: nine fields in columns *)
Fixpoint spaces (n : nat) : string := match n with O => EmptyString | S k => String " " (spaces k) end.
Definition pad (w : nat) (s : string) : string := s ^^ spaces (w - String.length s).
Definition row (ele a trans theory theory_unc direct direct_unc blend ref : string) : string :=
  pad 5 ele ^^ pad 4 a ^^ pad 8 trans ^^ pad 14 theory ^^ pad 13 theory_unc ^^ pad 16 direct ^^ pad 13 direct_unc ^^ pad 7 blend ^^ ref.
(** at most w characters, and no white space at the end *)
Definition field (w : nat) (s : string) : Prop := (String.length s <= w)%nat /\ rstrip s = s.

(** * The other names of lines, Siegbahn's and long ones *)
Definition other_names : list (string * list string) :=
  [("KL3", ["KA1"; "KAlpha1"; "KA"; "KAlpha"]); ("KL2", ["KA2"; "KAlpha2"]); ("KM3", ["KB1"; "KBeta1"; "KB"; "KBeta"]); ("KM2", ["KB3"; "KBeta3"]);
   ("KM5", ["KB5"; "KBeta5"]); ("L3M5", ["LA1"; "LAlpha1"; "LA"; "LAlpha"]); ("L3M4", ["LA2"; "LAlpha2"]); ("L3M1", ["Ll"]); ("L1M3", ["LB3"; "LBeta3"]);
   ("L2M4", ["LB1"; "LBeta1"; "LB"; "LBeta"]); ("L3N5", ["LB2"; "LBeta2"]); ("L2N4", ["LG1"; "LGamma1"; "LG"; "LGamma"])].
Definition called (t n : string) : Prop := n = t \/ exists l, In (t, l) other_names /\ In n l.
(** names by which all lines of one type are found, but for upper and lower case *)
Definition type_names : list (string * list string) :=
  [("KL3", ["KA1"; "KALPHA1"]); ("KL2", ["KA2"; "KALPHA2"]); ("KM3", ["KB1"; "KBETA1"]); ("KM2", ["KB3"; "KBETA3"]); ("KM5", ["KB5"; "KBETA5"]);
   ("L3M5", ["LA1"; "LALPHA1"]); ("L3M4", ["LA2"; "LALPHA2"]); ("L1M3", ["LB3"; "LBETA3"]); ("L2M4", ["LB1"; "LBETA1"]); ("L3N5", ["LB2"; "LBETA2"]); ("L2N4", ["LG1"; "LGAMMA1"])].

(** * Letters *)
Definition is_upper (c : ascii) : bool := let n := nat_of_ascii c in ((65 <=? n) && (n <=? 90))%nat.
Definition is_lower (c : ascii) : bool := let n := nat_of_ascii c in ((97 <=? n) && (n <=? 122))%nat.
Definition element_like (s : string) : bool :=
  match s with String c EmptyString => is_upper c | String c (String d EmptyString) => is_upper c && is_lower d | _ => false end.
Definition starts_upper (s : string) : bool := match s with String c _ => is_upper c | EmptyString => false end.
Fixpoint plain (s : string) : bool := match s with EmptyString => true | String c t => negb (space c) && plain t end.

(** the last of those that pass *)
Definition last_such {A : Type} (P : A -> Prop) (l : list A) (a : A) : Prop :=
  exists before after, l = before ++ a :: after /\ P a /\ Forall (fun b => ~ P b) after.

(** * Rows of files *)
Section Rows.
Context {num : Type} (to_float : string -> option num).
(** the rows of the files that can be read, below their header lines *)
Inductive rows_of : list (option (list string)) -> list string -> Prop :=
| rows_none : rows_of [] []
| rows_unreadable fs r : rows_of fs r -> rows_of (None :: fs) r
| rows_file above h below fs r : Forall (fun t => is_header t = false) above -> is_header h = true -> rows_of fs r ->
    rows_of (Some (above ++ h :: below) :: fs) (below ++ r).
(** the lines among them *)
Inductive parsed : list string -> list (line num) -> Prop :=
| parsed_nil : parsed [] []
| parsed_not t r l : parse num to_float t = None -> parsed r l -> parsed (t :: r) l
| parsed_line t r x l : parse num to_float t = Some x -> parsed r l -> parsed (t :: r) (x :: l).
End Rows.
