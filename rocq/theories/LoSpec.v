(** What the conversion loops should do. *)
From Coq Require Import ZArith Ascii String Bool List.
From Verif Require Import LjhModel NameModel MgModel LoModel.
Import ListNotations.
Open Scope Z_scope.

(** The name of a channel's file. *)
Definition chan_file (base : bytes) (c : Z) (ext : string) : bytes := base ++ bs "_chan" ++ py_str c ++ bs ext.

(** Some LJH file of the channel is there. *)
Definition found (st : fs) (bases : list bytes) (c : Z) : Prop :=
  exists b, In b bases /\ st (chan_file b c ".ljh") <> None.

(** [l] are the members of [chans] that are found, in their order. *)
Inductive those (P : Z -> Prop) : list Z -> list Z -> Prop :=
| those_nil : those P [] []
| those_in c t l : P c -> those P t l -> those P (c :: t) (c :: l)
| those_out c t l : ~ P c -> those P t l -> those P (c :: t) l.

(** What is converted of [l]: all with a limit that is not positive. *)
Definition limited {A : Type} (max : Z) (l : list A) : list A := if max <=? 0 then l else firstn (Z.to_nat max) l.

Definition contents (st : fs) (bases : list bytes) (c : Z) : list (option bytes) :=
  map (fun b => st (chan_file b c ".ljh")) bases.
Definition names (bases : list bytes) (off_base : bytes) (c : Z) : list bytes * bytes :=
  (map (fun b => chan_file b c ".ljh") bases, chan_file off_base c ".off").
