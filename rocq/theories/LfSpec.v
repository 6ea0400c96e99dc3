(** What the helpers for runs and folders should do. *)
From Coq Require Import ZArith Ascii String Bool Sorted Permutation List.
From Verif Require Import LjhModel NameModel NameSpec LfModel.
Import ListNotations.
Open Scope Z_scope.

Definition no_slash (l : bytes) : Prop := ~ In slash l.
(** A folder as usually written: not empty, and the last character is not a slash. *)
Definition plain_folder (d : bytes) : Prop := exists d' c, d = d' ++ [c] /\ c <> slash.
(** The file [e] of the folder, tells [is_file], is one of channel [z] of the run [base]. *)
Definition file_of_run (is_file : bytes -> Prop) (base : bytes) (e : bytes) (z : Z) : Prop := is_file e /\ named e base z.
(** One number for every file of the run, in the order of the names *)
Inductive run_channels (is_file : bytes -> Prop) (base : bytes) : list bytes -> list Z -> Prop :=
| rc_nil : run_channels is_file base [] []
| rc_skip e es zs : (forall z, ~ file_of_run is_file base e z) -> run_channels is_file base es zs -> run_channels is_file base (e :: es) zs
| rc_take e es z zs : file_of_run is_file base e z -> run_channels is_file base es zs -> run_channels is_file base (e :: es) (z :: zs).
Definition ordered (l : list Z) : Prop := StronglySorted Z.le l.
Definition increasing (l : list Z) : Prop := StronglySorted Z.lt l.
(** Everything found before is still found, and the only new thing is the folder [p]. *)
Definition only_new (f f' : fs) (p : bytes) : Prop := f' p = IsDir /\ forall q, q <> p -> f' q = f q.
