(** What an HDF5 file holds, and which records belong to a state. *)
From Coq Require Import Ascii String List.
Import ListNotations.
Local Open Scope list_scope.
Local Notation length := List.length.

(** The file has x at the path p: the first entry of that path. *)
Definition has {V : Type} (f : list (list string * option V)) (p : list string) (x : option V) : Prop :=
  exists before after, f = before ++ (p, x) :: after /\ forall e, In e before -> fst e <> p.
(** Nothing in the file is below the name c of the root. *)
Definition fresh {V : Type} (f : list (list string * option V)) (c : string) : Prop := forall e, In e f -> hd_error (fst e) <> Some c.
(** Everything that is not below c is as it was. *)
Definition untouched {V : Type} (c : string) (f f' : list (list string * option V)) : Prop :=
  forall p x, hd_error p <> Some c -> (has f' p x <-> has f p x).

(** A name that means itself. *)
Fixpoint no_slash (s : string) : Prop :=
  match s with EmptyString => True | String c t => c <> "/"%char /\ no_slash t end.
Definition plain (s : string) : Prop := s <> ""%string /\ s <> "."%string /\ no_slash s.

(** Sum of the i-th numbers of several lists. *)
Definition total_at (ns : list (list nat)) (i : nat) : nat := fold_right plus 0 (map (fun n => nth i n 0) ns).

(** The records of the slices that pass, in order. *)
Definition chosen (passes : list bool) (slices : list (nat * nat)) : list nat :=
  flat_map (fun s => filter (fun i => nth i passes false) (seq (fst s) (snd s - fst s))) slices.

(** State labels that can be names beside the given ones. *)
Definition labels_beside (others labels : list string) : Prop :=
  NoDup labels /\ Forall plain labels /\ forall s, In s labels -> ~ In s others.
