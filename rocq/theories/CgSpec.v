(** What the settings of a group should do. *)
From Coq Require Import String ZArith List.
From Verif Require Import GrpModel CgModel.
Import ListNotations.
Open Scope Z_scope.

(** Every channel is kept under its own number, and none twice. *)
Definition named {recipe model : Type} (g : ogroup recipe model) : Prop :=
  NoDup (map fst (chans g)) /\ forall k c, In (k, c) (chans g) -> number (data c) = k.
(** A channel that is visited by a loop over the group. *)
Definition visited {recipe model : Type} (g : ogroup recipe model) (k : Z) (c : chan (off_chan recipe model)) : Prop :=
  In (k, c) (chans g) /\ (incl g = true \/ bad c = false).
(** The first channel that is not bad. *)
Definition leading {recipe model : Type} (g : ogroup recipe model) (c : chan (off_chan recipe model)) : Prop :=
  exists l1 k l2, chans g = l1 ++ (k, c) :: l2 /\ bad c = false /\ forall k' c', In (k', c') l1 -> bad c' = true.
Definition knows {recipe : Type} (n : string) (b : list (string * recipe)) : Prop := exists r, In (n, r) b.
(** Same channels in the same order, with the same marks. *)
Definition same_marks {recipe model : Type} (g g' : ogroup recipe model) : Prop :=
  map (fun p => (fst p, bad (snd p), reason (snd p))) (chans g') = map (fun p => (fst p, bad (snd p), reason (snd p))) (chans g).
