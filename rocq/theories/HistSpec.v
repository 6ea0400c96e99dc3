(** What histograms should be. *)
From Coq Require Import ZArith QArith Bool List.
From Verif Require Import Kept CutModel CutHistProofs HistModel.
Import ListNotations.

(** [n] elements of [l] satisfy [P]. *)
Definition tally {A : Type} (P : A -> Prop) (l : list A) (n : nat) : Prop :=
  exists r, kept P l r /\ length r = n.

(** The edges of the bins: numbers (possibly infinite) that do not decrease. *)
Definition ordered (edges : list xval) : Prop :=
  Forall is_num edges /\
  forall i a b, nth_error edges i = Some a -> nth_error edges (S i) = Some b -> xleq a b.

(** A bin contains its lower edge, and its upper one only if it is the last bin. *)
Definition in_bin (edges : list xval) (i : nat) (v : xval) : Prop :=
  exists a b, nth_error edges i = Some a /\ nth_error edges (S i) = Some b /\
              xleq a v /\ (xlt v b \/ (S (S i) = length edges /\ xleq v b)).

(** The value lies within the edges. *)
Definition within (edges : list xval) (v : xval) : Prop :=
  exists a b, nth_error edges 0 = Some a /\ nth_error edges (length edges - 1) = Some b /\ xleq a v /\ xleq v b.

Definition histogram_of {A : Type} (P : nat -> A -> Prop) (m : nat) (l : list A) (counts : list nat) : Prop :=
  length counts = m /\ forall i n, nth_error counts i = Some n -> tally (P i) l n.

(** The middles of the bins with finite edges. *)
Definition middles (edges c : list xval) : Prop :=
  length c = (length edges - 1)%nat /\
  forall i a b, nth_error edges i = Some (Fin a) -> nth_error edges (S i) = Some (Fin b) ->
  exists m, nth_error c i = Some (Fin m) /\ (m == (a + b) / 2)%Q.

(** Pulse number [k] is to be counted: good, between the times, a number, and accepted. *)
Definition counted (gd accepted : list bool) (times vals : list xval) (t0 tlast : xval) (k : nat) : Prop :=
  nth_error gd k = Some true /\ nth_error accepted k = Some true /\
  exists t v, nth_error times k = Some t /\ nth_error vals k = Some v /\ xlt t0 t /\ xlt t tlast /\ is_num v.
Definition value_in_bin (edges vals : list xval) (i k : nat) : Prop :=
  exists v, nth_error vals k = Some v /\ in_bin edges i v.

(** The pulses accepted by the function given to hist, if any. *)
Definition accepted_by (g_func : option (dset_ -> list bool)) (d : dset_) : list bool :=
  match g_func with None => repeat true (length (vals d)) | Some f => f d end.

(** The list [c] is the sum of the lists [per], which have the same length. *)
Definition sum_of (m : nat) (per : list (list nat)) (c : list nat) : Prop :=
  length c = m /\ Forall (fun x => length x = m) per /\
  forall i, (i < m)%nat -> nth i c O = list_sum (map (fun x => nth i x O) per).
