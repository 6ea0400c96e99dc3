(** What the crosstalk veto and the crosstalk flags should be. *)
From Coq Require Import ZArith QArith Qcanon Bool Sorting.Sorted List.
From Verif Require Import QcPre XtModel.
Import ListNotations.
Local Open Scope Z_scope.

(** [n] is the integer part of [x]. *)
Definition int_part (x : Qc) (n : Z) : Prop := (q n <= x)%Qc /\ (x < q (n + 1))%Qc.

(** The pulses of a channel in the order of time. *)
Definition chronological (ds : list pulse) : Prop := StronglySorted (fun p r => (time p <= time r)%Qc) ds.

(** The earliest time of all pulses. *)
Definition earliest (dss : list (list pulse)) (e : Qc) : Prop :=
  (exists ds p, In ds dss /\ In p ds /\ time p = e) /\ forall ds p, In ds dss -> In p ds -> (e <= time p)%Qc.
Definition latest (dss : list (list pulse)) (e : Qc) : Prop :=
  (exists ds p, In ds dss /\ In p ds /\ time p = e) /\ forall ds p, In ds dss -> In p ds -> (time p <= e)%Qc.

(** The good pulse [p] closes the millisecond number [j] after [ms0]: its window covers it, or the
    8 ms following the window if the pulse is a pile-up. *)
Definition hit (a b : Z) (limit ms0 : Qc) (j : Z) (p : pulse) : Prop :=
  ok p = true /\ exists n, int_part (ms (time p) - ms0)%Qc n /\
    (n + a <= j <= n + b \/ ((limit < deriv p)%Qc /\ n + b < j <= n + b + 8)).

(** Windows around pulses that do not overlap. *)
Definition separated (ps : list Qc) (prior post : Qc) : Prop :=
  forall i x y, nth_error ps i = Some x -> nth_error ps (S i) = Some y -> (x + post <= y - prior)%Qc.

(** The time of some pulse of the channels. *)
Definition pulse_of (others : list (Z * list Qc)) (channels : list Z) (t : Qc) : Prop :=
  exists c l, In c channels /\ In (c, l) others /\ In t l.

(** The channels listed as neighbours, in some category, at one of the distances. *)
Definition neighbour (cats : list (String.string * list (Z * Z * Z))) (distances : list Z) (c : Z) : Prop :=
  exists k l d2 n, In (k, l) cats /\ In (c, d2, n) l /\ In n distances.
