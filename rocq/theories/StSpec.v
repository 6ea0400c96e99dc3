(** What the experiment states should be. *)
From Coq Require Import ZArith Ascii String Bool Sorting.Sorted List.
From Verif Require Import LjhModel StModel.
Import ListNotations.
Open Scope Z_scope.

(** State change [i] is the one in force at the time [u]: the last at or before. *)
Definition in_force (times : list Z) (u : Z) (i : nat) : Prop :=
  (i < length times)%nat /\ nth i times 0 <= u /\ forall k, (i < k < length times)%nat -> u < nth k times 0.

(** A record of time [u] belongs to the state [a]. *)
Definition in_state (alias : bytes -> bytes) (excluded : bytes -> Prop) (times : list Z) (labels : list bytes)
           (u : Z) (a : bytes) : Prop :=
  exists i, in_force times u i /\ ~ excluded (nth i labels []) /\ alias (nth i labels []) = a.

Definition nondecreasing (l : list Z) : Prop := StronglySorted Z.le l.

(** ** Reading the file *)

Definition ordinary (x : bytes) : Prop := ~ In x [bs "START"; bs "STOP"; bs "END"; bs "IGNORE"].

(** The label is excluded under the setting [ex], for a file with the given labels. *)
Definition is_excluded (ex : excludes) (labels : list bytes) (x : bytes) : Prop :=
  match ex with
  | Excluded l => In x l
  | Auto => ((exists y, In y labels /\ ordinary y) /\ ~ ordinary x) \/
            ((forall y, In y labels -> ~ ordinary y) /\ x = bs "IGNORE")
  end.

Definition no_comma (l : bytes) : Prop := ~ In 44 l /\ ~ In 10 l.
(** The text of a state file: a first line starting with #, then lines of time and label. *)
Definition state_line (line : bytes) (t : Z) (x : bytes) : Prop :=
  exists a b, line = a ++ [44] ++ b ++ [10] /\ no_comma a /\ no_comma b /\ py_int (strip a) = Some t /\ strip (b ++ [10]) = x.
Definition state_file (f : bytes) (times : list Z) (labels : list bytes) : Prop :=
  exists (h : bytes) (ls : list bytes), f = (35 :: h) ++ [10] ++ concat ls /\ ~ In 10 h /\ ls <> [] /\
    length times = length ls /\ length labels = length ls /\
    forall i, (i < length ls)%nat -> state_line (nth i ls []) (nth i times 0) (nth i labels []).

(** ** Refreshing *)

(** What is known at some time: the state changes and the times of the records. *)
Record known := mkKnown { k_labels : list bytes; k_times : list Z; k_records : list Z }.

(** A refresh from [k] to [k'] on which updating is reliable: records and state changes appear
    in the order of their times; the last state known is not excluded and appears for the first
    time. *)
Definition reliable (alias : bytes -> bytes) (excluded : bytes -> Prop) (k k' : known) : Prop :=
  exists ls ts us pre x,
    k_labels k' = k_labels k ++ ls /\ k_times k' = k_times k ++ ts /\ k_records k' = k_records k ++ us /\
    length ls = length ts /\
    (forall u t, In u (k_records k) -> In t ts -> u < t) /\
    (forall t u, In t (k_times k) -> In u us -> t <= u) /\
    k_labels k = pre ++ [x] /\ ~ excluded x /\
    (forall y, In y pre -> ~ excluded y -> alias y <> alias x).

(** The setting excludes the same labels before and after new ones. *)
Definition stable (ex : excludes) (labels labels' : list bytes) : Prop :=
  forall x, is_excluded ex labels x <-> is_excluded ex labels' x.

(** The files have grown from [f], [us] to [f'], [us'] and a refresh is reliable. *)
Definition grown (rnd : Z -> Z) (alias : bytes -> bytes) (ex : excludes) (f : bytes) (us : list Z) (f' : bytes) (us' : list Z)
  : Prop :=
  exists g ts ls ts' ls',
    f' = f ++ g /\ state_file f ts ls /\ state_file f' ts' ls' /\
    stable ex ls ls' /\ firstn (length us) us' = us /\
    reliable alias (is_excluded ex ls') (mkKnown ls (map rnd ts) (map rnd us)) (mkKnown ls' (map rnd ts') (map rnd us')).

(** States kept up to date: computed once, then refreshed any number of times. *)
Inductive refreshed (rnd : Z -> Z) (alias : bytes -> bytes) (ex : excludes) : bytes -> list Z -> esf -> sdict -> Prop :=
| refreshed_start f us e d : esf_parse rnd f (esf_init ex) = Some e -> calc_states rnd alias e us [] 0 0 = Some d ->
    refreshed rnd alias ex f us e d
| refreshed_next f us e d f' us' e' d' :
    refreshed rnd alias ex f us e d -> grown rnd alias ex f us f' us' ->
    refresh rnd alias f' e us' (length us) (Some d) = Some (e', d') ->
    refreshed rnd alias ex f' us' e' d'.
