(** Crosstalk: the class CrosstalkVeto (mass/core/channel_group.py) and
    MicrocalDataSet.flag_crosstalking_pulses (mass/core/channel.py).  Arithmetic is exact. *)
From Coq Require Import ZArith QArith Qcanon Qround Bool List.
From Verif Require Import QcPre CutModel HistModel.
Import ListNotations.
Local Open Scope Z_scope.

(** * CrosstalkVeto *)

(** A pulse of a channel: whether [ds.cuts.good()], p_timestamp (s) and p_postpeak_deriv. *)
Record pulse := mkPulse { ok : bool; time : Qc; deriv : Qc }.

(** Conversion of a float to an integer: towards zero. *)
Definition trunc (x : Qc) : Z := if qleb 0%Qc x then Qfloor (this x) else - Qfloor (this (- x)%Qc).
Definition q (n : Z) : Qc := Q2Qc (inject_Z n).
(** [1e3 * t] *)
Definition ms (t : Qc) : Qc := (q 1000 * t)%Qc.

(** np.int8 arithmetic *)
Definition wrap8 (x : Z) : Z := (x + 128) mod 256 - 128.
(** The bounds of the slice [lo:hi] of an array of length n. *)
Definition bound (n i : Z) : Z := if i <? 0 then Z.max 0 (i + n) else Z.min i n.
Fixpoint mapi_from {A B : Type} (f : Z -> A -> B) (i : Z) (l : list A) : list B :=
  match l with [] => [] | x :: t => f i x :: mapi_from f (i + 1) t end.
(** [nhits[lo:hi] += 1] *)
Definition add_one (nhits : list Z) (lo hi : Z) : list Z :=
  let n := Z.of_nat (length nhits) in
  mapi_from (fun i x => if (bound n lo <=? i) && (i <? bound n hi) then wrap8 (x + 1) else x) 0 nhits.

(** channel_group.py:1447-1448: time stamp in ms since ms0, at least 0 *)
Definition vetotime (ms0 : Qc) (p : pulse) : Z := Z.max 0 (trunc (ms (time p) - ms0)%Qc).

(** channel_group.py:1445-1459: one channel *)
Definition veto_channel (a b : Z) (pileup_limit : Qc) (ms0 : Qc) (nhits : list Z) (ds : list pulse) : list Z :=
  let g := filter ok ds in
  let n1 := fold_left (fun h p => add_one h (vetotime ms0 p + a) (vetotime ms0 p + (b + 1))) g nhits in
  fold_left (fun h p => add_one h (vetotime ms0 p + (b + 1)) (vetotime ms0 p + (b + 1) + 8))
            (filter (fun p => qltb pileup_limit (deriv p)) g) n1.

Definition qmin (x y : Qc) : Qc := if qleb x y then x else y.
Definition qmax (x y : Qc) : Qc := if qleb x y then y else x.
(** The first and the last time of every channel; a channel without pulses is an IndexError. *)
Fixpoint ends (dss : list (list pulse)) : option (list (Qc * Qc)) :=
  match dss with
  | [] => Some []
  | [] :: _ => None
  | (p :: t) :: r => match ends r with Some l => Some ((time p, time (last t p)) :: l) | None => None end
  end.

Record veto_state := mkVeto { nhits : list Z; time0 : Qc }.

(** channel_group.py:1433-1459, [__init__].  [None] is an exception: a group without channels, a
    channel without pulses, a negative size of the array. *)
Definition veto_init (a b : Z) (pileup_limit : Qc) (dss : list (list pulse)) : option veto_state :=
  match ends dss with
  | None | Some [] => None
  | Some ((f, l) :: es) =>
      let ms0 := (ms (fold_left qmin (map fst es) f) + q a)%Qc in
      let ms9 := (ms (fold_left qmax (map snd es) l) + q b)%Qc in
      let n := trunc (ms9 - ms0 + 1)%Qc in
      if n <? 0 then None
      else Some (mkVeto (fold_left (veto_channel a b pileup_limit ms0) dss (repeat 0 (Z.to_nat n))) ms0)
  end.

(** [nhits[i]], None being the IndexError *)
Definition at_index (l : list Z) (i : Z) : option Z :=
  let n := Z.of_nat (length l) in
  let j := if i <? 0 then i + n else i in
  if (j <? 0) || (n <=? j) then None else nth_error l (Z.to_nat j).

(** channel_group.py:1467-1471, [veto] of one time. *)
Definition veto (v : veto_state) (t : Qc) : option bool :=
  option_map (fun h => 1 <? h) (at_index (nhits v) (trunc (ms t - time0 v + Q2Qc (1 # 2))%Qc)).

(** * flag_crosstalking_pulses *)

Fixpoint evens {A : Type} (l : list A) : list A :=
  match l with [] => [] | [x] => [x] | x :: _ :: t => x :: evens t end.
Definition xv (x : Qc) : xval := Fin (this x).

(** channel.py:2326-2333: the edges of the histogram; [pulses] are the times of the pulses (s),
    [prior] and [post] are in s. *)
Definition combined_edges (pulses : list Qc) (prior post : Qc) : list xval :=
  nsort (map (fun p => xv (p - prior)%Qc) pulses ++ map (fun p => xv (p + post)%Qc) pulses).
(** channel.py:2280-2304, [crosstalk_flagging_loop]; [others] are the times of the pulses of every
    channel of the group, by channel number; [dict_get] finds them. *)
Fixpoint channel_times (others : list (Z * list Qc)) (c : Z) : option (list Qc) :=
  match others with [] => None | (k, l) :: t => if k =? c then Some l else channel_times t c end.
Definition flagging_loop (edges : list xval) (others : list (Z * list Qc)) (channels : list Z) : option (list bool) :=
  let times := flat_map (fun c => match channel_times others c with Some l => l | None => [] end) channels in
  match histogram (map xv times) edges with
  | None => None
  | Some h => Some (map (fun n => Nat.ltb 0 n) (evens h))
  end.

(** neighbors_list: channel number, squared distance, number of the neighbour.  channel.py:2344-2346
    keeps the channels whose third column is among the distances asked for. *)
Definition select (distances : list Z) (l : list (Z * Z * Z)) : list Z :=
  map (fun e => fst (fst e)) (filter (fun e => existsb (Z.eqb (snd e)) distances) l).
(** np.unique *)
Fixpoint zinsert (x : Z) (l : list Z) : list Z :=
  match l with [] => [x] | y :: t => if y <? x then y :: zinsert x t else if y =? x then l else x :: l end.
Definition unique (l : list Z) : list Z := fold_right zinsert [] l.

(** The stored flags: the combined ones, and those of every category. *)
Record flags := mkFlags { combined : list bool; per_category : list (String.string * list bool) }.

Fixpoint set_category_flags (l : list (String.string * list bool)) (k : String.string) (v : list bool) : list (String.string * list bool) :=
  match l with
  | [] => [(k, v)]
  | (x, w) :: t => if String.eqb x k then (x, v) :: t else (x, w) :: set_category_flags t k v
  end.

(** channel.py:2355-2371, the categories one by one; [any_member keys sel] is
    [np.sum(np.isin(self.tes_group.channel.keys(), sel)) > 0]. *)
Fixpoint category_loop (any_member : list Z -> list Z -> bool) (edges : list xval) (others : list (Z * list Qc)) (distances : list Z)
         (cats : list (String.string * list (Z * Z * Z))) (f : flags) : option flags :=
  match cats with
  | [] => Some f
  | (c, l) :: t =>
      let sel := select distances l in
      if any_member (map fst others) sel then
        match flagging_loop edges others sel with
        | None => None
        | Some v => category_loop any_member edges others distances t
                      (mkFlags (map2 orb (combined f) v) (set_category_flags (per_category f) c v))
        end
      else category_loop any_member edges others distances t f
  end.

(** channel.py:2306-2378.  [cats] are the categories of neighbours, [None] if the list of nearest
    neighbours has not been set; [None] as a result is an exception.  The attribute [.value] used to
    read the neighbours exists in h5py before version 3; here it does.  [prior_ms] and [post_ms] are
    in ms. *)
Definition flag_crosstalking (any_member : list Z -> list Z -> bool) (pulses : list Qc) (others : list (Z * list Qc))
           (cats : option (list (String.string * list (Z * Z * Z)))) (prior_ms post_ms : Qc) (combine_categories : bool)
           (distances : list Z) (force_new : bool) (f : flags) : option flags :=
  match cats with
  | None => Some f
  | Some cs =>
      if negb (existsb (fun x => x) (combined f)) || force_new then
        let edges := combined_edges pulses (prior_ms / q 1000)%Qc (post_ms / q 1000)%Qc in
        if combine_categories then
          match rev cs with
          | [] => None   (* selectNeighbors is unbound *)
          | (_, l) :: _ =>
              if any_member (map fst others) (select distances l) then
                let neighbours := fold_left (fun acc c => unique (acc ++ select distances (snd c))) cs [] in
                match flagging_loop edges others neighbours with
                | None => None
                | Some v => Some (mkFlags v (per_category f))
                end
              else Some f
          end
        else category_loop any_member edges others distances cs f
      else Some f
  end.

(** np.isin applied to the keys of a dictionary (a view, in Python 3): numpy makes an array without
    dimensions of the view, a single object that is equal to no number. *)
Definition isin_view (keys sel : list Z) : list bool := [existsb (fun _ => false) sel].
Definition any_member_view (keys sel : list Z) : bool := existsb (fun x => x) (isin_view keys sel).
(** np.isin applied to a list of keys *)
Definition any_member_list (keys sel : list Z) : bool := existsb (fun k => existsb (Z.eqb k) sel) keys.
