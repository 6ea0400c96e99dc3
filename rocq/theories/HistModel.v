(** Histograms of pulse quantities: MicrocalDataSet.hist (mass/core/channel.py), TESGroup.hists and
    TESGroup.hist (mass/core/channel_group.py), Channel.hist, ChannelGroup.hists and
    ChannelGroup.hist (mass/off/channels.py), and numpy.histogram with given edges. *)
From Coq Require Import ZArith QArith Bool List.
From Verif Require Import CutModel GrpModel.
Import ListNotations.
Local Open Scope nat_scope.

(** * numpy.histogram *)

Definition xltb (x y : xval) : bool :=
  match x, y with NaN, _ | _, NaN => false | _, _ => negb (xle y x) end.
Definition isnan (x : xval) : bool := match x with NaN => true | _ => false end.
(** The order used by np.sort and searchsorted: NaN is the largest element. *)
Definition before (x y : xval) : bool := xltb x y || (isnan y && negb (isnan x)).

(** np.sort *)
Fixpoint ninsert (x : xval) (l : list xval) : list xval :=
  match l with [] => [x] | y :: t => if before y x then y :: ninsert x t else x :: l end.
Definition nsort (l : list xval) : list xval := fold_right ninsert [] l.

(** ndarray.searchsorted on a sorted array: the number of leading elements smaller than (left), or
    not larger than (right), the given value. *)
Fixpoint search (f : xval -> bool) (l : list xval) : nat :=
  match l with [] => 0 | x :: t => if f x then S (search f t) else 0 end.
Definition search_left (l : list xval) (v : xval) : nat := search (fun x => before x v) l.
Definition search_right (l : list xval) (v : xval) : nat := search (fun x => negb (before v x)) l.

(** numpy's _search_sorted_inclusive *)
Fixpoint search_inclusive (l : list xval) (edges : list xval) : list nat :=
  match edges with
  | [] => []
  | [v] => [search_right l v]
  | v :: t => search_left l v :: search_inclusive l t
  end.

(** np.diff *)
Fixpoint diff (l : list nat) : list nat :=
  match l with x :: (y :: _) as t => (y - x) :: diff t | _ => [] end.

(** np.any(edges[:-1] > edges[1:]) *)
Fixpoint decreases (edges : list xval) : bool :=
  match edges with x :: (y :: _) as t => xltb y x || decreases t | _ => false end.

(** numpy.histogram(a, edges)[0], for a list of edges.  numpy treats the data in blocks of 65536
    values and adds their counts; here there is one block.  Counts do not overflow.  [None] is the
    ValueError about the edges. *)
Definition histogram (vals edges : list xval) : option (list nat) :=
  if decreases edges then None else Some (diff (search_inclusive (nsort vals) edges)).

(** * A channel of a TESGroup *)

Definition xadd (x y : xval) : xval :=
  match x, y with
  | NaN, _ | _, NaN => NaN
  | Fin a, Fin b => Fin (a + b)
  | PosInf, NegInf | NegInf, PosInf => NaN
  | PosInf, _ | _, PosInf => PosInf
  | NegInf, _ | _, NegInf => NegInf
  end.
Definition xhalf (x : xval) : xval := match x with Fin a => Fin ((1 # 2) * a) | _ => x end.
(** channel.py:2522, [0.5 * (bin_edges[1:] + bin_edges[:-1])] *)
Fixpoint centers (edges : list xval) : list xval :=
  match edges with x :: (y :: _) as t => xhalf (xadd y x) :: centers t | _ => [] end.

(** Elementwise [and] of two boolean vectors, refused for different lengths (a vector of length
    one, which numpy would broadcast, is refused too). *)
Definition and_vec (a b : list bool) : option (list bool) :=
  if Nat.eqb (length a) (length b) then Some (map2 andb a b) else None.
(** vals[g] *)
Fixpoint where_true {A : Type} (g : list bool) (l : list A) : list A :=
  match g, l with c :: g', x :: l' => if c then x :: where_true g' l' else where_true g' l' | _, _ => [] end.

(** The state of a channel: the cut masks, the time stamps and the attribute asked for. *)
Record dset_ := mkDs { masks : list N; times : list xval; vals : list xval }.

(** channel.py:2498-2534, [hist].  [r] is the registry of cut fields of the group; [g_func] the
    vector returned by the function given, if any. *)
Definition ds_hist (r : registry) (edges : list xval) (t0 tlast : xval) (category : list (String.string * String.string))
           (g_func : option (dset_ -> list bool)) (d : dset_) : option (list xval * list nat) :=
  let tg := map2 andb (map (fun t => xltb t0 t) (times d)) (map (fun t => xltb t tlast) (times d)) in
  match good r [] category (masks d) with
  | None => None
  | Some gd =>
      match and_vec tg gd with
      | None => None
      | Some g1 =>
          match and_vec g1 (map (fun v => negb (isnan v)) (vals d)) with
          | None => None
          | Some g2 =>
              match (match g_func with None => Some g2 | Some f => and_vec g2 (f d) end) with
              | None => None
              | Some g => match histogram (where_true g (vals d)) edges with
                          | None => None
                          | Some c => Some (centers edges, c)
                          end
              end
          end
      end
  end.

(** * A TESGroup *)

(** Dictionary comprehensions, stopped by the first exception. *)
Fixpoint collect {A : Type} (f : Z -> option A) (ks : list Z) (d : dict A) : option (dict A) :=
  match ks with
  | [] => Some d
  | k :: t => match f k with None => None | Some v => collect f t (dset d k v) end
  end.

(** channel_group.py:1359-1370, [hists]; [datasets] are the channels, with their numbers, in the
    order of the group, and [s] says which are bad (GrpModel). *)
Fixpoint collect_ds {A B : Type} (f : A -> option B) (l : list (Z * A)) (d : dict B) : option (dict B) :=
  match l with
  | [] => Some d
  | (k, x) :: t => match f x with None => None | Some v => collect_ds f t (dset d k v) end
  end.
Definition good_datasets (s : tes) (datasets : list (Z * dset_)) : list (Z * dset_) :=
  filter (fun p => negb (is_bad s (fst p))) datasets.
Definition tes_hists (r : registry) (s : tes) (datasets : list (Z * dset_)) (edges : list xval) (t0 tlast : xval)
           (category : list (String.string * String.string)) (g_func : option (dset_ -> list bool)) : option (list xval * dict (list nat)) :=
  match collect_ds (fun d => option_map snd (ds_hist r edges t0 tlast category g_func d)) (good_datasets s datasets) [] with
  | None => None
  | Some c => Some (centers edges, c)
  end.
(** [counts += v] for every item *)
Definition add_up (m : nat) (c : dict (list nat)) : list nat :=
  fold_left (fun acc p => map2 Nat.add acc (snd p)) c (repeat 0 m).
(** channel_group.py:1372-1385, [hist] *)
Definition tes_hist (r : registry) (s : tes) (datasets : list (Z * dset_)) (edges : list xval) (t0 tlast : xval)
           (category : list (String.string * String.string)) (g_func : option (dset_ -> list bool)) : option (list xval * list nat) :=
  match tes_hists r s datasets edges t0 tlast category g_func with
  | None => None
  | Some (b, c) => Some (b, add_up (length b) c)
  end.

(** * OFF files *)

(** off/channels.py:506-522, [Channel.hist]; [attr] is the result of getAttr, see RecModel. *)
Definition off_hist (attr : option (list xval)) (edges : list xval) (calibration : option (list xval -> option (list xval)))
  : option (list xval * list nat) :=
  match attr with
  | None => None
  | Some v =>
      match (match calibration with None => Some v | Some f => f v end) with
      | None => None
      | Some v' => match histogram v' edges with None => None | Some c => Some (centers edges, c) end
      end
  end.
(** off/channels.py:1228-1237, [hists]; [attr c] is what getAttr returns for a channel. *)
Definition group_hists {C : Type} (attr : chan C -> option (list xval)) (g : group C) (edges : list xval) (channums : option (list Z))
  : option (list xval * dict (list nat)) :=
  let ks := match channums with None => keys g | Some l => l end in
  match collect (fun k => match dget (chans g) k with
                          | None => None
                          | Some c => option_map snd (off_hist (attr c) edges None)
                          end) ks [] with
  | None => None
  | Some d => Some (centers edges, d)
  end.
(** off/channels.py:1211-1226, [hist]; a calibration is refused. *)
Definition group_hist {C : Type} (attr : chan C -> option (list xval)) (g : group C) (edges : list xval)
           (calibration : option (list xval -> option (list xval))) : option (list xval * list nat) :=
  match calibration with
  | Some _ => None
  | None => match group_hists attr g edges None with
            | None => None
            | Some (b, c) => Some (b, add_up (length b) c)
            end
  end.
