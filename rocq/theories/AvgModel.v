(** Model of the selection of pulses for averages, mass/core/channel.py:1072-1120 and 1828-1847.

    Values are exact rationals (0.05 is 1/20).  [None] is an exception, or NaN in the result. *)
From Coq Require Import ZArith QArith Qcanon Bool List.
From Verif Require Import QcPre LagModel QSort ToepModel OptModel.
Import ListNotations.
Open Scope Z_scope.

(** [l[:n]] and [l[n:]] *)
Definition py_upto {A : Type} (n : Z) (l : list A) : list A :=
  if 0 <=? n then firstn (Z.to_nat n) l else firstn (Z.to_nat (Z.of_nat (length l) + n)) l.
Definition py_from {A : Type} (n : Z) (l : list A) : list A :=
  if 0 <=? n then skipn (Z.to_nat n) l else skipn (Z.to_nat (Z.of_nat (length l) + n)) l.

(** [np.nonzero(g)[0]] *)
Fixpoint nonzero_from (i : nat) (g : list bool) : list nat :=
  match g with
  | [] => []
  | b :: t => if b then i :: nonzero_from (S i) t else nonzero_from (S i) t
  end.
Definition nonzero (g : list bool) : list nat := nonzero_from 0 g.
Definition count (g : list bool) : Z := Z.of_nat (length (filter (fun b => b) g)).

(** [g[idx] = False] for a list of indices. *)
Definition clear_at (idx : list nat) (g : list bool) : list bool :=
  map (fun i => nth i g false && negb (existsb (Nat.eqb i) idx)) (seq 0 (length g)).

(** [a[mask]] *)
Definition select {A : Type} (mask : list bool) (l : list A) : list A :=
  map snd (filter fst (combine mask l)).

(** channel.py:1828-1847, [first_n_good_pulses]; [g] is the result of cuts.good. *)
Definition first_n_good_pulses {A : Type} (data : list A) (g : list bool) (n : Z) : option (list A * list nat) :=
  if negb (Nat.eqb (length g) (length data)) then None
  else
    let g' := if n <? count g then clear_at (py_from n (nonzero g)) g else g in
    Some (select g' data, nonzero g').

(** [np.median] *)
Definition median (l : list Qc) : option Qc :=
  let s := qsort l in
  let n := length s in
  match s with
  | [] => None
  | _ => if Nat.even n then Some ((nth (n / 2 - 1) s 0 + nth (n / 2) s 0) / qz 2)%Qc
         else Some (nth (n / 2) s 0%Qc)
  end.

(** [np.cumsum] of a mask; [(x == c).argmax()], 0 if there is no such entry. *)
Fixpoint cumsum (acc : Z) (g : list bool) : list Z :=
  match g with
  | [] => []
  | b :: t => let a := if b then acc + 1 else acc in a :: cumsum a t
  end.
Fixpoint find_eq (c : Z) (i : nat) (l : list Z) : option nat :=
  match l with
  | [] => None
  | x :: t => if x =? c then Some i else find_eq c (S i) t
  end.
Definition argmax_eq (c : Z) (l : list Z) : nat := match find_eq c 0 l with Some i => i | None => 0%nat end.

(** [np.abs(v / med - 1) < 0.05]; division by a zero median gives NaN or an infinity, which is
    not below. *)
Definition close (med v : Qc) : bool :=
  match qdiv v med with
  | Some r => qltb (r - 1)%Qc (Q2Qc (1 # 20)) && qltb (1 - r)%Qc (Q2Qc (1 # 20))
  | None => false
  end.

(** channel.py:1107-1118, [avg_pulses_auto_masks]: the mask handed to compute_average_pulse. *)
Definition auto_mask (use : list bool) (pulse_average : list Qc) (max_pulses : Z) : option (list bool) :=
  if count use <=? 0 then None
  else
    match median (select use pulse_average) with
    | None => None
    | Some med =>
        let mask := map (fun p => fst p && snd p) (combine (map (close med) pulse_average) use) in
        if count mask <=? 0 then None
        else if max_pulses <? count mask then
          let stop_at := argmax_eq max_pulses (cumsum 0 mask) in
          Some (map (fun i => nth i mask false && Nat.leb i stop_at) (seq 0 (length mask)))
        else Some mask
    end.

(** channel.py:1072-1093, [compute_average_pulse]: the stored average pulse afterwards. *)
Definition vmean (l : list Qc) : option Qc := qdiv (total l) (qz (Z.of_nat (length l))).
Fixpoint sequence {A : Type} (l : list (option A)) : option (list A) :=
  match l with
  | [] => Some []
  | x :: t => match x, sequence t with Some v, Some r => Some (v :: r) | _, _ => None end
  end.
Definition compute_average_pulse (nSamples : nat) (data : list (list Qc)) (mask : list bool) (stored : list Qc)
           (nsamp : Z) (subtract_mean force_new : bool) : option (list Qc) :=
  if existsb (fun x => negb (Qc_eq_bool x 0%Qc)) stored && negb force_new then Some stored
  else if negb (Nat.eqb (length mask) (length data)) then None
  else
    let rows := select mask data in
    match sequence (map (fun j => vmean (map (fun r => nth j r 0%Qc) rows)) (seq 0 nSamples)) with
    | None => None
    | Some avg =>
        if subtract_mean then
          match vmean (py_upto nsamp avg) with
          | None => None
          | Some base => Some (map (fun x => (x - base)%Qc) avg)
          end
        else Some avg
    end.
