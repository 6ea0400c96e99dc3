(* Nearest neighbours of a channel on the array.
   core/channel.py:2381-2497 (set_nearest_neighbors_list).
   Simplified: integers are not bounded, squared distances are exact (the code adds floats). *)
From Coq Require Import ZArith Lia String List.
Import ListNotations.
Open Scope Z_scope.

(* one line of the map file: the channel number and the position *)
Notation map_row := (Z * list Z)%type.

(* channel.py:2461-2464, np.loadtxt gives a table only if there are two lines and two columns, all lines alike *)
Definition columns (m : list map_row) : nat := match m with [] => 0%nat | r :: _ => List.length (snd r) end.
Definition table (m : list map_row) : bool :=
  (Nat.leb 2 (List.length m) && Nat.leb 1 (columns m) && forallb (fun r => Nat.eqb (List.length (snd r)) (columns m)) m)%bool.

(* channel.py:2436, 2485, positionValues[channum == channelNumbers][0] *)
Fixpoint position_of (m : list map_row) (c : Z) : option (list Z) :=
  match m with
  | [] => None
  | (c', p) :: m' => if c' =? c then Some p else position_of m' c
  end.

(* channel.py:2408, np.amax and np.amin along the table, column by column *)
Fixpoint zip_with (f : Z -> Z -> Z) (a b : list Z) : list Z :=
  match a, b with
  | x :: a', y :: b' => f x y :: zip_with f a' b'
  | _, _ => []
  end.
Fixpoint fold_rows (f : Z -> Z -> Z) (acc : list Z) (m : list map_row) : list Z :=
  match m with
  | [] => acc
  | r :: m' => fold_rows f (zip_with f acc (snd r)) m'
  end.
Definition extreme (f : Z -> Z -> Z) (m : list map_row) : list Z :=
  match m with [] => [] | r :: m' => fold_rows f (snd r) m' end.
Definition max_distances (m : list map_row) : list Z := zip_with Z.sub (extreme Z.max m) (extreme Z.min m).

(* channel.py:2410-2415 *)
Definition squares (d : Z) : list Z := map (fun i => Z.of_nat i ^ 2) (seq 0 (Z.to_nat (d + 1))).
(* channel.py:2417-2422, np.meshgrid and the sum over its members: every combination *)
Fixpoint combinations (l : list (list Z)) : list Z :=
  match l with
  | [] => [0]
  | s :: l' => flat_map (fun x => map (Z.add x) (combinations l')) s
  end.

(* channel.py:2424, np.unique *)
Fixpoint insert_unique (x : Z) (l : list Z) : list Z :=
  match l with
  | [] => [x]
  | y :: l' => if x <? y then x :: l else if x =? y then l else y :: insert_unique x l'
  end.
Definition unique (l : list Z) : list Z := fold_right insert_unique [] l.

(* channel.py:2427-2429, the dictionary made by enumerate, and looking a key up *)
Fixpoint lookup (l : list Z) (n : Z) (d : Z) : option Z :=
  match l with
  | [] => None
  | x :: l' => if x =? d then Some n else lookup l' (n + 1) d
  end.

(* channel.py:2437-2439 *)
Fixpoint squared_distance (p q : list Z) : Z :=
  match p, q with
  | x :: p', y :: q' => (x - y) ^ 2 + squared_distance p' q'
  | _, _ => 0
  end.

(* one line of neighbors_list: channel number, squared distance, n *)
Notation neighbor := (Z * Z * Z)%type.

(* channel.py:2433-2443; None for a KeyError or IndexError *)
Fixpoint neighbor_rows (m : list map_row) (dict : list Z) (here : list Z) (rows : list map_row) : option (list neighbor) :=
  match rows with
  | [] => Some []
  | (c, _) :: rows' =>
      match position_of m c with
      | None => None
      | Some p =>
          let d := squared_distance here p in
          match lookup dict 0 d, neighbor_rows m dict here rows' with
          | Some n, Some l => Some ((c, d, n) :: l)
          | _, _ => None
          end
      end
  end.
Definition neighbor_list (m : list map_row) (here : list Z) : option (list neighbor) :=
  neighbor_rows m (unique (combinations (map squares (max_distances m)))) here m.

(* one category in the channel's HDF5 group: the two datasets *)
Record stored := mkStored { position : option (list Z); neighbors : option (list neighbor) }.
Definition nothing : stored := mkStored None None.

(* h5py's require_dataset: make one of zeros, or take the one of that shape, or raise *)
Definition require {A : Type} (zero : A) (n : nat) (d : option (list A)) : option (list A) :=
  match d with
  | None => Some (repeat zero n)
  | Some l => if Nat.eqb (List.length l) n then Some l else None
  end.
Definition zero_row (r : neighbor) : bool := let '(c, d, n) := r in ((c =? 0) && (d =? 0) && (n =? 0))%bool.

Inductive outcome := Done | Raised.

(* channel.py:2461-2497: what is stored afterwards, and whether it raised *)
Definition set_nearest_neighbors_list (channum : Z) (m : list map_row) (distance_type : string) (force_new : bool) (s : stored)
  : stored * outcome :=
  if negb (table m) then (s, Raised)
  else
    match require 0 (columns m) (position s) with
    | None => (s, Raised)
    | Some p =>
        match require (0, 0, 0) (List.length m) (neighbors s) with
        | None => (mkStored (Some p) (neighbors s), Raised)
        | Some l =>
            let s1 := mkStored (Some p) (Some l) in
            if (forallb zero_row l || force_new)%bool then
              match position_of m channum with
              | None => (s1, Raised)
              | Some here =>
                  if String.eqb distance_type "cartesian" then
                    match neighbor_list m here with
                    | Some l' => (mkStored (Some here) (Some l'), Done)
                    | None => (mkStored (Some here) (Some l), Raised)
                    end
                  else (mkStored (Some here) (Some l), Raised)
              end
            else (s1, Done)
        end
    end.
