(** Fake data and files in memory: mass/core/fake_data.py FakeDataGenerator 29-52, _generate_virtual_file 54-89, _generate_virtual_noise_file 91-110,
    generate_tesgroup 117-143; mass/core/files.py VirtualFile 84-127.
    Weights are rationals, samples reals.  Random numbers (scale factors, shuffling, noise) are arguments; times of pulses are left out. *)
From Coq Require Import Reals QArith Qround ZArith Bool List Permutation.
From Coq Require Import R_Ifp.
Import ListNotations.

(** numpy's conversion to integers truncates toward zero. *)
Definition qtrunc (q : Q) : Z := if Qle_bool 0 q then Qfloor q else (- Qfloor (- q))%Z.
Definition qsum (l : list Q) : Q := fold_right Qplus 0%Q l.
Definition zsum (l : list Z) : Z := fold_right Z.add 0%Z l.
(** The first index of the largest *)
Fixpoint amax (l : list Z) : option (nat * Z) :=
  match l with
  | [] => None
  | x :: t => match amax t with None => Some (0%nat, x) | Some (i, m) => if (m <=? x)%Z then Some (0%nat, x) else Some (S i, m) end
  end.
Fixpoint add_at (i : nat) (d : Z) (l : list Z) : list Z :=
  match l, i with
  | [], _ => []
  | x :: t, O => (x + d)%Z :: t
  | x :: t, S j => x :: add_at j d t
  end.
(** 72-75: how many pulses come from each distribution.  [None]: raises (no weights).  A sum of 0 (undefined in the code) is left out by the
    theorems. *)
Definition counts (n : Z) (ws : list Q) : option (list Z) :=
  let c := map (fun w => qtrunc (inject_Z n * w / qsum ws)) ws in
  match amax c with None => None | Some (i, _) => Some (add_at i (n - zsum c) c) end.

Section Scales.
(** A distribution gives a list of as many factors as asked; [shuffle] is the random order. *)
Variable D : Type.
Variable rvs : D -> Z -> list R.
Variable shuffle : list R -> list R.
Definition draws (c : list Z) (ds : list D) : list R := concat (map (fun p => rvs (snd p) (fst p)) (combine c ds)).
(** 67-80.  [ds] None: all of unit height.  Weights None: the indexing of a 0-dimensional array raises.  The loop of 82-84 raises if there are
    too few scale factors. *)
Definition scales (n : Z) (ds : option (list D)) (ws : option (list Q)) : option (list R) :=
  match ds with
  | None => Some (repeat 1%R (Z.to_nat n))
  | Some ds =>
      match ws with
      | None => None
      | Some ws =>
          match counts n ws with
          | None => None
          | Some c =>
              match combine c ds with
              | [] => None
              | _ => let s := shuffle (draws c ds) in if (Z.of_nat (length s) <? n)%Z then None else Some s
              end
          end
      end
  end.
End Scales.

Open Scope R_scope.
(** 46-50 *)
Definition shape (st fall rise p : R) (i : nat) : R :=
  let dt := (INR i - p - 1 / 2) * st in
  if Rle_dec dt 0 then 0 else exp (- dt / fall) - exp (- dt / rise).
Definition rmax (l : list R) : R := match l with [] => 0 | x :: t => fold_left Rmax t x end.
(** 46-52; the maximum of no samples raises in the code, and is only taken with a peak *)
Definition model (n : nat) (st fall rise p : R) (peak : option R) : list R :=
  let m := map (shape st fall rise p) (seq 0 n) in
  match peak with None => m | Some k => map (fun x => k * x / rmax m) m end.
(** 38-41 *)
Definition presamples (n : nat) (p : option R) : R := match p with None => INR n / 4 | Some x => x end.

(** Conversion of floats to uint16 (83, 106; out of range modulo 2^16, as on the usual machines) and of uint16 to int16 (files.py 98) *)
Definition rtrunc (x : R) : Z := if Rle_dec 0 x then Int_part x else (- Int_part (- x))%Z.
Definition uint16 (z : Z) : Z := (z mod 65536)%Z.
Definition int16 (z : Z) : Z := if (z <? 32768)%Z then z else (z - 65536)%Z.
Definition stored (y : R) : Z := int16 (uint16 (rtrunc (y + 1 / 2))).
(** 82-84: one record, from the model, a scale factor, the level before the trigger and noise *)
Definition record (m : list R) (s level : R) (noise : list R) : list Z := map (fun p => stored (fst p * s + level + snd p)) (combine m noise).
(** 103-104: one step of low-pass filtering; all records in a row.  np.roll by [k] *)
Definition roll (k : nat) (l : list R) : list R :=
  match length l with O => [] | n => let j := ((n - k mod n) mod n)%nat in skipn j l ++ firstn j l end.
Fixpoint lowpass (i steps : nat) (l : list R) : list R :=
  match steps with
  | O => l
  | S s => lowpass (S i) s (map (fun p => (fst p + snd p) / 2) (combine l (roll (2 ^ i) l)))
  end.

(** files.py 119-123 *)
Definition read_trace {A} (data : list A) (k : Z) : option A :=
  let n := Z.of_nat (length data) in
  if (n <=? k)%Z then None
  else if (0 <=? k)%Z then nth_error data (Z.to_nat k)
  else if (0 <=? n + k)%Z then nth_error data (Z.to_nat (n + k)) else None.
(** fake_data.py 138-142: channels by number *)
Fixpoint channels {A} (i : nat) (l : list A) : list (nat * A) := match l with [] => [] | x :: t => ((i * 2 + 1)%nat, x) :: channels (S i) t end.
