(** savitzky_golay, mass/mathstat/utilities.py:103-171.  Arithmetic is exact; the arguments
    window_size and order are integers, y is an array. *)
From Coq Require Import ZArith QArith Qcanon Bool List.
From Verif Require Import QcPre.
Import ListNotations.
Local Open Scope Qc_scope.

Definition zc (z : Z) : Qc := Q2Qc (inject_Z z).
Fixpoint pow (x : Qc) (n : nat) : Qc := match n with O => 1 | S k => x * pow x k end.

(** 161, [range(-half_window, half_window + 1)] *)
Definition offsets (half : nat) : list Z := map (fun j => (Z.of_nat j - Z.of_nat half)%Z) (seq 0 (2 * half + 1)).
(** 161 *)
Definition powers_matrix (order half : nat) : list (list Qc) :=
  map (fun k => map (fun i => pow (zc k) i) (seq 0 (S order))) (offsets half).

(** Python's indexing. *)
Definition py_index {A : Type} (l : list A) (i : Z) : option A :=
  if (0 <=? i)%Z then nth_error l (Z.to_nat i)
  else if (0 <=? i + Z.of_nat (length l))%Z then nth_error l (Z.to_nat (i + Z.of_nat (length l))) else None.

Definition absq (x : Qc) : Qc := if qltb x 0 then - x else x.

(** 165-167; [y0] and [yl] are the first and the last value. *)
Definition padded (half : nat) (y0 yl : Qc) (y : list Qc) : list Qc :=
  let n := length y in
  map (fun v => y0 - absq (v - y0)) (rev (firstn half (skipn 1 y)))
  ++ y
  ++ map (fun v => yl + absq (v - yl)) (rev (firstn (n - 1 - (n - 1 - half)) (skipn (n - 1 - half) y))).

(** [np.convolve(a, v, mode='valid')]: the shorter one is moved along the longer one, backwards. *)
Definition conv1 (long short : list Qc) : list Qc :=
  let m := length short in
  map (fun i => qsum m (fun j => nth (i + (m - 1 - j)) long 0 * nth j short 0)) (seq 0 (length long - m + 1)).
Definition convolve (a v : list Qc) : option (list Qc) :=
  if (Nat.eqb (length a) 0 || Nat.eqb (length v) 0)%bool then None
  else if Nat.leb (length v) (length a) then Some (conv1 a v) else Some (conv1 v a).

(** 153-168.  [pinv] is np.linalg.pinv.  [None]: an exception. *)
Definition savgol (pinv : list (list Qc) -> list (list Qc)) (y : list Qc) (window order deriv : Z) : option (list Qc) :=
  let w := Z.abs_nat window in
  let o := Z.abs_nat order in
  if Nat.even w then None
  else if Nat.ltb w (o + 2) then None
  else
    let half := Nat.div2 (w - 1) in
    match py_index (pinv (powers_matrix o half)) deriv, y with
    | Some m, y0 :: _ => convolve m (padded half y0 (last y 0) y)
    | _, _ => None
    end.
