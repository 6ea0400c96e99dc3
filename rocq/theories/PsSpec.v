(** What a power spectrum is: the squared contents of each oscillation. *)
From Coq Require Import Reals ZArith Bool List.
From Verif Require Import FtSpec PsModel.
Import ListNotations.
Local Open Scope R_scope.

(** the entry at k of the spectrum of one segment of 2m samples, x being the data times the window and s the sum of the
    window's squares *)
Definition density (dt s : R) (x : list R) (k : nat) : R := 2 * dt / s * (cosines x k ^ 2 + sines x k ^ 2).
Definition product (x y : list R) : list R := map (fun j => nth j x 0 * nth j y 0) (seq 0 (length x)).
(** all entries, the first and the last counted once and the others twice, as positive and negative frequencies *)
Definition two_sided (m : nat) (S : nat -> R) : R := S 0%nat + S m + 2 * rsum (m - 1) (fun i => S (i + 1)%nat).
(** correlation of a vector with itself moved round by d *)
Definition correlation (x : list R) (d : nat) : R := rsum (length x) (fun j => nth j x 0 * nth ((j + d) mod length x)%nat x 0).
(** a window: symmetric, and between two values *)
Definition symmetric (l : list R) : Prop := rev l = l.
Definition between (a b : R) (l : list R) : Prop := Forall (fun v => a <= v <= b) l.
(** The data a spectrum is of, x, and the sum s of the squares of the window *)
Definition used (w : window) (m2 : nat) (data x : list R) (s : R) : Prop :=
  match w with
  | WNone => x = data /\ s = INR m2
  | WCall f => length (f m2) = m2 /\ x = product (f m2) data /\ s = energy (f m2)
  | WSeq l => length l = m2 /\ x = product l data /\ s = energy l
  end.
(** the right number of data, and of the window's entries *)
Definition addable (w : window) (m2 : nat) (data : list R) : Prop :=
  length data = m2 /\ (0 < m2)%nat /\ match w with WNone => True | WCall f => length (f m2) = m2 \/ length (f m2) = 1%nat | WSeq l => length l = m2 \/ length l = 1%nat end.
