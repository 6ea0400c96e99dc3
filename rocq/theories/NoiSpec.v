(** What the noise analysis should compute. *)
From Coq Require Import ZArith QArith Qcanon List.
From Verif Require Import QcPre LagModel.
Import ListNotations.
Open Scope Z_scope.

(** Numbers that are good lengths for a Fourier transform. *)
Definition good_length (m : Z) : Prop :=
  exists k, 0 <= k /\ (m = 2 ^ k \/ m = 3 * 2 ^ k \/ m = 5 * 2 ^ k).

(** Consecutive pieces of [size] entries, leaving out an incomplete last one. *)
Definition pieces {A : Type} (size : nat) (l : list A) : list (list A) :=
  map (fun j => firstn size (skipn (j * size) l)) (seq 0 (length l / size)).

Local Open Scope Qc_scope.

Definition qn (n : nat) : Qc := qz (Z.of_nat n).
Definition average (l : list Qc) : Qc := qsum (length l) (fun i => nth i l 0) / qn (length l).

(** The estimate of the autocovariance at lag [k] from one stretch of data. *)
Definition autocov (l : list Qc) (k : nat) : Qc :=
  qsum (length l - k) (fun i => (nth i l 0 - average l) * (nth (i + k) l 0 - average l)) / qn (length l - k).

(** Its average over several stretches. *)
Definition mean_autocov (ls : list (list Qc)) (k : nat) : Qc :=
  average (map (fun l => autocov l k) ls).

(** No sample is further than [x] from the mean; the whole range is at most [x]. *)
Definition quiet (x : Qc) (l : list Qc) : Prop :=
  forall v, In v l -> v - average l <= x /\ average l - v <= x.
Definition small_range (x : Qc) (l : list Qc) : Prop :=
  forall u v, In u l -> In v l -> u - v <= x.

(** Positions [offs] of stretches of [size] entries of a list of [n]: the first stretch starts
    at the beginning, the last ends at the end, and each begins at most [step] after the one
    before. *)
Definition tiles (offs : list nat) (size step n : nat) : Prop :=
  nth 0 offs 0%nat = 0%nat /\
  (nth (length offs - 1) offs 0 + size = n)%nat /\
  forall k, (S k < length offs)%nat ->
    (nth k offs 0 <= nth (S k) offs 0 <= nth k offs 0 + step)%nat.

(** Entry [i] of [m + 1] belongs to the coarse bin [b] of [nbins]: its position scaled to the
    coarse bins is [b] to the nearest integer (halves up). *)
Definition in_bin (m nbins i b : nat) : Prop :=
  (i <= m)%nat /\
  (2 * b * (m + 1) <= 2 * i * nbins + (m + 1))%nat /\
  (2 * i * nbins + (m + 1) < 2 * (b + 1) * (m + 1))%nat.
