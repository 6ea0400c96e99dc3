(* Noise k times as strong, and the pulse less its mean. *)
From Coq Require Import ZArith QArith Qcanon List.
From Verif Require Import QcPre LagModel.
Import ListNotations.
Local Open Scope Qc_scope.

Definition scaled (k : Qc) (l : list Qc) : list Qc := map (fun x => k * x) l.
Definition mean (l : list Qc) : Qc := qsum (length l) (fun i => nth i l 0) / qz (Z.of_nat (length l)).
Definition centred (l : list Qc) : list Qc := map (fun x => x - mean l) l.
Definition white (v : Qc) (n : nat) : list Qc := match n with O => [] | S m => v :: repeat 0 m end.
(* all but the first two and the last two entries *)
Definition interior (l : list Qc) : list Qc := firstn (length l - 4) (skipn 2 l).
Definition sum_of_squares (l : list Qc) : Qc := qsum (length l) (fun i => nth i l 0 * nth i l 0).
