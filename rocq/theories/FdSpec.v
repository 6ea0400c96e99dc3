(** What filtering a channel should give. *)
From Coq Require Import String QArith Qcanon List.
From Verif Require Import QcPre LagSpec FdModel.
Import ListNotations.
Local Open Scope Qc_scope.

(** The arrays of a channel fit its records, and its segments cover them. *)
Definition sound (c : chan) : Prop :=
  Forall (fun r => length r = nsamp c) (recs c) /\ length (ptm c) = length (recs c) /\ length (shifts c) = length (recs c) /\
  length (fvals c) = length (recs c) /\ length (fphases c) = length (recs c) /\
  (0 < per_seg c)%nat /\ (length (recs c) <= nsegs c * per_seg c)%nat /\ (forall s, (s < nsegs c)%nat -> (s * per_seg c < length (recs c))%nat).
(** All that is not a result is the same. *)
Definition same_but_results (c c' : chan) : Prop :=
  recs c' = recs c /\ nsamp c' = nsamp c /\ per_seg c' = per_seg c /\ nsegs c' = nsegs c /\ ptm c' = ptm c /\ shifts c' = shifts c /\
  avg c' = avg c /\ acorr c' = acorr c /\ psd c' = psd c /\ on_disk c' = on_disk c /\ flt_now c' = flt_now c /\ type_now c' = type_now c.
(** The results say P of each record: its number, arrival time and value. *)
Definition results (c : chan) (P : nat -> option Qc -> option Qc -> Prop) : Prop :=
  length (fvals c) = length (recs c) /\ length (fphases c) = length (recs c) /\
  forall i, (i < length (recs c))%nat -> P i (nth i (fphases c) None) (nth i (fvals c) None).
(** Nothing has been computed yet. *)
Definition untouched (c : chan) : Prop := Forall (fun x => x = Some 0) (fvals c).
(** Value v is the filter's response to the record from sample m on, and t times v the other filter's. *)
Definition estimates (values dt : list Qc) (m : nat) (r : list Qc) (t v : option Qc) : Prop :=
  v = Some (lagged values r m) /\
  ((lagged values r m = 0 /\ t = None) \/ (lagged values r m <> 0 /\ exists q, t = Some q /\ q * lagged values r m = lagged dt r m)).
(** (t, v) is the vertex of the parabola that fits the responses at five lags best; None: there is no vertex. *)
Definition five_lag_result (values r : list Qc) (t v : option Qc) : Prop :=
  (exists x y a b q, t = Some x /\ v = Some y /\ best_parabola (lagged values r) a b q /\ q <> 0 /\ is_vertex a b q x y) \/
  (t = None /\ v = None /\ exists a b, best_parabola (lagged values r) a b 0).
