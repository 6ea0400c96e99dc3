(** What apply_cuts and auto_cuts should do. *)
From Coq Require Import ZArith NArith QArith Qcanon Bool String Permutation Sorted List.
From Verif Require Import QcPre CutModel CutMaskProofs CutHistProofs HistModel AvgSpec AcModel.
Import ListNotations.
Local Open Scope list_scope.

(** A value fails a limit: with one range, it is at or beyond one of the limits given; with a list of
    ranges, it is in none of them (in one of them if inverted).  Nothing fails a missing limit. *)
Definition outside (a : option allowed_arg) (x : xval) : Prop :=
  match a with
  | None => False
  | Some (OneRange lo hi) => (exists v, lo = Some v /\ xleq x v) \/ (exists v, hi = Some v /\ xleq v x)
  | Some (Ranges l) => if existsb is_invert l then in_some_range l x else ~ in_some_range l x
  end.
Definition usable (a : option allowed_arg) : Prop :=
  match a with Some (Ranges l) => l <> [] /\ Forall has_limit l | _ => True end.

(** Pulse [i] is cut by field [n]. *)
Definition cut_by (r : registry) (n : name) (ws : list N) (i : nat) : Prop :=
  exists v, bad_for r n ws = Some v /\ nth_error v i = Some true.
Definition registered (r : registry) (n : name) : Prop := In n (map fst (bdesc r)) /\ n <> ""%string.
(** Pulse [i] passes all boolean fields. *)
Definition is_good (r : registry) (ws : list N) (i : nat) : Prop :=
  forall n, registered r n -> ~ cut_by r n ws i.

(** The quantity of pulse [i] compared with the limits for field [n]. *)
Inductive quantity (tb : Q) (p : quantities) (c : controls) (i : nat) : name -> option allowed_arg -> xval -> Prop :=
| q_energy x : nth_error (energy p) i = Some x -> quantity tb p c i "energy" (c_energy c) x
| q_rms x : nth_error (pretrig_rms p) i = Some x -> quantity tb p c i "pretrigger_rms" (c_pretrigger_rms c) x
| q_mean x : nth_error (pretrig_mean p) i = Some x -> quantity tb p c i "pretrigger_mean" (c_pretrigger_mean c) x
| q_peak_time x : nth_error (peak_time p) i = Some x -> quantity tb p c i "peak_time_ms" (c_peak_time_ms c) (xscale 1000 x)
| q_rise_time x : nth_error (rise_time p) i = Some x -> quantity tb p c i "rise_time_ms" (c_rise_time_ms c) (xscale 1000 x)
| q_deriv x : nth_error (postpeak_deriv p) i = Some x -> quantity tb p c i "postpeak_deriv" (c_postpeak_deriv c) x
| q_average x : nth_error (pulse_average p) i = Some x -> quantity tb p c i "pulse_average" (c_pulse_average c) x
| q_peak x : nth_error (peak_value p) i = Some x -> quantity tb p c i "peak_value" (c_peak_value c) x
| q_min x y : nth_error (min_value p) i = Some x -> nth_error (pretrig_mean p) i = Some y ->
              quantity tb p c i "min_value" (c_min_value c) (xsub x y)
| q_time x : nth_error (timestamp p) i = Some x -> quantity tb p c i "timestamp_sec" (c_timestamp_sec c) x
| q_time_diff0 : i = 0%nat -> quantity tb p c i "timestamp_diff_sec" (c_timestamp_diff_sec c) PosInf
| q_time_diff j x y : i = S j -> nth_error (timestamp p) j = Some x -> nth_error (timestamp p) i = Some y ->
              quantity tb p c i "timestamp_diff_sec" (c_timestamp_diff_sec c) (xsub y x)
| q_sub_diff0 : i = 0%nat -> quantity tb p c i "subframecount_diff_sec" (c_subframecount_diff_sec c) PosInf
| q_sub_diff j x y : i = S j -> nth_error (subframecount p) j = Some x -> nth_error (subframecount p) i = Some y ->
              quantity tb p c i "subframecount_diff_sec" (c_subframecount_diff_sec c) (xsub (xscale tb y) (xscale tb x)).

Definition plain_fields : list name :=
  ["energy"; "pretrigger_rms"; "pretrigger_mean"; "peak_time_ms"; "rise_time_ms"; "postpeak_deriv"; "pulse_average";
   "peak_value"; "min_value"; "timestamp_sec"; "timestamp_diff_sec"; "subframecount_diff_sec"]%string.

(** Every quantity is known for [n] pulses. *)
Definition sized (p : quantities) (n : nat) : Prop :=
  length (energy p) = n /\ length (pretrig_rms p) = n /\ length (pretrig_mean p) = n /\ length (peak_time p) = n /\
  length (rise_time p) = n /\ length (postpeak_deriv p) = n /\ length (pulse_average p) = n /\ length (peak_value p) = n /\
  length (min_value p) = n /\ length (timestamp p) = n /\ length (subframecount p) = n.
Definition usable_controls (c : controls) : Prop :=
  usable (c_energy c) /\ usable (c_pretrigger_rms c) /\ usable (c_pretrigger_mean c) /\ usable (c_peak_time_ms c) /\
  usable (c_rise_time_ms c) /\ usable (c_postpeak_deriv c) /\ usable (c_pulse_average c) /\ usable (c_peak_value c) /\
  usable (c_min_value c) /\ usable (c_timestamp_sec c) /\ usable (c_timestamp_diff_sec c) /\
  usable (c_subframecount_diff_sec c) /\ usable (c_departure c).

(** The middle one of the values in order, or half the sum of the middle two; NaN if one is NaN. *)
Definition middle (l : list xval) (m : xval) : Prop :=
  (In NaN l /\ m = NaN) \/
  (~ In NaN l /\ exists s, Permutation l s /\ StronglySorted xleq s /\
     ((Nat.Odd (length s) /\ nth_error s (length s / 2) = Some m) \/
      (Nat.Even (length s) /\ exists a b, nth_error s (length s / 2 - 1) = Some a /\ nth_error s (length s / 2) = Some b /\
                                        m = xhalf (xadd a b)))).

(** The values of [l] at the positions where [P] holds, in order. *)
Inductive picked {A : Type} (P : nat -> Prop) : nat -> list A -> list A -> Prop :=
| picked_nil i : picked P i [] []
| picked_take i x l m : P i -> picked P (S i) l m -> picked P i (x :: l) (x :: m)
| picked_skip i x l m : ~ P i -> picked P (S i) l m -> picked P i (x :: l) m.

(** Pulse [j] was good just before the cut around the median: [ws] are the masks given, [ws'] the final ones. *)
Definition good_before (r : registry) (clear : bool) (ws ws' : list N) (j : nat) : Prop :=
  (forall n, registered r n -> n <> departure_field -> ~ cut_by r n ws' j) /\
  (clear = true \/ ~ cut_by r departure_field ws j).

(** The median absolute deviation from the median [m] is [d]. *)
Definition is_mad (l : list Qc) (m d : Qc) : Prop :=
  is_median l m /\ is_median (map (fun x => qabs (x - m)%Qc) l) d.

Local Open Scope Q_scope.
(** The pulses cut by default (documented in controller.py): in units of raw counts, milliseconds and
    counts per sample; [m] is the median pretrigger mean of the pulses [l].  The remaining fields cut
    nothing. *)
Record standard_limits (r : registry) (p : quantities) (l : list xval) (m : xval) (ws : list N) : Prop := {
  sl_rms : forall i x, nth_error (pretrig_rms p) i = Some (Fin x) -> (cut_by r "pretrigger_rms" ws i <-> 12 <= x);
  sl_peak_time : forall i x, nth_error (peak_time p) i = Some (Fin x) ->
    (cut_by r "peak_time_ms" ws i <-> 1000 * x <= -1 # 2 \/ 1 # 2 <= 1000 * x);
  sl_rise_time : forall i x, nth_error (rise_time p) i = Some (Fin x) ->
    (cut_by r "rise_time_ms" ws i <-> 1000 * x <= 0 \/ 1 # 5 <= 1000 * x);
  sl_deriv : forall i x, nth_error (postpeak_deriv p) i = Some (Fin x) -> (cut_by r "postpeak_deriv" ws i <-> 46 <= x);
  sl_average : forall i x, nth_error (pulse_average p) i = Some (Fin x) -> (cut_by r "pulse_average" ws i <-> x <= 0);
  sl_peak : forall i x, nth_error (peak_value p) i = Some (Fin x) -> (cut_by r "peak_value" ws i <-> x <= 0);
  sl_min : forall i x y, nth_error (min_value p) i = Some (Fin x) -> nth_error (pretrig_mean p) i = Some (Fin y) ->
    (cut_by r "min_value" ws i <-> x + - y <= -50 # 1);
  sl_others : forall f, In f ["energy"; "pretrigger_mean"; "timestamp_sec"; "timestamp_diff_sec"; "subframecount_diff_sec"]%string ->
    forall i, (i < length ws)%nat -> ~ cut_by r f ws i;
  sl_departure : l <> [] -> forall i x c, nth_error (pretrig_mean p) i = Some (Fin x) -> m = Fin c ->
    (cut_by r departure_field ws i <-> x + - c <= -50 # 1 \/ 50 # 1 <= x + - c) }.
