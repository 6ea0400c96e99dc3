(** Objects and times of OFF channels: DriftCorrection, mass/off/channels.py:32-73, and the external trigger timing,
    852-890 and 1424-1445.  Numbers are exact; None is an exception. *)
From Coq Require Import Ascii String Bool ZArith QArith Qcanon List.
From Verif Require Import QcPre LjhModel ArrModel HxModel GtModel LagModel.
Import ListNotations.
Local Open Scope string_scope.
Local Open Scope list_scope.
Local Infix "^^" := String.append (right associativity, at level 60).
Local Notation length := List.length.

(** * DriftCorrection *)
Record drift := mkDrift { indicator_name : string; uncorrected_name : string; median_indicator : Qc; slope : Qc }.
(** 44-46 *)
Definition apply_drift (d : drift) (indicator uncorrected : Qc) : Qc := ((1 + (indicator - median_indicator d) * slope d) * uncorrected)%Qc.
(** What is stored. *)
Inductive stored := SText (s : string) | SNumber (q : Qc) | SVersion (z : Z).
(** 48-53, in the group at [base] *)
Definition drift_ops (d : drift) (name : string) : list (string * option stored) :=
  [(name ^^ "/indicatorName", Some (SText (indicator_name d))); (name ^^ "/uncorrectedName", Some (SText (uncorrected_name d)));
   (name ^^ "/medianIndicator", Some (SNumber (median_indicator d))); (name ^^ "/slope", Some (SNumber (slope d))); (name ^^ "/version", Some (SVersion 1%Z))].
Definition drift_to_hdf5 (d : drift) (base : path) (name : string) (f : file stored) : file stored * bool := run base (drift_ops d name) f.
(** 55-63; a dataset of another kind is not modelled further than that reading it fails. *)
Definition drift_from_hdf5 (base : path) (name : string) (f : file stored) : option drift :=
  match lookup f (resolve base (name ^^ "/indicatorName")), lookup f (resolve base (name ^^ "/uncorrectedName")),
        lookup f (resolve base (name ^^ "/medianIndicator")), lookup f (resolve base (name ^^ "/slope")), lookup f (resolve base (name ^^ "/version")) with
  | Some (Some (SText i)), Some (Some (SText u)), Some (Some (SNumber m)), Some (Some (SNumber s)), Some (Some (SVersion v)) =>
      if (v =? 1)%Z then Some (mkDrift i u m s) else None
  | _, _, _, _, _ => None
  end.

(** * External triggers *)
(** The header's ReadoutInfo with its numbers. *)
Notation header := (list (string * Z)).
Definition entry (h : header) (k : string) : option Z := option_map snd (find (fun p => String.eqb (fst p) k) h).
(** 863-866, subframeDivisions: hdr["NumberOfRows"] is always read, and the other key is misspelt. *)
Definition subframe_divisions (h : header) : option Z :=
  match entry h "NumberOfRows" with
  | None => None
  | Some rows => Some (match entry h "SubframeDivsions" with Some d => d | None => rows end)
  end.
(** 852-855, rowPeriodSeconds *)
Definition row_period (h : header) (frame_period : Qc) : option Qc :=
  match entry h "NumberOfRows" with
  | None => None
  | Some rows => if (rows =? 0)%Z then None else Some (frame_period / qz rows)%Qc
  end.
(** A channel: whether it is bad, its header, the frame period, the frame counts of its records, and the attributes of
    subframes and seconds that were set. *)
Record off_channel := mkOff { bad : bool; info : header; frame_period : Qc; framecount : list Z;
  after : option (list Z * list Qc); until : option (list Z * list Qc); nearest : option (list Z * list Qc) }.
Record wanted := mkWanted { w_after : bool; w_until : bool; w_nearest : bool }.
Definition in_seconds (period : Qc) (l : list Z) : list Z * list Qc := (l, map (fun z => (qz z * period)%Qc) l).
(** 873-890, _calcExternalTriggerTiming of one channel *)
Definition timing_of (ts : list Z) (w : wanted) (c : off_channel) : option off_channel :=
  match subframe_divisions (info c) with
  | None => None
  | Some d =>
      match nearest_arrivals (map (fun n => (n * d)%Z) (framecount c)) ts, row_period (info c) (frame_period c) with
      | Pair rows, Some p =>
          Some (mkOff (bad c) (info c) (frame_period c) (framecount c)
                  (if w_after w then Some (in_seconds p (map fst rows)) else after c)
                  (if w_until w then Some (in_seconds p (map snd rows)) else until c)
                  (if w_nearest w then Some (in_seconds p (map (fun r => Z.min (fst r) (snd r)) rows)) else nearest c))
      | _, _ => None
      end
  end.
Definition mark_bad (c : off_channel) : off_channel := mkOff true (info c) (frame_period c) (framecount c) (after c) (until c) (nearest c).
(** util.py:243-259 with _rethrow: the first channel that raises is marked bad, and the exception goes on *)
Fixpoint timing_group (ts : list Z) (w : wanted) (cs : list off_channel) : list off_channel * bool :=
  match cs with
  | [] => ([], false)
  | c :: t =>
      if bad c then let '(l, r) := timing_group ts w t in (c :: l, r)
      else match timing_of ts w c with
           | None => (mark_bad c :: t, true)
           | Some c' => let '(l, r) := timing_group ts w t in (c' :: l, r)
           end
  end.
(** 1429-1445: the trigger counts are the eight-byte numbers after the first line of the file *)
Definition trigger_subframes (f : bytes) : list Z := int64s (snd (take_line f)).
Definition calc_timing (f : option bytes) (w : wanted) (cs : list off_channel) : list off_channel * bool :=
  match f with None => (cs, true) | Some f => timing_group (trigger_subframes f) w cs end.
