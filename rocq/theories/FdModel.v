(** Filters of LJH channels: computing, storing and loading them again, and filtering the records:
    mass/core/channel.py:643, 745-798 (files of version 2 only), 1122-1141, 1152-1183, 1299-1355, 1408-1474.
    Numbers are exact rationals; an entry None of the results is an infinity or NaN.  How a 5-lag or Fourier filter is
    computed is a parameter ([mk5], [mkF], see OptModel), and so is the result of training an ATS filter.  A transform
    acts on each record. *)
From Coq Require Import String ZArith QArith Qcanon Bool List.
From Verif Require Import QcPre LagModel OptModel.
Import ListNotations.
Local Open Scope Qc_scope.

(** optimal_filtering.py:228-271, the fields of Filter that are used. *)
Record flt := mkFlt { f_values : list Qc; f_peak : Qc; f_var : Qc; f_vdv : Qc; f_dt : option (list Qc); f_lags : nat;
                      f_fmax : option Qc; f_f3db : option Qc; f_pre : nat; f_post : nat; f_type : string }.
(** The HDF5 group "filters". *)
Record stored := mkStored { s_fmax : option Qc; s_f3db : option Qc; s_type : string; s_version : Z; s_values : list Qc;
                            s_peak : Qc; s_var : Qc; s_vdv : Qc; s_dt : option (list Qc) }.
(** A channel, with the parts of its HDF5 group that matter. [fvals] and [fphases] are p_filt_value and p_filt_phase. *)
Record chan := mkChan { recs : list (list Qc); nsamp : nat; per_seg : nat; nsegs : nat; ptm : list Qc; shifts : list bool;
                        avg : list Qc; acorr : list Qc; psd : list Qc;
                        on_disk : option stored; flt_now : option flt; type_now : string;
                        fvals : list (option Qc); fphases : list (option Qc) }.

Definition ats : string := "ats". Definition lag5 : string := "5lag". Definition fourier : string := "fourier".
Definition set_filter (c : chan) (d : option stored) (f : option flt) (t : string) : chan :=
  mkChan (recs c) (nsamp c) (per_seg c) (nsegs c) (ptm c) (shifts c) (avg c) (acorr c) (psd c) d f t (fvals c) (fphases c).
Definition set_results (c : chan) (v p : list (option Qc)) : chan :=
  mkChan (recs c) (nsamp c) (per_seg c) (nsegs c) (ptm c) (shifts c) (avg c) (acorr c) (psd c) (on_disk c) (flt_now c) (type_now c) v p.
Definition zero (q : Qc) : bool := if Qc_eq_dec q 0 then true else false.

(** channel.py:1122-1141 *)
Definition to_hdf5 (f : flt) : stored :=
  mkStored (f_fmax f) (f_f3db f) (f_type f) 2 (f_values f) (f_peak f) (f_var f) (f_vdv f) (if String.eqb (f_type f) ats then f_dt f else None).

Section Makers.
(** FilterMaker(average pulse, autocorrelation, spectrum, peak).compute_5lag(fmax, f_3db, cut_pre, cut_post) *)
Variable mk5 : list Qc -> list Qc -> list Qc -> Qc -> option Qc -> option Qc -> nat -> nat -> option flt.
Variable mkF : list Qc -> list Qc -> list Qc -> Qc -> option Qc -> option Qc -> option flt.

(** channel.py:1152-1183; [spectrum] is noise_spectrum.spectrum(), None: it cannot be had. false: an exception. *)
Definition compute_5lag_filter (spectrum : option (list Qc)) (fmax f3db : option Qc) (pre post : nat) (category force : bool) (c : chan) : chan * bool :=
  match on_disk c, force with
  | Some _, false => (c, true)
  | _, _ =>
      if forallb zero (acorr c) || category || forallb zero (avg c) then (c, false)
      else match mk5 (avg c) (acorr c) (match spectrum with Some s => s | None => psd c end) 0 fmax f3db pre post with
           | None => (c, false)
           | Some f => (set_filter c (Some (to_hdf5 f)) (Some f) lag5, true)
           end
  end.
(** channel.py:1185-1296; [trained] is the filter that the training gives, None: an exception. *)
Definition compute_ats_filter (trained : option flt) (force : bool) (c : chan) : chan * bool :=
  match on_disk c, force with
  | Some _, false => (c, true)
  | _, _ =>
      if forallb zero (acorr c) then (c, false)
      else match trained with
           | None => (c, false)
           | Some f => (set_filter c (Some (to_hdf5 f)) (Some f) (f_type f), true)
           end
  end.

(** A channel object made anew from the same files: channel.py:615, 643, 745-798. None: an exception. *)
Definition reopen (c : chan) : option chan :=
  match on_disk c with
  | None => Some (set_filter c None None ats)
  | Some s =>
      if negb (s_version s =? 2)%Z then Some (set_filter c (Some s) None ats)
      else if String.eqb (s_type s) ats then
        match s_dt s with
        | None => None
        | Some d => Some (set_filter c (Some s) (Some (mkFlt (s_values s) (s_peak s) (s_var s) (s_vdv s) (Some d) 1 (s_fmax s) (s_f3db s) 0 0 ats)) ats)
        end
      else
        match lmax (avg c) with
        | None => None
        | Some peak =>
            if String.eqb (s_type s) lag5 then
              option_map (fun f => set_filter c (Some s) (Some f) lag5) (mk5 (avg c) (acorr c) (psd c) peak (s_fmax s) (s_f3db s) 0 0)
            else if String.eqb (s_type s) fourier then
              option_map (fun f => set_filter c (Some s) (Some f) fourier) (mkF (avg c) (acorr c) (psd c) peak (s_fmax s) (s_f3db s))
            else None
        end
  end.
End Makers.

(** One record of _filter_data_segment_ats (channel.py:1451-1459) and of _filter_data_segment_ats_dont_shift1
    (1471-1474): (arrival time, value); [d] is the part of the record that is used. *)
Definition ats_of (v at_ : list Qc) (d : list Qc) : option Qc * option Qc :=
  (if zero (dot d v) then None else Some (dot d at_ / dot d v), Some (dot d v)).
Definition used (shifting shift1 : bool) (r : list Qc) : list Qc :=
  if shifting then (if shift1 then firstn (length r - 1) r else tl r) else r.
Definition lag_of (r : option (Qc * Qc)) : option Qc * option Qc :=
  match r with None => (None, None) | Some (x, y) => (Some x, Some y) end.

(** All of them or none (an exception). *)
Fixpoint all_of {A : Type} (l : list (option A)) : option (list A) :=
  match l with [] => Some [] | None :: _ => None | Some a :: t => option_map (cons a) (all_of t) end.
(** old[first : first + len(new)] = new *)
Definition write_at {A : Type} (first : nat) (new old : list A) : list A := firstn first old ++ new ++ skipn (first + length new) old.

(** The three functions for a segment of records first..end-1.  The ATS one subtracts the pretrigger means of the
    segment from [self.data], all the records of the channel: numpy refuses this unless the segment is all of them, and
    [proxy] says whether the object self.data can be used without an index at all (it comes from another package). *)
Definition between {A : Type} (first end_ : nat) (l : list A) : list A := firstn (end_ - first) (skipn first l).
Definition moved (tr : option (list Qc -> list Qc)) (m : Qc) (r : list Qc) : list Qc :=
  match tr with None => r | Some g => g (map (fun x => x - m) r) end.
Definition seg_ats (proxy : bool) (shifting : bool) (v at_ : list Qc) (tr : option (list Qc -> list Qc)) (c : chan) (first end_ : nat)
  : option (list (option Qc * option Qc)) :=
  if negb (Nat.eqb (length at_) (length v)) then None else
  if shifting && match tr with Some _ => negb (proxy && Nat.eqb (end_ - first) (length (recs c))) | None => false end then None
  else Some (map (fun q => let '(r, (m, s)) := q in ats_of v at_ (used shifting s (moved tr m r)))
                 (combine (between first end_ (recs c)) (combine (between first end_ (ptm c)) (between first end_ (shifts c))))).
Definition seg_5lag (v : list Qc) (tr : option (list Qc -> list Qc)) (c : chan) (first end_ : nat) : option (list (option Qc * option Qc)) :=
  option_map (map lag_of) (all_of (map (fun q => segment_row v tr (snd q) (fst q)) (combine (between first end_ (recs c)) (between first end_ (ptm c))))).

(** channel.py:1347-1352; the state after the last segment that was written, and whether all were. *)
Definition write_segment (f : chan -> nat -> nat -> option (list (option Qc * option Qc))) (st : chan * bool) (s : nat) : chan * bool :=
  let '(c, ok) := st in
  if ok then
    let first := (s * per_seg c)%nat in let end_ := Nat.min (length (recs c)) (first + per_seg c) in
    match f c first end_ with
    | None => (c, false)
    | Some l => (set_results c (write_at first (map snd l) (fvals c)) (write_at first (map fst l) (fphases c)), true)
    end
  else st.
Definition all_segments (f : chan -> nat -> nat -> option (list (option Qc * option Qc))) (c : chan) : chan * bool :=
  fold_left (write_segment f) (seq 0 (nsegs c)) (c, true).

(** channel.py:1332-1345 *)
Definition filter_nocython (proxy : bool) (tr : option (list Qc -> list Qc)) (v : list Qc) (c : chan) : chan * bool :=
  if String.eqb (type_now c) ats then
    match (if Nat.eqb (length v + 1) (nsamp c) then Some true else if Nat.eqb (length v) (nsamp c) then Some false else None),
          match flt_now c with Some f => f_dt f | None => None end with
    | Some shifting, Some at_ => all_segments (seg_ats proxy shifting v at_ tr) c
    | _, _ => (c, false)
    end
  else if String.eqb (type_now c) lag5 then all_segments (seg_5lag v tr) c
  else (c, false).

(** channel.py:1299-1329 *)
Definition filter_data (proxy : bool) (tr : option (list Qc -> list Qc)) (force : bool) (cython : option bool) (c : chan) : chan * bool :=
  if negb (force || forallb (fun x => match x with Some q => zero q | None => false end) (fvals c)) then (c, true) else
  let cy := match cython with Some b => b | None => String.eqb (type_now c) lag5 end in
  match (match flt_now c with Some f => Some (f_values f) | None => option_map s_values (on_disk c) end) with
  | None => (c, false)
  | Some v =>
      if cy then
        if String.eqb (type_now c) ats then (c, false)
        else match all_of (map (fun r => match lag_row v r with Some (Some xy) => Some xy | _ => None end) (recs c)) with
             | None => (c, false)
             | Some l => (set_results c (map (fun xy => Some (snd xy)) l) (map (fun xy => Some (fst xy)) l), true)
             end
      else filter_nocython proxy tr v c
  end.
