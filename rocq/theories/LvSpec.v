(** What the vectors of an LJH channel are, written without the model's helpers. *)
From Coq Require Import String ZArith QArith Qcanon List.
From Verif Require Import LvModel.
Import ListNotations.
Local Open Scope string_scope.
Local Open Scope list_scope.
Local Notation length := List.length.

(** The data sets of a channel with [n] pulses of [m] samples, whose subframe counts are called [c]. *)
Definition wanted (c : string) (n m : nat) : list field :=
  [("timestamp", F64, n); ("pretrig_mean", F32, n); ("pretrig_rms", F32, n); ("pulse_average", F32, n); ("pulse_rms", F32, n); ("promptness", F32, n);
   ("rise_time", F32, n); ("postpeak_deriv", F32, n); ("pretrig_deriv", F32, n); ("pretrig_offset", F32, n); ("filt_phase", F32, n); ("filt_phase_corr", F32, n);
   ("filt_value", F32, n); ("filt_value_dc", F32, n); ("filt_value_phc", F32, n); ("filt_value_tdc", F32, n); ("energy", F32, n);
   ("peak_index", U16, n); ("peak_value", U16, n); ("min_value", U16, n); ("shift1", Boo, n); (c, I64, n);
   ("average_pulse", F32, m); ("noise_autocorr", F64, m); ("noise_psd", F64, S (Nat.div m 2))].
(** A data set can stand for a field. *)
Definition stands (d : dataset) (t : dtype) (n : nat) : Prop := length (vals d) = n /\ can_cast t (dtyp d) = true.
(** Nothing stored under the name of a field prevents its use. *)
Definition compatible (h : sets) (l : list field) : Prop := forall k t n d, In (k, t, n) l -> get h k = Some d -> stands d t n.
(** Everything in [h] is in [h'] too. *)
Definition kept (h h' : sets) : Prop := forall k d, get h k = Some d -> get h' k = Some d.
(** What [h'] has under the name [k] is what [h] has, or zeros if [h] has nothing and [k] is a field, or else nothing. *)
Definition filled (l : list field) (h h' : sets) (k : string) : Prop :=
  (forall d, get h k = Some d -> get h' k = Some d) /\
  (forall t n, In (k, t, n) l -> get h k = None -> exists d, get h' k = Some d /\ dtyp d = t /\ length (vals d) = n /\ Forall (fun x => x = 0%Qc) (vals d)) /\
  (get h k = None -> (forall t n, ~ In (k, t, n) l) -> get h' k = None).
(** The name of the subframe counts. *)
Definition called (h : sets) (c : string) : Prop := (c = "rowcount" /\ get h "rowcount" <> None) \/ (c = "subframecount" /\ get h "rowcount" = None).
(** The stored mask of the cuts can be used: as it is, or after signs are taken away. *)
Definition mask_usable (h : sets) (n : nat) : Prop := forall d, get h "cuts/mask" = Some d -> stands d U32 n \/ stands d I32 n.
(** All vectors of the channel are there. *)
Definition present (h : sets) (n m : nat) : Prop :=
  (exists c, called h c /\ forall k t x, In (k, t, x) (wanted c n m) -> exists d, get h k = Some d /\ stands d t x) /\ exists d, get h "cuts/mask" = Some d /\ stands d U32 n.
(** The values of the pulses that are good. *)
Definition good_values (g : list bool) (v r : list Qc) : Prop := r = map snd (filter fst (combine g v)).

Section Sound.
Context {cal scal corr scorr : Type} (load_cal : scal -> option cal) (load_corr : scorr -> option corr).
(** What is true of an open channel: the group has its size and number and all its vectors, and what was saved can be loaded;
    the calibrations are those saved. *)
Definition sound (ch : channel cal scal corr scorr) : Prop :=
  a_npulses (st ch) = Some (npulses ch) /\ a_channum (st ch) = Some (channum ch) /\ present (dsets (st ch)) (npulses ch) (nsamples ch) /\
  Forall2 (fun a b => fst a = fst b /\ load_cal (snd a) = Some (snd b)) (scals (st ch)) (cals ch) /\ (forall x, scorr_of (st ch) = Some x -> load_corr x <> None).
End Sound.
(** Steps of an analysis. *)
Inductive step (cal corr : Type) :=
| Convert (attr : string) (calname : option string)
| Calibrate (fit : list Qc -> option cal) (attr ext : string) (good : list bool) (force : bool)
| Correct (make : list Qc -> list Qc -> option corr) (attr : string) (good : list bool) (force to_file : bool)
| Write (k : string) (v : list Qc).
Arguments Convert {cal corr} _ _. Arguments Calibrate {cal corr} _ _ _ _ _. Arguments Correct {cal corr} _ _ _ _ _. Arguments Write {cal corr} _ _.
