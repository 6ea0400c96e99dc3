(** The stored vectors of an LJH channel: opening a channel, resize, convert_to_energy, calibrate and phase_correct,
    mass/core/channel.py:603-666, 684-743, 800-816, 871-884, 1793-1827, 1904-1951; mass/core/cut.py:333-341.
    The HDF5 group of the channel is a record; values are exact (storage as float32 is not modelled). *)
From Coq Require Import String Bool ZArith QArith Qcanon List.
Import ListNotations.
Local Open Scope string_scope.
Local Open Scope list_scope.
Local Open Scope nat_scope.
Local Notation length := List.length.

(** * Data sets *)
Inductive dtype := F64 | F32 | U16 | U32 | I32 | I64 | Boo.
(** numpy.can_cast(a, b) for these types. *)
Definition can_cast (a b : dtype) : bool :=
  match a, b with
  | Boo, _ => true
  | U16, (U16 | U32 | I32 | I64 | F32 | F64) => true
  | U32, (U32 | I64 | F64) => true
  | I32, (I32 | I64 | F64) => true
  | I64, (I64 | F64) => true
  | F32, (F32 | F64) => true
  | F64, F64 => true
  | _, _ => false
  end.
Record dataset := mkSet { dtyp : dtype; vals : list Qc }.
Definition blank (t : dtype) (n : nat) : dataset := mkSet t (repeat 0%Qc n).
Section Dict.
Context {A : Type}.
Fixpoint get (d : list (string * A)) (k : string) : option A :=
  match d with [] => None | (x, v) :: t => if String.eqb x k then Some v else get t k end.
Fixpoint set (d : list (string * A)) (k : string) (v : A) : list (string * A) :=
  match d with [] => [(k, v)] | (x, w) :: t => if String.eqb x k then (x, v) :: t else (x, w) :: set t k v end.
Definition has (d : list (string * A)) (k : string) : bool := match get d k with Some _ => true | None => false end.
End Dict.
Notation sets := (list (string * dataset)).
(** group.require_dataset(name, shape=(n,), dtype=t); None: TypeError. *)
Definition require (h : sets) (k : string) (t : dtype) (n : nat) : option sets :=
  match get h k with
  | None => Some (h ++ [(k, blank t n)])
  | Some d => if Nat.eqb (length (vals d)) n && can_cast t (dtyp d) then Some h else None
  end.
Notation field := (string * dtype * nat)%type.
Fixpoint require_all (h : sets) (l : list field) : sets * bool :=
  match l with
  | [] => (h, true)
  | (k, t, n) :: r => match require h k t n with None => (h, false) | Some h' => require_all h' r end
  end.
(** channel.py:702-720 *)
Definition float32_fields : list string :=
  ["pretrig_mean"; "pretrig_rms"; "pulse_average"; "pulse_rms"; "promptness"; "rise_time"; "postpeak_deriv"; "pretrig_deriv"; "pretrig_offset";
   "filt_phase"; "filt_phase_corr"; "filt_value"; "filt_value_dc"; "filt_value_phc"; "filt_value_tdc"; "energy"].
Definition pulse_fields (n : nat) : list field :=
  ("timestamp", F64, n) :: map (fun k => (k, F32, n)) float32_fields ++ [("peak_index", U16, n); ("peak_value", U16, n); ("min_value", U16, n); ("shift1", Boo, n)].
(** channel.py:722-728 *)
Definition counter (h : sets) : string := if has h "rowcount" then "rowcount" else "subframecount".
(** channel.py:733-741 *)
Definition other_fields (samples : nat) : list field :=
  [("average_pulse", F32, samples); ("noise_autocorr", F64, samples); ("noise_psd", F64, 1 + Nat.div samples 2)].
(** cut.py:333-341: masks that were stored with signs are stored again without. *)
Definition unsigned (x : Qc) : Qc := Q2Qc (inject_Z ((Qnum (this x)) mod 2 ^ 32)).
Definition remove (h : sets) (k : string) : sets := filter (fun p => negb (String.eqb (fst p) k)) h.
Definition setup_mask (h : sets) (n : nat) : sets * bool :=
  match require h "cuts/mask" U32 n with
  | Some h' => (h', true)
  | None => match require h "cuts/mask" I32 n, get h "cuts/mask" with
            | Some _, Some d => (remove h "cuts/mask" ++ [("cuts/mask", mkSet U32 (map unsigned (vals d)))], true)
            | _, _ => (h, false)
            end
  end.
(** channel.py:684-743 *)
Definition setup_vectors (h : sets) (n samples : nat) : sets * bool :=
  let '(h1, ok1) := require_all h (pulse_fields n) in
  if negb ok1 then (h1, false) else
  let '(h2, ok2) := require_all h1 [(counter h1, I64, n)] in
  if negb ok2 then (h2, false) else
  let '(h3, ok3) := require_all h2 (other_fields samples) in
  if negb ok3 then (h3, false) else setup_mask h3 n.

(** * Channels *)
Section Channel.
(** Calibrations and phase corrections with what is stored of them (C33, C27: a correction is stored over the one before),
    and their work on arrays; None: an exception. *)
Variable (cal scal corr scorr : Type).
Variable (save_cal : cal -> scal) (load_cal : scal -> option cal) (ph2energy : cal -> list Qc -> option (list Qc)).
Variable (save_corr : option scorr -> corr -> scorr) (load_corr : scorr -> option corr).
Variable (uniform : corr -> list Qc -> option (list Qc)) (correct : corr -> list Qc -> list Qc -> option (list Qc)).

Record store := mkStore { a_npulses : option nat; a_channum : option Z; dsets : sets; peak_attr : option Z; scals : list (string * scal); scorr_of : option scorr }.
Definition no_store : store := mkStore None None [] None [] None.
Record channel := mkCh { st : store; npulses : nat; nsamples : nat; channum : Z; peak_samplenumber : option Z;
                         cals : list (string * cal); last_used : option cal; corrector : option corr }.
Definition with_sets (s : store) (h : sets) : store := mkStore (a_npulses s) (a_channum s) h (peak_attr s) (scals s) (scorr_of s).
(** channel.py:647-656: false for a failed assertion. *)
Definition check_attrs (s : store) (n : nat) (c : Z) : store * bool :=
  match a_npulses s with
  | Some m => if Nat.eqb m n then
                match a_channum s with
                | Some x => (s, Z.eqb x c)
                | None => (mkStore (Some m) (Some c) (dsets s) (peak_attr s) (scals s) (scorr_of s), true)
                end
              else (s, false)
  | None => match a_channum s with
            | Some x => (mkStore (Some n) (Some x) (dsets s) (peak_attr s) (scals s) (scorr_of s), Z.eqb x c)
            | None => (mkStore (Some n) (Some c) (dsets s) (peak_attr s) (scals s) (scorr_of s), true)
            end
  end.
(** channel.py:800-810 for a new channel. *)
Fixpoint load_cals (l : list (string * scal)) : option (list (string * cal)) :=
  match l with
  | [] => Some []
  | (k, x) :: t => match load_cal x, load_cals t with Some c, Some r => Some ((k, c) :: r) | _, _ => None end
  end.
(** channel.py:603-666 with an HDF5 group (without one, the attribute access raises): what the group holds afterwards, and the channel. *)
Definition open (g : option store) (n samples : nat) (c : Z) : option store * option channel :=
  match g with
  | None => (None, None)
  | Some s =>
      let '(s1, ok1) := check_attrs s n c in
      if negb ok1 then (Some s1, None) else
      let '(h, ok2) := setup_vectors (dsets s1) n samples in
      let s2 := with_sets s1 h in
      if negb ok2 then (Some s2, None) else
      match load_cals (scals s2) with
      | None => (Some s2, None)
      | Some cs =>
          match scorr_of s2 with
          | None => (Some s2, Some (mkCh s2 n samples c (peak_attr s2) cs None None))
          | Some x => match load_corr x with
                      | None => (Some s2, None)
                      | Some k => (Some s2, Some (mkCh s2 n samples c (peak_attr s2) cs None (Some k)))
                      end
          end
      end
  end.
(** channel.py:871-875; false: an exception. *)
Definition resize (ch : channel) (n : nat) : channel * bool :=
  if npulses ch <? n then (ch, false)
  else match n with
       | 0 => (mkCh (st ch) 0 (nsamples ch) (channum ch) (peak_samplenumber ch) (cals ch) (last_used ch) (corrector ch), false)
       | _ => let '(h, ok) := setup_vectors (dsets (st ch)) n (nsamples ch) in
              (mkCh (with_sets (st ch) h) n (nsamples ch) (channum ch) (match peak_attr (st ch) with Some p => Some p | None => peak_samplenumber ch end) (cals ch) (last_used ch) (corrector ch), ok)
       end.
(** channel.py:876-884: the new object has no HDF5 group. *)
Definition copy (ch : channel) : option channel := snd (open None (npulses ch) (nsamples ch) (channum ch)).

(** getattr(ds, attr) for the vectors of the pulses. *)
Definition attribute (ch : channel) (attr : string) : option (list Qc) :=
  if String.eqb attr "p_subframecount" then option_map vals (get (dsets (st ch)) (counter (dsets (st ch))))
  else if String.prefix "p_" attr
       then let k := substring 2 (String.length attr - 2) attr in
            if existsb (fun f => String.eqb (fst (fst f)) k) (pulse_fields 0) then option_map vals (get (dsets (st ch)) k) else None
       else None.
(** ds.p_name[:] = values; raises if the lengths differ (a single value would be repeated: not modelled). *)
Definition write (k : string) (v : list Qc) (ch : channel) : option channel :=
  match get (dsets (st ch)) k with
  | None => None
  | Some d => if Nat.eqb (length v) (length (vals d))
              then Some (mkCh (with_sets (st ch) (set (dsets (st ch)) k (mkSet (dtyp d) v))) (npulses ch) (nsamples ch) (channum ch) (peak_samplenumber ch) (cals ch) (last_used ch) (corrector ch))
              else None
  end.
(** channel.py:1944-1951; false: an exception. *)
Definition convert_to_energy (attr : string) (calname : option string) (ch : channel) : channel * bool :=
  let calname := match calname with None => attr | Some k => k end in
  match get (cals ch) calname with
  | None => (ch, false)
  | Some k =>
      match attribute ch attr with
      | None => (ch, false)
      | Some v => match ph2energy k v with
                  | None => (ch, false)
                  | Some e => match write "energy" e ch with
                              | None => (ch, false)
                              | Some c' => (mkCh (st c') (npulses c') (nsamples c') (channum c') (peak_samplenumber c') (cals c') (Some k) (corrector c'), true)
                              end
                  end
      end
  end.
Fixpoint select (g : list bool) (v : list Qc) : list Qc :=
  match g, v with b :: g', x :: v' => if b then x :: select g' v' else select g' v' | _, _ => [] end.
(** channel.py:1904-1941: [fit] guesses and fits the lines (None: an exception or a failed fit); what is returned. *)
Inductive result := Returned (k : cal) | Nothing | Raised.
Definition calibrate (fit : list Qc -> option cal) (attr ext : string) (good : list bool) (force : bool) (ch : channel) : channel * result :=
  let calname := String.append attr ext in
  match (if force then None else get (cals ch) calname) with
  | Some k => (ch, Returned k)
  | None =>
      match attribute ch attr with
      | None => (ch, Raised)
      | Some v =>
          match fit (select good v) with
          | None => (ch, Raised)
          | Some k =>
              let s := st ch in
              let ch1 := mkCh (mkStore (a_npulses s) (a_channum s) (dsets s) (peak_attr s) (set (scals s) calname (save_cal k)) (scorr_of s))
                              (npulses ch) (nsamples ch) (channum ch) (peak_samplenumber ch) (set (cals ch) calname k) (last_used ch) (corrector ch) in
              let '(ch2, ok) := convert_to_energy attr (Some (String.append attr ext)) ch1 in (ch2, if ok then Nothing else Raised)
          end
      end
  end.
Definition with_corrector (k : corr) (ch : channel) : channel := mkCh (st ch) (npulses ch) (nsamples ch) (channum ch) (peak_samplenumber ch) (cals ch) (last_used ch) (Some k).
(** channel.py:1793-1827: [make] is phase_correct.phase_correct on the good pulses; false: an exception. *)
Definition phase_correct (make : list Qc -> list Qc -> option corr) (attr : string) (good : list bool) (force to_file : bool) (ch : channel) : channel * bool :=
  if negb force && match corrector ch with Some _ => true | None => false end then (ch, true) else
  match attribute ch "p_filt_phase", attribute ch attr with
  | Some ph, Some v =>
      match make (select good ph) (select good v) with
      | None => (ch, false)
      | Some k =>
          let ch0 := with_corrector k ch in
          match match uniform k ph with None => None | Some u => write "filt_phase_corr" u ch0 end with
          | None => (ch0, false)
          | Some ch1 =>
              match match attribute ch1 attr with None => None | Some v => match correct k ph v with None => None | Some w => write "filt_value_phc" w ch1 end end with
              | None => (ch1, false)
              | Some ch2 =>
                  if to_file then
                    let s := st ch2 in
                    (mkCh (mkStore (a_npulses s) (a_channum s) (dsets s) (peak_attr s) (scals s) (Some (save_corr (scorr_of s) k)))
                          (npulses ch2) (nsamples ch2) (channum ch2) (peak_samplenumber ch2) (cals ch2) (last_used ch2) (corrector ch2), true)
                  else (ch2, true)
              end
          end
      end
  | _, _ => (ch, false)
  end.
End Channel.
Arguments mkStore {scal scorr} _ _ _ _ _ _. Arguments a_npulses {scal scorr} _. Arguments a_channum {scal scorr} _. Arguments dsets {scal scorr} _.
Arguments peak_attr {scal scorr} _. Arguments scals {scal scorr} _. Arguments scorr_of {scal scorr} _. Arguments no_store {scal scorr}.
Arguments mkCh {cal scal corr scorr} _ _ _ _ _ _ _ _. Arguments st {cal scal corr scorr} _. Arguments npulses {cal scal corr scorr} _. Arguments nsamples {cal scal corr scorr} _.
Arguments channum {cal scal corr scorr} _. Arguments peak_samplenumber {cal scal corr scorr} _. Arguments cals {cal scal corr scorr} _. Arguments last_used {cal scal corr scorr} _.
Arguments corrector {cal scal corr scorr} _. Arguments with_sets {scal scorr} _ _. Arguments check_attrs {scal scorr} _ _ _. Arguments load_cals {cal scal} _ _.
Arguments open {cal scal corr scorr} _ _ _ _ _ _. Arguments resize {cal scal corr scorr} _ _. Arguments copy {cal scal corr scorr} _ _ _. Arguments attribute {cal scal corr scorr} _ _.
Arguments write {cal scal corr scorr} _ _ _. Arguments convert_to_energy {cal scal corr scorr} _ _ _ _. Arguments calibrate {cal scal corr scorr} _ _ _ _ _ _ _ _.
Arguments with_corrector {cal scal corr scorr} _ _. Arguments phase_correct {cal scal corr scorr} _ _ _ _ _ _ _ _ _. Arguments Returned {cal} _. Arguments Nothing {cal}. Arguments Raised {cal}.
