(* Tools of a group of channels: segments, masks, the report and external triggers.
   core/channel_group.py:503-512, 593-647, 850-929, 1024-1033, 1082-1089.
   Simplified: exact numbers; marking a channel bad does not fail; a header line is taken byte by byte. *)
From Coq Require Import ZArith Bool Lia QArith QArith.Qcanon String List.
From Verif Require Import LjhModel ArrModel.
Import ListNotations.
Open Scope Z_scope.

(* ---- segments ---- *)

(* channel_group.py:503-507; None for ZeroDivisionError *)
Definition sample2segnum (n_pulses per_seg samplenum : Z) : option Z :=
  let s := if n_pulses <=? samplenum then n_pulses - 1 else samplenum in
  if per_seg =? 0 then None else Some (s / per_seg).
(* channel_group.py:509-512 *)
Definition segnum2sample_range (per_seg segnum : Z) : Z * Z := (segnum * per_seg, (segnum + 1) * per_seg).

(* the group's two numbers *)
Record segments := mkSegments { n_segments : Z; pulses_per_seg : option Z }.

(* channel_group.py:1084-1086, over the good channels in order; the largest so far, what each file now has, and whether one raised *)
Fixpoint size_loop (size : Z) (files : list ljh) (biggest : Z) : Z * list Z * bool :=
  match files with
  | [] => (biggest, [], false)
  | o :: files' =>
      match set_segment_size o size with
      | None => (biggest, [], true)
      | Some (per, _) => let '(b, l, r) := size_loop size files' (Z.max biggest per) in (b, per :: l, r)
      end
  end.
(* channel_group.py:1082-1089; the flag says whether it raised *)
Definition group_segment_size (size : Z) (files : list ljh) (s : segments) : segments * bool :=
  let '(b, l, r) := size_loop size files 0 in
  if r then (mkSegments b (pulses_per_seg s), true)
  else match l with
       | [] => (mkSegments b (pulses_per_seg s), true)          (* first_good_dataset: IndexError *)
       | per :: _ => (mkSegments b (Some per), negb (forallb (Z.eqb per) l))   (* the assertion *)
       end.

(* ---- masks ---- *)

(* what make_masks needs of a channel *)
Record dataset := mkDataset { channum : Z; average : list Qc; peak : list Qc; rms : list Qc; good : list bool }.
Definition n_pulses (d : dataset) : nat := List.length (good d).

Definition qabs (x : Qc) : Qc := if Qclt_le_dec x 0 then (- x)%Qc else x.
Definition qle (x y : Qc) : bool := if Qclt_le_dec y x then false else true.
Definition half : Qc := Q2Qc (1 # 2).

(* channel_group.py:899-901; dividing by a gain of zero gives inf or NaN, which are not within the limits *)
Definition mask1 (gain middle lim : Qc) (v : Qc) (g : bool) : bool :=
  (if Qc_eq_dec gain 0 then false else qle (qabs (v / gain - middle)) lim) && g.
Fixpoint zip3 {A B C : Type} (f : A -> B -> C) (a : list A) (b : list B) : list C :=
  match a, b with
  | x :: a', y :: b' => f x y :: zip3 f a' b'
  | _, _ => []
  end.

(* channel_group.py:876-888: the last of the ranges given *)
Inductive vect := Average | Peak | Rms.
Definition vector (w : vect) (d : dataset) : list Qc :=
  match w with Average => average d | Peak => peak d | Rms => rms d end.
Definition choose (a p r : option (Qc * Qc)) : option (vect * (Qc * Qc)) :=
  let c0 := match a with Some x => Some (Average, x) | None => None end in
  let c1 := match p with Some x => Some (Peak, x) | None => c0 end in
  match r with Some x => Some (Rms, x) | None => c1 end.

(* channel_group.py:868-870: the bad channels afterwards *)
Definition mark_empty (datasets : list dataset) (bads : list Z) : list Z :=
  bads ++ map channum (filter (fun d => negb (existsb (Z.eqb (channum d)) bads) && Nat.eqb (n_pulses d) 0) datasets).

(* channel_group.py:850-903: the bad channels, and the masks or ValueError *)
Definition make_masks (a p r : option (Qc * Qc)) (gains : option (list Qc)) (datasets : list dataset) (bads : list Z)
  : list Z * option (list (list bool)) :=
  let bads' := mark_empty datasets bads in
  let gains' := match gains with Some g => g | None => repeat 1%Qc (List.length datasets) end in
  (bads',
   match choose a p r with
   | None => None
   | Some (w, (pmin, pmax)) =>
       let middle := (half * (pmin + pmax))%Qc in
       let lim := (half * qabs (pmax - pmin))%Qc in
       Some (zip3 (fun gain d => zip3 (mask1 gain middle lim) (vector w d) (good d)) gains' datasets)
   end).

(* channel_group.py:918-929: a mask is None if it is no array; [fails] says when the average of one channel raises;
   the calls made, and whether it raised *)
Fixpoint average_loop {M : Type} (fails : Z -> M -> bool) (bads : list Z) (masks : list M) (channels : list Z) : list (Z * M) * bool :=
  match masks, channels with
  | m :: masks', c :: channels' =>
      if existsb (Z.eqb c) bads then average_loop fails bads masks' channels'
      else if fails c m then ([(c, m)], true)
      else let '(l, r) := average_loop fails bads masks' channels' in ((c, m) :: l, r)
  | _, _ => ([], false)
  end.
Definition compute_average_pulse {M : Type} (fails : Z -> M -> bool) (bads : list Z) (masks : list (option M)) (channels : list Z)
  : list (Z * M) * bool :=
  if negb (Nat.eqb (List.length masks) (List.length channels)) then ([], true)
  else match all_some masks with
       | None => ([], true)
       | Some ms => average_loop fails bads ms channels
       end.

(* ---- the report ---- *)

Fixpoint select {A : Type} (g : list bool) (l : list A) : list A :=
  match g, l with
  | b :: g', x :: l' => if b then x :: select g' l' else select g' l'
  | _, _ => []
  end.
Record reported := mkReported { r_pulses : Z; r_rate : option Qc; r_dt : Qc; r_good : Qc }.
(* ndarray.argmax of booleans: the first true, or 0 *)
Fixpoint argmax (g : list bool) : nat :=
  match g with
  | [] => 0%nat
  | true :: _ => 0%nat
  | false :: g' => if existsb (fun b => b) g' then Datatypes.S (argmax g') else 0%nat
  end.
(* channel_group.py:1027-1033; None for IndexError, no rate for a division by zero *)
Definition report1 (g : list bool) (times : list Qc) : option reported :=
  match select g times, rev (select g times), rev (select g (seq 0 (List.length g))) with
  | first :: _, last :: _, last_index :: _ =>
      let ng := Z.of_nat (List.length (filter (fun b => b) g)) in
      let dt := (last - first)%Qc in
      let npulse := Z.of_nat last_index - Z.of_nat (argmax g) + 1 in
      Some (mkReported npulse
              (if Qc_eq_dec dt 0 then None else Some (qz (npulse - 1) / dt)%Qc)
              dt
              (qz 100 * qz ng / qz npulse)%Qc)
  | _, _, _ => None
  end.
Fixpoint report (l : list (list bool * list Qc)) : list reported * bool :=
  match l with
  | [] => ([], false)
  | (g, times) :: l' =>
      match report1 g times with
      | None => ([], true)
      | Some r => let '(out, raised) := report l' in (r :: out, raised)
      end
  end.

(* ---- external triggers ---- *)

(* channel_group.py:606, re.match: the text between the last [(nrow=] and [)] with the newline *)
Fixpoint after_last (p l : bytes) : option bytes :=
  match l with
  | [] => None
  | _ :: t =>
      match after_last p t with
      | Some r => Some r
      | None => if starts p l then Some (skipn (List.length p) l) else None
      end
  end.
Definition nrow_text (line : bytes) : option bytes :=
  match after_last (bs "(nrow=") line with
  | Some r => match rev r with 10 :: 41 :: g => Some (rev g) | _ => None end
  | None => None
  end.
(* np.fromfile(f, dtype="int64"): whole numbers only *)
Definition int64s (l : bytes) : list Z :=
  map (fun i => int64 (le_value (field l (8 * i) 8))) (seq 0 (List.length l / 8)).

(* the files found: the HDF5 file with its two datasets, and the binary file *)
Record trigger_files := mkFiles { hdf5 : option (option (list Z) * option (list Z)); binary : option bytes }.
(* the group: the counts held, the divisions and the time of one subframe, and those of the channels; one frame lasts frame_time *)
Record triggers := mkTriggers {
  held : option (list Z); divisions : option Z; sub_time : option Qc;
  ds_divisions : list (Z * Z);           (* channel number, subframe_divisions *)
  ds_sub_time : list (Z * Qc) }.         (* channel number, subframe_timebase *)

Definition set_all {A : Type} (v : A) (l : list (Z * A)) : list (Z * A) := map (fun p => (fst p, v)) l.
Fixpoint get {A : Type} (l : list (Z * A)) (c : Z) : option A :=
  match l with [] => None | (k, v) :: t => if k =? c then Some v else get t c end.

(* channel_group.py:600-610: the counts and the divisions, or an exception *)
Definition read_counts (fs : trigger_files) (div0 : Z) : option (list Z * option Z) :=
  match hdf5 fs with
  | Some (Some w, _) => Some (w, None)
  | Some (None, Some t) => Some (t, None)
  | Some (None, None) => None
  | None =>
      match binary fs with
      | None => None
      | Some f =>
          let '(line, rest) := take_line f in
          match nrow_text line with
          | Some g => match py_int g with Some n => Some (int64s rest, Some n) | None => None end
          | None => Some (int64s rest, None)
          end
      end
  end.
(* channel_group.py:593-616; [first_good] is the channel number of the first good channel *)
Definition trigger_count (fs : trigger_files) (frame_time : Qc) (first_good : option Z) (s : triggers) : triggers * option (list Z) :=
  match held s with
  | Some l => (s, Some l)
  | None =>
      match first_good with
      | None => (s, None)
      | Some c =>
          match get (ds_divisions s) c with
          | None => (s, None)
          | Some d0 =>
              let s0 := mkTriggers None (Some d0) (sub_time s) (ds_divisions s) (ds_sub_time s) in
              match read_counts fs d0 with
              | None => (s0, None)
              | Some (l, n) =>
                  let d := match n with Some n => n | None => d0 end in
                  let dd := match n with Some n => set_all n (ds_divisions s) | None => ds_divisions s end in
                  if d =? 0 then (mkTriggers (Some l) (Some d) (sub_time s) dd (ds_sub_time s), None)   (* ZeroDivisionError *)
                  else let t := (frame_time / qz d)%Qc in
                       (mkTriggers (Some l) (Some d) (Some t) dd (set_all t (ds_sub_time s)), Some l)
              end
          end
      end
  end.
(* channel_group.py:618-623 *)
Definition trigger_seconds (fs : trigger_files) (frame_time : Qc) (first_good : option Z) (s : triggers) : triggers * option (list Qc) :=
  let '(s', r) := trigger_count fs frame_time first_good s in
  (s', match r, divisions s' with
       | Some l, Some d => if d =? 0 then None else Some (map (fun x => qz x / qz d * frame_time)%Qc l)
       | _, _ => None
       end).

(* the three stored arrays of a channel *)
Record timing := mkTiming { after_last_trigger : option (list Z); until_next_trigger : option (list Z); from_nearest : option (list Z) }.
Record channel := mkChannel { number : Z; subframes : list Z; timings : timing }.

(* require_dataset and assignment: None for a dataset of another size *)
Definition put (n : nat) (old : option (list Z)) (new : list Z) : option (list Z) :=
  match old with
  | Some l => if Nat.eqb (List.length l) n then Some new else None
  | None => Some new
  end.
(* channel_group.py:629-647 for one channel; the flag says whether it is marked bad *)
Definition timing1 (ts : list Z) (force_new : bool) (c : channel) : channel * bool :=
  let t := timings c in
  match after_last_trigger t, until_next_trigger t, from_nearest t, force_new with
  | Some _, Some _, Some _, false => (c, false)
  | _, _, _, _ =>
      match nearest_arrivals (subframes c) ts with
      | SingleEmptyArray => (c, true)                   (* not two arrays: ValueError *)
      | Pair rows =>
          let n := List.length (subframes c) in
          match put n (after_last_trigger t) (map fst rows) with
          | None => (c, true)
          | Some a =>
              match put n (until_next_trigger t) (map snd rows) with
              | None => (mkChannel (number c) (subframes c) (mkTiming (Some a) (until_next_trigger t) (from_nearest t)), true)
              | Some u =>
                  match put n (from_nearest t) (map (fun r => Z.min (fst r) (snd r)) rows) with
                  | None => (mkChannel (number c) (subframes c) (mkTiming (Some a) (Some u) (from_nearest t)), true)
                  | Some m => (mkChannel (number c) (subframes c) (mkTiming (Some a) (Some u) (Some m)), false)
                  end
              end
          end
      end
  end.
Fixpoint timing_loop (ts : list Z) (force_new : bool) (bads : list Z) (cs : list channel) : list channel * list Z :=
  match cs with
  | [] => ([], bads)
  | c :: cs' =>
      if existsb (Z.eqb (number c)) bads then let '(l, b) := timing_loop ts force_new bads cs' in (c :: l, b)
      else let '(c', failed) := timing1 ts force_new c in
           let '(l, b) := timing_loop ts force_new (if failed then bads ++ [number c] else bads) cs' in (c' :: l, b)
  end.
(* channel_group.py:625-647.  [attribute] is the attribute external_trigger_subframe_count of the first good
   channel, None if it has none: it is the group that has one (channel_group.py:593), and no line of channel.py
   gives one to a channel.  The result is None for the exception. *)
Definition calc_external_trigger_timing (attribute : option (list Z)) (force_new : bool) (bads : list Z) (cs : list channel)
  : option (list channel * list Z) :=
  if forallb (fun c => existsb (Z.eqb (number c)) bads) cs then None       (* first_good_dataset: IndexError *)
  else match attribute with
       | None => None                                                       (* AttributeError *)
       | Some ts => Some (timing_loop ts force_new bads cs)
       end.
