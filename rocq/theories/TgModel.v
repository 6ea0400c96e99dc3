(** Model of how a TESGroup opens its channels and is restored: mass/core/channel_group.py
    33-42 [_generate_hdf5_filename], 45-89 [RestoreTESGroup], 155-159 (max_chans), 250-330
    [_setup_per_channel_objects] and mass/core/channel.py 646-656 (the channel's group).

    A pulse file is what PulseRecords reads from it, a noise file its name and channel.  An
    HDF5 file is the list of its groups "chan<n>" with the attributes used here; other groups
    are left out.  Calibrations, lists of bad channels and the experiment state are not
    modelled.  [None] is an exception. *)
From Coq Require Import ZArith Ascii String Bool QArith QArith.Qcanon List.
From Verif Require Import LjhModel NameModel.
Import ListNotations.
Open Scope Z_scope.

Record pfile := mkP { p_path : bytes; p_chan : Z; p_npulses : Z; p_shape : Z * Z * Qc; p_nseg : Z }.
Record nfile := mkN { n_path : bytes; n_chan : Z }.

Record attrs := mkA { a_file : bytes; a_npulses : Z; a_noise : option bytes }.

Fixpoint zget {A : Type} (d : list (Z * A)) (k : Z) : option A :=
  match d with [] => None | (j, v) :: t => if j =? k then Some v else zget t k end.
Fixpoint zset {A : Type} (d : list (Z * A)) (k : Z) (v : A) : list (Z * A) :=
  match d with [] => [(k, v)] | (j, w) :: t => if j =? k then (j, v) :: t else (j, w) :: zset t k v end.

(** 33-42: the text before the first "_chan<digits>". *)
Fixpoint before_chan (l : bytes) : bytes :=
  match l with
  | [] => []
  | c :: t => match match_here l with Some _ => [] | None => c :: before_chan t end
  end.
Definition ends (p l : bytes) : bool := starts (rev p) (rev l).
Definition hdf5_name (raw : bytes) : bytes :=
  before_chan raw ++ (if ends (bs "noi") raw then bs "_noise" else []) ++ bs "_mass.hdf5".

(** 155-159: [filenames[:n]] and [noise_filenames[:n]] with n the smaller of max_chans and the
    number of files (max_chans not negative); without noise files the slice raises TypeError. *)
Definition limit_chans {A B : Type} (max : option nat) (files : list A) (noise : option (list B)) : option (list A * option (list B)) :=
  match max with
  | None => Some (files, noise)
  | Some m =>
      let n := Nat.min m (length files) in
      match noise with
      | None => None
      | Some l => Some (firstn n files, Some (firstn n l))
      end
  end.

Definition shape_eqb (a b : Z * Z * Qc) : bool :=
  (fst (fst a) =? fst (fst b)) && (snd (fst a) =? snd (fst b)) && Qc_eq_bool (snd a) (snd b).

(** The group being made: its two HDF5 files, the channels added with their noise files, the
    common nSamples, nPresamples and timebase, and n_segments. *)
Record group := mkG { h5 : list (Z * attrs); nh5 : list (Z * bytes); chans : list (pfile * option nfile);
                      shape : Z * Z * Qc; nseg : Z }.

(** 255-309: one file; [nf] is the noise file at the same index. *)
Definition add_file (g : group) (f : pfile) (nf : option nfile) : option group :=
  if p_npulses f =? 0 then Some g
  else
    let old := zget (h5 g) (p_chan f) in
    let fits := match old with Some a => a_npulses a =? p_npulses f | None => true end in
    if negb fits then None
    else
      let noise := match nf with Some n => Some (n_path n) | None => match old with Some a => a_noise a | None => None end end in
      let h := zset (h5 g) (p_chan f) (mkA (p_path f) (p_npulses f) noise) in
      let nh := match nf with Some n => zset (nh5 g) (p_chan f) (n_path n) | None => nh5 g end in
      if match nf with Some n => negb (p_chan f =? n_chan n) | None => false end
      then Some (mkG h nh (chans g) (shape g) (nseg g))
      else
        let c := chans g ++ [(f, nf)] in
        if nseg g =? 0 then Some (mkG h nh c (p_shape f) (Z.max 0 (p_nseg f)))
        else if shape_eqb (shape g) (p_shape f) then Some (mkG h nh c (shape g) (Z.max (nseg g) (p_nseg f)))
        else None.

(** The loop; a noise list that is too short raises IndexError at the first file with pulses
    beyond it. *)
Fixpoint add_files (g : group) (l : list pfile) (noise : option (list nfile)) : option group :=
  match l with
  | [] => Some g
  | f :: t =>
      match noise with
      | None => match add_file g f None with Some g' => add_files g' t None | None => None end
      | Some [] => if p_npulses f =? 0 then add_files g t (Some []) else None
      | Some (n :: ns) => match add_file g f (Some n) with Some g' => add_files g' t (Some ns) | None => None end
      end
  end.

Definition empty (h : list (Z * attrs)) (nh : list (Z * bytes)) : group := mkG h nh [] (0, 0, Q2Qc 0) 0.
Definition setup (h : list (Z * attrs)) (nh : list (Z * bytes)) (l : list pfile) (noise : option (list nfile)) : option group :=
  add_files (empty h nh) l noise.

(** 52-89: the loop over the groups in the order of the HDF5 file; [gen] is the noise file name
    implied so far.  The arguments given to TESGroup: pulse names, noise names and the name of
    the noise HDF5 file. *)
Fixpoint restore_loop (items : list (Z * attrs)) (gen : option bytes) : option (list bytes * option bytes) :=
  match items with
  | [] => Some ([], gen)
  | (_, a) :: t =>
      match a_noise a with
      | None => None
      | Some f =>
          let n := hdf5_name f in
          if match gen with Some g => beq g n | None => true end then
            match restore_loop t (Some n) with Some (l, g) => Some (f :: l, g) | None => None end
          else None
      end
  end.
Definition restore (items : list (Z * attrs)) (noise : option (bytes * list (Z * bytes))) : option (list bytes * list bytes * option bytes) :=
  let pulses := map (fun e => a_file (snd e)) items in
  match noise with
  | None => match restore_loop items None with Some (l, g) => Some (pulses, l, g) | None => None end
  | Some (name, nh) =>
      match all_some (map (fun e => zget nh (fst e)) items) with Some l => Some (pulses, l, Some name) | None => None end
  end.
