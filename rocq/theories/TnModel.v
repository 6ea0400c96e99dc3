(** Model of a TESGroup of noise files only: mass/core/channel_group.py 332-371
    [_setup_per_channel_objects_noiseonly] and mass/core/channel.py 646-656.

    Noise files are described like pulse files in TgModel ([p_nseg] is 0 exactly without
    records); [h5] is the noise HDF5 file, which is also the group's HDF5 file (channel_group.py
    200-202), and [nh5] stays empty.  Earlier datasets of another shape in it are not modelled. *)
From Coq Require Import ZArith Bool QArith QArith.Qcanon List.
From Verif Require Import LjhModel TgModel.
Import ListNotations.
Open Scope Z_scope.

(** 335-356: one noise file; files without records are not skipped. *)
Definition add_noise (g : group) (f : pfile) : option group :=
  if match zget (h5 g) (p_chan f) with Some a => a_npulses a =? p_npulses f | None => true end then
    let h := zset (h5 g) (p_chan f) (mkA (p_path f) (p_npulses f) None) in
    let c := chans g ++ [(f, None)] in
    if nseg g =? 0 then Some (mkG h [] c (p_shape f) (Z.max 0 (p_nseg f)))
    else if shape_eqb (shape g) (p_shape f) then Some (mkG h [] c (shape g) (Z.max (nseg g) (p_nseg f)))
    else None
  else None.

Fixpoint add_noises (g : group) (l : list pfile) : option group :=
  match l with
  | [] => Some g
  | f :: t => match add_noise g f with Some g' => add_noises g' t | None => None end
  end.

Definition setup_noise (h : list (Z * attrs)) (l : list pfile) : option group := add_noises (empty h []) l.
