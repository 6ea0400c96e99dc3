(** What opening and restoring a group of channels should do. *)
From Coq Require Import ZArith Bool Permutation List.
From Verif Require Import LjhModel NameModel TgModel.
Import ListNotations.
Open Scope Z_scope.

(** The channels that belong in the group: those with pulses whose noise file is of the same channel. *)
Definition belongs (p : pfile * nfile) : bool := negb (p_npulses (fst p) =? 0) && (p_chan (fst p) =? n_chan (snd p)).

(** What the HDF5 file says about a channel with its noise file. *)
Definition entry (p : pfile * nfile) : Z * attrs :=
  (p_chan (fst p), mkA (p_path (fst p)) (p_npulses (fst p)) (Some (n_path (snd p)))).

(** What the noise HDF5 file says about it. *)
Definition noise_entry (p : pfile * nfile) : Z * bytes := (p_chan (fst p), n_path (snd p)).
