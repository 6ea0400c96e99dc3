(** What a Fourier filter should be, in terms of contents of oscillations. *)
From Coq Require Import Reals ZArith Bool List.
From Verif Require Import FtSpec FoSpec.
Import ListNotations.

(** the right lengths: a signal, and a spectrum at the frequencies of a signal as long as it *)
Definition fits (samples entries : nat) : Prop := entries = (samples / 2 + 1)%nat.
Local Open Scope R_scope.
Definition mean (x : list R) : R := sum x / INR (length x).
(** For white noise of spectrum p: the contents of a signal over p, as far as a band limit keeps them; nothing constant.
    [f k]: the frequency an oscillation is taken to have *)
Definition white_gain (p : R) (fmax f_3db : option R) (f : nat -> R) (k : nat) (g : R) : Prop :=
  (k = 0%nat /\ g = 0) \/ (0 < k)%nat /\ exists h, kept fmax f_3db (f k) h /\ g * p = h.
