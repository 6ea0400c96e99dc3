(** What a check of the size of bins should mean. *)
From Coq Require Import Reals String List.
From Verif Require Import SpcModel FwModel.
Import ListNotations.
Open Scope R_scope.

(** Every Lorentzian of the line, widened by the Gaussians of the instrument and of the line, covers [m] bins of size [b] at [d] units per energy. *)
Definition covered (m b d inst : R) (l : line) : Prop :=
  forall w, In w (widths l) -> m * b <= d * sqrt (w * w + inst * inst + intrinsic_sigma l * intrinsic_sigma l * (8 * ln 2)).
(** The values of a component's parameters, if it has both *)
Definition scales {P} (value : P -> string -> option R) (p : P) (c : part) (d f : R) : Prop :=
  value p (pprefix c ++ "dph_de")%string = Some d /\ value p (pprefix c ++ "fwhm")%string = Some f.
