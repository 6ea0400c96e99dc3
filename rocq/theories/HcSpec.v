(** What a model of several lines should mean. *)
From Coq Require Import QArith Qcanon Ascii String Bool List.
From Verif Require Import HcModel.
Import ListNotations.
Local Open Scope Qc_scope.

(** The values of the parameters obey the hint that was set last for each name. *)
Definition eval (env : text -> Qc) (e : expr) : Qc :=
  match e with Same p => env p | Shifted s d p => s * env d + env p | Times a b => env a * env b end.
Definition obeys (env : text -> Qc) (m : model) : Prop :=
  forall l k e r, hints m = (l ++ (k, e) :: r)%list -> (forall e', ~ In (k, e') r) -> env k = eval env e.
(** The energy at a pulse height, as a line of the model sees it *)
Definition energy_at (env : text -> Qc) (c : comp) (ph : Qc) : Qc := (ph - env (cprefix c ++ t "peak_ph")%list) / env (cprefix c ++ t "dph_de")%list + energy_of c.
