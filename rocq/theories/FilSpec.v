(** What a filter passes, written without reference to the model's functions. *)
From Coq Require Import Reals String List Permutation.
Import ListNotations.
From Verif Require Import FilModel.
Local Open Scope R_scope.

(** The layers of a film: material, density and thickness, as far as all three go. *)
Fixpoint layers (ms : list string) (ds ts : list R) : list (string * R * R) :=
  match ms, ds, ts with
  | m :: ms, d :: ds, t :: ts => (m, d, t) :: layers ms ds ts
  | _, _, _ => []
  end.
Fixpoint optical_depth (mu : string -> R -> R) (l : list (string * R * R)) : R :=
  match l with [] => 0 | (m, d, t) :: r => mu m d * t + optical_depth mu r end.
(** What is let through by a film that covers a fraction of the area, and what is absorbed in it. *)
Definition passed (depth fill : R) : R := 1 - fill * (1 - exp (- depth)).
Definition absorbed (depth fill : R) : R := fill * (1 - exp (- depth)).

(** The sum of coefficients times mass per area. *)
Fixpoint mass_depth (kappa : string -> R) (ms : list string) (areas : list R) : R :=
  match ms, areas with m :: ms, a :: areas => kappa m * a + mass_depth kappa ms areas | _, _ => 0 end.

(** The films in a stack, with all stacks in it opened. *)
Fixpoint films (p : part) : list film :=
  match p with
  | AFilm f => [f]
  | AStack ps => (fix over (l : list (string * part)) : list film := match l with [] => [] | (_, q) :: t => films q ++ over t end) ps
  end.
(** Every stack in it has a component. *)
Inductive furnished : part -> Prop :=
| furnished_film f : furnished (AFilm f)
| furnished_stack ps : ps <> [] -> (forall n p, In (n, p) ps -> furnished p) -> furnished (AStack ps).

(** A film that nature allows. *)
Definition physical (mu : string -> R -> R) (f : film) : Prop :=
  (forall m d t, In (m, d, t) (layers (materials f) (densities f) (thicknesses f)) -> 0 <= mu m d /\ 0 <= t) /\
  0 <= fill_fraction f <= 1.

(** The product, when there are all factors. *)
Fixpoint product (l : list (option R)) : option R :=
  match l with [] => Some 1 | x :: t => match x, product t with Some e, Some r => Some (e * r) | _, _ => None end end.

(** A layer of so many nanometres of aluminium. *)
Definition al_layer (al_nm al_density : R) : string * R * R := ("Al"%string, al_density, al_nm / 10000000).
