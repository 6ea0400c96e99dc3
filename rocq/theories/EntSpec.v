(** Kernel-density estimates and integrals over the real line. *)
From Coq Require Import Reals List.
Import ListNotations.
Local Open Scope R_scope.

Definition rsum (l : list R) : R := fold_right Rplus 0 l.

(** The estimate of the density from the points [x] with the Laplace kernel of width [w]. *)
Definition laplace_kde (x : list R) (w u : R) : R :=
  rsum (map (fun v => exp (- (Rabs (u - v) / w)) / (2 * w * INR (length x))) x).

Definition tends_right (G : R -> R) (v : R) : Prop := forall eps, 0 < eps -> exists m, forall u, m < u -> Rabs (G u - v) < eps.
Definition tends_left (G : R -> R) (v : R) : Prop := forall eps, 0 < eps -> exists m, forall u, u < m -> Rabs (G u - v) < eps.

(** [h] is the integral of [f] from minus to plus infinity: there is a continuous function with
    derivative [f], except perhaps at finitely many points, that goes from 0 to [h]. *)
Definition total_integral (f : R -> R) (h : R) : Prop :=
  exists G except, continuity G /\ (forall u, ~ In u except -> derivable_pt_lim G u (f u)) /\
                   tends_left G 0 /\ tends_right G h.

(** The integral from [lo] to [hi]. *)
Definition integral_over (lo hi : R) (f : R -> R) (h : R) : Prop :=
  exists G except, continuity G /\ (forall u, lo < u < hi -> ~ In u except -> derivable_pt_lim G u (f u)) /\ G hi - G lo = h.

(** The estimate of the density from the points [y] with a rectangular kernel of half width [h], for
    the fraction 1 - [share] of the probability; the rest is spread evenly from [lo] to [hi]. *)
Definition inside (h v u : R) : R := if Rlt_dec (Rabs (u - v)) h then 1 else 0.
Definition box_density (share lo hi h : R) (y : list R) (u : R) : R :=
  share / (hi - lo) + (1 - share) * (rsum (map (fun v => inside h v u) y) / (INR (length y) * (2 * h))).

Definition least (l : list R) (m : R) : Prop := In m l /\ forall v, In v l -> m <= v.
Definition greatest (l : list R) (m : R) : Prop := In m l /\ forall v, In v l -> v <= m.
