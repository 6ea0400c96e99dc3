(** What the expressions mean, and what a derivative is. *)
From Coq Require Import Reals ZArith List.
From Verif Require Import SplModel.
Import ListNotations.
Local Open Scope R_scope.

(** Real powers: whole exponents for every base, but 0 has no negative power; other exponents for bases that are not negative. *)
Inductive power_is (x : R) : R -> R -> Prop :=
  | whole_power (k : nat) : power_is x (INR k) (x ^ k)
  | negative_power (k : nat) : x <> 0 -> power_is x (- INR k) (/ x ^ k)
  | real_power n : 0 < x -> power_is x n (exp (n * ln x))
  | power_of_zero n : x = 0 -> 0 < n -> power_is x n 0.

(** Expressions as they are written with the operators of the class Function. *)
Inductive expr :=
  | Number (c : R) | X | XPower (n : R) | LogX | ExpX | SplineX (s : spline) (d : nat)
  | Plus (e f : expr) | Minus (e f : expr) | Times (e f : expr) | Over (e f : expr) | Negative (e : expr)
  | NumberPlus (c : R) (e : expr) | NumberMinus (c : R) (e : expr) | NumberTimes (c : R) (e : expr) | NumberOver (c : R) (e : expr)
  | OverNumber (e : expr) (c : R) | Raised (e : expr) (y : R) | Of (e f : expr).

(** [means e x v]: at x, the expression is v.  The logarithm is meant for 1e-6 and above only. *)
Inductive means : expr -> R -> R -> Prop :=
  | m_number c x : means (Number c) x c
  | m_x x : means X x x
  | m_xpower n x v : power_is x n v -> means (XPower n) x v
  | m_log x : / 1000000 <= x -> means LogX x (ln x)
  | m_exp x : means ExpX x (exp x)
  | m_spline s d x : (d <= 3)%nat -> means (SplineX s d) x (spline_at s (Z.of_nat d) x)
  | m_plus e f x u v : means e x u -> means f x v -> means (Plus e f) x (u + v)
  | m_minus e f x u v : means e x u -> means f x v -> means (Minus e f) x (u - v)
  | m_times e f x u v : means e x u -> means f x v -> means (Times e f) x (u * v)
  | m_over e f x u v : means e x u -> means f x v -> v <> 0 -> means (Over e f) x (u / v)
  | m_negative e x u : means e x u -> means (Negative e) x (- u)
  | m_nplus c e x u : means e x u -> means (NumberPlus c e) x (c + u)
  | m_nminus c e x u : means e x u -> means (NumberMinus c e) x (c - u)
  | m_ntimes c e x u : means e x u -> means (NumberTimes c e) x (c * u)
  | m_nover c e x u : means e x u -> u <> 0 -> means (NumberOver c e) x (c / u)
  | m_overn e c x u : means e x u -> c <> 0 -> means (OverNumber e c) x (u / c)
  | m_raised e y x u v : means e x u -> power_is u y v -> means (Raised e y) x v
  | m_of e f x u v : means f x u -> means e u v -> means (Of e f) x v.

(** A property that holds at all points near x. *)
Definition near (x : R) (P : R -> Prop) : Prop := exists eps, 0 < eps /\ forall y, Rabs (y - x) < eps -> P y.

(** [D 0], ..., [D m] are a function and its derivatives up to the m-th on a neighbourhood of x. *)
Definition derivatives (m : nat) (D : nat -> R -> R) (x : R) : Prop :=
  near x (fun y => forall i, (i < m)%nat -> derivable_pt_lim (D i) y (D (S i) y)).
