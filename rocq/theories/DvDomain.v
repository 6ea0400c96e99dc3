(** Where the claims about function objects are made. *)
From Coq Require Import Reals ZArith Bool List.
From Verif Require Import SplModel DvModel DvSpec DvPower.
Import ListNotations.
Local Open Scope R_scope.

(** The points at which Composition(a, b) may be simplified: powers of powers of x are taken apart for x >= 0 or a whole outer
    exponent, and exp and log cancel where the logarithm is not clipped. *)
Fixpoint compatible (a b : fn) (x : R) : Prop :=
  match a with
  | Mul (Const _) h => compatible h b x
  | Pow p => match b with Pow _ => 0 <= x \/ is_int p = true | _ => True end
  | Exp => match b with Log => / 1000000 <= x | _ => True end
  | Log => match b with Exp => / 1000000 <= exp x | _ => True end
  | _ => True
  end.

(** All exponents are whole. *)
Fixpoint whole (f : fn) : Prop :=
  match f with Pow n => is_int n = true | Sum g h | Mul g h | Comp g h => whole g /\ whole h | _ => True end.

(** The points at which [f] has m derivatives: logarithms above 1e-6; powers of positive numbers, and whole powers (of 0, if not
    negative); splines up to the second derivative, or the first when slopes were given for their ends.  A function of a
    bare power x^n is taken at x > 0 unless all its exponents are whole. *)
Fixpoint safe (m : nat) (f : fn) (x : R) : Prop :=
  match f with
  | Const v => v <> None
  | Pow n => pow_safe n x
  | Id | Exp => True
  | Log => / 1000000 < x
  | Spl s d => exists xs ys yp1 ypN, make_spline xs ys yp1 ypN = Some s /\ NoDup xs /\ (d + m <= 1 \/ d + m <= 2 /\ yp1 = None /\ ypN = None)%nat
  | Sum g h | Mul g h => safe m g x /\ safe m h x
  | Comp g h => safe m h x /\ (exists y, eval h x = Some y /\ safe m g y) /\ match h with Pow _ => 0 < x \/ whole g | _ => True end
  | Num _ => False
  end.

(** The object that Python makes of an expression. *)
Fixpoint build (e : expr) : fn :=
  match e with
  | Number c => Const (Some c) | X => Id | XPower n => Pow n | LogX => Log | ExpX => Exp | SplineX s d => Spl s d
  | Plus e f => sum (build e) (build f)
  | Minus e f => subtract (build e) (build f)
  | Times e f => mult (build e) (build f)
  | Over e f => div (build e) (build f)
  | Negative e => neg (build e)
  | NumberPlus c e => number_add c (build e)
  | NumberMinus c e => number_sub c (build e)
  | NumberTimes c e => number_mul c (build e)
  | NumberOver c e => number_div c (build e)
  | OverNumber e c => div_number (build e) c
  | Raised e y => raised (build e) y
  | Of e f => comp (build e) (build f)
  end.

(** Every simplification of a composition in it is made where it may be made. *)
Fixpoint simplifies (e : expr) (x : R) : Prop :=
  match e with
  | Number _ | X | XPower _ | LogX | ExpX | SplineX _ _ => True
  | Plus e f | Minus e f | Times e f | Over e f => simplifies e x /\ simplifies f x
  | Negative e | NumberPlus _ e | NumberMinus _ e | NumberTimes _ e | NumberOver _ e | OverNumber e _ => simplifies e x
  | Raised e y => simplifies e x /\ compatible (Pow y) (build e) x
  | Of e f => simplifies f x /\ (forall u, means f x u -> simplifies e u) /\ compatible (build e) (build f) x
  end.

Definition bare_power (f : fn) : bool := match f with Pow _ => true | _ => false end.

(** The points at which an expression has m derivatives. *)
Fixpoint smooth (m : nat) (e : expr) (x : R) : Prop :=
  match e with
  | Number _ | X | ExpX => True
  | XPower n => pow_safe n x
  | LogX => / 1000000 < x
  | SplineX s d => safe m (Spl s d) x
  | Plus e f | Minus e f | Times e f => smooth m e x /\ smooth m f x
  | Over e f => smooth m e x /\ smooth m f x /\ ~ means f x 0
  | Negative e | NumberPlus _ e | NumberMinus _ e | NumberTimes _ e => smooth m e x
  | NumberOver _ e => smooth m e x /\ ~ means e x 0
  | OverNumber e c => smooth m e x /\ c <> 0
  | Raised e y => smooth m e x /\ (forall u, means e x u -> pow_safe y u) /\ (bare_power (build e) = true -> 0 < x \/ is_int y = true)
  | Of e f => smooth m f x /\ (forall u, means f x u -> smooth m e u) /\ (bare_power (build f) = true -> 0 < x \/ whole (build e))
  end.
