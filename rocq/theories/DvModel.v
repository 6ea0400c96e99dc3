(** The function objects of mass/mathstat/derivative.py, with CubicSplineFunction of mass/mathstat/interpolate.py, over
    the real numbers (rounding is not modelled).  A value that is infinite or not a number is [None], and so is an
    exception when a function is called. *)
From Coq Require Import Reals ZArith Bool Lia List.
From Verif Require Import EntModel SplModel.
Import ListNotations.
Local Open Scope R_scope.

Definition req (a b : R) : bool := if Req_EM_T a b then true else false.
Definition is_int (n : R) : bool := req n (IZR (Int_part n)).

(** [np.power(x, n)] for n >= 0, [1.0 / np.power(x, -n)] for n < 0 (PowerFunction.__call__, 122-127). *)
Definition power (x n : R) : option R :=
  if is_int n then
    let z := Int_part n in
    if (0 <=? z)%Z then Some (x ^ Z.to_nat z) else if req x 0 then None else Some (/ (x ^ Z.to_nat (- z)))
  else if rltb x 0 then None
  else if req x 0 then (if rltb 0 n then Some 0 else None)
  else Some (if rltb 0 n then Rpower x n else / Rpower x (- n)).

(** The objects: ConstantFunction, PowerFunction, Identity (a subclass of PowerFunction), LogFunction, ExponentialFunction,
    CubicSplineFunction with its attribute [der], Summation, Multiplication and Composition.  [Num] is a Python number that
    was used in the place of a function. *)
Inductive fn :=
  | Const (v : option R) | Pow (n : R) | Id | Log | Exp | Spl (s : spline) (d : nat)
  | Sum (g h : fn) | Mul (g h : fn) | Comp (g h : fn) | Num (v : R).

Definition oadd (a b : option R) : option R := match a, b with Some u, Some v => Some (u + v) | _, _ => None end.
Definition omul (a b : option R) : option R := match a, b with Some u, Some v => Some (u * v) | _, _ => None end.

(** LogFunction.__call__, line 151: np.log(np.clip(x, 1e-6, None)) *)
Definition clipped_log (x : R) : R := ln (Rmax x (/ 1000000)).
(** CubicSplineFunction.__call__, interpolate.py 199-202. *)
Definition spline_value (s : spline) (d : nat) (x : R) : R := if (3 <? d)%nat then 0 else spline_at s (Z.of_nat d) x.

(** f(x) *)
Fixpoint eval (f : fn) (x : R) : option R :=
  match f with
  | Const v => v
  | Pow n => power x n
  | Id => power x 1
  | Log => Some (clipped_log x)
  | Exp => Some (exp x)
  | Spl s d => Some (spline_value s d x)
  | Sum g h => oadd (eval g x) (eval h x)
  | Mul g h => omul (eval g x) (eval h x)
  | Comp g h => match eval h x with Some y => eval g y | None => None end
  | Num _ => None
  end.

(** * The simplifications of ExprMeta.__call__ *)

(** isinstance(f, PowerFunction), and its n *)
Definition as_power (f : fn) : option R := match f with Pow n => Some n | Id => Some 1 | _ => None end.
Definition as_const (f : fn) : option (option R) := match f with Const v => Some v | _ => None end.
Definition is (v : option R) (c : R) : bool := match v with Some u => req u c | None => false end.

(** Summation(a, b), 173-179. *)
Definition sum (a b : fn) : fn :=
  match as_const a, as_const b with
  | Some u, Some v => Const (oadd u v)
  | _, _ =>
      if (match as_const a with Some u => is u 0 | None => false end) then b
      else if (match as_const b with Some v => is v 0 | None => false end) then a
      else Sum a b
  end.

Fixpoint size (f : fn) : nat := match f with Sum g h | Mul g h | Comp g h => S (size g + size h) | _ => 1%nat end.

(** Multiplication(a, b), 197-227.  [rec] stands for the products that are formed in turn; here a constant, if there is one, is in front (206-229). *)
Definition mult_step (rec : fn -> fn -> fn) (a b : fn) : fn :=
  match a with
  | Const u =>
      if is u 0 then a
      else if is u 1 then b
      else match b with Mul (Const w) h => rec (Const (omul u w)) h | _ => Mul a b end
  | _ =>
      match as_power a with
      | Some p =>
          match as_power b with
          | Some q => Pow (p + q)
          | None =>
              match b with
              | Mul g h => match as_power h with Some q => rec g (Pow (p + q)) | None => Mul a b end
              | _ => Mul a b
              end
          end
      | None =>
          match a with
          | Mul ga ha =>
              match ga, b with
              | Const u, Mul (Const w) hb => rec (Const (omul u w)) (rec ha hb)
              | _, _ =>
                  match as_power ha with
                  | Some p =>
                      match as_power b with
                      | Some q => rec ga (Pow (p + q))
                      | None =>
                          match b with
                          | Mul gb hb => match as_power hb with Some q => rec (rec ga gb) (Pow (p + q)) | None => Mul a b end
                          | _ => Mul a b
                          end
                      end
                  | None => Mul a b
                  end
              end
          | _ => Mul a b
          end
      end
  end.
(** 198-204 *)
Definition mult_top (rec : fn -> fn -> fn) (a b : fn) : fn :=
  match as_const a, as_const b with
  | Some u, Some v => Const (omul u v)
  | _, Some _ => mult_step rec b a
  | _, None => mult_step rec a b
  end.
(** [fuel] bounds the depth of the recursion. *)
Fixpoint mult_rec (fuel : nat) : fn -> fn -> fn := match fuel with O => Mul | S n => mult_top (mult_rec n) end.
Definition mult (a b : fn) : fn := mult_rec (size a + size b) a b.

(** Composition(a, b), 180-196. *)
Fixpoint comp (a b : fn) : fn :=
  let otherwise :=
    match b with
    | Const v => Const (match v with Some y => eval a y | None => None end)
    | Id => a
    | _ =>
        match as_power a, as_power b with
        | Some p, Some q => Pow (p * q)
        | _, _ => match a, b with Exp, Log | Log, Exp => Id | _, _ => Comp a b end
        end
    end in
  match a with
  | Const _ => a
  | Id => b
  | Mul (Const u) h => mult (Const u) (comp h b)
  | _ => otherwise
  end.

(** * The operators of Function *)

(** f + g, f * g and f << g; f + 3 and f * 3 take the number as it is (49-50, 65-66). *)
Definition add_number (f : fn) (c : R) : fn := sum f (Num c).
Definition mul_number (f : fn) (c : R) : fn := mult f (Num c).
(** 3 + f (52-55), 3 * f (68-71), -f (33-34), f - g (57-58), 3 - f (60-63), f / g and f / 3 (73-76), 3 / f (81-84), f ** y (89-90). *)
Definition number_add (c : R) (f : fn) : fn := sum (Const (Some c)) f.
Definition number_mul (c : R) (f : fn) : fn := mult (Const (Some c)) f.
Definition neg (f : fn) : fn := number_mul (-1) f.
Definition subtract (f g : fn) : fn := sum f (neg g).
Definition number_sub (c : R) (f : fn) : fn := subtract (Const (Some c)) f.
Definition div (f g : fn) : fn := mult f (comp (Pow (-1)) g).
Definition div_number (f : fn) (c : R) : fn := div f (Const (Some c)).
Definition number_div (c : R) (f : fn) : fn := div (Const (Some c)) f.
Definition raised (f : fn) (y : R) : fn := comp (Pow y) f.
(** f - 3 is f + (-3). *)
Definition sub_number (f : fn) (c : R) : fn := add_number f (- c).

(** * Derivatives *)

(** CubicSplineFunction.derivative, interpolate.py 191-197. *)
Definition spl_derivative (s : spline) (d k : nat) : fn := if (3 <? d + k)%nat then Const (Some 0) else Spl s (d + k).

(** f.derivative(1).  [Num]: no such attribute; an exception, which the model only meets when the result is called. *)
Fixpoint d1 (f : fn) : fn :=
  match f with
  | Const _ => Const (Some 0)
  | Pow n => if req n 1 then Const (Some 1) else mult (Const (Some n)) (Pow (n - 1))
  | Id => Const (Some 1)
  | Log => Pow (-1)
  | Exp => Exp
  | Spl s d => spl_derivative s d 1
  | Sum g h => sum (d1 g) (d1 h)
  | Mul g h => sum (mult (d1 g) h) (mult g (d1 h))
  | Comp g h => mult (comp (d1 g) h) (d1 h)
  | Num v => Num v
  end.

(** f.derivative(der): 102-105, 115-120, 144-147, 161-162, 240-244, 260-265, 282-286; a negative [der] (endless recursion) is not modelled. *)
Fixpoint deriv (der : nat) : fn -> fn :=
  match der with
  | O => fun f => f
  | S k =>
      fix go (f : fn) : fn :=
        match f with
        | Const _ => Const (Some 0)
        | Pow n => if (k =? 0)%nat && req n 1 then Const (Some 1) else deriv k (mult (Const (Some n)) (Pow (n - 1)))
        | Id => if (k =? 0)%nat then Const (Some 1) else deriv k (mult (Const (Some 1)) (Pow (1 - 1)))
        | Log => deriv k (Pow (-1))
        | Exp => Exp
        | Spl s d => spl_derivative s d (S k)
        | Sum g h => sum (go g) (go h)
        | Mul g h => deriv k (sum (mult (d1 g) h) (mult g (d1 h)))
        | Comp g h => deriv k (mult (comp (d1 g) h) (d1 h))
        | Num v => Num v
        end
  end.

(** f(x, der): 97-100, 122-129, 149-153, 164-165, 246-250, 267-273, 288-289. *)
Fixpoint osum (n : nat) (f : nat -> option R) : option R := match n with O => Some 0 | S m => oadd (osum m f) (f m) end.
Fixpoint call (f : fn) (x : R) (der : nat) : option R :=
  match f with
  | Const v => if (der =? 0)%nat then v else Some 0
  | Pow _ | Id | Comp _ _ => eval (deriv der f) x
  | Log => match der with O => Some (clipped_log x) | S k => eval (deriv k (Pow (-1))) x end
  | Exp => Some (exp x)
  | Spl s d => Some (spline_value s (d + der) x)
  | Sum g h => oadd (call g x der) (call h x der)
  | Mul g h =>
      match der with
      | O => omul (eval g x) (eval h x)
      | S _ => osum (S der) (fun n => omul (omul (call g x n) (call h x (der - n)))
                                         (Some (INR (fact der) / INR (fact (der - n)) / INR (fact n))))
      end
  | Num _ => None
  end.
