(** Gaussian-process smoothing splines: mass/mathstat/interpolate.py k_spline 232-235, GPRSpline 264-309, 340-368.
    Real numbers; vectors and matrices are functions of natural numbers; [None] is an exception.  np.linalg.cholesky and np.linalg.solve are
    arguments.  The errors [err] are given (272-281: the absolute errors in y if there are none in x). *)
From Coq Require Import Reals List.
Import ListNotations.
Open Scope R_scope.

Fixpoint sm (n : nat) (f : nat -> R) : R := match n with O => 0 | S m => sm m f + f m end.
Definition vec := nat -> R.
Definition mat := nat -> nat -> R.
Definition tr (M : mat) : mat := fun i j => M j i.
Definition kern (x y : R) : R := let v := Rmin x y in v ^ 3 / 3 + v ^ 2 / 2 * Rabs (x - y).

Section Gpr.
Variable chol : nat -> mat -> option mat.
(** solve n m M B: the n by m matrix X with M X = B *)
Variable msolve : nat -> nat -> mat -> mat -> option mat.
Definition vsolve (n : nat) (M : mat) (b : vec) : option vec := option_map (fun X i => X i O) (msolve n 1 M (fun i _ => b i)).
Variable n : nat.
Variables x y err : vec.
Variable sf2 : R.
(** 287-294: each value below the diagonal is copied from above it. *)
Definition Hrow (v : R) (p : nat) : R := match p with O => 1 | _ => v end.
Definition Hm : mat := fun p i => Hrow (x i) p.
Definition Km : mat := fun i j => sf2 * kern (x (Nat.min i j)) (x (Nat.max i j)).
Definition Ky : mat := fun i j => Km i j + (if Nat.eqb i j then err i ^ 2 else 0).
Record fit := mkFit { fL : mat; fA : mat; fW : mat; fbeta : vec; fgbar : vec }.
(** 295-309 *)
Definition make_fit : option fit :=
  match chol n Ky with None => None | Some L =>
  match msolve n 2 L (tr Hm) with None => None | Some LH =>
  let A : mat := fun p q => sm n (fun i => LH i p * LH i q) in
  match msolve n 2 (tr L) LH with None => None | Some W =>
  match msolve 2 n A (tr W) with None => None | Some B =>
  let beta := fun p => sm n (fun i => B p i * y i) in
  match msolve n n L Km with None => None | Some Z =>
  match msolve n n (tr L) Z with None => None | Some X =>
  let Rm : mat := fun p i => Hm p i - sm n (fun k => W k p * Km k i) in
  let fbar := fun i => sm n (fun k => X k i * y k) in
  Some (mkFit L A W beta (fun i => fbar i + sm 2 (fun p => Rm p i * beta p)))
  end end end end end end.

(** 340-354; one number is refused: an array without dimensions cannot be iterated. *)
Definition variance1 (f : fit) (v : R) : option R :=
  let kt := fun i => sf2 * kern v (x i) in
  match vsolve n (fL f) kt with None => None | Some u =>
  let cov := sf2 * kern v v - sm n (fun i => u i ^ 2) in
  let r := fun p => Hrow v p - sm n (fun i => fW f i p * kt i) in
  match vsolve 2 (fA f) r with None => None | Some s => Some (cov + sm 2 (fun p => r p * s p)) end end.
Fixpoint each {A B} (g : A -> option B) (l : list A) : option (list B) :=
  match l with [] => Some [] | a :: t => match g a, each g t with Some b, Some r => Some (b :: r) | _, _ => None end end.
Inductive points := Scalar (v : R) | Array (l : list R).
Definition variance (f : fit) (xtest : points) : option (list R) := match xtest with Scalar _ => None | Array l => each (variance1 f) l end.
(** 356-368: element (a, b); np.vstack of nothing raises. *)
Definition covariance (f : fit) (xtest : points) : option mat :=
  match xtest with
  | Scalar v => match variance f (Scalar v) with None => None | Some l => Some (fun a b => nth 0 l 0) end
  | Array [] => None
  | Array l =>
      let m := length l in
      let kt : mat := fun i a => sf2 * kern (nth a l 0) (x i) in
      match msolve n m (fL f) kt with None => None | Some U =>
      let r : mat := fun p a => Hrow (nth a l 0) p - sm n (fun i => fW f i p * kt i a) in
      match msolve 2 m (fA f) r with None => None | Some T =>
      Some (fun a b => sf2 * kern (nth a l 0) (nth b l 0) - sm n (fun i => U i a * U i b) + sm 2 (fun p => r p a * T p b))
      end end
  end.
End Gpr.
(** The constructor is given sigmaf. *)
Definition gpr chol msolve n x y err sigmaf := make_fit chol msolve n x y err (sigmaf * sigmaf).
