(** Model of ToeplitzSolver, /repo/mass/mathstat/toeplitz.py:16-195, for one right-hand side (the two-dimensional
    case, lines 168-170, solves column by column). Numbers are exact rationals; None stands for a division by zero
    (numpy then returns infinities or NaN) and for the exceptions named below. *)
From Coq Require Import ZArith QArith Qcanon List.
From Verif Require Import QcPre LagModel.
Import ListNotations.
Local Open Scope Qc_scope.

Definition qdiv (a b : Qc) : option Qc := if Qc_eq_dec b 0 then None else Some (a / b).
Notation "'do' x <- a ; b" := (match a with Some x => b | None => None end) (at level 200, x pattern, a at level 100, b at level 200, right associativity).

(** v[:K] -= c * u[:K] *)
Definition vsubs (v : list Qc) (c : Qc) (u : list Qc) : list Qc := map (fun p => fst p - c * snd p) (combine v u).

(** One Levinson extension of a solution: lines 127-128, 134 with 140, 135 with 139, 161-163, 188-189 and 194-195. [row] is the slice of T that
    multiplies v, [a] the auxiliary vector (used backwards). *)
Definition extend (row v a : list Qc) (rhs denom : Qc) : option (list Qc) :=
  do vK <- qdiv (dot row v - rhs) denom;
  Some (vsubs v vK (rev a) ++ [vK]).

(** T[1:K+1] *)
Definition upto (T : list Qc) (K : nat) : list Qc := firstn K (tl T).

(** __precompute_symmetric, lines 142-163: the pairs (xg_denom[K], gK_leading[K]) for K = 1..n-1. The division by
    xg_denom[n-1] happens only in the solver. [m] counts down to the last K. *)
Fixpoint precompute (m : nat) (T : list Qc) (K : nat) (g : list Qc) : option (list (Qc * Qc)) :=
  let denom := dot (upto T K) g - nth 0 T 0 in
  match m with
  | O => Some [(denom, 0)]
  | S m' =>
      do g' <- extend (rev (upto T K)) g g (nth (K + 1) T 0) denom;
      do rest <- precompute m' T (K + 1) g';
      Some ((denom, nth K g' 0) :: rest)
  end.

(** __solve_symmetric, lines 165-195, for K = 1, 2, ... with the precomputed pairs. *)
Fixpoint solve_loop (pre : list (Qc * Qc)) (T y : list Qc) (K : nat) (x g : list Qc) : option (list Qc) :=
  match pre with
  | [] => None
  | (denom, lead) :: rest =>
      do x' <- extend (rev (upto T K)) x g (nth K y 0) denom;
      match rest with
      | [] => Some x'
      | _ => solve_loop rest T y (K + 1) x' (vsubs g lead (rev g) ++ [lead])
      end
  end.

(** ToeplitzSolver(T, symmetric=True)(y). T of length one raises IndexError (line 155). *)
Definition solve_symmetric (T y : list Qc) : option (list Qc) :=
  let n := length T in
  if Nat.leb n 1 || negb (Nat.eqb (length y) n) then None else
  do g0 <- qdiv (nth 1 T 0) (nth 0 T 0);
  do pre <- precompute (n - 2) T 1 [g0];
  do x0 <- qdiv (nth 0 y 0) (nth 0 T 0);
  solve_loop pre T y 1 [x0] [g0].

(** __solve_asymmetric, lines 108-140; T has length 2n-1 and n = (length T + 1) / 2. [m] rounds remain. *)
Definition slice (T : list Qc) (a len : nat) : list Qc := firstn len (skipn a T).
Fixpoint asym_loop (m n : nat) (T y : list Qc) (K : nat) (x g h : list Qc) : option (list Qc) :=
  let T0 := nth (n - 1) T 0 in
  let xh_denom := dot (slice T n K) g - T0 in
  do x' <- extend (rev (slice T n K)) x g (nth K y 0) xh_denom;
  match m with
  | O => Some x'
  | S m' =>
      let g_denom := dot (slice T (n - K - 1) K) (rev h) - T0 in
      do h' <- extend (rev (slice T n K)) h g (nth (K + n) T 0) xh_denom;
      do g' <- extend (slice T (n - K - 1) K) g h (nth (n - K - 2) T 0) g_denom;
      asym_loop m' n T y (K + 1) x' g' h'
  end.

(** ToeplitzSolver(T, symmetric=False)(y). Raises for an even length (line 71), when y has not n entries
    (line 112), and for n = 1 (line 122, index n out of range). *)
Definition solve_asymmetric (T y : list Qc) : option (list Qc) :=
  let n := Nat.div (length T + 1) 2 in
  if Nat.even (length T) || Nat.leb n 1 || negb (Nat.eqb (length y) n) then None else
  let T0 := nth (n - 1) T 0 in
  do x0 <- qdiv (nth 0 y 0) T0;
  do g0 <- qdiv (nth (n - 2) T 0) T0;
  do h0 <- qdiv (nth n T 0) T0;
  asym_loop (n - 2) n T y 1 [x0] [g0] [h0].

(** mult, lines 86-100. The result has the element type of x ([np.zeros_like]): with integer x every stored
    value is truncated toward zero. None: AssertionError for a wrong length, or no data. *)
Definition qtrunc (a : Qc) : Qc := qz (Z.quot (Qnum (this a)) (Zpos (Qden (this a)))).
Definition mult_symmetric (int_x : bool) (T x : list Qc) : option (list Qc) :=
  let n := length T in
  let store v := if int_x then qtrunc v else v in
  if negb (Nat.eqb (length x) n) || Nat.eqb n 0 then None else
  Some (map (fun i =>
    match i with
    | O => store (dot T x)
    | _ => store (store (dot (firstn (n - i) T) (skipn i x)) + dot (slice T 1 i) (rev (firstn i x)))
    end) (seq 0 n)).
