(** Entropy and cross entropy of kernel-density estimates, mass/mathstat/entropy.pyx, over the real
    numbers (rounding is not modelled). *)
From Coq Require Import Reals ZArith String Bool List.
Import ListNotations.
Local Open Scope R_scope.
Local Open Scope list_scope.

Definition rleb (x y : R) : bool := if Rle_dec x y then true else false.
Definition rltb (x y : R) : bool := if Rlt_dec x y then true else false.

(** np.sort *)
Fixpoint rinsert (x : R) (l : list R) : list R :=
  match l with [] => [x] | y :: t => if rleb x y then x :: l else y :: rinsert x t end.
Definition rsort (l : list R) : list R := fold_right rinsert [] l.

(** * laplace_entropy *)

(** entropy.pyx:87 (and 284-285): e[i] = exp(y[i] - y[i+1]). *)
Fixpoint decay (y : list R) : list R :=
  match y with a :: ((b :: _) as t) => exp (a - b) :: decay t | _ => [] end.
(** entropy.pyx:85-88: c[0] = s, c[i] = e[i-1] * c[i-1] + s. *)
Fixpoint forward (s c : R) (e : list R) : list R :=
  match e with [] => [c] | k :: t => c :: forward s (k * c + s) t end.
(** entropy.pyx:89-91: d[N-1] = s, d[i] = e[i] * d[i+1] + s. *)
Fixpoint backward (s : R) (e : list R) : list R :=
  match e with [] => [s] | k :: t => let d := backward s t in (k * hd 0 d + s) :: d end.

(** entropy.pyx:96-103: what is added for the interval between two points.  The variable r is not
    used. *)
Definition interval_term (w c dnext e : R) : R :=
  let dp := dnext * e in
  let r1 := c / dnext in
  let e2 := sqrt e in
  let A := dnext in
  let B := c * e in
  4 * w * sqrt (c * dp) * atan ((e2 - 1 / e2) * sqrt r1 / (r1 + 1))
  + w * (dp - c) * (ln (c + dp) - 1) - w * (A - B) * (ln (A + B) - 1).
(** The loop over i in range(N-1); the lists are c, d[1:] and e. *)
Fixpoint interval_sum (w acc : R) (c dnext e : list R) : R :=
  match c, dnext, e with
  | c0 :: c', d0 :: d', e0 :: e' => interval_sum w (acc + interval_term w c0 d0 e0) c' d' e'
  | _, _, _ => acc
  end.

(** entropy.pyx:76-104, [laplace_entropy_array], of at least one value. *)
Definition laplace_entropy_array (x : list R) (w : R) : R :=
  let y := map (fun v => v / w) (rsort x) in
  let s := 1 / (2 * w * INR (List.length x)) in
  let e := decay y in
  let c := forward s s e in
  let d := backward s e in
  let d0 := hd 0 d in
  let cl := last c 0 in
  interval_sum w (w * d0 * (1 - ln d0) + w * cl * (1 - ln cl)) c (tl d) e.

(** entropy.pyx:41-73, [laplace_entropy].  [approx] is laplace_entropy_approx, which is not modelled;
    None is the ValueError. *)
Definition laplace_entropy (approx : list R -> R -> R) (x : list R) (w : R) (mode : string) : option R :=
  if Nat.eqb (List.length x) 0 then None
  else if rleb w 0 then None
  else
    let m := if String.eqb mode "size" then (if Z.leb (Z.of_nat (List.length x)) 200000 then "exact" else "approx")%string else mode in
    if prefix "exact" m then Some (laplace_entropy_array x w) else Some (approx x w).

(** * laplace_cross_entropy *)

(** entropy.pyx:166-190, the loop of _merge_orderedlists_arrays (see MrgModel): the values and whether
    each came from the first list. *)
Fixpoint rmerge_loop (fuel : nat) (x1 x2 : list R) : list (R * bool) :=
  match fuel, x1, x2 with
  | S f, a :: t1, b :: t2 =>
      if rltb a b then (a, true) :: match t1 with [] => map (fun v => (v, false)) x2 | _ => rmerge_loop f t1 x2 end
      else (b, false) :: match t2 with [] => map (fun v => (v, true)) x1 | _ => rmerge_loop f x1 t2 end
  | _, _, _ => []
  end.
(** entropy.pyx:138-163, two lists that are not empty. *)
Definition rmerge (x1 x2 : list R) : list (R * bool) := rmerge_loop (List.length x1 + List.length x2) x1 x2.

(** entropy.pyx:287-299, the pass from left to right: [c[i] = factor*c[i-1]], plus stepX at an x node. *)
Fixpoint cross_forward (s c : R) (e : list R) (isx : list bool) : list R :=
  match e, isx with
  | k :: e', b :: isx' => let c' := k * c + (if b : bool then s else 0) in c' :: cross_forward s c' e' isx'
  | _, _ => []
  end.
(** entropy.pyx:301-309, from right to left. *)
Fixpoint cross_backward (s : R) (e : list R) (isx : list bool) : list R :=
  match isx with
  | [] => []
  | b :: isx' =>
      let d := cross_backward s (tl e) isx' in
      let own := if b : bool then s else 0 in
      match e with [] => [own] | k :: _ => (k * hd 0 d + own) :: d end
  end.

(** entropy.pyx:311-328: the loop; [ups] is what is left of qstep_is_up, [up] is net_up_qsteps.  An
    index beyond qstep_is_up raises an exception (None). *)
Fixpoint cross_sum (qmin qstep acc : R) (up : Z) (ups : list bool) (c d e : list R) (isx : list bool) : option R :=
  match c, d, e, isx with
  | c0 :: c', d1 :: d', k :: e', b :: isx' =>
      let q := qmin + qstep * IZR up in
      let acc' := acc - (c0 + d1) * (1 - k) * ln q in
      if b : bool then cross_sum qmin qstep acc' up ups c' d' e' isx'
      else match ups with
           | [] => None
           | u :: ups' => cross_sum qmin qstep acc' (if u : bool then (up + 1)%Z else (up - 1)%Z) ups' c' d' e' isx'
           end
  | _, _, _, _ => Some acc
  end.

(** entropy.pyx:260-330, [laplace_cross_entropy_arrays], of two lists in order that are not empty. *)
Definition cross_entropy_arrays (x y : list R) : option R :=
  let width := 2 * sqrt 6 in
  let ynodes := rmerge (map (fun v => v - (1 / 2) * width) y) (map (fun v => v + (1 / 2) * width) y) in
  let ups := map snd ynodes in
  let merged := rmerge x (map fst ynodes) in
  let nodes := map fst merged in
  let isx := map snd merged in
  let ny := INR (List.length y) in
  let qmin_sum := 1 / sqrt (ny + 3) in
  let qmin := qmin_sum / (last nodes 0 + 10 - (hd 0 nodes - 10)) in
  let qstep := (1 - qmin_sum) / (ny * width) in
  let e := decay nodes in
  let s := 1 / (2 * INR (List.length x)) in
  let x_first := hd true isx in
  let c0 := if x_first then s else 0 in
  let c := c0 :: cross_forward s c0 e (tl isx) in
  let d := cross_backward s e isx in
  let up0 := if x_first then 0%Z else 1%Z in
  let ups0 := if x_first then ups else tl ups in
  match cross_sum qmin qstep (- hd 0 d * ln qmin) up0 ups0 c (tl d) e (tl isx) with
  | None => None
  | Some h => Some (h - last c 0 * ln qmin)
  end.

(** entropy.pyx:213-257, [laplace_cross_entropy]; [approx] is laplace_cross_entropy_approx. *)
Definition laplace_cross_entropy (approx : list R -> list R -> R -> R) (x y : list R) (w : R) (mode : string) : option R :=
  if rleb w 0 then None
  else if Nat.eqb (List.length x) 0 || Nat.eqb (List.length y) 0 then None
  else
    let m := if String.eqb mode "size" then (if Z.leb (Z.of_nat (List.length x + List.length y)) 200000 then "exact" else "approx")%string else mode in
    if prefix "exact" m then
      option_map (fun h => h + ln w)
        (cross_entropy_arrays (map (fun v => v / w) (rsort x)) (map (fun v => v / w) (rsort y)))
    else Some (approx x y w).

(** entropy.pyx:196-209, [laplace_KL_divergence] *)
Definition laplace_KL_divergence (approx : list R -> R -> R) (cross_approx : list R -> list R -> R -> R) (x y : list R) (w : R)
           (mode : string) : option R :=
  match laplace_cross_entropy cross_approx x y w mode, laplace_entropy approx x w mode with
  | Some a, Some b => Some (a - b)
  | _, _ => None
  end.
