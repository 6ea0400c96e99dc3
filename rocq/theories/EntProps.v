(** Entropy, cross entropy and divergence of kernel-density estimates (C56, C64). *)
From Coq Require Import Reals Lra Lia ZArith String Bool Permutation Sorted List.
From Verif Require Import EntModel EntSpec EntProofs EntCrossProofs.
Import ListNotations.
Local Open Scope R_scope.
Local Open Scope list_scope.

(** * C56 *)

(** The mode is "exact", or starts so, or is "size" for at most 200000 values. *)
Definition exact_mode (mode : string) (n : nat) : Prop :=
  (mode <> "size"%string /\ exists rest, mode = ("exact" ++ rest)%string) \/ (mode = "size"%string /\ (Z.of_nat n <= 200000)%Z).

Lemma prefix_app s : forall t, prefix s t = true <-> exists r, t = (s ++ r)%string.
Proof.
  induction s as [|c s IH]; intros t.
  - split; [exists t; reflexivity | destruct t; reflexivity].
  - destruct t as [|d t]; cbn; [split; [discriminate | intros (r & E); discriminate]|].
    destruct (Ascii.ascii_dec c d) as [->|N].
    + rewrite IH. split; intros (r & E); exists r; [congruence | now injection E].
    + split; [discriminate | intros (r & E)]. congruence.
Qed.
Lemma exact_mode_prefix mode n :
  prefix "exact" (if String.eqb mode "size" then (if Z.leb (Z.of_nat n) 200000 then "exact" else "approx") else mode)%string = true <-> exact_mode mode n.
Proof.
  unfold exact_mode. destruct (String.eqb_spec mode "size") as [->|N].
  - destruct (Z.leb_spec (Z.of_nat n) 200000); cbn; split; try discriminate; auto.
    + intros [(K & _)|(_ & K)]; [congruence | lia].
  - rewrite prefix_app. split; [auto|]. intros [(_ & K)|(K & _)]; [exact K | congruence].
Qed.

(** laplace_entropy is minus the integral of p log p, p being the kernel-density estimate, which is a
    probability density. *)
Theorem entropy_is_integral : forall approx x w mode, x <> [] -> 0 < w -> exact_mode mode (List.length x) ->
  exists h, laplace_entropy approx x w mode = Some h /\
    total_integral (fun u => - (laplace_kde x w u * ln (laplace_kde x w u))) h /\
    total_integral (laplace_kde x w) 1 /\ forall u, 0 < laplace_kde x w u.
Proof.
  intros approx x w mode N Hw M. exists (laplace_entropy_array x w). split; [|split; [|split]].
  - unfold laplace_entropy. destruct x as [|a t]; [congruence|]. change (Nat.eqb (List.length (a :: t)) 0) with false.
    unfold rleb. destruct (Rle_dec w 0); [lra|]. cbv zeta.
    rewrite (proj2 (exact_mode_prefix mode (List.length (a :: t))) M). reflexivity.
  - now apply entropy_integral.
  - now apply kde_total.
  - intros u. now apply kde_pos.
Qed.
Print Assumptions entropy_is_integral.

(** There is only one integral. *)
Theorem integral_unique : forall f h h', total_integral f h -> total_integral f h' -> h = h'.
Proof. exact total_integral_unique. Qed.
Print Assumptions integral_unique.

(** No values or a width that is not positive are refused, and nothing else is. *)
Theorem entropy_refused : forall approx x w mode, laplace_entropy approx x w mode = None <-> x = [] \/ w <= 0.
Proof.
  intros approx x w mode. unfold laplace_entropy. destruct x as [|a t]; cbn [List.length Nat.eqb]; [tauto|].
  unfold rleb. destruct (Rle_dec w 0) as [L|L]; [tauto|]. cbv zeta.
  destruct (prefix _ _); (split; [discriminate | intros [E|E]; [discriminate | contradiction]]).
Qed.
Print Assumptions entropy_refused.

(** In the other modes it is the approximation. *)
Theorem entropy_approximated : forall approx x w mode, x <> [] -> 0 < w -> ~ exact_mode mode (List.length x) ->
  laplace_entropy approx x w mode = Some (approx x w).
Proof.
  intros approx x w mode N Hw M. unfold laplace_entropy. destruct x as [|a t]; [congruence|]. change (Nat.eqb (List.length (a :: t)) 0) with false.
  unfold rleb. destruct (Rle_dec w 0); [lra|]. cbv zeta.
  rewrite <- (exact_mode_prefix mode (List.length (a :: t))) in M. apply not_true_is_false in M. now rewrite M.
Qed.
Print Assumptions entropy_approximated.

(** The recurrences give the sums of the kernels over the points, in linear time: c[i] + d[i] is the
    sum over all points, the i-th one counted twice. *)
Theorem recurrences_sum : forall s y i v, StronglySorted Rle y -> nth_error y i = Some v ->
  exists c d, nth_error (forward s s (decay y)) i = Some c /\ nth_error (backward s (decay y)) i = Some d /\
              c + d = rsum (map (fun z => s * exp (- Rabs (v - z))) y) + s.
Proof. exact kernel_sum_nth. Qed.
Print Assumptions recurrences_sum.

(** The order of the values does not matter, and a change of scale by k adds log k. *)
Theorem entropy_invariance : forall approx x x' w mode k a, x <> [] -> 0 < w -> 0 < k -> exact_mode mode (List.length x) ->
  (Permutation x x' -> laplace_entropy approx x' w mode = laplace_entropy approx x w mode) /\
  laplace_entropy approx (map (fun v => k * v + a) x) (k * w) mode = option_map (fun h => h + ln k) (laplace_entropy approx x w mode).
Proof.
  intros approx x x' w mode k a N Hw Hk M.
  assert (E : forall z w, z <> [] -> 0 < w -> List.length z = List.length x -> laplace_entropy approx z w mode = Some (laplace_entropy_array z w)).
  { intros z w0 Nz Hz L. unfold laplace_entropy. rewrite <- L in M. destruct z as [|b t]; [congruence|]. change (Nat.eqb (List.length (b :: t)) 0) with false.
    unfold rleb. destruct (Rle_dec w0 0); [lra|]. cbv zeta.
    rewrite (proj2 (exact_mode_prefix mode (List.length (b :: t))) M). reflexivity. }
  split.
  - intros P. rewrite E, E; try assumption; try reflexivity.
    + now rewrite (entropy_order x x').
    + intros ->. apply Permutation_sym, Permutation_nil in P. contradiction.
    + symmetry. now apply Permutation_length.
  - rewrite E, E; try assumption; try reflexivity.
    + cbn [option_map]. f_equal. now apply entropy_scale.
    + intros X. apply map_eq_nil in X. contradiction.
    + nra.
    + apply map_length.
Qed.
Print Assumptions entropy_invariance.

(** * C64 *)

(** The density estimated from y in laplace_cross_entropy: boxes of half width sqrt(6) w, and a
    share 1/sqrt(n+3) of the probability spread evenly over the range of the points of x and the
    boxes, 10 w more at each end. *)
Definition cross_density (y : list R) (w lo hi : R) : R -> R :=
  box_density (1 / sqrt (INR (List.length y) + 3)) (lo - 10 * w) (hi + 10 * w) (sqrt 6 * w) y.
Definition cross_range (x y : list R) (w lo hi : R) : Prop :=
  let points := x ++ map (fun v => v - sqrt 6 * w) y ++ map (fun v => v + sqrt 6 * w) y in
  least points lo /\ greatest points hi.

Lemma cross_exact approx x y w mode : x <> [] -> y <> [] -> 0 < w -> exact_mode mode (List.length x + List.length y) ->
  laplace_cross_entropy approx x y w mode =
  option_map (fun h => h + ln w) (cross_entropy_arrays (map (fun v => v / w) (rsort x)) (map (fun v => v / w) (rsort y))).
Proof.
  intros Nx Ny Hw M. unfold laplace_cross_entropy. unfold rleb. destruct (Rle_dec w 0); [lra|].
  apply exact_mode_prefix in M. cbv zeta. rewrite M.
  destruct x as [|a x]; [congruence|]. destruct y as [|b y]; [congruence|]. reflexivity.
Qed.
Lemma range_order x y w lo hi : x <> [] -> 0 < w -> cross_range x y w lo hi -> lo - 10 * w < hi + 10 * w.
Proof. intros N Hw ((I & _) & (_ & H)). specialize (H _ I). lra. Qed.

(** laplace_cross_entropy is minus the integral of p log q; q is positive everywhere, and has
    probability 1 over that range. *)
Theorem cross_entropy_is_integral : forall approx x y w mode, x <> [] -> y <> [] -> 0 < w ->
  exact_mode mode (List.length x + List.length y) ->
  exists h lo hi, laplace_cross_entropy approx x y w mode = Some h /\ cross_range x y w lo hi /\
    total_integral (fun u => - (laplace_kde x w u * ln (cross_density y w lo hi u))) h /\
    (forall u, 0 < cross_density y w lo hi u) /\
    integral_over (lo - 10 * w) (hi + 10 * w) (cross_density y w lo hi) 1.
Proof.
  intros approx x y w mode Nx Ny Hw M. rewrite cross_exact by assumption.
  destruct (cross_integral x y w Nx Ny Hw) as (h & lo & hi & E & L & H & T). exists h, lo, hi.
  assert (CR : cross_range x y w lo hi) by (split; assumption).
  assert (O := range_order x y w lo hi Nx Hw CR).
  assert (P6 : 0 < sqrt 6 * w) by (apply Rmult_lt_0_compat; [apply sqrt_lt_R0; lra | exact Hw]).
  split; [exact E|]. split; [exact CR|]. split; [exact T|]. split.
  - intros u. apply box_pos; [apply share_bounds | exact O | exact P6 | exact Ny].
  - apply box_mass; [exact O | exact P6 | exact Ny|]. intros v I. split.
    + assert (lo <= v - sqrt 6 * w); [|lra]. apply L. unfold nodes_of. rewrite !in_app_iff. right. left. apply in_map_iff. eauto.
    + assert (v + sqrt 6 * w <= hi); [|lra]. apply H. unfold nodes_of. rewrite !in_app_iff. right. right. apply in_map_iff. eauto.
Qed.
Print Assumptions cross_entropy_is_integral.

(** laplace_KL_divergence is the integral of p log(p/q). *)
Theorem divergence_is_integral : forall approx cross_approx x y w mode, x <> [] -> y <> [] -> 0 < w ->
  exact_mode mode (List.length x + List.length y) ->
  exists d lo hi, laplace_KL_divergence approx cross_approx x y w mode = Some d /\ cross_range x y w lo hi /\
    total_integral (fun u => laplace_kde x w u * ln (laplace_kde x w u / cross_density y w lo hi u)) d.
Proof.
  intros approx cross_approx x y w mode Nx Ny Hw M.
  assert (M' : exact_mode mode (List.length x)).
  { destruct M as [M|(M & L)]; [now left | right; split; [exact M | lia]]. }
  destruct (entropy_is_integral approx x w mode Nx Hw M') as (b & E1 & T1 & _).
  destruct (cross_entropy_is_integral cross_approx x y w mode Nx Ny Hw M) as (h & lo & hi & E2 & CR & T2 & P & _).
  exists (h - b), lo, hi. unfold laplace_KL_divergence. rewrite E1, E2. split; [reflexivity|]. split; [exact CR|].
  apply divergence_integral; assumption.
Qed.
Print Assumptions divergence_is_integral.

Theorem cross_entropy_refused : forall approx x y w mode, laplace_cross_entropy approx x y w mode = None <-> w <= 0 \/ x = [] \/ y = [].
Proof.
  intros approx x y w mode. unfold laplace_cross_entropy. unfold rleb. destruct (Rle_dec w 0) as [L|L]; [tauto|].
  destruct x as [|a x]; [cbn; tauto|]. destruct y as [|b y]; [cbn; tauto|]. cbn [List.length Nat.eqb orb]. cbv zeta.
  split; [|intros [K|[K|K]]; [contradiction | discriminate | discriminate]].
  destruct (prefix _ _); [|discriminate].
  destruct (cross_integral (a :: x) (b :: y) w) as (h & lo & hi & E & _); [discriminate | discriminate | lra |].
  rewrite E. discriminate.
Qed.
Print Assumptions cross_entropy_refused.

(** In the other modes it is the approximation. *)
Theorem cross_entropy_approximated : forall approx x y w mode, x <> [] -> y <> [] -> 0 < w ->
  ~ exact_mode mode (List.length x + List.length y) -> laplace_cross_entropy approx x y w mode = Some (approx x y w).
Proof.
  intros approx x y w mode Nx Ny Hw M. unfold laplace_cross_entropy. unfold rleb. destruct (Rle_dec w 0); [lra|].
  rewrite <- exact_mode_prefix in M. apply not_true_is_false in M. cbv zeta. rewrite M.
  destruct x as [|a x]; [congruence|]. destruct y as [|b y]; [congruence|]. reflexivity.
Qed.
Print Assumptions cross_entropy_approximated.

(** * Examples *)

(** One value: the entropy of the Laplace distribution, 1 + log 2. *)
Example entropy_one : laplace_entropy (fun _ _ => 0) [7] 1 "size" = Some (1 + ln 2).
Proof.
  unfold laplace_entropy, rleb. destruct (Rle_dec 1 0); [lra|]. cbn. unfold laplace_entropy_array. cbn.
  replace (1 / (2 * 1 * 1)) with (/ 2) by field. rewrite ln_Rinv by lra. f_equal. field.
Qed.
Example entropy_hypotheses : exact_mode "exactly" 300000 /\ exact_mode "size" 3 /\ ~ exact_mode "fast" 3.
Proof.
  split; [left; split; [discriminate | exists "ly"%string; reflexivity]|]. split; [right; split; [reflexivity | cbn; lia]|].
  intros [(_ & r & E)|(E & _)]; discriminate.
Qed.
(** Two equal values count twice. *)
Example recurrences_instance : exists c d, nth_error (forward 1 1 (decay [0; 0; 1])) 1 = Some c /\
  nth_error (backward 1 (decay [0; 0; 1])) 1 = Some d /\ c = 2 /\ d = 1 + exp (-1).
Proof.
  eexists. eexists. split; [reflexivity|]. split; [reflexivity|]. cbn.
  replace (0 - 0) with 0 by ring. rewrite exp_0. replace (0 - 1) with (-1) by ring. split; ring.
Qed.
Example cross_hypotheses : exists h lo hi, laplace_cross_entropy (fun _ _ _ => 0) [0; 3] [1] 2 "size" = Some h /\ cross_range [0; 3] [1] 2 lo hi.
Proof.
  destruct (cross_entropy_is_integral (fun _ _ _ => 0) [0; 3] [1] 2 "size") as (h & lo & hi & E & C & _);
    [discriminate | discriminate | lra | right; split; [reflexivity | cbn; lia] |]. eauto.
Qed.
