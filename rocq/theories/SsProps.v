(** Theorems about smoothing splines. *)
From Coq Require Import ZArith QArith Qcanon Bool Arith Lia List.
From Verif Require Import QcPre LagModel SsModel SsSpec SsProofs.
Import ListNotations.
Local Open Scope Qc_scope.

(** * The basis *)
(** Natural: at both ends the second derivative of every function of the basis is zero. *)
Theorem natural_ends N x id : (4 <= N)%nat -> increasing N x -> (id < N)%nat -> basis N x (x 0%nat) id 2 = Some 0 /\ basis N x (x (N - 1)%nat) id 2 = Some 0.
Proof. intros N4 INC L. unfold basis. rewrite (proj2 (Nat.ltb_lt _ _) L), natural_low, natural_high by assumption. now split. Qed.
Print Assumptions natural_ends.
(** An index too large is refused. *)
Theorem basis_refused N x v id d : (N <= id)%nat <-> basis N x v id d = None.
Proof. unfold basis. destruct (Nat.ltb_spec id N); split; intros; try lia; try discriminate; reflexivity. Qed.
Print Assumptions basis_refused.
Definition count (i : nat) : Qc := qz (Z.of_nat i).
Example count_increasing : increasing 4 count.
Proof. intros i L. do 3 (destruct i as [|i]; [reflexivity|]). lia. Qed.
Example natural_ends_case : basis 4 count (count 0) 1 2 = Some 0 /\ basis 4 count (count 0) 1 0 <> Some 0 /\ basis 4 count (count 3) 2 2 = Some 0 /\ basis 4 count 1 4 0 = None.
Proof. split; [apply natural_ends; [lia|apply count_increasing|lia]|]. split; [|split; [apply (natural_ends 4 count 2); [lia|apply count_increasing|lia]|reflexivity]]. intros E. pose proof (f_equal (fun o => match o with Some a => Qeq_bool (this a) 0 | None => true end) E) as H. vm_compute in H. discriminate. Qed.

(** With three knots it is not natural. *)
Theorem natural_ends_three_refuted : exists x id, increasing 3 x /\ (id < 3)%nat /\ basis 3 x (x 2%nat) id 2 <> Some 0.
Proof.
  exists count, 1%nat. split; [intros i L; do 2 (destruct i as [|i]; [reflexivity|]); lia|]. split; [lia|]. intros E. pose proof (f_equal (fun o => match o with Some a => Qeq_bool (this a) 0 | None => true end) E) as H. vm_compute in H. discriminate.
Qed.
Print Assumptions natural_ends_three_refuted.

(** expand_coeff: the curve and all its derivatives are the combination of the functions of the basis. *)
Theorem combination N x beta v d : (4 <= N)%nat -> splev N x (expand_coeff N x beta) v d = qsum N (fun id => beta id * match basis N x v id d with Some b => b | None => 0 end).
Proof. intros N4. rewrite expanded by exact N4. apply qsum_ext. intros i L. unfold basis. now rewrite (proj2 (Nat.ltb_lt _ _) L). Qed.
Print Assumptions combination.
(** Every cubic spline with these knots that is natural at both ends is such a combination. *)
Theorem every_natural_curve N x coef : (4 <= N)%nat -> increasing N x -> splev N x coef (x 0%nat) 2 = 0 -> splev N x coef (x (N - 1)%nat) 2 = 0 ->
  exists beta, forall v d, splev N x (expand_coeff N x beta) v d = splev N x coef v d.
Proof. intros N4 INC L H. exists (fun k => coef (k + 1)%nat). intros v d. apply splev_coef. now apply natural_expand. Qed.
Print Assumptions every_natural_curve.
Definition qsame (a b : Qc) : bool := Qeq_bool (this a) (this b).
Lemma qsame_eq a b : qsame a b = true -> a = b.
Proof. intros H. apply Qc_eq. now apply Qeq_bool_iff. Qed.
Lemma qsame_ne a b : qsame a b = false -> a <> b.
Proof. intros H ->. unfold qsame in H. rewrite Qeq_bool_refl in H. discriminate. Qed.
Example every_natural_curve_case : let coef := fun i => nth i [0; Q2Qc (1 # 3); 1; qz 2; Q2Qc (8 # 3); qz 3] 0 in
  splev 4 count coef (count 0) 2 = 0 /\ splev 4 count coef (count 3) 2 = 0 /\ splev 4 count coef (Q2Qc (5 # 4)) 0 = Q2Qc (5 # 4) /\ expand_coeff 4 count (fun k => coef (k + 1)%nat) 5 = qz 3.
Proof. repeat split; apply qsame_eq; vm_compute; reflexivity. Qed.

(** With three knots the curve is not the combination, so the chi-squared that is kept is not that of the curve. *)
Theorem combination_three_refuted : exists x y err beta, increasing 3 x /\ (forall k, err k <> 0) /\
  ~ distance2 3 x y err (fun v => splev 3 x (expand_coeff 3 x beta) v 0) (chisq 3 y err (values_matrix 3 x 0) beta).
Proof.
  exists count, (fun _ => 0), (fun _ => 1), (fun _ => 1). split; [intros i L; do 2 (destruct i as [|i]; [reflexivity|]); lia|]. split; [discriminate|]. unfold distance2. apply qsame_ne. vm_compute. reflexivity.
Qed.
Print Assumptions combination_three_refuted.

(** * Curvature *)
(** The second derivative of a cubic spline is continuous, and straight between knots. *)
Theorem second_derivative_straight N x coef : (2 <= N)%nat -> increasing N x -> straight_between N x (fun v => splev N x coef v 2).
Proof.
  intros N2 INC k v L B. pose proof (second_linear N x coef N2 INC k v L B) as H. cbv beta in H |- *. rewrite H. pose proof (sub_ne _ _ (INC k L)) as NE. field. exact NE.
Qed.
Print Assumptions second_derivative_straight.
Example second_derivative_case : let f := fun v => splev 4 count (fun i => qz (Z.of_nat (i * i))) v 2 in f (Q2Qc (1 # 2)) = (f 0 + f 1) / qz 2 /\ f 0 <> f 1.
Proof. split; [apply qsame_eq; vm_compute; reflexivity|apply qsame_ne; vm_compute; reflexivity]. Qed.
(** Omega: the integrals of the products of the second derivatives. *)
Theorem omega_is_integral N x i j : (4 <= N)%nat -> increasing N x -> (i < N)%nat -> (j < N)%nat ->
  total_area N x (fun v => match basis N x v i 2, basis N x v j 2 with Some a, Some b => a * b | _, _ => 0 end) (omega N x (values_matrix N x 2) i j).
Proof.
  intros N4 INC I J. destruct (omega_area N x N4 INC i j) as (A & P & E). exists A. split; [|exact E]. intros k L. destruct (P k L) as (p & Q & V). exists p. split; [|exact V]. intros t B. unfold basis. rewrite (proj2 (Nat.ltb_lt _ _) I), (proj2 (Nat.ltb_lt _ _) J). now apply Q.
Qed.
Print Assumptions omega_is_integral.
(** Such integrals have one value. *)
Theorem integral_unique N x g v w : increasing N x -> total_area N x g v -> total_area N x g w -> v = w.
Proof. apply total_area_unique. Qed.
Print Assumptions integral_unique.
Example omega_case : omega 4 count (values_matrix 4 count 2) 0 1 = Q2Qc (-9 # 4) /\ omega 4 count (values_matrix 4 count 2) 1 1 = qz 4.
Proof. split; apply qsame_eq; vm_compute; reflexivity. Qed.
(** The curvature of a curve is Omega's quadratic form. *)
Theorem curvature_form N x beta : (4 <= N)%nat -> increasing N x ->
  curvature N x (fun v => splev N x (expand_coeff N x beta) v 2) (qsum N (fun i => beta i * qsum N (fun j => omega N x (values_matrix N x 2) i j * beta j))).
Proof. intros N4 INC. exact (bending_area N x N4 INC beta). Qed.
Print Assumptions curvature_form.

(** * Fits *)
Lemma code_min N x y err p b : (4 <= N)%nat -> increasing N x -> (forall k, (k < N)%nat -> err k <> 0) -> 0 <= p -> p <= 1 -> stationary N y err (values_matrix N x 0) (omega N x (values_matrix N x 2)) p b ->
  forall g, objective N y err (values_matrix N x 0) (omega N x (values_matrix N x 2)) p b <= objective N y err (values_matrix N x 0) (omega N x (values_matrix N x 2)) p g.
Proof. intros N4 INC ERR P0 P1 ST. apply minimal; try assumption; [apply bending_sym; assumption|apply bending_nonneg; assumption]. Qed.
(** The parameters for p: no natural curve has less p * distance + (1 - p) * curvature. *)
Theorem best_params_minimal N x y err solve p beta : (4 <= N)%nat -> increasing N x -> (forall k, (k < N)%nat -> err k <> 0) -> solves solve -> 0 <= p -> p <= 1 ->
  best_params N y err (values_matrix N x 0) (omega N x (values_matrix N x 2)) solve p = Some beta ->
  forall coef, splev N x coef (x 0%nat) 2 = 0 -> splev N x coef (x (N - 1)%nat) 2 = 0 ->
  forall X A X' A', distance2 N x y err (fun v => splev N x (expand_coeff N x beta) v 0) X -> curvature N x (fun v => splev N x (expand_coeff N x beta) v 2) A ->
  distance2 N x y err (fun v => splev N x coef v 0) X' -> curvature N x (fun v => splev N x coef v 2) A' -> p * X + (1 - p) * A <= p * X' + (1 - p) * A'.
Proof.
  intros N4 INC ERR S P0 P1 E coef L H X A X' A' DX CA DX' CA'. set (g := fun k => coef (k + 1)%nat). pose proof (natural_expand N x coef N4 INC L H) as G. fold g in G.
  pose proof (code_min N x y err p beta N4 INC ERR P0 P1 (solved _ _ _ _ _ _ _ _ S E) g) as M. unfold objective in M.
  assert (EX : X = chisq N y err (values_matrix N x 0) beta) by (unfold distance2 in DX; rewrite DX; symmetry; exact (chisq_distance N x N4 y err beta)).
  assert (EX' : X' = chisq N y err (values_matrix N x 0) g) by (unfold distance2 in DX'; rewrite DX', (chisq_distance N x N4 y err g); apply qsum_ext; intros k _; rewrite (splev_coef N x (expand_coeff N x g) coef (x k) 0 G); reflexivity).
  assert (EA : A = bending N (omega N x (values_matrix N x 2)) beta beta) by (eapply total_area_unique; [exact INC|exact CA|apply bending_area; assumption]).
  assert (EA' : A' = bending N (omega N x (values_matrix N x 2)) g g).
  { apply (total_area_unique N x (fun t => splev N x coef t 2 * splev N x coef t 2)); [exact INC|exact CA'|]. destruct (bending_area N x N4 INC g) as (I & Q & V). exists I. split; [|exact V]. intros k Lk. destruct (Q k Lk) as (q & Q1 & Q2). exists q. split; [|exact Q2]. intros t B. rewrite (Q1 t B), (splev_coef N x (expand_coeff N x g) coef t 2 G). reflexivity. }
  now rewrite EX, EX', EA, EA'.
Qed.
Print Assumptions best_params_minimal.
(** A larger p never increases the distance. *)
Theorem distance_falls N x y err solve p q b c : (4 <= N)%nat -> increasing N x -> (forall k, (k < N)%nat -> err k <> 0) -> solves solve -> 0 <= p -> p < q -> q <= 1 ->
  best_params N y err (values_matrix N x 0) (omega N x (values_matrix N x 2)) solve p = Some b -> best_params N y err (values_matrix N x 0) (omega N x (values_matrix N x 2)) solve q = Some c ->
  forall X Y, distance2 N x y err (fun v => splev N x (expand_coeff N x b) v 0) X -> distance2 N x y err (fun v => splev N x (expand_coeff N x c) v 0) Y -> Y <= X.
Proof.
  intros N4 INC ERR S P0 PQ Q1 EB EC X Y DX DY. unfold distance2 in DX, DY. rewrite DX, DY. pose proof (chisq_distance N x N4 y err b) as A. pose proof (chisq_distance N x N4 y err c) as B. unfold distance2 in A, B. rewrite <- A, <- B.
  apply (less_chisq N y err (values_matrix N x 0) (omega N x (values_matrix N x 2)) (bending_sym N x N4) (bending_nonneg N x N4 INC) ERR p q); try assumption; eapply solved; eassumption.
Qed.
Print Assumptions distance_falls.
(** smooth: chi-squared is the target, kept as such, and no natural curve as near to the data has less curvature. *)
Theorem smooth_is_smoothest N x y err solve brentq target beta c : (4 <= N)%nat -> increasing N x -> (forall k, (k < N)%nat -> err k <> 0) -> solves solve -> finds_root brentq -> 0 < target ->
  (exists g, forall k, (k < N)%nat -> splev N x (expand_coeff N x g) (x k) 0 = y k) ->
  smooth N y err (values_matrix N x 0) (omega N x (values_matrix N x 2)) solve brentq target = Some (beta, c) ->
  c = target /\ distance2 N x y err (fun v => splev N x (expand_coeff N x beta) v 0) target /\
  forall coef, splev N x coef (x 0%nat) 2 = 0 -> splev N x coef (x (N - 1)%nat) 2 = 0 -> forall X A B, distance2 N x y err (fun v => splev N x coef v 0) X -> X <= target ->
    curvature N x (fun v => splev N x (expand_coeff N x beta) v 2) A -> curvature N x (fun v => splev N x coef v 2) B -> A <= B.
Proof.
  intros N4 INC ERR S R T (g0 & G0) E.
  assert (Z : exists g, chisq N y err (values_matrix N x 0) g = 0).
  { exists g0. rewrite (chisq_distance N x N4 y err g0). apply qsum_zero. intros k L. rewrite (G0 k L). unfold Qcdiv. ring. }
  destruct (smooth_best N y err (values_matrix N x 0) (omega N x (values_matrix N x 2)) solve brentq S R ERR (bending_sym N x N4) (bending_nonneg N x N4 INC) target beta c T Z E) as (C & D & M).
  split; [exact C|]. split; [rewrite <- D; apply chisq_distance; exact N4|]. intros coef L H X A B DX LE CA CB. set (g := fun k => coef (k + 1)%nat). pose proof (natural_expand N x coef N4 INC L H) as G. fold g in G.
  assert (EX' : X = chisq N y err (values_matrix N x 0) g) by (unfold distance2 in DX; rewrite DX, (chisq_distance N x N4 y err g); apply qsum_ext; intros k _; rewrite (splev_coef N x (expand_coeff N x g) coef (x k) 0 G); reflexivity).
  assert (EA : A = bending N (omega N x (values_matrix N x 2)) beta beta) by (eapply total_area_unique; [exact INC|exact CA|apply bending_area; assumption]).
  assert (EB : B = bending N (omega N x (values_matrix N x 2)) g g).
  { apply (total_area_unique N x (fun t => splev N x coef t 2 * splev N x coef t 2)); [exact INC|exact CB|]. destruct (bending_area N x N4 INC g) as (I & Q & V). exists I. split; [|exact V]. intros k Lk. destruct (Q k Lk) as (q & Q1 & Q2). exists q. split; [|exact Q2]. intros t B'. rewrite (Q1 t B'), (splev_coef N x (expand_coeff N x g) coef t 2 G). reflexivity. }
  rewrite EA, EB. apply M. now rewrite <- EX'.
Qed.
Print Assumptions smooth_is_smoothest.

(** A solver that knows a few vectors, and a root finder that knows one point. *)
Definition vec (l : list Qc) (i : nat) : Qc := nth i l 0.
Definition check (n : nat) (M : nat -> nat -> Qc) (b s : nat -> Qc) : bool := forallb (fun i => qsame (qsum n (fun j => M i j * s j)) (b i)) (seq 0 n).
Definition try_solve (l : list (list Qc)) (n : nat) (M : nat -> nat -> Qc) (b : nat -> Qc) : option (nat -> Qc) := option_map vec (find (fun s => check n M b (vec s)) l).
Definition try_root (c : Qc) (f : Qc -> Qc) (a b : Qc) : option Qc := if qltb 0 (f a * f b) then None else if qleb a c && qleb c b && qsame (f c) 0 then Some c else None.
Lemma try_solves l : solves (try_solve l).
Proof.
  intros n M b s E. unfold try_solve in E. destruct (find _ l) as [u|] eqn:F; [|discriminate]. injection E as <-. apply find_some in F as [_ F]. unfold check in F. rewrite forallb_forall in F. intros i L. apply qsame_eq, F, in_seq. lia.
Qed.
Lemma try_finds c : finds_root (try_root c).
Proof.
  intros f a b. unfold try_root. split.
  - intros r E. destruct (qltb 0 (f a * f b)); [discriminate|]. destruct (qleb a c && qleb c b && qsame (f c) 0) eqn:B; [|discriminate]. injection E as <-. apply andb_true_iff in B as [B Z]. apply andb_true_iff in B as [A B]. split; [split; apply qleb_le; assumption|now apply qsame_eq].
  - intros P. apply qltb_lt in P. now rewrite P.
Qed.
Definition zigzag (k : nat) : Qc := nth k [0; 1; 0; 1] 0.
Definition bent : list Qc := [Q2Qc (5 # 9); Q2Qc (5 # 3); Q2Qc (-2 # 3); Q2Qc (4 # 9)].
Definition half : list Qc := [Q2Qc (53 # 189); Q2Qc (29 # 63); Q2Qc (34 # 63); Q2Qc (136 # 189)].
Example smooth_case : exists beta c, smooth 4 zigzag (fun _ => 1) (values_matrix 4 count 0) (omega 4 count (values_matrix 4 count 2)) (try_solve [half; bent]) (try_root (Q2Qc (1 # 2))) (Q2Qc (320 # 441)) = Some (beta, c).
Proof.
  assert (H : (match smooth 4 zigzag (fun _ => 1) (values_matrix 4 count 0) (omega 4 count (values_matrix 4 count 2)) (try_solve [half; bent]) (try_root (Q2Qc (1 # 2))) (Q2Qc (320 # 441)) with Some _ => true | None => false end) = true) by (vm_compute; reflexivity).
  destruct (smooth _ _ _ _ _ _ _ _) as [[b c]|]; [now exists b, c|discriminate].
Qed.
Example smooth_case_data : forall k, (k < 4)%nat -> splev 4 count (expand_coeff 4 count (vec bent)) (count k) 0 = zigzag k.
Proof. intros k L. do 4 (destruct k as [|k]; [apply qsame_eq; vm_compute; reflexivity|]). lia. Qed.

(** If a straight line is nearer to the data than the target there is no smoothing spline: an exception. *)
Theorem straight_line_raises N x y err solve brentq target g b1 b2 : (4 <= N)%nat -> increasing N x -> (forall k, (k < N)%nat -> err k <> 0) -> solves solve -> finds_root brentq ->
  curvature N x (fun v => splev N x (expand_coeff N x g) v 2) 0 -> (forall X, distance2 N x y err (fun v => splev N x (expand_coeff N x g) v 0) X -> X < target) ->
  best_params N y err (values_matrix N x 0) (omega N x (values_matrix N x 2)) solve mincurvature = Some b1 -> best_params N y err (values_matrix N x 0) (omega N x (values_matrix N x 2)) solve 1 = Some b2 ->
  smooth N y err (values_matrix N x 0) (omega N x (values_matrix N x 2)) solve brentq target = None.
Proof.
  intros N4 INC ERR S R CV NEAR E1 E2. apply (smooth_straight N y err (values_matrix N x 0) (omega N x (values_matrix N x 2)) solve brentq S R ERR (bending_sym N x N4) (bending_nonneg N x N4 INC) target g b1 b2); try assumption.
  - eapply total_area_unique; [exact INC|apply bending_area; assumption|exact CV].
  - apply NEAR. apply chisq_distance. exact N4.
Qed.
Print Assumptions straight_line_raises.
(** If the linear system cannot be solved at the least curvature nor at the greatest, it raises too: failures count as far from the data. *)
Theorem unsolvable_raises N x y err solve brentq target : finds_root brentq ->
  best_params N y err (values_matrix N x 0) (omega N x (values_matrix N x 2)) solve mincurvature = None -> best_params N y err (values_matrix N x 0) (omega N x (values_matrix N x 2)) solve 1 = None ->
  smooth N y err (values_matrix N x 0) (omega N x (values_matrix N x 2)) solve brentq target = None.
Proof.
  intros R A B. unfold smooth. rewrite (proj2 (R _ _ _)); [reflexivity|]. unfold chisq_difference. rewrite A, B. apply qltb_lt. vm_compute. reflexivity.
Qed.
Print Assumptions unsolvable_raises.
Example unsolvable_instance : smooth 4 zigzag (fun _ => 1) (values_matrix 4 count 0) (omega 4 count (values_matrix 4 count 2)) (try_solve [half]) (try_root (Q2Qc (1 # 2))) (Q2Qc (320 # 441)) = None.
Proof. apply (unsolvable_raises 4 count zigzag (fun _ => 1) (try_solve [half]) (try_root (Q2Qc (1 # 2))) (Q2Qc (320 # 441)) (try_finds _)); unfold best_params, try_solve; cbn [find]; match goal with |- context [if ?c then _ else _] => assert (C : c = false) by (vm_compute; reflexivity); rewrite C end; reflexivity. Qed.
(** "When a least squares fit of a line to the data meets the maxchisq constraint, then the actual chi-squared will be less than maxchisq": instead it raises. *)
Theorem line_fit_refuted : exists N x y err solve brentq, (4 <= N)%nat /\ increasing N x /\ (forall k, err k <> 0) /\ solves solve /\ finds_root brentq /\ (forall i j, y i = y j) /\
  best_params N y err (values_matrix N x 0) (omega N x (values_matrix N x 2)) solve mincurvature <> None /\ best_params N y err (values_matrix N x 0) (omega N x (values_matrix N x 2)) solve 1 <> None /\
  smooth N y err (values_matrix N x 0) (omega N x (values_matrix N x 2)) solve brentq (qz (Z.of_nat N)) = None.
Proof.
  exists 4%nat, count, (fun _ => 1), (fun _ => 1), (try_solve [[1; 1; 1; 1]]), (try_root (Q2Qc (1 # 2))). split; [lia|]. split; [exact count_increasing|]. split; [discriminate|]. split; [apply try_solves|]. split; [apply try_finds|]. split; [reflexivity|].
  assert (B : forall p, p = mincurvature \/ p = 1 -> best_params 4 (fun _ => 1) (fun _ => 1) (values_matrix 4 count 0) (omega 4 count (values_matrix 4 count 2)) (try_solve [[1; 1; 1; 1]]) p = Some (vec [1; 1; 1; 1])).
  { intros p P. unfold best_params, try_solve. cbn [find]. match goal with |- context [if ?c then _ else _] => assert (C : c = true) by (destruct P as [-> | ->]; vm_compute; reflexivity); rewrite C end. reflexivity. }
  split; [rewrite B by (now left); discriminate|]. split; [rewrite B by (now right); discriminate|].
  apply (straight_line_raises 4 count (fun _ => 1) (fun _ => 1) (try_solve [[1; 1; 1; 1]]) (try_root (Q2Qc (1 # 2))) (qz 4) (vec [1; 1; 1; 1]) (vec [1; 1; 1; 1]) (vec [1; 1; 1; 1])); [lia|exact count_increasing|discriminate|apply try_solves|apply try_finds| | |apply B; now left|apply B; now right].
  - replace (0 : Qc) with (qsum 4 (fun i => vec [1; 1; 1; 1] i * qsum 4 (fun j => omega 4 count (values_matrix 4 count 2) i j * vec [1; 1; 1; 1] j))) by (apply qsame_eq; vm_compute; reflexivity). apply curvature_form; [lia|exact count_increasing].
  - intros X ->. apply qltb_lt. vm_compute. reflexivity.
Qed.
Print Assumptions line_fit_refuted.

(** * The curve that is evaluated *)
(** Between the ends: the spline of the scaled argument, derivatives divided by powers of the scale. *)
Theorem curve_between N xs scale coef u d : 0 < scale -> xs 0%nat <= u <= xs (N - 1)%nat -> curve N xs scale coef (u * scale) d = splev N xs coef u d / power scale d.
Proof. intros P B. now apply curve_inside. Qed.
Print Assumptions curve_between.
(** Outside: the tangent at the nearest end; second and higher derivatives are zero. *)
Theorem curve_tangent N xs scale coef v : (2 <= N)%nat -> increasing N xs -> 0 < scale ->
  (v < xs 0%nat * scale -> curve N xs scale coef v 0 = curve N xs scale coef (xs 0%nat * scale) 0 + (v - xs 0%nat * scale) * curve N xs scale coef (xs 0%nat * scale) 1) /\
  (xs (N - 1)%nat * scale < v -> curve N xs scale coef v 0 = curve N xs scale coef (xs (N - 1)%nat * scale) 0 + (v - xs (N - 1)%nat * scale) * curve N xs scale coef (xs (N - 1)%nat * scale) 1) /\
  (v < xs 0%nat * scale \/ xs (N - 1)%nat * scale < v -> forall d, (2 <= d)%nat -> curve N xs scale coef v d = 0).
Proof.
  intros N2 INC P. pose proof (first_last N xs N2 INC) as F. apply Qclt_le_weak in F. split; [|split].
  - intros L. rewrite outside_low by assumption. apply beyond_value; [assumption|reflexivity|split; [apply Qcle_refl|exact F]].
  - intros L. rewrite outside_high by assumption. apply beyond_value; [assumption|reflexivity|split; [exact F|apply Qcle_refl]].
  - intros [L|L] d D; [rewrite outside_low by assumption|rewrite outside_high by assumption]; destruct d as [|[|d]]; try lia; cbn [beyond]; unfold Qcdiv; ring.
Qed.
Print Assumptions curve_tangent.
(** The first derivative outside is the slope at the end; but if that slope is zero it is the value there over the scale. *)
Theorem curve_slope_outside N xs scale coef v : (2 <= N)%nat -> increasing N xs -> 0 < scale -> forall e, (v < xs 0%nat * scale /\ e = xs 0%nat * scale) \/ (xs (N - 1)%nat * scale < v /\ e = xs (N - 1)%nat * scale) ->
  (curve N xs scale coef e 1 <> 0 -> curve N xs scale coef v 1 = curve N xs scale coef e 1) /\ (curve N xs scale coef e 1 = 0 -> curve N xs scale coef v 1 = curve N xs scale coef e 0 / scale).
Proof.
  intros N2 INC P e C. pose proof (first_last N xs N2 INC) as F. apply Qclt_le_weak in F.
  assert (E : curve N xs scale coef v 1 = if Qc_eq_dec (curve N xs scale coef e 1) 0 then curve N xs scale coef e 0 / scale else curve N xs scale coef e 1).
  { destruct C as [[L ->]|[L ->]]; [rewrite outside_low by assumption|rewrite outside_high by assumption]; apply beyond_slope; try assumption; try reflexivity; split; try apply Qcle_refl; exact F. }
  rewrite E. destruct (Qc_eq_dec _ 0); split; intros H; try contradiction; reflexivity.
Qed.
Print Assumptions curve_slope_outside.
Example curve_case : curve 4 count (qz 2) (expand_coeff 4 count (fun k => qz (Z.of_nat k))) (qz (-4)) 0 <> 0 /\ curve 4 count (qz 2) (expand_coeff 4 count (fun k => qz (Z.of_nat k))) (qz (-4)) 1 = curve 4 count (qz 2) (expand_coeff 4 count (fun k => qz (Z.of_nat k))) 0 1 /\ curve 4 count (qz 2) (expand_coeff 4 count (fun k => qz (Z.of_nat k))) 0 1 <> 0.
Proof. split; [apply qsame_ne; vm_compute; reflexivity|]. split; [apply qsame_eq; vm_compute; reflexivity|apply qsame_ne; vm_compute; reflexivity]. Qed.
(** A constant curve has slope zero, but not outside the knots. *)
Theorem constant_slope_refuted : exists N xs scale coef v, (4 <= N)%nat /\ increasing N xs /\ 0 < scale /\ (forall w, (w = v \/ w = 0 \/ w = 1) -> curve N xs scale coef w 0 = 1) /\ curve N xs scale coef 0 1 = 0 /\ curve N xs scale coef v 1 <> 0.
Proof.
  exists 4%nat, count, (qz 2), (fun _ => 1), (qz (-1)). split; [lia|]. split; [exact count_increasing|]. split; [reflexivity|]. split; [intros w [-> | [-> | ->]]; apply qsame_eq; vm_compute; reflexivity|]. split; [apply qsame_eq; vm_compute; reflexivity|apply qsame_ne; vm_compute; reflexivity].
Qed.
Print Assumptions constant_slope_refuted.

(** * Derivatives as functions *)
(** What the constructor does: the scale is the root of the mean square of x, the coefficients depend on the scaled x and the other data. *)
Definition fitted {D} (C : nat -> list Qc -> D -> nat -> Qc) (fit : nat -> (nat -> Qc) -> D -> option (@spline D)) : Prop := forall n xs d s, fit n xs d = Some s ->
  sN s = n /\ sdata s = d /\ 0 < sscale s /\ sscale s * sscale s * qz (Z.of_nat n) = qsum n (fun i => xs i * xs i) /\ (forall i, (i < n)%nat -> sxs s i = xs i / sscale s) /\ (forall i, (i < n + 2)%nat -> scoef s i = C n (map (sxs s) (seq 0 n)) d i).
(** Beyond the third derivative: zero. *)
Theorem derivative_vanishes {D} (fit : nat -> (nat -> Qc) -> D -> option (@spline D)) s der k : (3 < der + k)%nat -> derivative fit (Spl s der) k = Some Constant0 /\ forall v, value (Spl s der) v k = 0.
Proof. intros L. unfold derivative, value. apply Nat.ltb_lt in L. rewrite L. now split. Qed.
Print Assumptions derivative_vanishes.
(** The derivative is made from the scaled x: it is the derivative with respect to the scaled argument, as a function of that. *)
Theorem derivative_of_scaled {D} C (fit : nat -> (nat -> Qc) -> D -> option (@spline D)) n xs d s der k f v : fitted C fit -> (1 <= n)%nat -> fit n xs d = Some s -> (der + k <= 3)%nat -> derivative fit (Spl s der) k = Some f ->
  value f v 0 = power (sscale s) (der + k) * value (Spl s der) (v * sscale s) k.
Proof.
  intros FT N1 E LE DE. destruct (FT _ _ _ _ E) as (A1 & A2 & A3 & A4 & A5 & A6). unfold derivative in DE. assert (LT : Nat.ltb 3 (der + k) = false) by (apply Nat.ltb_ge; lia). rewrite LT in DE. rewrite A1, A2 in DE. destruct (fit n (sxs s) d) as [s'|] eqn:E'; [|discriminate]. injection DE as <-. destruct (FT _ _ _ _ E') as (B1 & B2 & B3 & B4 & B5 & B6).
  pose proof (scale_ne _ A3) as NE. assert (NZ : qz (Z.of_nat n) <> 0) by (destruct n as [|n]; [lia|]; intros Z; apply (qz_inj _ 0) in Z; lia).
  assert (ONE : sscale s' = 1).
  { assert (S1 : sscale s' * sscale s' * qz (Z.of_nat n) = qz (Z.of_nat n)).
    { rewrite B4. rewrite (qsum_ext n _ (fun i => (1 / (sscale s * sscale s)) * (xs i * xs i))) by (intros i L; rewrite (A5 i L); field; exact NE). rewrite qsum_scale, <- A4. field. exact NE. }
    assert (S2 : sscale s' * sscale s' = 1) by (replace (sscale s' * sscale s') with (sscale s' * sscale s' * qz (Z.of_nat n) / qz (Z.of_nat n)) by (field; exact NZ); rewrite S1; field; exact NZ).
    assert (S3 : (sscale s' - 1) * (sscale s' + 1) = 0) by (replace ((sscale s' - 1) * (sscale s' + 1)) with (sscale s' * sscale s' - 1) by ring; rewrite S2; ring).
    apply Qcmult_integral in S3 as [S3|S3]; [replace (sscale s') with (sscale s' - 1 + 1) by ring; rewrite S3; ring|]. exfalso. clear - B3 S3. qlra. }
  assert (XS : forall i, (i < n)%nat -> sxs s' i = sxs s i) by (intros i L; rewrite (B5 i L), ONE; field; discriminate).
  assert (CO : forall i, (i < n + 2)%nat -> scoef s' i = scoef s i).
  { intros i L. rewrite (B6 i L), (A6 i L). f_equal. apply map_ext_in. intros j J. apply in_seq in J. apply XS. lia. }
  unfold value. rewrite Nat.add_0_r, LT, B1, A1, ONE. rewrite (curve_ext n (sxs s') (sxs s) 1 (scoef s') (scoef s) v (der + k) N1 XS CO). now apply curve_rescaled.
Qed.
Print Assumptions derivative_of_scaled.
(** a fit for two scales *)
Definition fit5 (n : nat) (xs : nat -> Qc) (d : unit) : option (@spline unit) :=
  if qsame (qsum n (fun i => xs i * xs i)) (qz 25 * qz (Z.of_nat n)) then Some (mkSpline n (fun i => xs i / qz 5) (qz 5) count d)
  else if qsame (qsum n (fun i => xs i * xs i)) (qz (Z.of_nat n)) then Some (mkSpline n (fun i => xs i / 1) 1 count d) else None.
Lemma fit5_fitted : fitted (fun _ _ _ => count) fit5.
Proof.
  intros n xs d s. unfold fit5. destruct (qsame _ (qz 25 * _)) eqn:E1; [|destruct (qsame _ (qz (Z.of_nat n))) eqn:E2; [|discriminate]]; intros E; injection E as <-; cbn [sN sdata sscale sxs scoef]; repeat split.
  - apply qsame_eq in E1. rewrite E1. change (qz 25) with (qz 5 * qz 5). reflexivity.
  - apply qsame_eq in E2. rewrite E2. ring.
Qed.
Definition four (i : nat) : Qc := nth i [qz (-7); qz (-1); 1; qz 7] 0.
(** derivative()(v) is not the derivative at v. *)
Theorem derivative_value_refuted : exists (C : nat -> list Qc -> unit -> nat -> Qc) fit xs s f, fitted C fit /\ increasing 4 xs /\ fit 4%nat xs tt = Some s /\ derivative fit (Spl s 0) 1 = Some f /\ value f 0 0 <> value (Spl s 0) 0 1.
Proof.
  exists (fun _ _ _ => count), fit5, four, (mkSpline 4 (fun i => four i / qz 5) (qz 5) count tt), (Spl (mkSpline 4 (fun i => four i / qz 5 / 1) 1 count tt) 1). split; [apply fit5_fitted|]. split; [intros i L; do 3 (destruct i as [|i]; [reflexivity|]); lia|]. split; [|split].
  - unfold fit5. match goal with |- context [if ?c then _ else _] => assert (E : c = true) by (vm_compute; reflexivity); rewrite E end. reflexivity.
  - unfold derivative. cbn [Nat.add Nat.ltb Nat.leb sN sxs sdata]. unfold fit5. match goal with |- context [if ?c then _ else _] => assert (E : c = false) by (vm_compute; reflexivity); rewrite E end. match goal with |- context [if ?c then _ else _] => assert (E2 : c = true) by (vm_compute; reflexivity); rewrite E2 end. reflexivity.
  - apply qsame_ne. vm_compute. reflexivity.
Qed.
Print Assumptions derivative_value_refuted.
