(** The entropy and the cross entropy are the integrals they stand for. *)
From Coq Require Import Reals Lra Lia ZArith String Bool Permutation Sorted List.
From Verif Require Import EntModel EntSpec.
Import ListNotations.
Local Open Scope R_scope.
Local Open Scope list_scope.

(** * Derivatives *)

Lemma dl_eq f x a b : derivable_pt_lim f x a -> a = b -> derivable_pt_lim f x b.
Proof. now intros H <-. Qed.
Lemma dl_ext f g x a : (forall u, f u = g u) -> derivable_pt_lim f x a -> derivable_pt_lim g x a.
Proof.
  intros E H eps He. destruct (H eps He) as [d Hd]. exists d. intros h Hh Hl. rewrite <- !E. now apply Hd.
Qed.
Lemma dl_const c x : derivable_pt_lim (fun _ => c) x 0.
Proof. apply (derivable_pt_lim_const c x). Qed.
Lemma dl_id x : derivable_pt_lim (fun u => u) x 1.
Proof. apply derivable_pt_lim_id. Qed.
Lemma dl_plus f g x a b : derivable_pt_lim f x a -> derivable_pt_lim g x b -> derivable_pt_lim (fun u => f u + g u) x (a + b).
Proof. apply derivable_pt_lim_plus. Qed.
Lemma dl_minus f g x a b : derivable_pt_lim f x a -> derivable_pt_lim g x b -> derivable_pt_lim (fun u => f u - g u) x (a - b).
Proof. apply derivable_pt_lim_minus. Qed.
Lemma dl_opp f x a : derivable_pt_lim f x a -> derivable_pt_lim (fun u => - f u) x (- a).
Proof. apply derivable_pt_lim_opp. Qed.
Lemma dl_mult f g x a b : derivable_pt_lim f x a -> derivable_pt_lim g x b ->
  derivable_pt_lim (fun u => f u * g u) x (a * g x + f x * b).
Proof. apply derivable_pt_lim_mult. Qed.
Lemma dl_scal k f x a : derivable_pt_lim f x a -> derivable_pt_lim (fun u => k * f u) x (k * a).
Proof. intros H. eapply dl_eq; [apply dl_mult; [apply dl_const | exact H]|]. cbn beta. ring. Qed.
Lemma dl_exp f x a : derivable_pt_lim f x a -> derivable_pt_lim (fun u => exp (f u)) x (exp (f x) * a).
Proof. intros H. apply (derivable_pt_lim_comp f exp x a (exp (f x)) H). apply derivable_pt_lim_exp. Qed.
Lemma dl_ln f x a : 0 < f x -> derivable_pt_lim f x a -> derivable_pt_lim (fun u => ln (f u)) x (/ f x * a).
Proof. intros P H. apply (derivable_pt_lim_comp f ln x a (/ f x) H). now apply derivable_pt_lim_ln. Qed.
Lemma dl_atan f x a : derivable_pt_lim f x a -> derivable_pt_lim (fun u => atan (f u)) x (/ (1 + f x ^ 2) * a).
Proof. intros H. apply (derivable_pt_lim_comp f atan x a (/ (1 + f x ^ 2)) H). apply derivable_pt_lim_atan. Qed.

Lemma dl_cont f x a : derivable_pt_lim f x a -> continuity_pt f x.
Proof. intros H. apply derivable_continuous_pt. exists a. exact H. Qed.

(** Two functions that agree, with their derivatives, at [a], put together there. *)
Definition glued (a : R) (F G : R -> R) (u : R) : R := if Rle_dec u a then F u else G u.
Lemma glue_left a F G u f : u < a -> derivable_pt_lim F u f -> derivable_pt_lim (glued a F G) u f.
Proof.
  intros L H eps He. destruct (H eps He) as [d Hd].
  assert (P : 0 < Rmin d (a - u)) by (apply Rmin_pos; [apply cond_pos | lra]).
  exists (mkposreal _ P). cbn. intros h Hh Hl. unfold glued.
  assert (Rabs h < d) by (eapply Rlt_le_trans; [exact Hl | apply Rmin_l]).
  assert (Rabs h < a - u) by (eapply Rlt_le_trans; [exact Hl | apply Rmin_r]).
  assert (h <= Rabs h) by apply Rle_abs.
  destruct (Rle_dec (u + h) a); [|lra]. destruct (Rle_dec u a); [|lra]. now apply Hd.
Qed.
Lemma glue_right a F G u f : a < u -> derivable_pt_lim G u f -> derivable_pt_lim (glued a F G) u f.
Proof.
  intros L H eps He. destruct (H eps He) as [d Hd].
  assert (P : 0 < Rmin d (u - a)) by (apply Rmin_pos; [apply cond_pos | lra]).
  exists (mkposreal _ P). cbn. intros h Hh Hl. unfold glued.
  assert (Rabs h < d) by (eapply Rlt_le_trans; [exact Hl | apply Rmin_l]).
  assert (Rabs h < u - a) by (eapply Rlt_le_trans; [exact Hl | apply Rmin_r]).
  assert (- h <= Rabs h) by (rewrite <- Rabs_Ropp; apply Rle_abs).
  destruct (Rle_dec (u + h) a); [lra|]. destruct (Rle_dec u a); [lra|]. now apply Hd.
Qed.
Lemma glue_at a F G f : F a = G a -> derivable_pt_lim F a f -> derivable_pt_lim G a f -> derivable_pt_lim (glued a F G) a f.
Proof.
  intros E H K eps He. destruct (H eps He) as [d Hd]. destruct (K eps He) as [k Hk].
  assert (P : 0 < Rmin d k) by (apply Rmin_pos; apply cond_pos).
  exists (mkposreal _ P). cbn. intros h Hh Hl. unfold glued.
  assert (Rabs h < d) by (eapply Rlt_le_trans; [exact Hl | apply Rmin_l]).
  assert (Rabs h < k) by (eapply Rlt_le_trans; [exact Hl | apply Rmin_r]).
  destruct (Rle_dec a a); [|lra]. destruct (Rle_dec (a + h) a); [now apply Hd|]. rewrite E. now apply Hk.
Qed.
Lemma glue_cont a F G : F a = G a -> (forall u, u <= a -> continuity_pt F u) -> (forall u, a <= u -> continuity_pt G u) ->
  continuity (glued a F G).
Proof.
  intros E H K u.
  unfold continuity_pt, continue_in, limit1_in, limit_in, D_x, no_cond. cbn. unfold R_dist. intros eps He.
  destruct (Rtotal_order u a) as [L|[->|L]].
  - destruct (H u (Rlt_le _ _ L) eps He) as (d & Pd & Hd). exists (Rmin d (a - u)). split; [apply Rmin_pos; lra|].
    intros v (Dv & Hv). unfold glued. 
    assert (A1 : Rabs (v - u) < d) by (eapply Rlt_le_trans; [exact Hv | apply Rmin_l]).
    assert (A2 : Rabs (v - u) < a - u) by (eapply Rlt_le_trans; [exact Hv | apply Rmin_r]).
    assert (v - u <= Rabs (v - u)) by apply Rle_abs.
    destruct (Rle_dec v a); [|lra]. destruct (Rle_dec u a); [|lra]. apply Hd. split; [exact Dv | exact A1].
  - destruct (H a (Rle_refl a) eps He) as (d & Pd & Hd). destruct (K a (Rle_refl a) eps He) as (k & Pk & Hk).
    exists (Rmin d k). split; [apply Rmin_pos; lra|]. intros v (Dv & Hv). unfold glued.
    assert (A1 : Rabs (v - a) < d) by (eapply Rlt_le_trans; [exact Hv | apply Rmin_l]).
    assert (A2 : Rabs (v - a) < k) by (eapply Rlt_le_trans; [exact Hv | apply Rmin_r]).
    destruct (Rle_dec a a); [|lra]. destruct (Rle_dec v a); [apply Hd; split; assumption|].
    rewrite E. apply Hk. split; assumption.
  - destruct (K u (Rlt_le _ _ L) eps He) as (d & Pd & Hd). exists (Rmin d (u - a)). split; [apply Rmin_pos; lra|].
    intros v (Dv & Hv). unfold glued. 
    assert (A1 : Rabs (v - u) < d) by (eapply Rlt_le_trans; [exact Hv | apply Rmin_l]).
    assert (A2 : Rabs (v - u) < u - a) by (eapply Rlt_le_trans; [exact Hv | apply Rmin_r]).
    assert (- (v - u) <= Rabs (v - u)) by (rewrite <- Rabs_Ropp; apply Rle_abs).
    destruct (Rle_dec v a); [lra|]. destruct (Rle_dec u a); [lra|]. apply Hd. split; [exact Dv | exact A1].
Qed.

(** * The integral is unique *)

Lemma flat_const D (L : list R) : forall a b, a <= b -> continuity D ->
  (forall u, a < u < b -> ~ In u L -> derivable_pt_lim D u 0) -> D a = D b.
Proof.
  induction L as [|z L IH]; intros a b Hab C H.
  - destruct (Req_dec a b) as [->|N]; [reflexivity|]. assert (a < b) by lra.
    assert (pr1 : forall c, a < c < b -> derivable_pt D c) by (intros c Hc; exists 0; apply H; [exact Hc | tauto]).
    assert (pr2 : forall c, a < c < b -> derivable_pt id c) by (intros c Hc; apply derivable_pt_id).
    destruct (MVT D id a b pr1 pr2 H0) as (c & Pc & E).
    + intros c _. apply C.
    + intros c _. apply derivable_continuous_pt, derivable_pt_id.
    + assert (E0 : derive_pt D c (pr1 c Pc) = 0) by (apply derive_pt_eq_0, H; [exact Pc | tauto]).
      rewrite E0 in E. assert (E1 : derive_pt id c (pr2 c Pc) = 1) by (apply derive_pt_eq_0, derivable_pt_lim_id).
      rewrite E1 in E. lra.
  - destruct (Rlt_dec a z) as [A|A], (Rlt_dec z b) as [B|B].
    + transitivity (D z).
      * apply IH; [lra | exact C |]. intros u Hu N. apply H; [lra|]. intros [->|I]; [lra | contradiction].
      * apply IH; [lra | exact C |]. intros u Hu N. apply H; [lra|]. intros [->|I]; [lra | contradiction].
    + apply IH; [exact Hab | exact C |]. intros u Hu N. apply H; [exact Hu|]. intros [->|I]; [lra | contradiction].
    + apply IH; [exact Hab | exact C |]. intros u Hu N. apply H; [exact Hu|]. intros [->|I]; [lra | contradiction].
    + apply IH; [exact Hab | exact C |]. intros u Hu N. apply H; [exact Hu|]. intros [->|I]; [lra | contradiction].
Qed.

Lemma total_integral_unique f h h' : total_integral f h -> total_integral f h' -> h = h'.
Proof.
  intros (G & E & C & D & L & R) (G' & E' & C' & D' & L' & R').
  set (K := fun u => G u - G' u).
  assert (CK : continuity K) by (apply continuity_minus; assumption).
  assert (FK : forall a b, a <= b -> K a = K b).
  { intros a b Hab. apply (flat_const K (E ++ E')); try assumption. intros u _ N.
    eapply dl_eq; [apply dl_minus; [apply D | apply D']; intros I; apply N, in_or_app; auto|]; cbn beta; ring. }
  assert (FA : forall a b, K a = K b) by (intros a b; destruct (Rle_dec a b); [now apply FK | symmetry; apply FK; lra]).
  destruct (Req_dec h h') as [|N]; [assumption|exfalso].
  assert (P : 0 < Rabs (h - h') / 4) by (assert (0 < Rabs (h - h')) by (apply Rabs_pos_lt; lra); lra).
  destruct (L _ P) as (m1 & H1). destruct (L' _ P) as (m2 & H2). destruct (R _ P) as (m3 & H3). destruct (R' _ P) as (m4 & H4).
  set (a := Rmin m1 m2 - 1). set (b := Rmax m3 m4 + 1).
  assert (a < m1) by (unfold a; assert (X := Rmin_l m1 m2); lra). assert (a < m2) by (unfold a; assert (X := Rmin_r m1 m2); lra).
  assert (m3 < b) by (unfold b; assert (X := Rmax_l m3 m4); lra). assert (m4 < b) by (unfold b; assert (X := Rmax_r m3 m4); lra).
  specialize (H1 a H). specialize (H2 a H0). specialize (H3 b H5). specialize (H4 b H6).
  assert (EK := FA a b). unfold K in EK.
  assert (Q : Rabs (h - h') <= Rabs (G a - 0) + Rabs (G' a - 0) + Rabs (G b - h) + Rabs (G' b - h')).
  { replace (h - h') with ((G a - 0) - (G' a - 0) - (G b - h) + (G' b - h')) by lra.
    eapply Rle_trans; [apply Rabs_triang|]. apply Rplus_le_compat_r.
    unfold Rminus at 1. eapply Rle_trans; [apply Rabs_triang|]. rewrite Rabs_Ropp. apply Rplus_le_compat_r.
    unfold Rminus at 1. eapply Rle_trans; [apply Rabs_triang|]. rewrite Rabs_Ropp. lra. }
  lra.
Qed.

(** * Sums and orders *)

Lemma rsum_perm l l' : Permutation l l' -> rsum l = rsum l'.
Proof. unfold rsum. induction 1; cbn; lra. Qed.
Lemma rsum_ext {A} (f g : A -> R) l : (forall x, In x l -> f x = g x) -> rsum (map f l) = rsum (map g l).
Proof.
  intros H. induction l as [|x l IH]; [reflexivity|]. cbn. rewrite (H x) by now left. f_equal.
  apply IH. intros z Hz. apply H. now right.
Qed.
Lemma rsum_scal {A} k (f : A -> R) l : rsum (map (fun x => k * f x) l) = k * rsum (map f l).
Proof. induction l as [|x l IH]; cbn; [ring|]. unfold rsum in *. rewrite IH. ring. Qed.
Lemma rsum_nonneg {A} (f : A -> R) l : (forall x, In x l -> 0 <= f x) -> 0 <= rsum (map f l).
Proof.
  induction l as [|x l IH]; intros H; cbn; [lra|]. assert (0 <= f x) by (apply H; now left).
  assert (0 <= rsum (map f l)) by (apply IH; intros; apply H; now right). unfold rsum in *. lra.
Qed.

Lemma rinsert_perm x l : Permutation (x :: l) (rinsert x l).
Proof.
  induction l as [|y t IH]; [reflexivity|]. cbn. destruct (rleb x y); [reflexivity|].
  rewrite perm_swap. now constructor.
Qed.
Lemma rsort_perm l : Permutation l (rsort l).
Proof.
  unfold rsort. induction l as [|x t IH]; [reflexivity|]. cbn [fold_right]. rewrite <- rinsert_perm. now constructor.
Qed.
Lemma rinsert_sorted x l : StronglySorted Rle l -> StronglySorted Rle (rinsert x l).
Proof.
  induction 1 as [|y t S IH F]; cbn; [repeat constructor|]. unfold rleb. destruct (Rle_dec x y) as [L|L].
  - constructor; [now constructor|]. constructor; [exact L|]. eapply Forall_impl; [|exact F]. intros z Hz. cbn in Hz. lra.
  - constructor; [exact IH|]. rewrite Forall_forall in F |- *. intros z Hz.
    apply (Permutation_in _ (Permutation_sym (rinsert_perm x t))) in Hz as [<-|Hz]; [lra | now apply F].
Qed.
Lemma rsort_sorted l : StronglySorted Rle (rsort l).
Proof. unfold rsort. induction l as [|x t IH]; [constructor|]. cbn [fold_right]. now apply rinsert_sorted. Qed.

(** * Limits *)

Lemma tends_shift G v k : tends_right G v -> tends_right (fun u => G u + k) (v + k).
Proof. intros H eps He. destruct (H eps He) as (m & Hm). exists m. intros u Hu. replace (G u + k - (v + k)) with (G u - v) by ring. auto. Qed.
Lemma tends_right_ext G G' v m : (forall u, m < u -> G u = G' u) -> tends_right G v -> tends_right G' v.
Proof.
  intros E H eps He. destruct (H eps He) as (k & Hk). exists (Rmax m k). intros u Hu.
  assert (X1 := Rmax_l m k). assert (X2 := Rmax_r m k). rewrite <- E by lra. apply Hk. lra.
Qed.
Lemma tends_left_ext G G' v m : (forall u, u < m -> G u = G' u) -> tends_left G v -> tends_left G' v.
Proof.
  intros E H eps He. destruct (H eps He) as (k & Hk). exists (Rmin m k). intros u Hu.
  assert (X1 := Rmin_l m k). assert (X2 := Rmin_r m k). rewrite <- E by lra. apply Hk. lra.
Qed.
Lemma tends_mirror G v : tends_right (fun u => G (- u)) v -> tends_left G v.
Proof.
  intros H eps He. destruct (H eps He) as (m & Hm). exists (- m). intros u Hu.
  rewrite <- (Ropp_involutive u). apply Hm. lra.
Qed.

Lemma exp_sq t : 0 < t -> t * t / 4 < exp t.
Proof.
  intros P. assert (E : 1 + t / 2 < exp (t / 2)) by (apply exp_ineq1; lra).
  replace (exp t) with (exp (t / 2) * exp (t / 2)) by (rewrite <- exp_plus; f_equal; lra).
  assert (0 < 1 + t / 2) by lra. nra.
Qed.

Lemma decay_limit A B y : tends_right (fun u => (A + B * (u - y)) * exp (y - u)) 0.
Proof.
  intros eps He. set (K := Rabs A + Rabs B + 1).
  assert (KA := Rabs_pos A). assert (KB := Rabs_pos B).
  assert (PK : 0 < 4 * K / eps) by (apply Rdiv_lt_0_compat; unfold K; lra).
  exists (y + 1 + 4 * K / eps). intros u Hu. set (t := u - y).
  assert (T1 : 1 < t) by (unfold t; lra). assert (T2 : 4 * K / eps < t) by (unfold t; lra).
  rewrite Rminus_0_r, Rabs_mult. rewrite (Rabs_pos_eq (exp _)) by (left; apply exp_pos).
  replace (y - u) with (- t) by (unfold t; ring). rewrite exp_Ropp.
  assert (E := exp_sq t ltac:(lra)). assert (PE := exp_pos t).
  assert (B1 : Rabs (A + B * t) <= K * t).
  { eapply Rle_trans; [apply Rabs_triang|]. rewrite Rabs_mult, (Rabs_pos_eq t) by lra. unfold K. nra. }
  assert (B2 : K * t < eps * exp t).
  { assert (4 * K < t * eps) by (apply (Rmult_lt_compat_r eps) in T2; [|exact He]; replace (4 * K / eps * eps) with (4 * K) in T2 by (field; lra); lra).
    assert (K * t * 4 < eps * (t * t)) by nra. nra. }
  apply (Rmult_lt_reg_r (exp t)); [exact PE|]. rewrite Rmult_assoc, Rinv_l by lra. lra.
Qed.

(** * The two tails *)

Lemma right_tail c y : 0 < c -> exists G, (forall u, derivable_pt_lim G u (- (c * exp (y - u) * ln (c * exp (y - u))))) /\
  G y = 0 /\ tends_right G (c * (1 - ln c)).
Proof.
  intros P. set (p := fun u => c * exp (y - u)).
  assert (PP : forall u, 0 < p u) by (intros u; apply Rmult_lt_0_compat; [exact P | apply exp_pos]).
  assert (D : forall u, derivable_pt_lim p u (- p u)).
  { intros u. unfold p. eapply dl_eq; [apply dl_scal, dl_exp, dl_minus; [apply dl_const | apply dl_id]|]; cbn beta; ring. }
  exists (fun u => p u * (ln (p u) - 1) + c * (1 - ln c)). split; [|split].
  - intros u. eapply dl_eq.
    + apply dl_plus; [|apply dl_const]. apply dl_mult; [apply D|]. apply dl_minus; [|apply dl_const]. apply dl_ln; [apply PP | apply D].
    + fold (p u). cbn beta. specialize (PP u). field. lra.
  - unfold p. replace (y - y) with 0 by ring. rewrite exp_0. replace (c * 1) with c by ring. ring.
  - assert (S : forall z, tends_right (fun u => p u * (ln (p u) - 1)) 0 -> tends_right (fun u => p u * (ln (p u) - 1) + z) z).
    { intros z H. assert (H' := tends_shift _ _ z H). now rewrite Rplus_0_l in H'. }
    apply S.
    apply (tends_right_ext (fun u => (c * (ln c - 1) + (- c) * (u - y)) * exp (y - u)) _ _ 0); [|apply decay_limit].
    intros u _. unfold p. rewrite ln_mult by (try exact P; apply exp_pos). rewrite ln_exp. ring.
Qed.

Lemma left_tail d y : 0 < d -> exists G, (forall u, derivable_pt_lim G u (- (d * exp (u - y) * ln (d * exp (u - y))))) /\
  G y = d * (1 - ln d) /\ tends_left G 0.
Proof.
  intros P. set (p := fun u => d * exp (u - y)).
  assert (PP : forall u, 0 < p u) by (intros u; apply Rmult_lt_0_compat; [exact P | apply exp_pos]).
  assert (D : forall u, derivable_pt_lim p u (p u)).
  { intros u. unfold p. eapply dl_eq; [apply dl_scal, dl_exp, dl_minus; [apply dl_id | apply dl_const]|]; cbn beta; ring. }
  exists (fun u => p u * (1 - ln (p u))). split; [|split].
  - intros u. eapply dl_eq.
    + apply dl_mult; [apply D|]. apply dl_minus; [apply dl_const|]. apply dl_ln; [apply PP | apply D].
    + fold (p u). cbn beta. specialize (PP u). field. lra.
  - unfold p. replace (y - y) with 0 by ring. rewrite exp_0. replace (d * 1) with d by ring. ring.
  - apply tends_mirror.
    apply (tends_right_ext (fun u => (d * (1 - ln d) + d * (u - - y)) * exp (- y - u)) _ _ 0); [|apply decay_limit].
    intros u _. unfold p. rewrite ln_mult by (try exact P; apply exp_pos). rewrite ln_exp.
    replace (- u - y) with (- y - u) by ring. ring.
Qed.

(** * Between two points *)

Lemma atan_diff a b : 0 < a -> 0 < b -> atan a - atan b = atan ((a - b) / (1 + a * b)).
Proof.
  intros A B.
  assert (BA := atan_bound a). assert (BB := atan_bound b).
  assert (PA : 0 < atan a) by (rewrite <- atan_0; apply atan_increasing; exact A).
  assert (PB : 0 < atan b) by (rewrite <- atan_0; apply atan_increasing; exact B).
  assert (H := atan_sub_correct a b). unfold atan_sub in H. rewrite H; [lra | nra | lra |].
  apply atan_bound.
Qed.

Lemma piece c dp y : 0 < c -> 0 < dp ->
  let P := fun u => c * exp (y - u) + dp * exp (u - y) in
  let g := fun u => dp * exp (u - y) - c * exp (y - u) in
  let F := fun u => - (g u * (ln (P u) - 1) + 4 * sqrt (c * dp) * atan (exp (u - y) * sqrt (dp / c))) in
  forall u, derivable_pt_lim F u (- (P u * ln (P u))).
Proof.
  intros Hc Hd P g F u.
  assert (DE : derivable_pt_lim (fun u => exp (u - y)) u (exp (u - y))).
  { eapply dl_eq; [apply dl_exp, dl_minus; [apply dl_id | apply dl_const]|]; cbn beta; ring. }
  assert (DF : derivable_pt_lim (fun u => exp (y - u)) u (- exp (y - u))).
  { eapply dl_eq; [apply dl_exp, dl_minus; [apply dl_const | apply dl_id]|]; cbn beta; ring. }
  assert (DP : derivable_pt_lim P u (g u)).
  { unfold P, g. eapply dl_eq; [apply dl_plus; apply dl_scal; [exact DF | exact DE]|]; cbn beta; ring. }
  assert (DG : derivable_pt_lim g u (P u)).
  { unfold P, g. eapply dl_eq; [apply dl_minus; apply dl_scal; [exact DE | exact DF]|]; cbn beta; ring. }
  assert (PP : 0 < P u).
  { unfold P. assert (X := exp_pos (y - u)). assert (Y := exp_pos (u - y)). nra. }
  eapply dl_eq.
  - unfold F. apply dl_opp, dl_plus.
    + apply dl_mult; [exact DG|]. apply dl_minus; [|apply dl_const]. apply dl_ln; [exact PP | exact DP].
    + apply dl_scal, dl_atan. apply dl_mult; [exact DE | apply dl_const].
  - cbn beta. set (E := exp (u - y)) in *. assert (PE : 0 < E) by apply exp_pos.
    assert (EI : exp (y - u) = / E) by (unfold E; rewrite <- exp_Ropp; f_equal; ring).
    set (k := sqrt (c * dp)). set (m := sqrt (dp / c)).
    assert (KM : k * m = dp).
    { unfold k, m. rewrite <- sqrt_mult_alt by nra. replace (c * dp * (dp / c)) with (dp * dp) by (field; lra). apply sqrt_square. lra. }
    assert (MM : m * m = dp / c) by (unfold m; apply sqrt_sqrt; left; apply Rdiv_lt_0_compat; lra).
    assert (A : 4 * k * (/ (1 + (E * m) ^ 2) * (E * m + E * 0)) = 4 * dp * E * c / (c + E * E * dp)).
    { replace ((E * m) ^ 2) with (E * E * (m * m)) by ring. rewrite MM.
      replace (4 * k * (/ (1 + E * E * (dp / c)) * (E * m + E * 0))) with (4 * (k * m) * E / (1 + E * E * (dp / c)))
        by (field; nra).
      rewrite KM. field. split; nra. }
    rewrite A. unfold P, g. fold E. rewrite EI.
    assert (NZ : c + E * E * dp <> 0) by nra.
    assert (Q : c * / E + dp * E = (c + E * E * dp) / E) by (field; lra).
    set (L := ln (c * / E + dp * E)). rewrite Q. field. split; [lra | nra].
Qed.

Lemma piece_step c dn y y' : 0 < c -> 0 < dn ->
  let e := exp (y - y') in
  let dp := dn * e in
  let P := fun u => c * exp (y - u) + dp * exp (u - y) in
  let g := fun u => dp * exp (u - y) - c * exp (y - u) in
  let F := fun u => - (g u * (ln (P u) - 1) + 4 * sqrt (c * dp) * atan (exp (u - y) * sqrt (dp / c))) in
  F y' - F y = interval_term 1 c dn e.
Proof.
  intros Hc Hd e dp P g F. assert (PE : 0 < e) by apply exp_pos.
  assert (PD : 0 < dp) by (unfold dp; nra).
  assert (X0 : exp (y - y) = 1) by (replace (y - y) with 0 by ring; apply exp_0).
  assert (X1 : exp (y' - y) = / e) by (unfold e; rewrite <- exp_Ropp; f_equal; ring).
  unfold F, P, g. rewrite X0, X1. fold e. unfold interval_term. fold dp.
  set (m := sqrt (dp / c)). assert (PM : 0 < m) by (apply sqrt_lt_R0, Rdiv_lt_0_compat; lra).
  assert (AD := atan_diff m (/ e * m) PM ltac:(apply Rmult_lt_0_compat; [apply Rinv_0_lt_compat; lra | exact PM])).
  assert (MM : m * m = dp / c) by (unfold m; apply sqrt_sqrt; left; apply Rdiv_lt_0_compat; lra).
  set (e2 := sqrt e). assert (P2 : 0 < e2) by now apply sqrt_lt_R0. assert (E2 : e2 * e2 = e) by (apply sqrt_sqrt; lra).
  set (r := sqrt (c / dn)). assert (PR : 0 < r) by (apply sqrt_lt_R0, Rdiv_lt_0_compat; lra).
  assert (RR : r * r = c / dn) by (apply sqrt_sqrt; left; apply Rdiv_lt_0_compat; lra).
  assert (MR : m * r = e2).
  { unfold m, r, e2. rewrite <- sqrt_mult_alt by (left; apply Rdiv_lt_0_compat; lra). f_equal. unfold dp. field. lra. }
  assert (AE : (m - / e * m) / (1 + m * (/ e * m)) = (e2 - 1 / e2) * r / (c / dn + 1)).
  { rewrite <- RR, <- E2. replace m with (e2 / r) by (rewrite <- MR; field; lra). field. split; [nra|]. split; nra. }
  rewrite <- AE, <- AD.
  replace (1 * exp 0) with 1 by (rewrite exp_0; ring).
  replace (dp * / e) with dn by (unfold dp; field; lra).
  replace (1 * m) with m by ring.
  replace (c * 1 + dp * 1) with (c + dp) by ring. replace (c * e + dn) with (dn + c * e) by ring.
  ring.
Qed.

(** * All points *)

Definition kern (s u v : R) : R := s * exp (- Rabs (u - v)).

Lemma backward_hd s t : forall a, hd 0 (backward s (decay (a :: t))) = rsum (map (fun v => s * exp (a - v)) (a :: t)).
Proof.
  induction t as [|b t IH]; intros a.
  - cbn. replace (a - a) with 0 by ring. rewrite exp_0. ring.
  - change (decay (a :: b :: t)) with (exp (a - b) :: decay (b :: t)).
    cbn [backward hd]. rewrite IH. cbn [map rsum fold_right]. replace (a - a) with 0 by ring. rewrite exp_0.
    rewrite Rmult_1_r. rewrite (Rplus_comm _ s). f_equal.
    change (exp (a - b) * rsum (map (fun v => s * exp (b - v)) (b :: t)) = rsum (map (fun v => s * exp (a - v)) (b :: t))).
    rewrite <- rsum_scal. apply rsum_ext. intros v _.
    replace (exp (a - v)) with (exp (a - b) * exp (b - v)) by (rewrite <- exp_plus; f_equal; ring). ring.
Qed.
Lemma backward_tl s a b t : tl (backward s (decay (a :: b :: t))) = backward s (decay (b :: t)).
Proof. reflexivity. Qed.

Fixpoint right_part (s c y : R) (rest : list R) : R :=
  match rest with
  | [] => c * (1 - ln c)
  | y' :: t => interval_term 1 c (hd 0 (backward s (decay rest))) (exp (y - y')) + right_part s (exp (y - y') * c + s) y' t
  end.

Lemma term_scale w c d e : interval_term w c d e = w * interval_term 1 c d e.
Proof. unfold interval_term. ring. Qed.

Lemma interval_sum_right w s rest : forall acc c y,
  interval_sum w acc (forward s c (decay (y :: rest))) (tl (backward s (decay (y :: rest)))) (decay (y :: rest))
  + w * last (forward s c (decay (y :: rest))) 0 * (1 - ln (last (forward s c (decay (y :: rest))) 0))
  = acc + w * right_part s c y rest.
Proof.
  induction rest as [|y' t IH]; intros acc c y.
  - cbn. ring.
  - rewrite backward_tl. change (decay (y :: y' :: t)) with (exp (y - y') :: decay (y' :: t)).
    cbn [forward]. set (c' := exp (y - y') * c + s).
    assert (NE : forward s c' (decay (y' :: t)) <> []) by (destruct (decay (y' :: t)); discriminate).
    assert (LE : last (c :: forward s c' (decay (y' :: t))) 0 = last (forward s c' (decay (y' :: t))) 0).
    { destruct (forward s c' (decay (y' :: t))); [congruence | reflexivity]. }
    rewrite LE.
    assert (exists d0, backward s (decay (y' :: t)) = d0 :: tl (backward s (decay (y' :: t)))) as (d0 & Ed).
    { destruct (backward s (decay (y' :: t))) eqn:E; [destruct (decay (y' :: t)); discriminate|]. eauto. }
    rewrite Ed. cbn [interval_sum right_part]. rewrite Ed. cbn [hd].
    assert (H := IH (acc + interval_term w c d0 (exp (y - y'))) c' y').
    cbn [tl]. rewrite H. fold c'. rewrite term_scale. ring.
Qed.

Lemma interval_sum_acc w c : forall d e acc k, interval_sum w (acc + k) c d e = interval_sum w acc c d e + k.
Proof.
  induction c as [|c0 c IH]; intros d e acc k; [reflexivity|]. destruct d as [|d0 d]; [reflexivity|]. destruct e as [|e0 e]; [reflexivity|].
  cbn. rewrite <- IH. f_equal. ring.
Qed.

Lemma kern_left s u v : u <= v -> kern s u v = s * exp (u - v).
Proof. intros H. unfold kern. rewrite Rabs_left1 by lra. f_equal. f_equal. ring. Qed.
Lemma kern_right s u v : v <= u -> kern s u v = s * exp (v - u).
Proof. intros H. unfold kern. rewrite Rabs_pos_eq by lra. f_equal. f_equal. ring. Qed.

Lemma backward_pos s a t : 0 < s -> 0 < hd 0 (backward s (decay (a :: t))).
Proof.
  intros Hs. rewrite backward_hd. cbn. replace (a - a) with 0 by ring. rewrite exp_0.
  assert (0 <= rsum (map (fun v => s * exp (a - v)) t)).
  { apply rsum_nonneg. intros v _. assert (X := exp_pos (a - v)). nra. }
  unfold rsum in *. lra.
Qed.

Lemma right_ok s : 0 < s -> forall rest c y, 0 < c -> StronglySorted Rle (y :: rest) ->
  let p := fun u => c * exp (y - u) + rsum (map (kern s u) rest) in
  exists G, (forall u, derivable_pt_lim G u (- (p u * ln (p u)))) /\ G y = 0 /\ tends_right G (right_part s c y rest).
Proof.
  intros Hs. induction rest as [|y' t IH]; intros c y Hc SS p.
  - destruct (right_tail c y Hc) as (G & D & G0 & T). exists G. split; [|split]; try assumption.
    intros u. eapply dl_eq; [apply D|]. unfold p. cbn. now rewrite Rplus_0_r.
  - inversion SS as [|? ? SS' FF]; subst. inversion FF as [|? ? Hy F']; subst.
    set (e := exp (y - y')). assert (Pe : 0 < e) by apply exp_pos.
    set (c' := e * c + s). assert (Hc' : 0 < c') by (unfold c'; nra).
    destruct (IH c' y' Hc' SS') as (G2 & D2 & Z2 & T2). set (p2 := fun u => c' * exp (y' - u) + rsum (map (kern s u) t)) in *.
    set (dn := hd 0 (backward s (decay (y' :: t)))). assert (Hdn : 0 < dn) by now apply backward_pos.
    set (dp := dn * e). assert (Hdp : 0 < dp) by (unfold dp; nra).
    assert (PC := piece c dp y Hc Hdp). assert (PS := piece_step c dn y y' Hc Hdn). cbv zeta in PC, PS.
    set (P := fun u => c * exp (y - u) + dp * exp (u - y)) in *.
    set (F := fun u => - ((dp * exp (u - y) - c * exp (y - u)) * (ln (P u) - 1) + 4 * sqrt (c * dp) * atan (exp (u - y) * sqrt (dp / c)))) in *.
    assert (PL : forall u, u <= y' -> p u = P u).
    { intros u Hu. unfold p, P. f_equal. unfold dp, dn. rewrite backward_hd.
      rewrite (rsum_ext (kern s u) (fun v => exp (u - y') * (s * exp (y' - v)))).
      - rewrite rsum_scal. unfold e. replace (exp (u - y')) with (exp (y - y') * exp (u - y)) by (rewrite <- exp_plus; f_equal; ring). ring.
      - intros v Hv. assert (y' <= v).
        { destruct Hv as [->|Hv]; [lra|]. inversion SS' as [|? ? _ F2]; subst. rewrite Forall_forall in F2. now apply F2. }
        rewrite kern_left by lra. replace (exp (u - v)) with (exp (u - y') * exp (y' - v)) by (rewrite <- exp_plus; f_equal; ring). ring. }
    assert (PR : forall u, y' <= u -> p u = p2 u).
    { intros u Hu. unfold p, p2. cbn [map rsum fold_right]. rewrite kern_right by exact Hu. unfold c'.
      replace (exp (y - u)) with (e * exp (y' - u)) by (unfold e; rewrite <- exp_plus; f_equal; ring).
      unfold rsum. ring. }
    set (G1 := fun u => F u - F y). set (G2' := fun u => G2 u + (F y' - F y)).
    exists (glued y' G1 G2'). split; [|split].
    + assert (D1 : forall u, derivable_pt_lim G1 u (- (P u * ln (P u)))).
      { intros u. unfold G1. eapply dl_eq; [apply dl_minus; [apply PC | apply dl_const]|]. ring. }
      assert (D2' : forall u, derivable_pt_lim G2' u (- (p2 u * ln (p2 u)))).
      { intros u. unfold G2'. eapply dl_eq; [apply dl_plus; [apply D2 | apply dl_const]|]. unfold p2; ring. }
      intros u. destruct (Rtotal_order u y') as [L|[->|L]].
      * apply glue_left; [exact L|]. rewrite PL by lra. apply D1.
      * apply glue_at; [unfold G1, G2'; rewrite Z2; ring | rewrite PL by lra; apply D1 | rewrite PR by lra; apply D2'].
      * apply glue_right; [exact L|]. rewrite PR by lra. apply D2'.
    + unfold glued. destruct (Rle_dec y y'); [unfold G1; ring | lra].
    + cbn [right_part]. fold e dn c'. change (F y' - F y = interval_term 1 c dn e) in PS. rewrite <- PS.
      apply (tends_right_ext G2' _ _ y').
      * intros u Hu. unfold glued. destruct (Rle_dec u y'); [lra | reflexivity].
      * unfold G2'. rewrite Rplus_comm. now apply tends_shift.
Qed.

Lemma all_ok s y rest : 0 < s -> StronglySorted Rle (y :: rest) ->
  let p := fun u => rsum (map (kern s u) (y :: rest)) in
  let d0 := hd 0 (backward s (decay (y :: rest))) in
  exists G, (forall u, derivable_pt_lim G u (- (p u * ln (p u)))) /\ tends_left G 0 /\
            tends_right G (d0 * (1 - ln d0) + right_part s s y rest).
Proof.
  intros Hs SS p d0.
  destruct (right_ok s Hs rest s y Hs SS) as (G2 & D2 & Z2 & T2).
  set (p2 := fun u => s * exp (y - u) + rsum (map (kern s u) rest)) in *.
  assert (Hd : 0 < d0) by now apply backward_pos.
  destruct (left_tail d0 y Hd) as (G1 & D1 & Z1 & T1).
  assert (PL : forall u, u <= y -> p u = d0 * exp (u - y)).
  { intros u Hu. unfold p, d0. rewrite backward_hd, Rmult_comm, <- rsum_scal. apply rsum_ext. intros v Hv.
    assert (y <= v).
    { destruct Hv as [->|Hv]; [lra|]. inversion SS as [|? ? _ F]; subst. rewrite Forall_forall in F. now apply F. }
    rewrite kern_left by lra. replace (exp (u - v)) with (exp (u - y) * exp (y - v)) by (rewrite <- exp_plus; f_equal; ring). ring. }
  assert (PR : forall u, y <= u -> p u = p2 u).
  { intros u Hu. unfold p, p2. cbn [map rsum fold_right]. now rewrite kern_right. }
  set (G2' := fun u => G2 u + d0 * (1 - ln d0)).
  assert (D2' : forall u, derivable_pt_lim G2' u (- (p2 u * ln (p2 u)))).
  { intros u. unfold G2'. eapply dl_eq; [apply dl_plus; [apply D2 | apply dl_const]|]. unfold p2; ring. }
  exists (glued y G1 G2'). split; [|split].
  - intros u. destruct (Rtotal_order u y) as [L|[->|L]].
    + apply glue_left; [exact L|]. rewrite PL by lra. apply D1.
    + apply glue_at; [unfold G2'; rewrite Z1, Z2; ring | rewrite PL by lra; apply D1 | rewrite PR by lra; apply D2'].
    + apply glue_right; [exact L|]. rewrite PR by lra. apply D2'.
  - apply (tends_left_ext G1 _ _ y); [|exact T1]. intros u Hu. unfold glued. destruct (Rle_dec u y); [reflexivity | lra].
  - apply (tends_right_ext G2' _ _ y); [intros u Hu; unfold glued; destruct (Rle_dec u y); [lra | reflexivity]|].
    unfold G2'. rewrite Rplus_comm. now apply tends_shift.
Qed.

Lemma sorted_map w l : 0 < w -> StronglySorted Rle l -> StronglySorted Rle (map (fun v => v / w) l).
Proof.
  intros Hw. induction 1 as [|x t S IH F]; cbn; constructor; [exact IH|].
  rewrite Forall_forall in F |- *. intros z Hz. apply in_map_iff in Hz as (v & <- & Hv).
  unfold Rdiv. apply Rmult_le_compat_r; [left; now apply Rinv_0_lt_compat | now apply F].
Qed.

Lemma kde_scaled x w u : 0 < w ->
  laplace_kde x w u = rsum (map (kern (1 / (2 * w * INR (List.length x))) (u / w)) (map (fun v => v / w) (rsort x))).
Proof.
  intros Hw. unfold laplace_kde. rewrite map_map.
  rewrite (rsum_perm _ _ (Permutation_map _ (rsort_perm x))). apply rsum_ext. intros v _. unfold kern.
  replace (u / w - v / w) with ((u - v) / w) by (field; lra).
  replace (Rabs ((u - v) / w)) with (Rabs (u - v) / w).
  - unfold Rdiv. ring.
  - unfold Rdiv. rewrite Rabs_mult. f_equal. symmetry. apply Rabs_pos_eq. left. now apply Rinv_0_lt_compat.
Qed.

Lemma entropy_integral x w : x <> [] -> 0 < w ->
  total_integral (fun u => - (laplace_kde x w u * ln (laplace_kde x w u))) (laplace_entropy_array x w).
Proof.
  intros NE Hw. set (s := 1 / (2 * w * INR (List.length x))).
  assert (HN : 0 < INR (List.length x)) by (apply lt_0_INR; destruct x; [congruence | cbn; lia]).
  assert (Hs : 0 < s) by (unfold s; apply Rdiv_lt_0_compat; [lra | nra]).
  assert (SS := sorted_map w _ Hw (rsort_sorted x)).
  assert (KS : forall u, laplace_kde x w u = rsum (map (kern s (u / w)) (map (fun v => v / w) (rsort x)))) by (intros u; now apply kde_scaled).
  assert (HE : laplace_entropy_array x w =
     interval_sum w 0 (forward s s (decay (map (fun v => v / w) (rsort x)))) (tl (backward s (decay (map (fun v => v / w) (rsort x))))) (decay (map (fun v => v / w) (rsort x)))
     + w * last (forward s s (decay (map (fun v => v / w) (rsort x)))) 0 * (1 - ln (last (forward s s (decay (map (fun v => v / w) (rsort x)))) 0))
     + w * hd 0 (backward s (decay (map (fun v => v / w) (rsort x)))) * (1 - ln (hd 0 (backward s (decay (map (fun v => v / w) (rsort x))))))).
  { unfold laplace_entropy_array. fold s. cbv zeta. rewrite <- (Rplus_0_l (_ + _)) at 1. rewrite interval_sum_acc. ring. }
  destruct (map (fun v => v / w) (rsort x)) as [|y rest] eqn:EY.
  { exfalso. apply map_eq_nil in EY. assert (P := rsort_perm x). rewrite EY in P. apply Permutation_sym, Permutation_nil in P. contradiction. }
  rewrite interval_sum_right in HE.
  destruct (all_ok s y rest Hs SS) as (G & D & TL & TR).
  set (d0 := hd 0 (backward s (decay (y :: rest)))) in *.
  exists (fun u => w * G (u / w)), [].
  assert (DW : forall u, derivable_pt_lim (fun u => w * G (u / w)) u (- (laplace_kde x w u * ln (laplace_kde x w u)))).
  { intros u. eapply dl_eq.
    - apply dl_scal. apply (derivable_pt_lim_comp (fun u => u / w) G u (1 / w)).
      + eapply dl_eq; [apply dl_mult; [apply dl_id | apply dl_const]|]. cbn beta. field. lra.
      + apply D.
    - cbn beta. rewrite KS. field. lra. }
  split; [intros u; eapply dl_cont, DW|]. split; [intros u _; apply DW|].
  assert (WI : 0 < / w) by now apply Rinv_0_lt_compat.
  split.
  - intros eps He. destruct (TL (eps / w)) as (m & Hm); [apply Rdiv_lt_0_compat; assumption|].
    exists (w * m). intros u Hu. assert (u / w < m).
    { apply (Rmult_lt_reg_l w); [exact Hw|]. replace (w * (u / w)) with u by (field; lra). exact Hu. }
    specialize (Hm _ H). rewrite Rminus_0_r in *. rewrite Rabs_mult, (Rabs_pos_eq w) by lra.
    apply (Rmult_lt_compat_l w) in Hm; [|exact Hw]. replace (w * (eps / w)) with eps in Hm by (field; lra). exact Hm.
  - intros eps He. destruct (TR (eps / w)) as (m & Hm); [apply Rdiv_lt_0_compat; assumption|].
    exists (w * m). intros u Hu. assert (m < u / w).
    { apply (Rmult_lt_reg_l w); [exact Hw|]. replace (w * (u / w)) with u by (field; lra). exact Hu. }
    specialize (Hm _ H). rewrite HE.
    replace (w * G (u / w) - (0 + w * right_part s s y rest + w * d0 * (1 - ln d0)))
      with (w * (G (u / w) - (d0 * (1 - ln d0) + right_part s s y rest))) by ring.
    rewrite Rabs_mult, (Rabs_pos_eq w) by lra.
    apply (Rmult_lt_compat_l w) in Hm; [|exact Hw]. replace (w * (eps / w)) with eps in Hm by (field; lra). exact Hm.
Qed.
