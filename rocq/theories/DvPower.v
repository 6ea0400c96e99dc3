(** Powers as the model takes them. *)
From Coq Require Import Reals ZArith Bool Lia Lra List.
From Verif Require Import EntModel SplModel SplEval DvModel DvSpec.
Import ListNotations.
Local Open Scope R_scope.

Lemma req_spec a b : req a b = true <-> a = b.
Proof. unfold req. destruct (Req_EM_T a b); split; intros; try assumption; try reflexivity; try discriminate; contradiction. Qed.
Lemma req_false a b : req a b = false <-> a <> b.
Proof. rewrite <- req_spec. destruct (req a b); split; intros; congruence. Qed.
Lemma req_refl a : req a a = true.
Proof. apply req_spec. reflexivity. Qed.

Lemma int_part_IZR z : Int_part (IZR z) = z.
Proof. unfold Int_part. rewrite <- (up_tech (IZR z) z); [lia | lra |]. rewrite plus_IZR. lra. Qed.
Lemma is_int_IZR z : is_int (IZR z) = true.
Proof. unfold is_int. rewrite int_part_IZR. apply req_refl. Qed.
Lemma is_int_ex n : is_int n = true <-> exists z, n = IZR z.
Proof. split; [intros H; apply req_spec in H; eexists; exact H | intros [z ->]; apply is_int_IZR]. Qed.

Lemma pow_powerRZ' x z : (0 <= z)%Z -> x ^ Z.to_nat z = powerRZ x z.
Proof. intros H. rewrite pow_powerRZ, Z2Nat.id by exact H. reflexivity. Qed.
(** Whole exponents. *)
Lemma power_int x z : power x (IZR z) = if (z <? 0)%Z && req x 0 then None else Some (powerRZ x z).
Proof.
  unfold power. rewrite is_int_IZR, int_part_IZR. destruct (Z.leb_spec 0 z) as [H|H].
  - assert (E : (z <? 0)%Z = false) by (apply Z.ltb_ge; lia). rewrite E. cbn [andb]. rewrite pow_powerRZ' by exact H. reflexivity.
  - assert (E : (z <? 0)%Z = true) by (apply Z.ltb_lt; lia). rewrite E. cbn [andb]. destruct (req x 0); [reflexivity|].
    rewrite pow_powerRZ' by lia. rewrite <- powerRZ_neg'. rewrite Z.opp_involutive. reflexivity.
Qed.
Lemma power_pos x n : 0 < x -> power x n = Some (Rpower x n).
Proof.
  intros H. destruct (is_int n) eqn:E.
  - apply is_int_ex in E. destruct E as [z ->]. rewrite power_int. assert (F : req x 0 = false) by (apply req_false; lra).
    rewrite F, andb_false_r. rewrite powerRZ_Rpower by exact H. reflexivity.
  - unfold power. rewrite E. destruct (rltb x 0) eqn:L; [apply rltb_true in L; lra|].
    assert (F : req x 0 = false) by (apply req_false; lra). rewrite F. destruct (rltb 0 n); [reflexivity|].
    rewrite Rpower_Ropp, Rinv_inv. reflexivity.
Qed.
Lemma zero_pow z : (0 < z)%Z -> powerRZ 0 z = 0.
Proof. intros H. destruct z; try lia. cbn. rewrite pow_i; [reflexivity | lia]. Qed.
Lemma power_zero n : power 0 n = if rltb n 0 then None else Some (if req n 0 then 1 else 0).
Proof.
  destruct (is_int n) eqn:E.
  - apply is_int_ex in E. destruct E as [z ->]. rewrite power_int, req_refl, andb_true_r. destruct (Z.ltb_spec z 0) as [H|H].
    + assert (L : rltb (IZR z) 0 = true) by (apply rltb_true; apply IZR_lt in H; exact H). rewrite L. reflexivity.
    + assert (L : rltb (IZR z) 0 = false). { destruct (rltb (IZR z) 0) eqn:C; [apply rltb_true in C; apply lt_IZR in C; lia | reflexivity]. }
      rewrite L. destruct (req (IZR z) 0) eqn:Z0.
      * apply req_spec in Z0. apply eq_IZR in Z0. subst z. reflexivity.
      * apply req_false in Z0. rewrite zero_pow; [reflexivity|]. assert (z <> 0%Z) by (intros ->; apply Z0; reflexivity). lia.
  - unfold power. rewrite E, req_refl. destruct (rltb 0 0) eqn:L; [apply rltb_true in L; lra|].
    assert (N : n <> 0) by (intros ->; assert (C := is_int_IZR 0); congruence).
    assert (F : req n 0 = false) by (apply req_false; exact N). rewrite F. destruct (rltb 0 n) eqn:P.
    + apply rltb_true in P. destruct (rltb n 0) eqn:M; [apply rltb_true in M; lra | reflexivity].
    + destruct (rltb n 0) eqn:M; [reflexivity|]. exfalso.
      destruct (Rtotal_order n 0) as [C|[C|C]]; [apply rltb_true in C; congruence | contradiction | apply rltb_true in C; congruence].
Qed.
Lemma power_neg x n v : x < 0 -> power x n = Some v -> exists z, n = IZR z /\ v = powerRZ x z.
Proof.
  intros H. destruct (is_int n) eqn:E.
  - apply is_int_ex in E. destruct E as [z ->]. rewrite power_int. assert (F : req x 0 = false) by (apply req_false; lra).
    rewrite F, andb_false_r. intros V. apply some_inj in V. exists z. split; [reflexivity | symmetry; exact V].
  - unfold power. rewrite E. apply rltb_true in H. rewrite H. discriminate.
Qed.
Lemma power_1 x : power x 1 = Some x.
Proof. rewrite (power_int x 1). cbn [Z.ltb Z.compare andb powerRZ]. change (Pos.to_nat 1) with 1%nat. rewrite pow_1. reflexivity. Qed.
Lemma power_0 x : power x 0 = Some 1.
Proof. rewrite (power_int x 0). reflexivity. Qed.
Lemma Rpower_1_l n : Rpower 1 n = 1.
Proof. unfold Rpower. rewrite ln_1, Rmult_0_r. exact exp_0. Qed.
Lemma power_one n : power 1 n = Some 1.
Proof. rewrite power_pos by lra. rewrite Rpower_1_l. reflexivity. Qed.

Lemma power_add x p q u v : power x p = Some u -> power x q = Some v -> power x (p + q) = Some (u * v).
Proof.
  intros A B. destruct (Rtotal_order x 0) as [H|[-> |H]].
  - destruct (power_neg x p u H A) as (a & -> & ->). destruct (power_neg x q v H B) as (b & -> & ->).
    rewrite <- plus_IZR, power_int. assert (F : req x 0 = false) by (apply req_false; lra).
    rewrite F, andb_false_r, powerRZ_add by lra. reflexivity.
  - rewrite power_zero in A, B |- *. destruct (rltb p 0) eqn:P; [discriminate|]. destruct (rltb q 0) eqn:Q; [discriminate|].
    apply some_inj in A, B. assert (0 <= p) by (destruct (Rlt_dec p 0) as [C|C]; [apply rltb_true in C; congruence | lra]).
    assert (0 <= q) by (destruct (Rlt_dec q 0) as [C|C]; [apply rltb_true in C; congruence | lra]).
    destruct (rltb (p + q) 0) eqn:S; [apply rltb_true in S; lra|]. f_equal. subst u v.
    destruct (req p 0) eqn:P0.
    + apply req_spec in P0. subst p. rewrite Rplus_0_l. destruct (req q 0); lra.
    + apply req_false in P0. assert (F : req (p + q) 0 = false) by (apply req_false; lra). rewrite F. lra.
  - rewrite power_pos in A, B |- * by exact H. apply some_inj in A, B. subst. rewrite Rpower_plus. reflexivity.
Qed.
Lemma pow_mult_RZ x a b : x <> 0 -> powerRZ (powerRZ x a) b = powerRZ x (a * b).
Proof.
  intros H. destruct b as [|p|p].
  - rewrite Z.mul_0_r. reflexivity.
  - rewrite <- positive_nat_Z. generalize (Pos.to_nat p). intros n. rewrite <- pow_powerRZ. induction n as [|n IH].
    + cbn [pow]. rewrite Z.mul_0_r. reflexivity.
    + cbn [pow]. rewrite IH, Nat2Z.inj_succ, <- powerRZ_add by exact H. f_equal. lia.
  - change (Z.neg p) with (- Z.pos p)%Z. rewrite powerRZ_neg', Z.mul_opp_r, powerRZ_neg'. f_equal.
    rewrite <- positive_nat_Z. generalize (Pos.to_nat p). intros n. rewrite <- pow_powerRZ. induction n as [|n IH].
    + cbn [pow]. rewrite Z.mul_0_r. reflexivity.
    + cbn [pow]. rewrite IH, Nat2Z.inj_succ, <- powerRZ_add by exact H. f_equal. lia.
Qed.
Lemma power_comp x p q u v : power x q = Some u -> power u p = Some v -> 0 <= x \/ is_int p = true -> power x (p * q) = Some v.
Proof.
  intros A B S. destruct (Rtotal_order x 0) as [H|[-> |H]].
  - destruct S as [S|S]; [lra|]. apply is_int_ex in S. destruct S as [a ->]. destruct (power_neg x q u H A) as (b & -> & ->).
    rewrite <- mult_IZR. rewrite power_int in B |- *. assert (F : req x 0 = false) by (apply req_false; lra).
    assert (G : req (powerRZ x b) 0 = false) by (apply req_false; apply powerRZ_NOR; lra).
    rewrite F, andb_false_r. rewrite G, andb_false_r in B. rewrite pow_mult_RZ in B by lra. rewrite Z.mul_comm. exact B.
  - rewrite power_zero in A. destruct (rltb q 0) eqn:Q; [discriminate|]. apply some_inj in A. subst u.
    assert (0 <= q) by (destruct (Rlt_dec q 0) as [C|C]; [apply rltb_true in C; congruence | lra]). destruct (req q 0) eqn:Q0.
    + apply req_spec in Q0. subst q. rewrite Rmult_0_r, power_0. rewrite power_one in B. exact B.
    + apply req_false in Q0. assert (0 < q) by lra. rewrite power_zero in B |- *. destruct (rltb p 0) eqn:P; [discriminate|].
      assert (0 <= p) by (destruct (Rlt_dec p 0) as [C|C]; [apply rltb_true in C; congruence | lra]).
      destruct (rltb (p * q) 0) eqn:M; [apply rltb_true in M; nra|]. rewrite <- B. f_equal. destruct (req p 0) eqn:P0.
      * apply req_spec in P0. subst p. rewrite Rmult_0_l, req_refl. reflexivity.
      * apply req_false in P0. assert (F : req (p * q) 0 = false) by (apply req_false; nra). rewrite F. reflexivity.
  - rewrite power_pos in A |- * by exact H. apply some_inj in A. subst u. rewrite power_pos in B by (unfold Rpower; apply exp_pos).
    rewrite Rpower_mult, Rmult_comm in B. exact B.
Qed.

(** The model's powers are the powers of the specification. *)
Lemma power_spec x n v : power x n = Some v <-> power_is x n v.
Proof.
  split.
  - intros H. destruct (Rtotal_order x 0) as [L|[-> |L]].
    + destruct (power_neg x n v L H) as (z & -> & ->). destruct (Z.leb_spec 0 z) as [P|P].
      * rewrite <- (Z2Nat.id z P), <- INR_IZR_INZ, <- pow_powerRZ. constructor.
      * replace z with (- (- z))%Z by lia. rewrite opp_IZR, powerRZ_neg'. rewrite <- (Z2Nat.id (- z)) by lia.
        rewrite <- INR_IZR_INZ, <- pow_powerRZ. constructor. lra.
    + rewrite power_zero in H. destruct (rltb n 0) eqn:N; [discriminate|]. apply some_inj in H. subst v. destruct (req n 0) eqn:Z.
      * apply req_spec in Z. subst n. exact (whole_power 0 0).
      * apply req_false in Z. apply power_of_zero; [reflexivity|]. destruct (Rlt_dec n 0) as [C|C]; [apply rltb_true in C; congruence | lra].
    + rewrite power_pos in H by exact L. apply some_inj in H. subst v. apply real_power. exact L.
  - intros H. destruct H as [k|k H|n H|n -> H].
    + rewrite INR_IZR_INZ, power_int. rewrite <- pow_powerRZ. assert (E : (Z.of_nat k <? 0)%Z = false) by (apply Z.ltb_ge; lia). rewrite E. reflexivity.
    + rewrite INR_IZR_INZ, <- opp_IZR, power_int. assert (F : req x 0 = false) by (apply req_false; exact H).
      rewrite F, andb_false_r, powerRZ_neg', <- pow_powerRZ. reflexivity.
    + rewrite power_pos by exact H. reflexivity.
    + rewrite power_zero. destruct (rltb n 0) eqn:N; [apply rltb_true in N; lra|]. assert (F : req n 0 = false) by (apply req_false; lra). rewrite F. reflexivity.
Qed.

(** * The derivative of a power *)

Definition pow_safe (n x : R) : Prop := 0 < x \/ is_int n = true /\ (x <> 0 \/ 0 <= n).

Lemma pow_safe_defined n x : pow_safe n x -> power x n <> None.
Proof.
  intros [H|(I & H)].
  - rewrite power_pos by exact H. discriminate.
  - apply is_int_ex in I. destruct I as [z ->]. rewrite power_int. destruct (Z.ltb_spec z 0) as [L|L]; [|discriminate].
    destruct (req x 0) eqn:E; [|discriminate]. apply req_spec in E. apply IZR_lt in L. destruct H; [contradiction | lra].
Qed.
Lemma near_and x P Q : near x P -> near x Q -> near x (fun y => P y /\ Q y).
Proof.
  intros (e & He & A) (f & Hf & B). exists (Rmin e f). split; [apply Rmin_pos; assumption|]. intros y Hy.
  assert (C := Rmin_l e f). assert (D := Rmin_r e f). split; [apply A | apply B]; lra.
Qed.
Lemma near_mono x (P Q : R -> Prop) : (forall y, P y -> Q y) -> near x P -> near x Q.
Proof. intros H (e & He & A). exists e. split; [exact He|]. intros y Hy. apply H, A, Hy. Qed.
Lemma near_all x (P : R -> Prop) : (forall y, P y) -> near x P.
Proof. intros H. exists 1. split; [lra|]. intros y _. apply H. Qed.
Lemma near_here x P : near x P -> P x.
Proof. intros (e & He & A). apply A. unfold Rminus. rewrite Rplus_opp_r, Rabs_R0. exact He. Qed.
Lemma near_near x P : near x P -> near x (fun y => near y P).
Proof.
  intros (e & He & A). exists (e / 2). split; [lra|]. intros y Hy. exists (e / 2). split; [lra|]. intros z Hz. apply A.
  replace (z - x) with ((z - y) + (y - x)) by ring. assert (T := Rabs_triang (z - y) (y - x)). lra.
Qed.
Lemma near_gt a x : a < x -> near x (fun y => a < y).
Proof. intros H. exists (x - a). split; [lra|]. intros y Hy. apply Rabs_def2 in Hy. lra. Qed.
Lemma near_lt a x : x < a -> near x (fun y => y < a).
Proof. intros H. exists (a - x). split; [lra|]. intros y Hy. apply Rabs_def2 in Hy. lra. Qed.
Lemma near_ne a x : x <> a -> near x (fun y => y <> a).
Proof.
  intros H. destruct (Rtotal_order x a) as [L|[L|L]]; [|contradiction|].
  - apply (near_mono x (fun y => y < a)); [intros; lra | apply near_lt, L].
  - apply (near_mono x (fun y => a < y)); [intros; lra | apply near_gt, L].
Qed.
Lemma near_and_inv (P : Prop) x (Q : R -> Prop) : P -> near x Q -> near x (fun y => P /\ Q y).
Proof. intros H. apply near_mono. intros y Hy. split; assumption. Qed.
Lemma derive_near f g x l : near x (fun y => f y = g y) -> derivable_pt_lim f x l -> derivable_pt_lim g x l.
Proof.
  intros (e & He & A) D. apply (derivable_pt_lim_locally_ext f g x (x - e) (x + e)); [lra | | exact D].
  intros z Hz. apply A. apply Rabs_def1; lra.
Qed.
Lemma near_continuous f x l P : derivable_pt_lim f x l -> near (f x) P -> near x (fun y => P (f y)).
Proof.
  intros D (e & He & A). assert (C : continuity_pt f x) by (apply derivable_continuous_pt; exists l; exact D).
  destruct (C e He) as (d & Hd & B). exists d. split; [exact Hd|]. intros y Hy. apply A. destruct (Req_EM_T y x) as [-> |N].
  - unfold Rminus. rewrite Rplus_opp_r, Rabs_R0. exact He.
  - apply B. split; [split; [exact I | congruence] | exact Hy].
Qed.

Lemma pow_safe_near n x : pow_safe n x -> near x (pow_safe n).
Proof.
  intros [H|(I & [H|H])].
  - apply (near_mono x (fun y => 0 < y)); [intros y Hy; left; exact Hy | apply near_gt, H].
  - apply (near_mono x (fun y => y <> 0)); [intros y Hy; right; split; [exact I | left; exact Hy] | apply near_ne, H].
  - apply near_all. intros y. right. split; [exact I | right; exact H].
Qed.

(** [f], which is defined near x, has the derivative [l] there. *)
Definition has_derivative (f : R -> option R) (x l : R) : Prop :=
  exists F, near x (fun y => f y = Some (F y)) /\ derivable_pt_lim F x l.

Lemma powerRZ_derivable x z : x <> 0 \/ (0 <= z)%Z -> derivable_pt_lim (fun y => powerRZ y z) x (IZR z * powerRZ x (z - 1)).
Proof.
  intros H. destruct (Z.leb_spec 0 z) as [P|P].
  - apply (derive_near (fun y => y ^ Z.to_nat z)); [apply near_all; intros y; apply pow_powerRZ', P|].
    replace (IZR z * powerRZ x (z - 1)) with (INR (Z.to_nat z) * x ^ pred (Z.to_nat z)); [apply derivable_pt_lim_pow|].
    rewrite INR_IZR_INZ, Z2Nat.id by exact P. destruct (Z.eq_dec z 0) as [-> |N]; [cbn; ring|]. f_equal.
    rewrite <- pow_powerRZ' by lia. f_equal. lia.
  - destruct H as [H|H]; [|lia]. pose (n := Z.to_nat (- z)). assert (Z : z = (- Z.of_nat n)%Z) by (unfold n; rewrite Z2Nat.id; lia).
    apply (derive_near (fun y => (fct_cte 1 / fun y => y ^ n)%F y)).
    { apply near_all. intros y. unfold div_fct, fct_cte. rewrite Z, powerRZ_neg', <- pow_powerRZ. unfold Rdiv. ring. }
    assert (P0 : x ^ n <> 0) by (apply pow_nonzero, H).
    assert (D := derivable_pt_lim_div (fct_cte 1) (fun y => y ^ n) x 0 _ (derivable_pt_lim_const 1 x) (derivable_pt_lim_pow x n) P0).
    match goal with |- derivable_pt_lim _ x ?a => match type of D with derivable_pt_lim _ x ?b => replace a with b; [exact D|] end end.
    unfold fct_cte, Rsqr. rewrite Z. replace (- Z.of_nat n - 1)%Z with (- Z.of_nat (S n))%Z by lia. rewrite powerRZ_neg', <- pow_powerRZ, opp_IZR, <- INR_IZR_INZ.
    assert (Hn : (0 < n)%nat) by (unfold n; lia). destruct n as [|n']; [lia|]. cbn [pred]. cbn [pow] in *. field. split; [intros C; apply P0; rewrite C; ring | exact H].
Qed.
Lemma power_derivable n x : pow_safe n x -> exists l, power x (n - 1) = Some l /\ has_derivative (fun y => power y n) x (n * l) \/ n = 0 /\ has_derivative (fun y => power y n) x 0.
Proof.
  intros H. destruct H as [H|(I & H)].
  - exists (Rpower x (n - 1)). left. split; [apply power_pos, H|]. exists (fun y => Rpower y n). split.
    + apply (near_mono x (fun y => 0 < y)); [intros y Hy; apply power_pos, Hy | apply near_gt, H].
    + apply derivable_pt_lim_power, H.
  - apply is_int_ex in I. destruct I as [z ->]. destruct (Z.eq_dec z 0) as [-> |Z0].
    { exists 0. right. split; [reflexivity|]. exists (fun _ => 1). split; [apply near_all; intros y; apply power_0 | apply derivable_pt_lim_const]. }
    exists (powerRZ x (z - 1)). left. split.
    + rewrite <- (minus_IZR z 1), power_int. destruct (Z.ltb_spec (z - 1) 0) as [L|L]; [|reflexivity]. destruct (req x 0) eqn:E; [|reflexivity].
      exfalso. apply req_spec in E. destruct H as [H|H]; [contradiction|]. apply (le_IZR 0) in H. lia.
    + exists (fun y => powerRZ y z). split.
      * apply (near_mono x (pow_safe (IZR z))).
        -- intros y Hy. assert (K := pow_safe_defined _ _ Hy). rewrite power_int in K |- *. destruct ((z <? 0)%Z && req y 0); [contradiction | reflexivity].
        -- apply pow_safe_near. right. split; [apply is_int_IZR | exact H].
      * apply powerRZ_derivable. destruct H as [H|H]; [left; exact H | right; apply (le_IZR 0), H].
Qed.
