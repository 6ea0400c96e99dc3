(** Proofs about CubicSpline: the linear system. *)
From Coq Require Import Reals ZArith Bool List Lra Lia Permutation Sorted.
From Verif Require Import EntModel SplModel SplSpec.
Import ListNotations.
Local Open Scope R_scope.

Section System.
Variables (x y : nat -> R) (n : nat).
Hypothesis Hn : (2 <= n)%nat.
Hypothesis Hx : forall i, (S i < n)%nat -> x i < x (S i).

(** The equations for the second derivatives. *)
Definition inner_eq (M : nat -> R) : Prop := forall i, (S (S i) < n)%nat ->
  let sig := (x (S i) - x i) / (x (S (S i)) - x i) in
  sig * M i + 2 * M (S i) + (1 - sig) * M (S (S i)) = 6 * (chord x y (S i) - chord x y i) / (x (S (S i)) - x i).
Definition start_eq (yp : option R) (M : nat -> R) : Prop :=
  match yp with None => M O = 0 | Some v => M O + M 1%nat / 2 = 3 / (x 1%nat - x 0%nat) * (chord x y 0 - v) end.
Definition end_eq (yp : option R) (M : nat -> R) : Prop :=
  match yp with
  | None => M (n - 1)%nat = 0
  | Some v => M (n - 1)%nat + M (n - 2)%nat / 2 = 3 / (x (n - 1)%nat - x (n - 2)%nat) * (v - chord x y (n - 2))
  end.

Lemma sig_bounds i : (S (S i) < n)%nat -> 0 < (x (S i) - x i) / (x (S (S i)) - x i) < 1.
Proof.
  intros H. assert (A := Hx i ltac:(lia)). assert (B := Hx (S i) H).
  assert (P : 0 < / (x (S (S i)) - x i)) by (apply Rinv_0_lt_compat; lra).
  assert (E : (x (S (S i)) - x i) * / (x (S (S i)) - x i) = 1) by (apply Rinv_r; lra).
  unfold Rdiv. split; [apply Rmult_lt_0_compat; lra|]. set (q := / (x (S (S i)) - x i)) in *. nra.
Qed.

Variables (yp1 : option R).
Definition g_of (i : nat) : R := fst (sweep x y (fst (start x y yp1)) (snd (start x y yp1)) i).
Definition u_of (i : nat) : R := snd (sweep x y (fst (start x y yp1)) (snd (start x y yp1)) i).
Lemma sweep_eq i : sweep x y (fst (start x y yp1)) (snd (start x y yp1)) i = (g_of i, u_of i).
Proof. unfold g_of, u_of. apply surjective_pairing. Qed.
Lemma g_step i : let sig := (x (S i) - x i) / (x (S (S i)) - x i) in g_of (S i) = (sig - 1) / (sig * g_of i + 2).
Proof. unfold g_of at 1. cbn [sweep]. rewrite sweep_eq. reflexivity. Qed.
Lemma u_step i : let sig := (x (S i) - x i) / (x (S (S i)) - x i) in
  u_of (S i) = (6 * (chord x y (S i) - chord x y i) / (x (S (S i)) - x i) - sig * u_of i) / (sig * g_of i + 2).
Proof. unfold u_of at 1. cbn [sweep]. rewrite sweep_eq. reflexivity. Qed.

Lemma g_bounds i : (S i < n)%nat -> -1 < g_of i <= 0.
Proof.
  induction i as [|i IH]; intros H.
  - unfold g_of. cbn. unfold start. destruct yp1; cbn; lra.
  - rewrite g_step. cbv zeta. assert (B := sig_bounds i H). set (sig := (x (S i) - x i) / (x (S (S i)) - x i)) in *.
    assert (G := IH ltac:(lia)). set (g := g_of i) in *.
    assert (P : 1 < sig * g + 2) by nra.
    assert (I : 0 < / (sig * g + 2) < 1).
    { split; [apply Rinv_0_lt_compat; lra|]. rewrite <- Rinv_1. apply Rinv_lt_contravar; lra. }
    unfold Rdiv. set (q := / (sig * g + 2)) in *. nra.
Qed.
Lemma p_pos i : (S (S i) < n)%nat -> (x (S i) - x i) / (x (S (S i)) - x i) * g_of i + 2 <> 0.
Proof. intros H. assert (B := sig_bounds i H). assert (G := g_bounds i ltac:(lia)). set (sig := (x (S i) - x i) / (x (S (S i)) - x i)) in *. nra. Qed.

(** The recurrence is equivalent to the equations. *)
Lemma recur_eqs M : (forall i, (S i < n)%nat -> M i = g_of i * M (S i) + u_of i) -> inner_eq M /\ start_eq yp1 M.
Proof.
  intros H. split.
  - intros i Hi. cbv zeta. assert (A := H i ltac:(lia)). assert (B := H (S i) Hi). rewrite g_step, u_step in B. cbv zeta in B.
    assert (P := p_pos i Hi). set (sig := (x (S i) - x i) / (x (S (S i)) - x i)) in *.
    set (D := 6 * (chord x y (S i) - chord x y i) / (x (S (S i)) - x i)) in *. set (p := sig * g_of i + 2) in *.
    assert (B' : p * M (S i) = (sig - 1) * M (S (S i)) + (D - sig * u_of i)) by (rewrite B; field; exact P).
    rewrite A. unfold p in B'. lra.
  - assert (A := H O ltac:(lia)). unfold g_of, u_of in A. cbn [sweep fst snd] in A. unfold start_eq. unfold start in A. destruct yp1; cbn [fst snd] in A; lra.
Qed.
Lemma eqs_recur M : inner_eq M -> start_eq yp1 M -> forall i, (S i < n)%nat -> M i = g_of i * M (S i) + u_of i.
Proof.
  intros HI HS. induction i as [|i IH]; intros H.
  - unfold g_of, u_of. cbn [sweep fst snd]. unfold start_eq in HS. unfold start. destruct yp1; cbn [fst snd]; lra.
  - assert (A := IH ltac:(lia)). assert (E := HI i H). cbv zeta in E. rewrite g_step, u_step. cbv zeta.
    assert (P := p_pos i H). set (sig := (x (S i) - x i) / (x (S (S i)) - x i)) in *.
    set (D := 6 * (chord x y (S i) - chord x y i) / (x (S (S i)) - x i)) in *.
    rewrite A in E.
    assert (E' : (sig * g_of i + 2) * M (S i) = (sig - 1) * M (S (S i)) + (D - sig * u_of i)) by lra.
    apply (Rmult_eq_reg_l (sig * g_of i + 2)); [|exact P]. rewrite E'. field. exact P.
Qed.

Variable ypN : option R.
Definition fin_of : R := final x y n (fst (start x y yp1)) (snd (start x y yp1)) ypN.
Lemma fin_eq M : (M (n - 2)%nat = g_of (n - 2) * M (n - 1)%nat + u_of (n - 2)) -> (end_eq ypN M <-> M (n - 1)%nat = fin_of).
Proof.
  intros H. unfold fin_of, final. rewrite sweep_eq. assert (G := g_bounds (n - 2) ltac:(lia)).
  unfold end_eq. destruct ypN as [v|].
  - rewrite H. set (D := 3 / (x (n - 1)%nat - x (n - 2)%nat) * (v - chord x y (n - 2))). set (g := g_of (n - 2)) in *. set (u := u_of (n - 2)).
    split; intros E.
    + apply (Rmult_eq_reg_l (1 / 2 * g + 1)); [|lra]. field_simplify; [|lra]. lra.
    + rewrite E. field. lra.
  - split; intros E; rewrite E; field; lra.
Qed.

Definition M_of (k : nat) : R := back x y n (fst (start x y yp1)) (snd (start x y yp1)) fin_of (n - 1 - k).
Lemma M_recur i : (S i < n)%nat -> M_of i = g_of i * M_of (S i) + u_of i.
Proof.
  intros H. unfold M_of. replace (n - 1 - i)%nat with (S (n - 1 - S i)) by lia. cbn [back].
  replace (n - 2 - (n - 1 - S i))%nat with i by lia. rewrite sweep_eq. reflexivity.
Qed.
Lemma M_last : M_of (n - 1) = fin_of.
Proof. unfold M_of. replace (n - 1 - (n - 1))%nat with O by lia. reflexivity. Qed.
Lemma M_inner : inner_eq M_of. Proof. apply recur_eqs. exact M_recur. Qed.
Lemma M_start : start_eq yp1 M_of. Proof. apply recur_eqs. exact M_recur. Qed.
Lemma M_end : end_eq ypN M_of.
Proof.
  apply fin_eq; [|exact M_last]. assert (A := M_recur (n - 2) ltac:(lia)). replace (S (n - 2)) with (n - 1)%nat in A by lia. exact A.
Qed.
Lemma M_unique M : inner_eq M -> start_eq yp1 M -> end_eq ypN M -> forall i, (i < n)%nat -> M i = M_of i.
Proof.
  intros HI HS HE. assert (R := eqs_recur M HI HS).
  assert (L : M (n - 1)%nat = M_of (n - 1)).
  { rewrite M_last. apply fin_eq; [|exact HE]. assert (A := R (n - 2)%nat ltac:(lia)). replace (S (n - 2)) with (n - 1)%nat in A by lia. exact A. }
  assert (D : forall m, (m < n)%nat -> M (n - 1 - m)%nat = M_of (n - 1 - m)).
  { induction m as [|m IH]; intros H; [rewrite Nat.sub_0_r; exact L|].
    assert (E : (n - 1 - m = S (n - 1 - S m))%nat) by lia. rewrite E in IH.
    rewrite (R (n - 1 - S m)%nat) by lia. rewrite (M_recur (n - 1 - S m)) by lia. rewrite IH by lia. reflexivity. }
  intros i Hi. replace i with (n - 1 - (n - 1 - i))%nat by lia. apply D. lia.
Qed.
End System.

(** * Between two knots *)

(** The polynomial with values [ya], [yb] and second derivatives [ma], [mb] at the ends. *)
Definition cub_b (h ya yb ma mb : R) : R := (yb - ya) / h - h * (ma / 3 + mb / 6).
Definition cub_d (h ma mb : R) : R := (mb - ma) / (6 * h).
Lemma inner_poly0 xa xb ya yb ma mb v : xb - xa <> 0 ->
  let dx := xb - xa in let a := (xb - v) / dx in let b := (v - xa) / dx in
  a * ya + b * yb + ((a ^ 3 - a) * ma + (b ^ 3 - b) * mb) * dx * dx / 6 =
  ya + cub_b dx ya yb ma mb * (v - xa) + ma / 2 * (v - xa) ^ 2 + cub_d dx ma mb * (v - xa) ^ 3.
Proof. intros H dx a b. unfold a, b, cub_b, cub_d, dx. field. exact H. Qed.
Lemma inner_poly1 xa xb ya yb ma mb v : xb - xa <> 0 ->
  let dx := xb - xa in let a := (xb - v) / dx in let b := (v - xa) / dx in
  - ya / dx + yb / dx + ((- a ^ 2 + 1 / 3) * ma + (b ^ 2 - 1 / 3) * mb) * dx / 2 =
  cub_b dx ya yb ma mb + ma * (v - xa) + 3 * cub_d dx ma mb * (v - xa) ^ 2.
Proof. intros H dx a b. unfold a, b, cub_b, cub_d, dx. field. exact H. Qed.
Lemma inner_poly2 xa xb ma mb v : xb - xa <> 0 ->
  let dx := xb - xa in let a := (xb - v) / dx in let b := (v - xa) / dx in
  a * ma + b * mb = ma + 6 * cub_d dx ma mb * (v - xa).
Proof. intros H dx a b. unfold a, b, cub_d, dx. field. exact H. Qed.

(** A cubic is given by its values and second derivatives at the ends. *)
Lemma cubic_determined h a b c d ya yb : h <> 0 -> a = ya -> a + b * h + c * h ^ 2 + d * h ^ 3 = yb ->
  b = cub_b h ya yb (2 * c) (2 * c + 6 * d * h) /\ d = cub_d h (2 * c) (2 * c + 6 * d * h).
Proof. intros H <- <-. unfold cub_b, cub_d. split; field; exact H. Qed.

(** * Gluing *)

Lemma glue_derivable f p q v d e : 0 < e -> (forall t, v - e < t <= v -> f t = p t) -> (forall t, v < t < v + e -> f t = q t) ->
  p v = q v -> derivable_pt_lim p v d -> derivable_pt_lim q v d -> derivable_pt_lim f v d.
Proof.
  intros He HL HR E HP HQ eps Heps. destruct (HP eps Heps) as [d1 H1]. destruct (HQ eps Heps) as [d2 H2].
  assert (Hm : 0 < Rmin e (Rmin d1 d2)) by (repeat apply Rmin_pos; [exact He | apply cond_pos | apply cond_pos]).
  exists (mkposreal _ Hm). intros h Hh Hd. cbn in Hd.
  assert (A1 := Rmin_l e (Rmin d1 d2)). assert (A2 := Rmin_r e (Rmin d1 d2)). assert (A3 := Rmin_l d1 d2). assert (A4 := Rmin_r d1 d2).
  assert (Habs : Rabs h < e) by lra. apply Rabs_def2 in Habs.
  rewrite (HL v) by lra. destruct (Rle_dec h 0) as [C|C].
  - rewrite (HL (v + h)) by lra. apply H1; [exact Hh | lra].
  - rewrite (HR (v + h)) by lra. rewrite E. apply H2; [exact Hh | lra].
Qed.
Lemma glue_continuous f p q v e : 0 < e -> (forall t, v - e < t <= v -> f t = p t) -> (forall t, v < t < v + e -> f t = q t) ->
  p v = q v -> continuity_pt p v -> continuity_pt q v -> continuity_pt f v.
Proof.
  intros He HL HR E HP HQ eps Heps. destruct (HP eps Heps) as (d1 & P1 & H1). destruct (HQ eps Heps) as (d2 & P2 & H2).
  exists (Rmin e (Rmin d1 d2)). split; [repeat apply Rmin_pos; assumption|].
  intros t (Ht & Hd). cbn in *. unfold R_dist in *.
  assert (A1 := Rmin_l e (Rmin d1 d2)). assert (A2 := Rmin_r e (Rmin d1 d2)). assert (A3 := Rmin_l d1 d2). assert (A4 := Rmin_r d1 d2).
  assert (Habs : Rabs (t - v) < e) by lra. apply Rabs_def2 in Habs.
  rewrite (HL v) by lra. destruct (Rle_dec t v) as [C|C].
  - rewrite (HL t) by lra. apply H1. split; [exact Ht | lra].
  - rewrite (HR t) by lra. rewrite E. apply H2. split; [exact Ht | lra].
Qed.
