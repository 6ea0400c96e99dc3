From Coq Require Import Reals QArith Qround ZArith Bool List Permutation Lia Lqa Lra.
From Coq Require Import R_Ifp.
From Verif Require Import FgModel.
Import ListNotations.

Lemma amax_spec l i m : amax l = Some (i, m) -> nth_error l i = Some m /\ forall x, In x l -> (x <= m)%Z.
Proof.
  revert i m. induction l as [|x t IH]; intros i m; cbn [amax]; [discriminate|]. destruct (amax t) as [[j k]|] eqn:E.
  - destruct (IH j k eq_refl) as [N M]. destruct (Z.leb_spec k x); intros HH; injection HH as <- <-; (split; [assumption || reflexivity|]); intros y [<- | Y]; try lia; specialize (M y Y); lia.
  - intros H. injection H as <- <-. split; [reflexivity|]. intros y [<- | Y]; [lia|]. destruct t; [contradiction|]. cbn in E. destruct (amax t) as [[? ?]|]; [destruct (_ <=? _)%Z|]; discriminate.
Qed.
Lemma amax_some l : l <> [] -> exists i m, amax l = Some (i, m).
Proof. destruct l as [|x t]; [congruence|]. intros _. cbn. destruct (amax t) as [[j k]|]; [destruct (k <=? x)%Z|]; eauto. Qed.
Lemma add_at_length i d l : length (add_at i d l) = length l.
Proof. revert i. induction l as [|x t IH]; intros [|i]; cbn; auto. Qed.
Lemma add_at_sum i d l : (i < length l)%nat -> zsum (add_at i d l) = (zsum l + d)%Z.
Proof. revert i. induction l as [|x t IH]; intros [|i] H; cbn in *; try lia. fold (zsum (add_at i d t)). rewrite IH by lia. fold (zsum t). lia. Qed.
Lemma add_at_nth i d l j : nth_error (add_at i d l) j = match nth_error l j with None => None | Some x => Some (if Nat.eqb i j then (x + d)%Z else x) end.
Proof. revert i j. induction l as [|x t IH]; intros [|i] [|j]; cbn; try reflexivity; [now destruct (nth_error t j)|apply IH]. Qed.

Lemma qtrunc_floor q : (0 <= q)%Q -> qtrunc q = Qfloor q.
Proof. intros H. unfold qtrunc. now rewrite (proj2 (Qle_bool_iff _ _) H). Qed.
Lemma zsum_floor (f : Q -> Q) l : (inject_Z (zsum (map (fun w => Qfloor (f w)) l)) <= qsum (map f l))%Q /\
  (qsum (map f l) <= inject_Z (zsum (map (fun w => Qfloor (f w)) l) + Z.of_nat (length l)))%Q /\
  (l <> [] -> (qsum (map f l) < inject_Z (zsum (map (fun w => Qfloor (f w)) l) + Z.of_nat (length l)))%Q).
Proof.
  induction l as [|w t (A & B & C)]; [cbn; repeat split; try (unfold Qle; cbn; lia); congruence|].
  cbn [map zsum qsum fold_right length]. fold (zsum (map (fun w => Qfloor (f w)) t)). fold (qsum (map f t)).
  pose proof (Qfloor_le (f w)) as F. pose proof (Qlt_floor (f w)) as G. rewrite Nat2Z.inj_succ. unfold Z.succ.
  rewrite !inject_Z_plus in *. change (inject_Z 1) with 1%Q in *. repeat split; [Lqa.lra|Lqa.lra|intros _; Lqa.lra].
Qed.
Lemma qsum_scale n s l : ~ (s == 0)%Q -> (qsum (map (fun w => inject_Z n * w / s) l) == inject_Z n * qsum l / s)%Q.
Proof.
  intros S. induction l as [|w t IH]; cbn [map qsum fold_right]; [field; exact S|]. fold (qsum (map (fun w => inject_Z n * w / s)%Q t)). fold (qsum t). rewrite IH. field. exact S.
Qed.

Lemma counts_spec n ws c : (0 <= n)%Z -> (forall w, In w ws -> 0 <= w)%Q -> (0 < qsum ws)%Q -> counts n ws = Some c ->
  length c = length ws /\ zsum c = n /\ (forall z, In z c -> 0 <= z)%Z /\
  exists i, forall j w, nth_error ws j = Some w -> exists z, nth_error c j = Some z /\
    (inject_Z n * w / qsum ws - 1 < inject_Z z)%Q /\
    (if Nat.eqb i j then (inject_Z z < inject_Z n * w / qsum ws + inject_Z (Z.of_nat (length ws)))%Q /\ (forall y, In y c -> y <= z)%Z else (inject_Z z <= inject_Z n * w / qsum ws)%Q).
Proof.
  intros N W S. unfold counts. set (f := fun w => (inject_Z n * w / qsum ws)%Q).
  assert (F0 : forall w, In w ws -> (0 <= f w)%Q).
  { intros w I. unfold f. apply Qle_shift_div_l; [exact S|]. rewrite Qmult_0_l. apply Qmult_le_0_compat; [|now apply W]. change 0%Q with (inject_Z 0). now rewrite <- Zle_Qle. }
  assert (M : map (fun w => qtrunc (inject_Z n * w / qsum ws)) ws = map (fun w => Qfloor (f w)) ws).
  { apply map_ext_in. intros w I. unfold f. rewrite qtrunc_floor; [reflexivity|]. now apply F0. }
  rewrite M. set (l := map (fun w => Qfloor (f w)) ws).
  destruct (amax l) as [[i m]|] eqn:A; [|discriminate]. intros H. injection H as <-. apply amax_spec in A as [NI MX].
  assert (L : length l = length ws) by (unfold l; apply map_length).
  assert (LI : (i < length l)%nat) by (apply nth_error_Some; congruence).
  destruct (zsum_floor f ws) as (B1 & _ & B2). assert (WN : ws <> []) by (intros ->; rewrite L in LI; cbn in LI; lia). specialize (B2 WN).
  assert (SUM : (qsum (map f ws) == inject_Z n)%Q). { unfold f. rewrite qsum_scale by Lqa.lra. field. Lqa.lra. }
  rewrite SUM in B1, B2. rewrite <- Zle_Qle in B1. rewrite <- Zlt_Qlt in B2. fold l in B1, B2.
  assert (LP : (forall z, In z l -> 0 <= z)%Z).
  { intros z I. unfold l in I. apply in_map_iff in I as (w & <- & I). rewrite <- (Qfloor_Z 0). apply Qfloor_resp_le. now apply F0. }
  assert (P : (forall z, In z (add_at i (n - zsum l) l) -> 0 <= z /\ z <= m + (n - zsum l))%Z).
  { intros z I. apply In_nth_error in I as [j J]. rewrite add_at_nth in J. destruct (nth_error l j) as [x|] eqn:X; [|discriminate]. pose proof (nth_error_In _ _ X) as IX. specialize (LP x IX). specialize (MX x IX).
    injection J as <-. destruct (Nat.eqb i j); lia. }
  split; [now rewrite add_at_length|]. split; [rewrite add_at_sum by exact LI; lia|]. split; [intros z I; now apply P|].
  exists i. intros j w J. assert (X : nth_error l j = Some (Qfloor (f w))) by (unfold l; exact (map_nth_error (fun w => Qfloor (f w)) j ws J)). rewrite add_at_nth, X. eexists. split; [reflexivity|].
  fold (f w). pose proof (Qfloor_le (f w)) as FL. pose proof (Qlt_floor (f w)) as FU. rewrite inject_Z_plus in FU. change (inject_Z 1) with 1%Q in FU.
  destruct (Nat.eqb_spec i j) as [<- | NE].
  - assert (EM : Qfloor (f w) = m) by congruence. rewrite EM in *. assert (R1 : (inject_Z 0 <= inject_Z (n - zsum l))%Q) by (rewrite <- Zle_Qle; lia).
    assert (R2 : (inject_Z (n - zsum l) < inject_Z (Z.of_nat (length ws)))%Q) by (rewrite <- Zlt_Qlt; lia). rewrite inject_Z_plus. change (inject_Z 0) with 0%Q in R1.
    split; [Lqa.lra|]. split; [Lqa.lra|]. intros y I. now apply P.
  - split; [Lqa.lra|exact FL].
Qed.
Lemma counts_some n ws : ws <> [] -> counts n ws <> None.
Proof.
  intros H. unfold counts. destruct (amax_some (map (fun w => qtrunc (inject_Z n * w / qsum ws)) ws)) as (i & m & ->); [|discriminate]. intros E. apply map_eq_nil in E. contradiction.
Qed.
Lemma draws_length D (rvs : D -> Z -> list R) c ds : (forall d n, (0 <= n)%Z -> Z.of_nat (length (rvs d n)) = n) -> (forall z, In z c -> 0 <= z)%Z -> (length c <= length ds)%nat ->
  Z.of_nat (length (draws D rvs c ds)) = zsum c.
Proof.
  intros R. unfold draws. revert ds. induction c as [|z t IH]; intros ds P L; [reflexivity|]. destruct ds as [|d ds]; [cbn in L; lia|]. cbn [combine map concat zsum fold_right fst snd]. fold (zsum t).
  rewrite app_length, Nat2Z.inj_add, R by (apply P; now left). rewrite IH; [reflexivity|intros; apply P; now right|cbn in L; lia].
Qed.

Open Scope R_scope.
Lemma trunc_bounds x : 0 <= x -> IZR (rtrunc x) <= x < IZR (rtrunc x) + 1 /\ (0 <= rtrunc x)%Z.
Proof.
  intros H. unfold rtrunc. destruct (Rle_dec 0 x); [|contradiction]. destruct (base_Int_part x) as [A B]. split; [lra|]. assert (-1 < Int_part x)%Z by (apply lt_IZR; lra). lia.
Qed.
Lemma trunc_neg x : -1 < x < 1 -> rtrunc x = 0%Z.
Proof.
  intros H. unfold rtrunc. destruct (Rle_dec 0 x) as [P|P].
  - destruct (base_Int_part x) as [A B]. assert (Int_part x < 1)%Z by (apply lt_IZR; lra). assert (-1 < Int_part x)%Z by (apply lt_IZR; lra). lia.
  - destruct (base_Int_part (- x)) as [A B]. assert (Int_part (- x) < 1)%Z by (apply lt_IZR; lra). assert (-1 < Int_part (- x))%Z by (apply lt_IZR; lra). lia.
Qed.
Lemma rmax_in l : l <> [] -> In (rmax l) l /\ forall x, In x l -> x <= rmax l.
Proof.
  destruct l as [|x t]; [congruence|]. intros _. cbn [rmax]. revert x. induction t as [|y t IH]; intros x; cbn [fold_left].
  - split; [now left|]. intros z [<- | []]. lra.
  - destruct (IH (Rmax x y)) as [A B]. split.
    + destruct A as [A|A]; [|now do 2 right]. rewrite <- A. unfold Rmax; destruct (Rle_dec x y); cbn; tauto.
    + assert (B0 := B _ (or_introl eq_refl)). pose proof (Rmax_l x y). pose proof (Rmax_r x y). intros z [<- | [<- | Z]]; [lra|lra|apply B; now right].
Qed.
