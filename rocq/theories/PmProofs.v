(** Proofs about pulse models. *)
From Coq Require Import String Reals ZArith Bool Lra Lia List.
From Verif Require Import PmModel PmSpec.
Import ListNotations.
Local Open Scope R_scope.

(** * Sums *)
Lemma msum_ext n f g : (forall k, (k < n)%nat -> f k = g k) -> msum n f = msum n g.
Proof. induction n as [|n IH]; intros H; [reflexivity|]. cbn. rewrite IH by (intros; apply H; lia). rewrite H by lia. reflexivity. Qed.
Lemma msum_zero n f : (forall k, (k < n)%nat -> f k = 0) -> msum n f = 0.
Proof. induction n as [|n IH]; intros H; [reflexivity|]. cbn. rewrite IH by (intros; apply H; lia). rewrite H by lia. ring. Qed.
Lemma msum_plus n f g : msum n (fun k => f k + g k) = msum n f + msum n g.
Proof. induction n as [|n IH]; cbn; [ring|]. rewrite IH. ring. Qed.
Lemma msum_minus n f g : msum n (fun k => f k - g k) = msum n f - msum n g.
Proof. induction n as [|n IH]; cbn; [ring|]. rewrite IH. ring. Qed.
Lemma msum_scal n a f : msum n (fun k => a * f k) = a * msum n f.
Proof. induction n as [|n IH]; cbn; [ring|]. rewrite IH. ring. Qed.
Lemma msum_scal_r n a f : msum n (fun k => f k * a) = msum n f * a.
Proof. induction n as [|n IH]; cbn; [ring|]. rewrite IH. ring. Qed.
Lemma msum_opp n f : msum n (fun k => - f k) = - msum n f.
Proof. induction n as [|n IH]; cbn; [ring|]. rewrite IH. ring. Qed.
Lemma msum_swap n m f : msum n (fun i => msum m (fun j => f i j)) = msum m (fun j => msum n (fun i => f i j)).
Proof. induction n as [|n IH]; cbn; [symmetry; apply msum_zero; reflexivity|]. rewrite IH, <- msum_plus. reflexivity. Qed.
Lemma msum_single n f j : (j < n)%nat -> (forall k, (k < n)%nat -> k <> j -> f k = 0) -> msum n f = f j.
Proof.
  induction n as [|n IH]; intros Hj H; [lia|]. cbn. destruct (Nat.eq_dec j n) as [->|N].
  - rewrite msum_zero; [ring|]. intros k Hk. apply H; lia.
  - rewrite IH by (try lia; intros; apply H; lia). rewrite (H n) by lia. ring.
Qed.
Lemma msum_unit_l n i f : (i < n)%nat -> msum n (fun k => unit_entry i k * f k) = f i.
Proof.
  intros Hi. rewrite (msum_single n _ i Hi).
  - unfold unit_entry. rewrite Nat.eqb_refl. ring.
  - intros k _ N. unfold unit_entry. rewrite (proj2 (Nat.eqb_neq i k)) by lia. ring.
Qed.
Lemma msum_unit_r n i f : (i < n)%nat -> msum n (fun k => f k * unit_entry k i) = f i.
Proof.
  intros Hi. rewrite (msum_single n _ i Hi).
  - unfold unit_entry. rewrite Nat.eqb_refl. ring.
  - intros k _ N. unfold unit_entry. rewrite (proj2 (Nat.eqb_neq k i)) by lia. ring.
Qed.
Lemma msum_split a b f : msum (a + b) f = msum a f + msum b (fun k => f (a + k)%nat).
Proof. induction b as [|b IH]; [rewrite Nat.add_0_r; cbn; ring|]. rewrite Nat.add_succ_r. cbn. rewrite IH. ring. Qed.
Lemma msum_nonneg n f : (forall k, (k < n)%nat -> 0 <= f k) -> 0 <= msum n f.
Proof. induction n as [|n IH]; intros H; cbn; [lra|]. assert (X := IH ltac:(intros; apply H; lia)). assert (Y := H n ltac:(lia)). lra. Qed.
(** (A B) c = A (B c) *)
Lemma msum_assoc n m (a : nat -> R) (b : nat -> nat -> R) (c : nat -> R) :
  msum n (fun k => a k * msum m (fun j => b k j * c j)) = msum m (fun j => msum n (fun k => a k * b k j) * c j).
Proof.
  rewrite (msum_ext n _ (fun k => msum m (fun j => a k * b k j * c j))) by (intros; rewrite <- msum_scal; apply msum_ext; intros; ring).
  rewrite msum_swap. apply msum_ext. intros j _. rewrite <- msum_scal_r. reflexivity.
Qed.

(** * Linear systems *)

Definition skip (p j : nat) : nat := if (j <? p)%nat then j else S j.
Lemma msum_skip n p f : (p < S n)%nat -> msum (S n) f = f p + msum n (fun j => f (skip p j)).
Proof.
  induction n as [|n IH]; intros Hp.
  - assert (p = 0)%nat by lia. subst p. cbn. ring.
  - destruct (Nat.eq_dec p (S n)) as [->|N].
    + cbn [msum]. rewrite (msum_ext n (fun j => f (skip (S n) j)) f).
      * unfold skip. rewrite (proj2 (Nat.ltb_lt n (S n))) by lia. ring.
      * intros k Hk. unfold skip. rewrite (proj2 (Nat.ltb_lt k (S n))) by lia. reflexivity.
    + cbn [msum] in *. rewrite IH by lia. unfold skip at 3. rewrite (proj2 (Nat.ltb_ge n p)) by lia. ring.
Qed.
Lemma all_or_one n (f : nat -> R) : (forall j, (j < n)%nat -> f j = 0) \/ exists j, (j < n)%nat /\ f j <> 0.
Proof.
  induction n as [|n [IH|(j & Hj & IH)]]; [left; intros; lia | | right; exists j; split; [lia | exact IH]].
  destruct (Req_dec (f n) 0) as [E|E]; [left | right; exists n; split; [lia | exact E]].
  intros j Hj. destruct (Nat.eq_dec j n) as [->|N]; [exact E | apply IH; lia].
Qed.
(** Fewer equations than unknowns. *)
Lemma underdetermined m : forall n (A : nat -> nat -> R), (m < n)%nat ->
  exists z, (exists j, (j < n)%nat /\ z j <> 0) /\ forall i, (i < m)%nat -> msum n (fun j => A i j * z j) = 0.
Proof.
  induction m as [|m IH]; intros n A Hn.
  - exists (fun _ => 1). split; [exists 0%nat; split; [lia | lra]|]. intros; lia.
  - destruct n as [|n]; [lia|]. destruct (all_or_one (S n) (A m)) as [Z|(p & Hp & NZ)].
    + destruct (IH (S n) A ltac:(lia)) as (z & N & E). exists z. split; [exact N|]. intros i Hi.
      destruct (Nat.eq_dec i m) as [->|Ne]; [apply msum_zero; intros k Hk; rewrite (Z k Hk); ring | apply E; lia].
    + destruct (IH n (fun i j => A i (skip p j) - A i p * A m (skip p j) / A m p) ltac:(lia)) as (z' & (j & Hj & Nj) & E).
      set (s := - msum n (fun j => A m (skip p j) * z' j) / A m p).
      set (z := fun j => if (j =? p)%nat then s else if (j <? p)%nat then z' j else z' (pred j)).
      assert (Zs : forall j, z (skip p j) = z' j).
      { intros q. unfold z, skip. destruct (Nat.ltb_spec q p).
        - rewrite (proj2 (Nat.eqb_neq q p)) by lia. rewrite (proj2 (Nat.ltb_lt q p)) by lia. reflexivity.
        - rewrite (proj2 (Nat.eqb_neq (S q) p)) by lia. rewrite (proj2 (Nat.ltb_ge (S q) p)) by lia. reflexivity. }
      assert (Zp : z p = s) by (unfold z; rewrite Nat.eqb_refl; reflexivity).
      exists z. split; [exists (skip p j); split; [unfold skip; destruct (j <? p)%nat; lia | rewrite Zs; exact Nj]|].
      intros i Hi. rewrite (msum_skip n p) by exact Hp. rewrite Zp. rewrite (msum_ext n _ (fun j => A i (skip p j) * z' j)) by (intros; rewrite Zs; reflexivity).
      destruct (Nat.eq_dec i m) as [->|Ne]; [unfold s; field; exact NZ|].
      assert (X := E i ltac:(lia)). rewrite (msum_ext n _ (fun j => A i (skip p j) * z' j - A i p / A m p * (A m (skip p j) * z' j))) in X by (intros; field; exact NZ).
      rewrite msum_minus, msum_scal in X. unfold s. replace (A i p * (- msum n (fun j0 => A m (skip p j0) * z' j0) / A m p)) with (- (A i p / A m p * msum n (fun j0 => A m (skip p j0) * z' j0))) by (field; exact NZ).
      lra.
Qed.

Section Triangular.
Variable r : nat -> nat -> R.
Variable l : nat.
Hypothesis tri : forall i j, (j < i)%nat -> (i < l)%nat -> r i j = 0.

Lemma tri_solve m : (m <= l)%nat -> (forall i, (i < m)%nat -> r i i <> 0) -> forall c, exists z, forall i, (i < m)%nat -> msum m (fun k => r i k * z k) = c i.
Proof.
  induction m as [|m IH]; intros Hm D c; [exists (fun _ => 0); intros; lia|].
  set (s := c m / r m m). destruct (IH ltac:(lia) ltac:(intros; apply D; lia) (fun i => c i - r i m * s)) as (z & E).
  exists (fun k => if (k =? m)%nat then s else z k). intros i Hi. cbn. rewrite Nat.eqb_refl.
  rewrite (msum_ext m _ (fun k => r i k * z k)) by (intros k Hk; rewrite (proj2 (Nat.eqb_neq k m)) by lia; reflexivity).
  destruct (Nat.eq_dec i m) as [->|N].
  - rewrite msum_zero by (intros k Hk; rewrite tri by lia; ring). unfold s. field. apply D. lia.
  - rewrite E by lia. ring.
Qed.
Lemma tri_diagonal : (forall z, (forall i, (i < l)%nat -> msum l (fun j => r i j * z j) = 0) -> forall j, (j < l)%nat -> z j = 0) ->
  forall j, (j < l)%nat -> r j j <> 0.
Proof.
  intros K. assert (X : forall m j, (j < m)%nat -> (j < l)%nat -> r j j <> 0); [|intros j Hj; exact (X (S j) j ltac:(lia) Hj)].
  induction m as [|m IH]; intros j Hm Hj; [lia|]. destruct (Nat.eq_dec j m) as [->|N]; [|apply IH; lia].
  intros Z. destruct (tri_solve m ltac:(lia) ltac:(intros; apply IH; lia) (fun i => - r i m)) as (z & E).
  set (w := fun k => if (k <? m)%nat then z k else if (k =? m)%nat then 1 else 0).
  assert (W : w m = 0).
  { apply (K w); [|exact Hj]. intros i Hi. replace l with (S m + (l - S m))%nat by lia. rewrite msum_split.
    rewrite (msum_zero (l - S m)) by (intros k Hk; unfold w; rewrite (proj2 (Nat.ltb_ge _ _)) by lia; rewrite (proj2 (Nat.eqb_neq _ _)) by lia; ring).
    cbn [msum]. rewrite (msum_ext m _ (fun k => r i k * z k)) by (intros k Hk; unfold w; rewrite (proj2 (Nat.ltb_lt _ _)) by lia; reflexivity).
    assert (Wm : w m = 1) by (unfold w; rewrite Nat.ltb_irrefl, Nat.eqb_refl; reflexivity). rewrite Wm.
    destruct (Nat.lt_ge_cases i m) as [L|L]; [rewrite E by exact L; ring|].
    rewrite msum_zero by (intros k Hk; rewrite tri by lia; ring). destruct (Nat.eq_dec i m) as [->|N]; [rewrite Z; ring | rewrite tri by lia; ring]. }
  unfold w in W. rewrite Nat.ltb_irrefl, Nat.eqb_refl in W. lra.
Qed.
Lemma tri_zero x : (forall j, (j < l)%nat -> r j j <> 0) -> (forall j, (j < l)%nat -> msum l (fun k => x k * r k j) = 0) -> forall j, (j < l)%nat -> x j = 0.
Proof.
  intros D E. assert (X : forall m j, (j < m)%nat -> (j < l)%nat -> x j = 0); [|intros j Hj; exact (X (S j) j ltac:(lia) Hj)].
  induction m as [|m IH]; intros j Hm Hj; [lia|]. destruct (Nat.eq_dec j m) as [->|N]; [|apply IH; lia].
  assert (Y := E m Hj). rewrite (msum_single l _ m Hj) in Y.
  - apply Rmult_integral in Y. destruct Y as [Y|Y]; [exact Y | exfalso; exact (D m Hj Y)].
  - intros k Hk Ne. destruct (Nat.lt_ge_cases k m) as [L|L]; [rewrite (IH k L Hk); ring | rewrite tri by lia; ring].
Qed.
End Triangular.

(** A left inverse has at most as many rows as columns. *)
Lemma dual_size P B : dual P B -> (nr P <= nc P)%nat.
Proof.
  intros (D1 & D2 & D3). destruct (Nat.le_gt_cases (nr P) (nc P)) as [H|H]; [exact H|]. exfalso.
  destruct (underdetermined (nc P) (nr P) (el B) H) as (z & (j & Hj & NZ) & E). apply NZ.
  rewrite <- (msum_unit_l (nr P) j z Hj). rewrite (msum_ext _ _ (fun k => msum (nc P) (fun s => el P j s * el B s k) * z k)).
  - rewrite <- (msum_assoc (nc P) (nr P) (el P j) (el B) z). apply msum_zero. intros k Hk. rewrite E by exact Hk. ring.
  - intros k Hk. rewrite <- D3 by assumption. reflexivity.
Qed.
Lemma independent_size Y : independent Y -> (nc Y <= nr Y)%nat.
Proof.
  intros H. destruct (Nat.le_gt_cases (nc Y) (nr Y)) as [L|L]; [exact L|]. exfalso.
  destruct (underdetermined (nr Y) (nc Y) (el Y) L) as (z & (j & Hj & NZ) & E). exact (NZ (H z E j Hj)).
Qed.

(** * qr and pinv *)

Lemma qr_in_range qr Y p : qr_ok qr -> independent Y -> (forall j, (j < nc Y)%nat -> msum (nr Y) (fun k => p k * el Y k j) = 0) ->
  forall j, (j < nc Y)%nat -> msum (nr Y) (fun k => p k * el (fst (qr Y)) k j) = 0.
Proof.
  intros HQ HI HZ. destruct (HQ Y) as (Q1 & Q2 & Q3 & Q4 & Q5). cbv zeta in *. set (Q := fst (qr Y)) in *. set (R := snd (qr Y)) in *.
  assert (S := independent_size Y HI). rewrite Nat.min_r in Q2 by exact S.
  assert (T : forall i j, (j < i)%nat -> (i < nc Y)%nat -> el R i j = 0) by (intros; apply Q4; lia).
  assert (D : forall j, (j < nc Y)%nat -> el R j j <> 0).
  { apply (tri_diagonal (el R) (nc Y) T). intros z E. apply HI. intros i Hi.
    rewrite (msum_ext _ _ (fun j => msum (nc Y) (fun k => el Q i k * el R k j) * z j)) by (intros j Hj; rewrite (Q5 i j Hi Hj), Q2; reflexivity).
    rewrite <- (msum_assoc (nc Y) (nc Y) (el Q i) (el R) z). apply msum_zero. intros k Hk. rewrite (E k Hk). ring. }
  apply (tri_zero (el R) (nc Y) T (fun j => msum (nr Y) (fun k => p k * el Q k j)) D).
  intros j Hj. rewrite <- (HZ j Hj). rewrite <- (msum_assoc (nr Y) (nc Y) p (el Q) (fun k => el R k j)).
  apply msum_ext. intros k Hk. rewrite (Q5 k j Hk Hj), Q2. reflexivity.
Qed.
(** With independent columns, the new columns are combinations of the given ones. *)
Lemma qr_spanned qr Y : qr_ok qr -> independent Y -> forall j, (j < nc Y)%nat -> spanned Y (fun i => el (fst (qr Y)) i j).
Proof.
  intros HQ HI j Hj. destruct (HQ Y) as (Q1 & Q2 & Q3 & Q4 & Q5). cbv zeta in *. set (Q := fst (qr Y)) in *. set (R := snd (qr Y)) in *.
  assert (S := independent_size Y HI). rewrite Nat.min_r in Q2 by exact S.
  assert (T : forall i j, (j < i)%nat -> (i < nc Y)%nat -> el R i j = 0) by (intros; apply Q4; lia).
  assert (D : forall j, (j < nc Y)%nat -> el R j j <> 0).
  { apply (tri_diagonal (el R) (nc Y) T). intros z E. apply HI. intros i Hi.
    rewrite (msum_ext _ _ (fun j => msum (nc Y) (fun k => el Q i k * el R k j) * z j)) by (intros q Hq; rewrite (Q5 i q Hi Hq), Q2; reflexivity).
    rewrite <- (msum_assoc (nc Y) (nc Y) (el Q i) (el R) z). apply msum_zero. intros k Hk. rewrite (E k Hk). ring. }
  destruct (tri_solve (el R) (nc Y) T (nc Y) (le_n _) D (fun i => unit_entry i j)) as (z & E). exists z. intros i Hi.
  rewrite (msum_ext _ _ (fun j => msum (nc Y) (fun k => el Q i k * el R k j) * z j)) by (intros q Hq; rewrite (Q5 i q Hi Hq), Q2; reflexivity).
  rewrite <- (msum_assoc (nc Y) (nc Y) (el Q i) (el R) z). rewrite (msum_ext _ _ (fun k => el Q i k * unit_entry k j)) by (intros k Hk; rewrite (E k Hk); reflexivity).
  symmetry. apply msum_unit_r. exact Hj.
Qed.
Lemma pinv_orthonormal pinv Q : pinv_ok pinv -> orthonormal Q -> forall i j, (i < nc Q)%nat -> (j < nr Q)%nat -> el (pinv Q) i j = el Q j i.
Proof.
  intros HP HO i j Hi Hj. destruct (HP Q HO) as (X1 & X2 & X3 & _ & X5 & _). cbv zeta in *. set (X := pinv Q) in *.
  rewrite <- (X3 j i Hj Hi). cbn [mul el nc]. rewrite X2.
  rewrite (msum_ext (nr Q) _ (fun k => msum (nc Q) (fun a => el X a j * el Q k a) * el Q k i)).
  - rewrite (msum_ext (nr Q) _ (fun k => el Q k i * msum (nc Q) (fun a => el Q k a * el X a j))) by (intros; rewrite Rmult_comm; f_equal; apply msum_ext; intros; ring).
    rewrite (msum_assoc (nr Q) (nc Q) (fun k => el Q k i) (el Q) (fun a => el X a j)).
    rewrite (msum_ext (nc Q) _ (fun a => unit_entry i a * el X a j)) by (intros a Ha; rewrite <- (HO i a Hi Ha); reflexivity). rewrite msum_unit_l by exact Hi. reflexivity.
  - intros k Hk. f_equal. assert (Y := X5 j k Hj Hk). cbn [mul el] in Y. rewrite Y. apply msum_ext. intros; ring.
Qed.

(** * The range finder *)
Lemma power_form A W q : exists W', nc W' = nc W /\ power_iterations A (mul A W) q = mul A W'.
Proof.
  revert W. induction q as [|q IH]; intros W; [exists W; split; reflexivity|]. cbn [power_iterations].
  destruct (IH (mul (tr A) (mul A W))) as (W' & E & F). exists W'. split; [rewrite E; reflexivity | exact F].
Qed.
Lemma sample_shape om A nl q : om_ok om -> nr (range_sample om A nl q) = nr A /\ nc (range_sample om A nl q) = nl.
Proof.
  intros HO. unfold range_sample. destruct (power_form A (om (nc A) nl) q) as (W & E & ->). cbn [mul nr nc]. rewrite E. split; [reflexivity | apply HO].
Qed.
Lemma sample_spanned om A nl q j : om_ok om -> (j < nl)%nat -> spanned A (fun i => el (range_sample om A nl q) i j).
Proof. intros HO Hj. unfold range_sample. destruct (power_form A (om (nc A) nl) q) as (W & _ & ->). exists (fun k => el W k j). reflexivity. Qed.
Lemma spanned_trans A Y t : nr Y = nr A -> (forall j, (j < nc Y)%nat -> spanned A (fun i => el Y i j)) -> spanned Y t -> spanned A t.
Proof.
  intros HS H (z & Z).
  assert (X : forall m, (m <= nc Y)%nat -> exists w, forall i, (i < nr A)%nat -> msum m (fun j => el Y i j * z j) = msum (nc A) (fun k => el A i k * w k)).
  { induction m as [|m IH]; intros Hm; [exists (fun _ => 0); intros; cbn; symmetry; apply msum_zero; intros; ring|].
    destruct (IH ltac:(lia)) as (w & E). destruct (H m ltac:(lia)) as (u & U). exists (fun k => w k + z m * u k). intros i Hi. cbn. rewrite (E i Hi), (U i Hi).
    rewrite Rmult_comm, <- msum_scal, <- msum_plus. apply msum_ext. intros; ring. }
  destruct (X _ (le_n _)) as (w & E). exists w. intros i Hi. rewrite <- (E i Hi). apply Z. lia.
Qed.
(** Projection on orthonormal columns. *)
Lemma projects qr Y t : qr_ok qr -> spanned Y t -> forall i, (i < nr Y)%nat ->
  msum (nc (fst (qr Y))) (fun a => el (fst (qr Y)) i a * msum (nr Y) (fun s => el (fst (qr Y)) s a * t s)) = t i.
Proof.
  intros HQ (z & Z). destruct (HQ Y) as (Q1 & Q2 & Q3 & Q4 & Q5). cbv zeta in *. set (Q := fst (qr Y)) in *. set (R := snd (qr Y)) in *.
  set (d := fun k => msum (nc Y) (fun j => el R k j * z j)).
  assert (E : forall i, (i < nr Y)%nat -> t i = msum (nc Q) (fun k => el Q i k * d k)).
  { intros i Hi. rewrite (Z i Hi). unfold d. rewrite (msum_assoc (nc Q) (nc Y) (el Q i) (el R) z). apply msum_ext. intros j Hj. rewrite (Q5 i j Hi Hj). reflexivity. }
  intros i Hi. rewrite (E i Hi). apply msum_ext. intros a Ha. f_equal.
  rewrite (msum_ext _ _ (fun s => el Q s a * msum (nc Q) (fun k => el Q s k * d k))) by (intros s Hs; rewrite (E s Hs); reflexivity).
  rewrite (msum_assoc (nr Y) (nc Q) (fun s => el Q s a) (el Q) d). rewrite (msum_ext _ _ (fun k => unit_entry a k * d k)).
  - apply msum_unit_l. exact Ha.
  - intros k Hk. rewrite <- (Q3 a k Ha Hk), Q1. reflexivity.
Qed.

(** * The extended model *)

Lemma additional_form om qr pinv P B n T P' B' : om_ok om -> qr_ok qr -> pinv_ok pinv -> additional_projectors om qr pinv P B n T = Some (P', B') ->
  nr P = nc B /\ nc P = nr B /\ (nc B <= n)%nat /\
  ((n = nc B /\ P' = P /\ B' = B) \/
   ((nc B < n)%nat /\ nr T = nr B /\ exists Q X, Q = fst (qr (range_sample om (sub T (mul B (mul P T))) (n - nc B) 1)) /\ X = pinv Q /\
      B' = hstack B Q /\ P' = vstack P (sub X (mul (mul X B) P)) /\ nr Q = nr B /\ nc Q = Nat.min (nr B) (n - nc B) /\ nr X = nc Q /\ nc X = nr B /\
      orthonormal Q /\ forall i j, (i < nc Q)%nat -> (j < nr B)%nat -> el X i j = el Q j i)).
Proof.
  intros HM HQ HX H. unfold additional_projectors in H.
  destruct (Nat.eqb_spec (nr P) (nc B)) as [A1|A1]; [|discriminate]. destruct (Nat.eqb_spec (nc P) (nr B)) as [A2|A2]; [|discriminate]. cbn [andb negb] in H.
  destruct (Nat.ltb_spec n (nc B)) as [L|L]; [discriminate|]. split; [exact A1|]. split; [exact A2|]. split; [exact L|].
  destruct (Nat.eqb_spec n (nc B)) as [E|E]; [left; injection H as <- <-; repeat split; exact E|]. right.
  destruct (Nat.eqb_spec (nr T) (nc P)) as [A3|A3]; [|discriminate]. cbn [negb] in H. unfold find_range_randomly in H. cbn [Z.ltb Z.compare Z.to_nat Pos.to_nat Pos.iter_op] in H.
  set (Y := range_sample om (sub T (mul B (mul P T))) (n - nc B) 1) in *. change (Pos.to_nat 1) with 1%nat in H. cbv zeta in H. fold Y in H. injection H as <- <-.
  split; [lia|]. split; [congruence|]. exists (fst (qr Y)), (pinv (fst (qr Y))). destruct (HQ Y) as (Q1 & Q2 & Q3 & _). cbv zeta in *. destruct (HX (fst (qr Y)) Q3) as (X1 & X2 & _). cbv zeta in *.
  destruct (sample_shape om (sub T (mul B (mul P T))) (n - nc B) 1 HM) as (S1 & S2). cbn [sub nr] in S1. fold Y in S1, S2.
  repeat split; try congruence; try exact Q3.
  intros i j Hi Hj. apply (pinv_orthonormal pinv _ HX Q3 i j Hi). congruence.
Qed.

Section Extended.
Variables P B Q X : mat.
Hypothesis HPB : dual P B.
Hypothesis HQ1 : nr Q = nr B.
Hypothesis HX1 : nr X = nc Q.
Hypothesis HX2 : nc X = nr B.
Hypothesis HO : orthonormal Q.
Hypothesis HXQ : forall i j, (i < nc Q)%nat -> (j < nr B)%nat -> el X i j = el Q j i.
Let P' := vstack P (sub X (mul (mul X B) P)).
Let B' := hstack B Q.
Let N := nr B.
Let G a b := msum N (fun s => el Q s a * el B s b).

Lemma ext_shape : nr P' = (nc B + nc Q)%nat /\ nc P' = N /\ nr B' = N /\ nc B' = (nc B + nc Q)%nat.
Proof. destruct HPB as (D1 & D2 & _). cbn. unfold N. repeat split; congruence. Qed.
Lemma row_old i j : (i < nc B)%nat -> el P' i j = el P i j.
Proof. destruct HPB as (D1 & _). intros Hi. cbn -[Nat.ltb]. rewrite (proj2 (Nat.ltb_lt i (nr P))) by congruence. reflexivity. Qed.
Lemma row_new a j : (a < nc Q)%nat -> (j < N)%nat -> el P' (nc B + a) j = el Q j a - msum (nc B) (fun b => G a b * el P b j).
Proof.
  destruct HPB as (D1 & D2 & _). intros Ha Hj. cbn -[Nat.ltb]. rewrite (proj2 (Nat.ltb_ge _ _)) by lia. replace (nc B + a - nr P)%nat with a by lia. rewrite HXQ by assumption.
  f_equal. apply msum_ext. intros b Hb. f_equal. rewrite HX2. apply msum_ext. intros s Hs. rewrite HXQ by assumption. reflexivity.
Qed.
Lemma col_old i j : (j < nc B)%nat -> el B' i j = el B i j.
Proof. intros Hj. cbn -[Nat.ltb]. rewrite (proj2 (Nat.ltb_lt j (nc B))) by lia. reflexivity. Qed.
Lemma col_new i a : el B' i (nc B + a) = el Q i a.
Proof. cbn -[Nat.ltb]. rewrite (proj2 (Nat.ltb_ge _ _)) by lia. f_equal. lia. Qed.

Lemma PB i j : (i < nc B)%nat -> (j < nc B)%nat -> msum N (fun s => el P i s * el B s j) = unit_entry i j.
Proof. destruct HPB as (D1 & D2 & D3). intros Hi Hj. unfold entry in D3. rewrite <- (D3 i j) by congruence. unfold N. rewrite <- D2. reflexivity. Qed.
Lemma new_row_times a (v : nat -> R) : (a < nc Q)%nat ->
  msum N (fun s => el P' (nc B + a) s * v s) = msum N (fun s => el Q s a * v s) - msum (nc B) (fun b => G a b * msum N (fun s => el P b s * v s)).
Proof.
  intros Ha. rewrite (msum_ext N _ (fun s => el Q s a * v s - msum (nc B) (fun b => G a b * el P b s) * v s)) by (intros s Hs; rewrite row_new by assumption; ring).
  rewrite msum_minus. f_equal. rewrite <- (msum_assoc (nc B) N (G a) (el P) v). reflexivity.
Qed.
Lemma new_old a j : (a < nc Q)%nat -> (j < nc B)%nat -> msum N (fun s => el P' (nc B + a) s * el B s j) = 0.
Proof.
  intros Ha Hj. rewrite (new_row_times a (fun s => el B s j) Ha). fold (G a j). rewrite (msum_ext (nc B) _ (fun b => G a b * unit_entry b j)) by (intros b Hb; rewrite PB by assumption; reflexivity).
  rewrite msum_unit_r by exact Hj. ring.
Qed.
Lemma new_new a c : (a < nc Q)%nat -> (c < nc Q)%nat ->
  msum N (fun s => el P' (nc B + a) s * el Q s c) = unit_entry a c - msum (nc B) (fun b => G a b * msum N (fun s => el P b s * el Q s c)).
Proof.
  intros Ha Hc. rewrite (new_row_times a (fun s => el Q s c) Ha). f_equal. rewrite <- (HO a c Ha Hc). rewrite HQ1. reflexivity.
Qed.
Lemma ext_dual_iff : dual P' B' <-> forall i c, (i < nc B)%nat -> (c < nc Q)%nat -> msum N (fun s => el P i s * el Q s c) = 0.
Proof.
  destruct ext_shape as (S1 & S2 & S3 & S4). split.
  - intros (_ & _ & D) i c Hi Hc. assert (X1 := D i (nc B + c)%nat ltac:(lia) ltac:(lia)). unfold entry in X1. rewrite S2 in X1.
    rewrite (msum_ext N _ (fun s => el P i s * el Q s c)) in X1 by (intros s Hs; rewrite row_old by assumption; rewrite col_new; reflexivity).
    rewrite X1. unfold unit_entry. rewrite (proj2 (Nat.eqb_neq _ _)) by lia. reflexivity.
  - intros H. split; [congruence|]. split; [congruence|]. intros i j Hi Hj. rewrite S1 in Hi, Hj. unfold entry. rewrite S2.
    destruct (Nat.lt_ge_cases i (nc B)) as [Li|Li]; destruct (Nat.lt_ge_cases j (nc B)) as [Lj|Lj].
    + rewrite (msum_ext N _ (fun s => el P i s * el B s j)) by (intros s Hs; rewrite row_old, col_old by assumption; reflexivity). apply PB; assumption.
    + replace j with (nc B + (j - nc B))%nat by lia. rewrite (msum_ext N _ (fun s => el P i s * el Q s (j - nc B))) by (intros s Hs; rewrite row_old by assumption; rewrite col_new; reflexivity).
      rewrite H by lia. unfold unit_entry. rewrite (proj2 (Nat.eqb_neq _ _)) by lia. reflexivity.
    + replace i with (nc B + (i - nc B))%nat by lia. rewrite (msum_ext N _ (fun s => el P' (nc B + (i - nc B)) s * el B s j)) by (intros s Hs; rewrite col_old by assumption; reflexivity).
      rewrite new_old by lia. unfold unit_entry. rewrite (proj2 (Nat.eqb_neq _ _)) by lia. reflexivity.
    + replace i with (nc B + (i - nc B))%nat by lia. replace j with (nc B + (j - nc B))%nat by lia.
      rewrite (msum_ext N _ (fun s => el P' (nc B + (i - nc B)) s * el Q s (j - nc B))) by (intros s Hs; rewrite col_new; reflexivity).
      rewrite new_new by lia. rewrite msum_zero by (intros b Hb; rewrite H by lia; ring).
      unfold unit_entry. destruct (Nat.eqb_spec (i - nc B) (j - nc B)); destruct (Nat.eqb_spec (nc B + (i - nc B)) (nc B + (j - nc B))); (ring || lia).
Qed.

Lemma ext_residual t i : (i < N)%nat -> residual P' B' t i = residual P B t i - msum (nc Q) (fun a => el Q i a * msum N (fun s => el Q s a * residual P B t s)).
Proof.
  destruct ext_shape as (S1 & S2 & S3 & S4). destruct HPB as (D1 & D2 & _). intros Hi. unfold residual at 1 2, modelled. rewrite S4, S2, msum_split.
  rewrite (msum_ext (nc B) _ (fun a => el B i a * msum (nc P) (fun k => el P a k * t k))).
  2:{ intros a Ha. rewrite col_old by assumption. f_equal. replace (nc P) with N by (unfold N; congruence). apply msum_ext. intros k Hk. rewrite row_old by assumption. reflexivity. }
  assert (E : msum (nc Q) (fun k => el B' i (nc B + k) * msum N (fun k0 => el P' (nc B + k) k0 * t k0)) = msum (nc Q) (fun a => el Q i a * msum N (fun s => el Q s a * residual P B t s))); [|rewrite E; ring].
  apply msum_ext. intros a Ha. rewrite col_new. f_equal. rewrite (new_row_times a t Ha). unfold residual, modelled.
  rewrite (msum_ext N (fun s => el Q s a * (t s - msum (nc B) (fun a0 => el B s a0 * msum (nc P) (fun k => el P a0 k * t k)))) (fun s => el Q s a * t s - el Q s a * msum (nc B) (fun a0 => el B s a0 * msum (nc P) (fun k => el P a0 k * t k)))) by (intros; ring).
  rewrite msum_minus. f_equal. replace (nc P) with N by (unfold N; congruence). rewrite (msum_assoc N (nc B) (fun s => el Q s a) (el B) (fun b => msum N (fun k => el P b k * t k))). reflexivity.
Qed.
Lemma projection_norm e : norm2 N (fun i => e i - msum (nc Q) (fun a => el Q i a * msum N (fun s => el Q s a * e s))) = norm2 N e - norm2 (nc Q) (fun a => msum N (fun s => el Q s a * e s)).
Proof.
  set (c := fun a => msum N (fun s => el Q s a * e s)). set (p := fun i => msum (nc Q) (fun a => el Q i a * c a)).
  assert (E1 : msum N (fun i => e i * p i) = norm2 (nc Q) c).
  { unfold p. rewrite (msum_assoc N (nc Q) e (el Q) c). unfold norm2. apply msum_ext. intros a Ha. f_equal. unfold c. apply msum_ext. intros; ring. }
  assert (E2 : msum N (fun i => p i * p i) = norm2 (nc Q) c).
  { unfold p at 2. rewrite (msum_assoc N (nc Q) p (el Q) c). unfold norm2. apply msum_ext. intros a Ha. f_equal.
    rewrite (msum_ext N _ (fun s => el Q s a * msum (nc Q) (fun b => el Q s b * c b))) by (intros; unfold p; ring).
    rewrite (msum_assoc N (nc Q) (fun s => el Q s a) (el Q) c). rewrite (msum_ext _ _ (fun k => unit_entry a k * c k)); [apply msum_unit_l; exact Ha|].
    intros k Hk. rewrite <- (HO a k Ha Hk), HQ1. reflexivity. }
  unfold norm2 at 1. change (msum N (fun i => (e i - p i) * (e i - p i)) = norm2 N e - norm2 (nc Q) c).
  rewrite (msum_ext N _ (fun i => (e i * e i - 2 * (e i * p i)) + p i * p i)) by (intros; ring). rewrite msum_plus, msum_minus, msum_scal, E1, E2. unfold norm2. ring.
Qed.
End Extended.
