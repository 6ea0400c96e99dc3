From Coq Require Import Reals Lra Lia Arith List.
From Verif Require Import GprModel GprSpec.
Import ListNotations.
Open Scope R_scope.

(** * Sums *)
Lemma sm_ext n f g : (forall i, (i < n)%nat -> f i = g i) -> sm n f = sm n g.
Proof. induction n as [|n IH]; intros H; [reflexivity|]. cbn [sm]. rewrite IH by (intros; apply H; lia). now rewrite H by lia. Qed.
Lemma sm_add n f g : sm n (fun i => f i + g i) = sm n f + sm n g.
Proof. induction n as [|n IH]; cbn [sm]; [lra|]. rewrite IH. lra. Qed.
Lemma sm_sub n f g : sm n (fun i => f i - g i) = sm n f - sm n g.
Proof. induction n as [|n IH]; cbn [sm]; [lra|]. rewrite IH. lra. Qed.
Lemma sm_scale n a f : sm n (fun i => a * f i) = a * sm n f.
Proof. induction n as [|n IH]; cbn [sm]; [lra|]. rewrite IH. lra. Qed.
Lemma sm_scale_r n a f : sm n (fun i => f i * a) = sm n f * a.
Proof. induction n as [|n IH]; cbn [sm]; [lra|]. rewrite IH. lra. Qed.
Lemma sm_zero n f : (forall i, (i < n)%nat -> f i = 0) -> sm n f = 0.
Proof. intros H. rewrite (sm_ext n f (fun _ => 0 * 0)) by (intros i I; rewrite (H i I); lra). rewrite sm_scale. lra. Qed.
Lemma sm_swap n m (f : nat -> nat -> R) : sm n (fun i => sm m (f i)) = sm m (fun j => sm n (fun i => f i j)).
Proof.
  induction n as [|n IH]; cbn [sm]; [symmetry; now apply sm_zero|]. rewrite IH, <- sm_add. reflexivity.
Qed.
Lemma sm_delta n f k : (k < n)%nat -> sm n (fun i => (if Nat.eqb k i then 1 else 0) * f i) = f k.
Proof.
  induction n as [|n IH]; intros K; [lia|]. cbn [sm]. destruct (Nat.eq_dec k n) as [-> | NE].
  - rewrite Nat.eqb_refl, sm_zero; [lra|]. intros i I. destruct (Nat.eqb_spec n i); [lia|lra].
  - rewrite IH by lia. destruct (Nat.eqb_spec k n); [contradiction|lra].
Qed.
Lemma sm_sq n f : 0 <= sm n (fun i => f i * f i).
Proof. induction n as [|n IH]; cbn [sm]; [lra|]. assert (0 <= f n * f n) by nra. lra. Qed.
Lemma sm_sq_zero n f : sm n (fun i => f i * f i) = 0 -> forall i, (i < n)%nat -> f i = 0.
Proof.
  induction n as [|n IH]; intros H i I; [lia|]. cbn [sm] in H. assert (A := sm_sq n f). assert (B : 0 <= f n * f n) by nra.
  destruct (Nat.eq_dec i n) as [-> | NE]; [nra|]. apply IH; [lra|lia].
Qed.

Definition dt (n : nat) (u v : vec) : R := sm n (fun i => u i * v i).
Definition mv (n : nat) (M : mat) (v : vec) (i : nat) : R := sm n (fun j => M i j * v j).
Lemma dt_sym n u v : dt n u v = dt n v u.
Proof. apply sm_ext. intros. lra. Qed.
Lemma dt_ext n u u' v v' : (forall i, (i < n)%nat -> u i = u' i) -> (forall i, (i < n)%nat -> v i = v' i) -> dt n u v = dt n u' v'.
Proof. intros A B. apply sm_ext. intros i I. now rewrite A, B. Qed.
Lemma dt_lin n u a b c v w z : dt n u (fun i => a * v i + b * w i + c * z i) = a * dt n u v + b * dt n u w + c * dt n u z.
Proof. unfold dt. rewrite <- !sm_scale, <- !sm_add. apply sm_ext. intros. lra. Qed.
Lemma mv_lin n M a b c v w z i : mv n M (fun i => a * v i + b * w i + c * z i) i = a * mv n M v i + b * mv n M w i + c * mv n M z i.
Proof. unfold mv. rewrite <- !sm_scale, <- !sm_add. apply sm_ext. intros. lra. Qed.
Lemma dt_mv n M u v : dt n u (mv n M v) = dt n (mv n (tr M) u) v.
Proof.
  unfold dt, mv, tr. rewrite (sm_ext n _ (fun i => sm n (fun j => u i * (M i j * v j)))) by (intros; now rewrite sm_scale).
  rewrite sm_swap. apply sm_ext. intros j J. rewrite <- sm_scale_r. apply sm_ext. intros. lra.
Qed.
Lemma mv_ext n M v v' i : (forall j, (j < n)%nat -> v j = v' j) -> mv n M v i = mv n M v' i.
Proof. intros H. apply sm_ext. intros j J. now rewrite H. Qed.
(** applying a matrix and then one whose product with it is the identity *)
Lemma mv_mv n M N v : (forall i j, (i < n)%nat -> (j < n)%nat -> sm n (fun k => M i k * N k j) = if Nat.eqb i j then 1 else 0) ->
  forall i, (i < n)%nat -> mv n M (mv n N v) i = v i.
Proof.
  intros H i I. unfold mv. rewrite (sm_ext n _ (fun k => sm n (fun j => M i k * (N k j * v j)))) by (intros; now rewrite sm_scale).
  rewrite sm_swap, <- (sm_delta n v i I). apply sm_ext. intros j J. rewrite <- (H i j I J), <- sm_scale_r. apply sm_ext. intros. lra.
Qed.

(** * The kernel *)
Lemma kern_sym a b : kern a b = kern b a.
Proof. unfold kern. rewrite (Rmin_comm a b), (Rabs_minus_sym a b). reflexivity. Qed.
Lemma kern_cube v k : kern v k = k * v ^ 2 / 2 - v ^ 3 / 6 + cube_from k v / 6.
Proof.
  unfold kern, cube_from. destruct (Rle_dec v k) as [L|L].
  - rewrite Rmin_left by exact L. rewrite Rabs_left1 by lra. field.
  - rewrite Rmin_right by lra. rewrite Rabs_right by lra. field.
Qed.

Definition Wc (f : fit) (p i : nat) : R := fW f i p.

Section Fit.
Variable chol : nat -> mat -> option mat.
Variable msolve : nat -> nat -> mat -> mat -> option mat.
Hypothesis CH : factors chol.
Hypothesis SO : solves msolve.
Variable n : nat.
Variables x y err : vec.
Variable sf2 : R.
Notation ky := (covar sf2 x err).
Variable f : fit.
Hypothesis FIT : make_fit chol msolve n x y err sf2 = Some f.
Notation L := (fL f).
Notation A := (fA f).
Notation W := (Wc f).
Notation be := (fbeta f).
Definition one : vec := fun _ => 1.

Lemma Km_eq i j : Km x sf2 i j = sf2 * kern (x i) (x j).
Proof.
  unfold Km. destruct (Nat.le_ge_cases i j) as [H|H].
  - now rewrite Nat.min_l, Nat.max_r.
  - rewrite Nat.min_r, Nat.max_l by exact H. now rewrite kern_sym.
Qed.
Lemma Ky_eq i j : Ky x err sf2 i j = ky i j.
Proof. unfold Ky, covar. now rewrite Km_eq. Qed.
Lemma ky_sym i j : ky i j = ky j i.
Proof. unfold covar. rewrite kern_sym, (Nat.eqb_sym i j). destruct (Nat.eqb_spec j i) as [-> | _]; reflexivity. Qed.
Lemma ky_adj u v : dt n u (mv n ky v) = dt n (mv n ky u) v.
Proof. rewrite dt_mv. apply dt_ext; [|reflexivity]. intros i I. apply sm_ext. intros j J. unfold tr. now rewrite ky_sym. Qed.

Definition solved_facts : Prop :=
  (exists N, inverses n L N) /\ (exists N, inverses 2 A N) /\
  (forall i j, (i < n)%nat -> (j < n)%nat -> sm n (fun k => L i k * L j k) = ky i j) /\
  (forall p i, (p < 2)%nat -> (i < n)%nat -> mv n ky (W p) i = Hrow (x i) p) /\
  (forall q p, (q < 2)%nat -> (p < 2)%nat -> A q p = dt n (W q) (fun i => Hrow (x i) p)) /\
  (forall q, (q < 2)%nat -> sm 2 (fun p => A q p * be p) = dt n (W q) y) /\
  (forall i, (i < n)%nat -> exists X, (forall k, (k < n)%nat -> mv n ky X k = sf2 * kern (x k) (x i)) /\
     fgbar f i = dt n X y + sm 2 (fun p => (Hrow (x i) p - dt n (W p) (fun k => sf2 * kern (x k) (x i))) * be p)).
(** L then its transpose *)
Lemma two_steps (L0 : mat) (v z : vec) (b : vec) : (forall i j, (i < n)%nat -> (j < n)%nat -> sm n (fun k => L0 i k * L0 j k) = ky i j) ->
  (forall i, (i < n)%nat -> mv n L0 z i = b i) -> (forall i, (i < n)%nat -> mv n (tr L0) v i = z i) -> forall i, (i < n)%nat -> mv n ky v i = b i.
Proof.
  intros F Z V i I. rewrite <- (Z i I). rewrite <- (mv_ext n L0 (mv n (tr L0) v) z i V). unfold mv, tr.
  rewrite (sm_ext n (fun j => L0 i j * _) (fun k => sm n (fun j => L0 i k * (L0 j k * v j)))) by (intros; now rewrite sm_scale).
  rewrite sm_swap. apply sm_ext. intros j J. rewrite <- (F i j I J), <- sm_scale_r. apply sm_ext. intros. lra.
Qed.
Lemma facts : solved_facts.
Proof.
  unfold make_fit in FIT.
  destruct (chol n (Ky x err sf2)) as [L0|] eqn:E0; [|discriminate].
  destruct (msolve n 2 L0 (tr (Hm x))) as [LH|] eqn:E1; [|discriminate]. cbv zeta in FIT.
  destruct (msolve n 2 (tr L0) LH) as [W0|] eqn:E2; [|discriminate].
  destruct (msolve 2 n _ (tr W0)) as [B|] eqn:E3; [|discriminate].
  destruct (msolve n n L0 (Km x sf2)) as [Z|] eqn:E4; [|discriminate].
  destruct (msolve n n (tr L0) Z) as [X|] eqn:E5; [|discriminate].
  match type of FIT with Some ?g = Some _ => assert (EF : g = f) by congruence end. unfold solved_facts. rewrite <- EF. clear EF. unfold Wc. cbn [fL fA fW fbeta fgbar].
  destruct (SO _ _ _ _ _ E1) as [IL S1]. destruct (SO _ _ _ _ _ E2) as [_ S2]. destruct (SO _ _ _ _ _ E3) as [IA S3].
  destruct (SO _ _ _ _ _ E4) as [_ S4]. destruct (SO _ _ _ _ _ E5) as [_ S5].
  assert (F : forall i j, (i < n)%nat -> (j < n)%nat -> sm n (fun k => L0 i k * L0 j k) = ky i j).
  { intros i j I J. rewrite (CH _ _ _ E0 i j I J). apply Ky_eq. }
  assert (KW : forall p i, (p < 2)%nat -> (i < n)%nat -> mv n ky (fun i => W0 i p) i = Hrow (x i) p).
  { intros p i P I. apply (two_steps L0 _ (fun k => LH k p) (fun i => Hrow (x i) p) F); [| |exact I].
    - intros k K. exact (S1 k p K P).
    - intros k K. exact (S2 k p K P). }
  assert (AW : forall q p, (q < 2)%nat -> (p < 2)%nat -> sm n (fun i => LH i q * LH i p) = dt n (fun i => W0 i q) (fun i => Hrow (x i) p)).
  { intros q p Q P. transitivity (dt n (mv n (tr L0) (fun i => W0 i q)) (fun i => LH i p)).
    - apply sm_ext. intros i I. rewrite <- (S2 i q I Q). reflexivity.
    - rewrite <- dt_mv. apply dt_ext; [reflexivity|]. intros i I. exact (S1 i p I P). }
  split; [exact IL|]. split; [exact IA|]. split; [exact F|]. split; [exact KW|]. split; [exact AW|]. split.
  - intros q Q. unfold dt.
    rewrite (sm_ext 2 _ (fun p => sm n (fun i => sm n (fun i => LH i q * LH i p) * (B p i * y i)))) by (intros; now rewrite sm_scale).
    rewrite sm_swap. apply sm_ext. intros i I. transitivity (tr W0 q i * y i); [|reflexivity]. rewrite <- (S3 q i Q I), <- sm_scale_r.
    apply sm_ext. intros. lra.
  - intros i I. exists (fun k => X k i). split.
    + intros k K. apply (two_steps L0 _ (fun k => Z k i) (fun k => sf2 * kern (x k) (x i)) F); [| |exact K].
      * intros m M. rewrite <- Km_eq. exact (S4 m i M I).
      * intros m M. exact (S5 m i M I).
    + f_equal. apply sm_ext. intros p P. f_equal. unfold Hm. f_equal. apply sm_ext. intros k K. now rewrite Km_eq.
Qed.

(** every vector is the covariance applied to one *)
Lemma surj b : exists v, forall i, (i < n)%nat -> mv n ky v i = b i.
Proof.
  destruct facts as ([N I] & _ & F & _). exists (mv n (tr N) (mv n N b)).
  apply (two_steps L _ (mv n N b) b F).
  - apply mv_mv. intros i j A1 A2. exact (proj1 (I i j A1 A2)).
  - apply mv_mv. intros i j A1 A2. unfold tr. rewrite Nat.eqb_sym. rewrite <- (proj2 (I j i A2 A1)). apply sm_ext. intros. lra.
Qed.
Lemma quad_nonneg d : 0 <= dt n d (mv n ky d) /\ (dt n d (mv n ky d) = 0 -> forall i, (i < n)%nat -> d i = 0).
Proof.
  destruct facts as ([N I] & _ & F & _).
  assert (E : dt n d (mv n ky d) = dt n (mv n (tr L) d) (mv n (tr L) d)).
  { rewrite <- dt_mv. apply dt_ext; [reflexivity|]. intros i J.
    rewrite (two_steps L d (mv n (tr L) d) (mv n L (mv n (tr L) d)) F); trivial. }
  rewrite E. split; [apply sm_sq|]. intros Z.
  assert (V : forall i, (i < n)%nat -> mv n (tr L) d i = 0) by (intros i J; exact (sm_sq_zero n _ Z i J)).
  intros i J. rewrite <- (mv_mv n (tr N) (tr L) d); [|..|exact J].
  - apply sm_zero. intros k K. rewrite V by exact K. lra.
  - intros a b P Q. unfold tr. rewrite Nat.eqb_sym. rewrite <- (proj1 (I b a Q P)). apply sm_ext. intros. lra.
Qed.
Lemma A_inj a0 a1 : (forall q, (q < 2)%nat -> A q 0%nat * a0 + A q 1%nat * a1 = 0) -> a0 = 0 /\ a1 = 0.
Proof.
  intros H. destruct facts as (_ & [N I] & _).
  assert (G : forall i, (i < 2)%nat -> (fun p => match p with O => a0 | _ => a1 end) i = 0).
  { intros i J. rewrite <- (mv_mv 2 N A (fun p => match p with O => a0 | _ => a1 end)); [|..|exact J].
    - apply sm_zero. intros q Q. replace (mv 2 A _ q) with 0; [lra|]. unfold mv. cbn [sm]. specialize (H q Q). lra.
    - intros a b P Q. exact (proj2 (I a b P Q)). }
  split; [exact (G O ltac:(lia))|exact (G 1%nat ltac:(lia))].
Qed.

(** * The mean at the knots *)
Lemma posterior : exists al, natural n x al /\ (forall i, (i < n)%nat -> y i - fgbar f i = err i ^ 2 * al i) /\
  (forall i, (i < n)%nat -> fgbar f i = sm n (fun j => al j * (sf2 * kern (x i) (x j))) + be 0%nat + be 1%nat * x i).
Proof.
  destruct (surj (fun i => 1 * y i + - be 0%nat * one i + - be 1%nat * x i)) as [al AL].
  destruct facts as (_ & _ & _ & KW & AW & AB & G). exists al.
  assert (YW : forall u, dt n u y = dt n (mv n ky u) al + be 0%nat * dt n u one + be 1%nat * dt n u x).
  { intros u. rewrite <- ky_adj. rewrite (dt_ext n u u (mv n ky al) _ (fun i I => eq_refl) AL), dt_lin. lra. }
  assert (HA : forall q, (q < 2)%nat -> dt n (fun i => Hrow (x i) q) al = 0).
  { intros q Q. rewrite (dt_ext n _ (mv n ky (W q)) al al (fun i I => eq_sym (KW q i Q I)) (fun i I => eq_refl)).
    pose proof (YW (W q)) as Y. rewrite <- (AB q Q) in Y. cbn [sm] in Y. rewrite !AW in Y by lia. cbn [Hrow] in Y.
    change (dt n (W q) (fun _ => 1)) with (dt n (W q) one) in Y. change (dt n (W q) (fun i => x i)) with (dt n (W q) x) in Y. lra. }
  assert (GB : forall i, (i < n)%nat -> fgbar f i = sm n (fun j => al j * (sf2 * kern (x i) (x j))) + be 0%nat + be 1%nat * x i).
  { intros i I. destruct (G i I) as (X & KX & ->). rewrite (YW X).
    assert (D : forall p, (p < 2)%nat -> dt n (W p) (fun k => sf2 * kern (x k) (x i)) = dt n X (fun k => Hrow (x k) p)).
    { intros p P. rewrite (dt_ext n (W p) (W p) _ (mv n ky X) (fun i I => eq_refl) (fun k K => eq_sym (KX k K))), ky_adj, dt_sym.
      apply dt_ext; [reflexivity|]. intros k K. now apply KW. }
    cbn [sm]. rewrite !D by lia. cbn [Hrow]. change (dt n X (fun k => 1)) with (dt n X one). change (dt n X (fun k => x k)) with (dt n X x).
    rewrite (dt_ext n (mv n ky X) _ al al KX (fun i I => eq_refl)).
    replace (dt n (fun k => sf2 * kern (x k) (x i)) al) with (sm n (fun j => al j * (sf2 * kern (x i) (x j)))).
    - lra.
    - apply sm_ext. intros j J. rewrite (kern_sym (x j)). lra. }
  split; [|split; [|exact GB]].
  - split; [rewrite <- (HA O ltac:(lia))|rewrite <- (HA 1%nat ltac:(lia))]; apply sm_ext; intros; cbn; lra.
  - intros i I. rewrite (GB i I). specialize (AL i I). unfold mv, covar, one in AL.
    rewrite (sm_ext n _ (fun j => al j * (sf2 * kern (x i) (x j)) + (if Nat.eqb i j then 1 else 0) * (err i ^ 2 * al j))) in AL
      by (intros j J; destruct (Nat.eqb i j); lra).
    rewrite sm_add, (sm_delta n (fun j => err i ^ 2 * al j) i I) in AL. lra.
Qed.
(** There is only one such mean. *)
Lemma posterior_only g al b0 b1 : natural n x al -> (forall i, (i < n)%nat -> y i - g i = err i ^ 2 * al i) ->
  (forall i, (i < n)%nat -> g i = sm n (fun j => al j * (sf2 * kern (x i) (x j))) + b0 + b1 * x i) ->
  (forall i, (i < n)%nat -> g i = fgbar f i) /\ b0 = be 0%nat /\ b1 = be 1%nat.
Proof.
  intros [N0 N1] R G. destruct posterior as (al' & [M0 M1] & R' & G').
  set (d := fun i => 1 * al i + -1 * al' i + 0 * al i).
  assert (KD : forall i, (i < n)%nat -> mv n ky d i = (be 0%nat - b0) + (be 1%nat - b1) * x i).
  { intros i I. unfold d. rewrite mv_lin. 
    assert (V : forall a, mv n ky a i = sm n (fun j => a j * (sf2 * kern (x i) (x j))) + err i ^ 2 * a i).
    { intros a. unfold mv, covar. rewrite (sm_ext n _ (fun j => a j * (sf2 * kern (x i) (x j)) + (if Nat.eqb i j then 1 else 0) * (err i ^ 2 * a j)))
        by (intros j J; destruct (Nat.eqb i j); lra). now rewrite sm_add, (sm_delta n (fun j => err i ^ 2 * a j) i I). }
    rewrite !V. pose proof (R i I) as R1. pose proof (R' i I) as R2. pose proof (G i I) as G1. pose proof (G' i I) as G2.
    set (P1 := sm n (fun j => al j * _)) in *. set (P2 := sm n (fun j => al' j * _)) in *. lra. }
  assert (D0 : sm n d = 0).
  { unfold d. rewrite !sm_add, !sm_scale, N0, M0. lra. }
  assert (D1 : sm n (fun i => d i * x i) = 0).
  { rewrite (sm_ext n _ (fun i => 1 * (al i * x i) + -1 * (al' i * x i))) by (intros; unfold d; lra). rewrite sm_add, !sm_scale, N1, M1. lra. }
  destruct (quad_nonneg d) as [_ Z].
  assert (DZ : forall i, (i < n)%nat -> d i = 0).
  { apply Z. rewrite (dt_ext n d d _ _ (fun i I => eq_refl) KD). unfold dt.
    rewrite (sm_ext n _ (fun i => (be 0%nat - b0) * d i + (be 1%nat - b1) * (d i * x i))) by (intros; lra).
    rewrite sm_add, !sm_scale, D0, D1. lra. }
  destruct facts as (_ & _ & _ & KW & AW & _).
  assert (AZ : be 0%nat - b0 = 0 /\ be 1%nat - b1 = 0).
  { apply A_inj. intros q Q. rewrite !AW by lia. cbn [Hrow].
    assert (E : dt n (W q) (mv n ky d) = 0).
    { apply sm_zero. intros i I. replace (mv n ky d i) with 0; [lra|]. symmetry. apply sm_zero. intros j J. rewrite DZ by exact J. lra. }
    rewrite (dt_ext n (W q) (W q) _ _ (fun i I => eq_refl) KD) in E. unfold dt in E |- *.
    rewrite (sm_ext n (fun i => _ * (_ + _)) (fun i => (be 0%nat - b0) * (W q i * 1) + (be 1%nat - b1) * (W q i * x i))) in E by (intros; lra).
    rewrite sm_add, !sm_scale in E. lra. }
  split; [|lra]. intros i I. rewrite (G i I), (G' i I). rewrite (sm_ext n (fun j => al j * _) (fun j => al' j * (sf2 * kern (x i) (x j)))); [replace b0 with (be 0%nat) by lra; replace b1 with (be 1%nat) by lra; reflexivity|].
  intros j J. specialize (DZ j J). unfold d in DZ. replace (al j) with (al' j) by lra. reflexivity.
Qed.

(** * Predictions *)
Lemma kriging_of v s0 s1 z : (forall i, (i < n)%nat -> mv n ky z i = sf2 * kern v (x i)) ->
  (forall q, (q < 2)%nat -> A q 0%nat * s0 + A q 1%nat * s1 = Hrow v q - dt n (W q) (fun i => sf2 * kern v (x i))) ->
  kriging n sf2 x err v (fun i => 1 * z i + s0 * W 0%nat i + s1 * W 1%nat i) (- s0) (- s1).
Proof.
  intros Z S. destruct facts as (_ & _ & _ & KW & AW & _).
  assert (K : forall i, (i < n)%nat -> mv n ky (fun i => 1 * z i + s0 * W 0%nat i + s1 * W 1%nat i) i = 1 * (sf2 * kern v (x i)) + s0 * one i + s1 * x i).
  { intros i I. rewrite mv_lin, (Z i I), (KW 0%nat i ltac:(lia) I), (KW 1%nat i ltac:(lia) I). reflexivity. }
  assert (U : forall q, (q < 2)%nat -> dt n (fun i => Hrow (x i) q) (fun i => 1 * z i + s0 * W 0%nat i + s1 * W 1%nat i) = Hrow v q).
  { intros q Q. rewrite (dt_ext n _ (mv n ky (W q)) _ _ (fun i I => eq_sym (KW q i Q I)) (fun i I => eq_refl)), <- ky_adj.
    rewrite (dt_ext n (W q) (W q) _ _ (fun i I => eq_refl) K), dt_lin. specialize (S q Q). rewrite !AW in S by lia. cbn [Hrow] in S.
    change (dt n (W q) (fun _ => 1)) with (dt n (W q) one) in S. change (dt n (W q) (fun i => x i)) with (dt n (W q) x) in S. lra. }
  split; [split|].
  - transitivity (Hrow v 0); [rewrite <- (U O ltac:(lia))|reflexivity]. apply sm_ext. intros; cbn [Hrow]; lra.
  - transitivity (Hrow v 1); [rewrite <- (U 1%nat ltac:(lia))|reflexivity]. apply sm_ext. intros; cbn [Hrow]; lra.
  - intros i I. specialize (K i I). unfold mv in K. rewrite K. unfold one. lra.
Qed.
Lemma kriging_exists v : exists w nu0 nu1, kriging n sf2 x err v w nu0 nu1.
Proof.
  destruct (surj (fun i => sf2 * kern v (x i))) as [z Z]. destruct facts as (_ & [N I] & _).
  set (r := fun q => Hrow v q - dt n (W q) (fun i => sf2 * kern v (x i))).
  eexists _, _, _. apply (kriging_of v (mv 2 N r 0%nat) (mv 2 N r 1%nat) z Z).
  intros q Q. transitivity (mv 2 A (mv 2 N r) q); [unfold mv at 3; cbn [sm]; lra|].
  apply mv_mv; [|exact Q]. intros i j P R. exact (proj1 (I i j P R)).
Qed.
Lemma kriging_only v w nu0 nu1 w' nu0' nu1' : kriging n sf2 x err v w nu0 nu1 -> kriging n sf2 x err v w' nu0' nu1' ->
  (forall i, (i < n)%nat -> w i = w' i) /\ nu0 = nu0' /\ nu1 = nu1'.
Proof.
  intros [[U0 U1] K] [[U0' U1'] K']. set (d := fun i => 1 * w i + -1 * w' i + 0 * w i).
  assert (KD : forall i, (i < n)%nat -> mv n ky d i = (nu0' - nu0) + (nu1' - nu1) * x i).
  { intros i I. unfold d. rewrite mv_lin. specialize (K i I). specialize (K' i I). unfold mv. lra. }
  assert (D0 : sm n d = 0) by (unfold d; rewrite !sm_add, !sm_scale, U0, U0'; lra).
  assert (D1 : sm n (fun i => d i * x i) = 0).
  { rewrite (sm_ext n _ (fun i => 1 * (w i * x i) + -1 * (w' i * x i))) by (intros; unfold d; lra). rewrite sm_add, !sm_scale, U1, U1'. lra. }
  destruct (quad_nonneg d) as [_ Z].
  assert (DZ : forall i, (i < n)%nat -> d i = 0).
  { apply Z. rewrite (dt_ext n d d _ _ (fun i I => eq_refl) KD). unfold dt.
    rewrite (sm_ext n _ (fun i => (nu0' - nu0) * d i + (nu1' - nu1) * (d i * x i))) by (intros; lra).
    rewrite sm_add, !sm_scale, D0, D1. lra. }
  split; [intros i I; specialize (DZ i I); unfold d in DZ; lra|].
  destruct facts as (_ & _ & _ & KW & AW & _).
  enough (nu0' - nu0 = 0 /\ nu1' - nu1 = 0) by lra.
  apply A_inj. intros q Q. rewrite !AW by lia. cbn [Hrow].
  assert (E : dt n (W q) (mv n ky d) = 0).
  { apply sm_zero. intros i I. replace (mv n ky d i) with 0; [lra|]. symmetry. apply sm_zero. intros j J. rewrite DZ by exact J. lra. }
  rewrite (dt_ext n (W q) (W q) _ _ (fun i I => eq_refl) KD) in E. unfold dt in E |- *.
  rewrite (sm_ext n (fun i => _ * (_ + _)) (fun i => (nu0' - nu0) * (W q i * 1) + (nu1' - nu1) * (W q i * x i))) in E by (intros; lra).
  rewrite sm_add, !sm_scale in E. lra.
Qed.
(** the computed covariance *)
Lemma cov_value va vb ua ub ra rb s :
  (forall i, (i < n)%nat -> mv n L ua i = sf2 * kern va (x i)) -> (forall i, (i < n)%nat -> mv n L ub i = sf2 * kern vb (x i)) ->
  (forall p, (p < 2)%nat -> ra p = Hrow va p - dt n (W p) (fun i => sf2 * kern va (x i))) ->
  (forall p, (p < 2)%nat -> rb p = Hrow vb p - dt n (W p) (fun i => sf2 * kern vb (x i))) ->
  (forall q, (q < 2)%nat -> A q 0%nat * s 0%nat + A q 1%nat * s 1%nat = rb q) ->
  exists w nu0 nu1, kriging n sf2 x err vb w nu0 nu1 /\
    sf2 * kern va vb - dt n ua ub + (ra 0%nat * s 0%nat + ra 1%nat * s 1%nat) = sf2 * kern va vb - sm n (fun i => w i * (sf2 * kern va (x i))) - nu0 - nu1 * va.
Proof.
  intros UA UB RA RB S. destruct (surj (fun i => sf2 * kern vb (x i))) as [z Z].
  assert (KR := kriging_of vb (s 0%nat) (s 1%nat) z Z). 
  eexists _, _, _. split; [apply KR; intros q Q; rewrite (S q Q); now apply RB|].
  destruct facts as ([N I] & _ & F & KW & _).
  assert (T : forall i, (i < n)%nat -> mv n (tr L) z i = ub i).
  { intros i J. rewrite <- (mv_mv n N L (mv n (tr L) z)); [|intros a b P Q; exact (proj2 (I a b P Q))|exact J].
    rewrite <- (mv_mv n N L ub); [|intros a b P Q; exact (proj2 (I a b P Q))|exact J].
    apply mv_ext. intros k K. rewrite (UB k K), <- (Z k K). symmetry. apply (two_steps L z (mv n (tr L) z) _ F); trivial. }
  assert (E : dt n ua ub = dt n z (fun i => sf2 * kern va (x i))).
  { rewrite <- (dt_ext n ua ua _ _ (fun i J => eq_refl) T), dt_mv, dt_sym. apply dt_ext; [reflexivity|]. exact UA. }
  rewrite E. rewrite (RA 0%nat), (RA 1%nat) by lia. cbn [Hrow].
  rewrite (sm_ext n (fun i => (_ + _ + _) * _) (fun i => z i * (sf2 * kern va (x i)) + s 0%nat * (W 0%nat i * (sf2 * kern va (x i))) + s 1%nat * (W 1%nat i * (sf2 * kern va (x i)))))
    by (intros; lra). rewrite !sm_add, !sm_scale. unfold dt. lra.
Qed.
(** the mean square error of any unbiased weights *)
Lemma mse_min v w nu0 nu1 u : kriging n sf2 x err v w nu0 nu1 -> unbiased n x v u ->
  sf2 * kern v v - sm n (fun i => w i * (sf2 * kern v (x i))) - nu0 - nu1 * v <= mse n sf2 x err v u.
Proof.
  intros [[U0 U1] K] [V0 V1]. set (d := fun i => 1 * u i + -1 * w i + 0 * w i).
  assert (D0 : sm n d = 0) by (unfold d; rewrite !sm_add, !sm_scale, U0, V0; lra).
  assert (D1 : sm n (fun i => d i * x i) = 0).
  { rewrite (sm_ext n _ (fun i => 1 * (u i * x i) + -1 * (w i * x i))) by (intros; unfold d; lra). rewrite sm_add, !sm_scale, U1, V1. lra. }
  set (kt := fun i => sf2 * kern v (x i)).
  assert (KW : forall i, (i < n)%nat -> mv n ky w i = 1 * kt i + - nu0 * one i + - nu1 * x i).
  { intros i I. specialize (K i I). unfold mv, kt, one. lra. }
  assert (Q := proj1 (quad_nonneg d)).
  assert (KD : forall i, (i < n)%nat -> mv n ky d i = 1 * mv n ky u i + -1 * mv n ky w i + 0 * mv n ky w i) by (intros; unfold d; apply mv_lin).
  rewrite (dt_ext n d d _ _ (fun i I => eq_refl) KD), dt_lin in Q.
  assert (DU : forall b, dt n d b = dt n u b - dt n w b).
  { intros b. unfold dt. rewrite <- sm_sub. apply sm_ext. intros. unfold d. lra. }
  assert (DW : dt n d (mv n ky w) = dt n d kt).
  { rewrite (dt_ext n d d _ _ (fun i I => eq_refl) KW), dt_lin.
    replace (dt n d one) with 0; [|rewrite <- D0; apply sm_ext; intros; unfold one; lra].
    assert (DX : dt n d x = 0) by exact D1. rewrite DX. lra. }
  assert (WW : dt n w (mv n ky w) = dt n w kt - nu0 - nu1 * v).
  { rewrite (dt_ext n w w _ _ (fun i I => eq_refl) KW), dt_lin.
    replace (dt n w one) with 1; [|rewrite <- U0; apply sm_ext; intros; unfold one; lra].
    assert (WX : dt n w x = v) by exact U1. rewrite WX. lra. }
  assert (SY : dt n w (mv n ky u) = dt n u (mv n ky w)) by (rewrite ky_adj; apply dt_sym).
  unfold mse. change (sm n (fun i => u i * (sf2 * kern v (x i)))) with (dt n u kt).
  change (sm n (fun i => u i * sm n (fun j => ky i j * u j))) with (dt n u (mv n ky u)).
  change (sm n (fun i => w i * (sf2 * kern v (x i)))) with (dt n w kt).
  rewrite !DU in *. lra.
Qed.
Lemma mse_value v w nu0 nu1 : kriging n sf2 x err v w nu0 nu1 ->
  mse n sf2 x err v w = sf2 * kern v v - sm n (fun i => w i * (sf2 * kern v (x i))) - nu0 - nu1 * v.
Proof.
  intros [[U0 U1] K]. unfold mse.
  rewrite (sm_ext n (fun i => w i * sm n _) (fun i => w i * (sf2 * kern v (x i)) - (nu0 * w i + nu1 * (w i * x i)))).
  - rewrite sm_sub, sm_add, !sm_scale, U0, U1. lra.
  - intros i I. rewrite <- (K i I). lra.
Qed.
Lemma A_sym q p : (q < 2)%nat -> (p < 2)%nat -> A q p = A p q.
Proof.
  intros Q P. destruct facts as (_ & _ & _ & KW & AW & _). rewrite !AW by assumption.
  rewrite (dt_ext n (W q) (W q) _ (mv n ky (W p)) (fun i I => eq_refl) (fun i I => eq_sym (KW p i P I))), ky_adj, dt_sym.
  apply dt_ext; [reflexivity|]. intros i I. now apply KW.
Qed.
Lemma variance1_spec v s : variance1 msolve n x sf2 f v = Some s -> exists w nu0 nu1, kriging n sf2 x err v w nu0 nu1 /\
  s = sf2 * kern v v - sm n (fun i => w i * (sf2 * kern v (x i))) - nu0 - nu1 * v.
Proof.
  unfold variance1, vsolve. destruct (msolve n 1 L _) as [U|] eqn:E1; [|discriminate]. cbn [option_map].
  destruct (msolve 2 1 A _) as [T|] eqn:E2; [|discriminate]. cbn [option_map]. intros H.
  destruct (SO _ _ _ _ _ E1) as [_ S1]. destruct (SO _ _ _ _ _ E2) as [_ S2].
  set (r := fun p => Hrow v p - dt n (W p) (fun i => sf2 * kern v (x i))).
  destruct (cov_value v v (fun i => U i O) (fun i => U i O) r r (fun p => T p O)) as (w & nu0 & nu1 & K & V); trivial.
  - intros i I. exact (S1 i O I ltac:(lia)).
  - intros i I. exact (S1 i O I ltac:(lia)).
  - intros q Q. pose proof (S2 q O Q ltac:(lia)) as S3. cbn [sm] in S3. unfold r, dt, Wc. rewrite <- S3. lra.
  - exists w, nu0, nu1. split; [exact K|]. rewrite <- V. injection H as <-. cbn [sm]. unfold r, dt, Wc.
    rewrite (sm_ext n (fun i => U i O * (U i O * 1)) (fun i => U i O * U i O)) by (intros; lra). cbn [Hrow]. lra.
Qed.
Lemma covariance_spec l C : covariance msolve n x sf2 f (Array l) = Some C -> forall a b, (a < length l)%nat -> (b < length l)%nat ->
  C a b = C b a /\ exists w nu0 nu1, kriging n sf2 x err (nth b l 0) w nu0 nu1 /\
  C a b = sf2 * kern (nth a l 0) (nth b l 0) - sm n (fun i => w i * (sf2 * kern (nth a l 0) (x i))) - nu0 - nu1 * nth a l 0.
Proof.
  destruct l as [|v0 l0]; [discriminate|]. set (l := v0 :: l0). unfold covariance. fold l.
  destruct (msolve n (length l) L _) as [U|] eqn:E1; [|discriminate]. destruct (msolve 2 (length l) A _) as [T|] eqn:E2; [|discriminate].
  intros H a b I J. destruct (SO _ _ _ _ _ E1) as [_ S1]. destruct (SO _ _ _ _ _ E2) as [_ S2].
  set (r := fun v p => Hrow v p - dt n (W p) (fun i => sf2 * kern v (x i))).
  assert (S3 : forall c q, (c < length l)%nat -> (q < 2)%nat -> A q 0%nat * T 0%nat c + A q 1%nat * T 1%nat c = r (nth c l 0) q).
  { intros c q Hc Hq. pose proof (S2 q c Hq Hc) as S4. cbn [sm] in S4. unfold r, dt, Wc. rewrite <- S4. lra. }
  assert (V : forall a b, C a b = sf2 * kern (nth a l 0) (nth b l 0) - dt n (fun i => U i a) (fun i => U i b) + (r (nth a l 0) 0%nat * T 0%nat b + r (nth a l 0) 1%nat * T 1%nat b)).
  { intros a' b'. match type of H with match _ with nil => None | _ :: _ => Some ?g end = _ => assert (EC0 : Some g = Some C) by exact H; assert (EC : C = g) by congruence end. rewrite EC. cbn [sm]. unfold r, dt, Wc. cbn [Hrow]. lra. }
  split.
  - rewrite !V, (kern_sym (nth b l 0)), (dt_sym n (fun i => U i b)). rewrite <- !(S3 a), <- !(S3 b) by (assumption || lia).
    rewrite (A_sym 1 0) by lia. lra.
  - rewrite V. apply (cov_value (nth a l 0) (nth b l 0) (fun i => U i a) (fun i => U i b) (r (nth a l 0)) (r (nth b l 0)) (fun p => T p b)); trivial.
    + intros i Hi. exact (S1 i a Hi I).
    + intros i Hi. exact (S1 i b Hi J).
    + intros q Q. now apply S3.
Qed.
Lemma each_spec {X Y} (g : X -> option Y) dx dy l r : each g l = Some r -> length r = length l /\ forall a, (a < length l)%nat -> g (nth a l dx) = Some (nth a r dy).
Proof.
  revert r. induction l as [|v l IH]; intros r H; cbn [each] in H; [injection H as <-; split; [reflexivity|]; cbn; lia|].
  destruct (g v) as [b|] eqn:G; [|discriminate]. destruct (each g l) as [r'|]; [|discriminate]. injection H as <-.
  destruct (IH r' eq_refl) as [E F]. split; [cbn; congruence|]. intros [|a] I; [exact G|]. cbn [nth]. apply F. cbn in I. lia.
Qed.
End Fit.
