(** A qr that meets numpy's contract exists: Gram-Schmidt, with unit vectors added where a column depends on those
    before it. *)
From Coq Require Import String Reals ZArith Bool Lra Lia List.
From Verif Require Import PmModel PmSpec PmProofs.
Import ListNotations.
Local Open Scope R_scope.

Section Gs.
Variable N : nat.

Definition dot (u v : nat -> R) : R := msum N (fun s => u s * v s).
(** [q] has the vectors as columns: [q s k]. *)
Definition ortho (q : nat -> nat -> R) (j : nat) : Prop := forall a b, (a < j)%nat -> (b < j)%nat -> dot (fun s => q s a) (fun s => q s b) = unit_entry a b.
Definition proj (q : nat -> nat -> R) (j : nat) (y : nat -> R) (i : nat) : R := msum j (fun k => q i k * dot (fun s => q s k) y).
Definition rest (q : nat -> nat -> R) (j : nat) (y : nat -> R) (i : nat) : R := y i - proj q j y i.
Definition e (n i : nat) : R := unit_entry i n.

Lemma dot_rest q j y a : ortho q j -> (a < j)%nat -> dot (fun s => q s a) (rest q j y) = 0.
Proof.
  intros O Ha. unfold dot, rest. rewrite (msum_ext N _ (fun s => q s a * y s - q s a * proj q j y s)) by (intros; ring). rewrite msum_minus. unfold proj.
  rewrite (msum_assoc N j (fun s => q s a) q (fun k => dot (fun s => q s k) y)). rewrite (msum_ext j _ (fun k => unit_entry a k * dot (fun s => q s k) y)) by (intros k Hk; rewrite <- (O a k Ha Hk); reflexivity).
  rewrite msum_unit_l by exact Ha. unfold dot. ring.
Qed.
Lemma norm_rest q j y : ortho q j -> dot (rest q j y) (rest q j y) = dot y y - norm2 j (fun k => dot (fun s => q s k) y).
Proof.
  intros O. unfold dot at 1. rewrite (msum_ext N _ (fun s => y s * rest q j y s - proj q j y s * rest q j y s)) by (intros; unfold rest; ring). rewrite msum_minus.
  assert (E : msum N (fun s => proj q j y s * rest q j y s) = 0).
  { unfold proj. rewrite (msum_ext N _ (fun s => rest q j y s * msum j (fun k => q s k * dot (fun s => q s k) y))) by (intros; ring).
    rewrite (msum_assoc N j (rest q j y) q (fun k => dot (fun s => q s k) y)). apply msum_zero. intros k Hk.
    rewrite (msum_ext N _ (fun s => q s k * rest q j y s)) by (intros; ring). assert (X := dot_rest q j y k O Hk). unfold dot in X at 1. rewrite X. ring. }
  rewrite E. unfold rest, proj. rewrite (msum_ext N _ (fun s => y s * y s - y s * msum j (fun k => q s k * dot (fun s => q s k) y))) by (intros; ring). rewrite msum_minus.
  rewrite (msum_assoc N j y q (fun k => dot (fun s => q s k) y)). unfold norm2, dot. rewrite Rminus_0_r. f_equal. apply msum_ext. intros k Hk. f_equal. apply msum_ext. intros; ring.
Qed.
Lemma dot_e v n : (n < N)%nat -> dot v (e n) = v n.
Proof. intros Hn. unfold dot, e. apply msum_unit_r. exact Hn. Qed.
(** The squares of what is missing from the unit vectors add up to the number of missing vectors. *)
Lemma missing q j : ortho q j -> msum N (fun n => dot (rest q j (e n)) (rest q j (e n))) = INR N - INR j.
Proof.
  intros O. rewrite (msum_ext N _ (fun n => 1 - msum j (fun k => q n k * q n k))).
  - rewrite msum_minus, msum_swap. f_equal.
    + clear. induction N as [|n IH]; [reflexivity|]. cbn [msum]. rewrite IH, S_INR. reflexivity.
    + rewrite (msum_ext j _ (fun _ => 1)); [clear; induction j as [|n IH]; [reflexivity|]; cbn [msum]; rewrite IH, S_INR; reflexivity|].
      intros k Hk. assert (X := O k k Hk Hk). unfold unit_entry in X. rewrite Nat.eqb_refl in X. exact X.
  - intros n Hn. rewrite norm_rest by exact O. rewrite dot_e by exact Hn. unfold e at 1, unit_entry at 1. rewrite Nat.eqb_refl. f_equal. unfold norm2. apply msum_ext. intros k Hk. rewrite dot_e by exact Hn. reflexivity.
Qed.
Lemma msum_zero_each n f : (forall k, (k < n)%nat -> 0 <= f k) -> msum n f = 0 -> forall k, (k < n)%nat -> f k = 0.
Proof.
  induction n as [|n IH]; intros P Z k Hk; [lia|]. cbn in Z. assert (X := msum_nonneg n f ltac:(intros; apply P; lia)). assert (Y := P n ltac:(lia)).
  destruct (Nat.eq_dec k n) as [->|Ne]; [lra|]. apply IH; [intros; apply P; lia | lra | lia].
Qed.
Lemma dot_nonneg v : 0 <= dot v v.
Proof. apply msum_nonneg. intros. nra. Qed.
Lemma dot_zero v : dot v v = 0 -> forall i, (i < N)%nat -> v i = 0.
Proof. intros Z i Hi. assert (X := msum_zero_each N (fun s => v s * v s) ltac:(intros; nra) Z i Hi). cbn in X. apply Rsqr_0_uniq. exact X. Qed.
(** N orthonormal vectors span everything. *)
Lemma complete q y i : ortho q N -> (i < N)%nat -> rest q N y i = 0.
Proof.
  intros O Hi. assert (Z := missing q N O). rewrite Rminus_diag_eq in Z by reflexivity.
  assert (X := dot_zero _ (msum_zero_each N _ ltac:(intros; apply dot_nonneg) Z i Hi)). cbv beta in X.
  assert (Y := dot_rest q N (rest q N y)). unfold rest at 1. unfold proj.
  assert (E : y i = dot (e i) y) by (unfold dot, e; rewrite (msum_ext N _ (fun s => y s * unit_entry s i)) by (intros; ring); rewrite msum_unit_r by exact Hi; reflexivity).
  rewrite E. unfold dot at 1. rewrite (msum_ext N _ (fun s => y s * proj q N (e i) s)) by (intros s Hs; assert (A := X s Hs); unfold rest in A; rewrite Rmult_comm; f_equal; lra).
  unfold proj. rewrite (msum_assoc N N y q (fun k => dot (fun s => q s k) (e i))). apply Rminus_diag_eq. apply msum_ext. intros k Hk. rewrite dot_e by exact Hi. unfold dot. rewrite Rmult_comm. f_equal. apply msum_ext. intros; ring.
Qed.

Definition normalised (u : nat -> R) (i : nat) : R := u i / sqrt (dot u u).
Fixpoint first_missing (q : nat -> nat -> R) (j n : nat) : nat -> R :=
  match n with
  | O => fun _ => 0
  | S m => if Req_EM_T (dot (rest q j (e m)) (rest q j (e m))) 0 then first_missing q j m else rest q j (e m)
  end.
Definition next (q : nat -> nat -> R) (j : nat) (y : nat -> R) : nat -> R :=
  normalised (if Req_EM_T (dot (rest q j y) (rest q j y)) 0 then first_missing q j N else rest q j y).
Fixpoint gs (Y : nat -> nat -> R) (j : nat) : nat -> nat -> R :=
  match j with
  | O => fun _ _ => 0
  | S k => fun i a => if (a =? k)%nat then next (gs Y k) k (fun s => Y s k) i else gs Y k i a
  end.

Lemma missing_found q j n : (n <= N)%nat -> ortho q j ->
  (exists m, first_missing q j n = rest q j (e m) /\ dot (first_missing q j n) (first_missing q j n) <> 0) \/ (forall m, (m < n)%nat -> dot (rest q j (e m)) (rest q j (e m)) = 0).
Proof.
  intros Hn O. induction n as [|n IH]; [right; intros; lia|]. cbn [first_missing]. destruct (Req_EM_T (dot (rest q j (e n)) (rest q j (e n))) 0) as [Z|Z].
  - destruct (IH ltac:(lia)) as [L|R]; [left; exact L|]. right. intros m Hm. destruct (Nat.eq_dec m n) as [->|Ne]; [exact Z | apply R; lia].
  - left. exists n. split; [reflexivity | exact Z].
Qed.
Lemma normalised_dot u : dot u u <> 0 -> dot (normalised u) (normalised u) = 1.
Proof.
  intros H. assert (P : 0 < dot u u) by (assert (X := dot_nonneg u); lra). assert (S := sqrt_lt_R0 _ P). unfold dot at 1, normalised.
  rewrite (msum_ext N _ (fun s => / (sqrt (dot u u) * sqrt (dot u u)) * (u s * u s))) by (intros; field; lra). rewrite msum_scal, sqrt_sqrt by lra. fold (dot u u). field. exact H.
Qed.
Lemma normalised_perp v u : dot v u = 0 -> dot v (normalised u) = 0.
Proof. intros H. unfold dot, normalised. rewrite (msum_ext N _ (fun s => / sqrt (dot u u) * (v s * u s))) by (intros; unfold Rdiv; ring). rewrite msum_scal. fold (dot v u). rewrite H. ring. Qed.
Lemma next_ok q j y : ortho q j -> (j < N)%nat -> dot (next q j y) (next q j y) = 1 /\ forall a, (a < j)%nat -> dot (fun s => q s a) (next q j y) = 0.
Proof.
  intros O Hj. unfold next.
  assert (X : exists w, dot (if Req_EM_T (dot (rest q j y) (rest q j y)) 0 then first_missing q j N else rest q j y) (if Req_EM_T (dot (rest q j y) (rest q j y)) 0 then first_missing q j N else rest q j y) <> 0
                    /\ (if Req_EM_T (dot (rest q j y) (rest q j y)) 0 then first_missing q j N else rest q j y) = rest q j w).
  { destruct (Req_EM_T (dot (rest q j y) (rest q j y)) 0) as [Z|Z]; [|exists y; split; [exact Z | reflexivity]].
    destruct (missing_found q j N (le_n _) O) as [(m & E & F)|R]; [exists (e m); split; assumption|].
    exfalso. assert (M := missing q j O). rewrite msum_zero in M by exact R. apply lt_INR in Hj. lra. }
  destruct X as (w & F & E). split; [apply normalised_dot; exact F|]. intros a Ha. apply normalised_perp. rewrite E. apply dot_rest; assumption.
Qed.
Lemma gs_ortho Y j : (j <= N)%nat -> ortho (gs Y j) j.
Proof.
  induction j as [|j IH]; intros Hj a b Ha Hb; [lia|]. assert (O := IH ltac:(lia)). destruct (next_ok (gs Y j) j (fun s => Y s j) O ltac:(lia)) as (N1 & N2). cbn [gs].
  destruct (Nat.eqb_spec a j) as [->|Na]; destruct (Nat.eqb_spec b j) as [->|Nb].
  - unfold unit_entry. rewrite Nat.eqb_refl. exact N1.
  - unfold unit_entry. rewrite (proj2 (Nat.eqb_neq j b)) by lia. rewrite <- (N2 b ltac:(lia)). unfold dot. apply msum_ext. intros; ring.
  - unfold unit_entry. rewrite (proj2 (Nat.eqb_neq a j)) by lia. apply N2. lia.
  - apply O; lia.
Qed.
Lemma gs_stable Y j k i a : (a < j)%nat -> (j <= k)%nat -> gs Y k i a = gs Y j i a.
Proof. intros Ha H. induction H as [|k H IH]; [reflexivity|]. cbn [gs]. rewrite (proj2 (Nat.eqb_neq a k)) by lia. exact IH. Qed.
(** Column j is a combination of the first j+1 vectors. *)
Lemma gs_column Y j i : (j < N)%nat -> (i < N)%nat -> exists c, (forall s, (s < N)%nat -> Y s j = msum (S j) (fun k => gs Y (S j) s k * c k)).
Proof.
  intros Hj _. set (q := gs Y j). set (y := fun s => Y s j). assert (O : ortho q j) by (apply gs_ortho; lia).
  exists (fun k => if (k =? j)%nat then sqrt (dot (rest q j y) (rest q j y)) else dot (fun s => q s k) y). intros s Hs. cbn [msum].
  rewrite (msum_ext j _ (fun k => q s k * dot (fun s => q s k) y)).
  2:{ intros k Hk. rewrite (proj2 (Nat.eqb_neq k j)) by lia. cbn [gs]. rewrite (proj2 (Nat.eqb_neq k j)) by lia. reflexivity. }
  fold (proj q j y s). cbn [gs]. rewrite Nat.eqb_refl. fold q y. unfold next. destruct (Req_EM_T (dot (rest q j y) (rest q j y)) 0) as [Z|Z].
  - rewrite Z, sqrt_0. assert (X := dot_zero _ Z s Hs). unfold rest in X. fold (y s). unfold y in *. lra.
  - assert (P : 0 < dot (rest q j y) (rest q j y)) by (assert (X := dot_nonneg (rest q j y)); lra). assert (S := sqrt_lt_R0 _ P).
    unfold normalised. replace (rest q j y s / sqrt (dot (rest q j y) (rest q j y)) * sqrt (dot (rest q j y) (rest q j y))) with (rest q j y s) by (field; lra). unfold rest, y. ring.
Qed.
End Gs.

Definition gram_schmidt (Y : mat) : mat * mat :=
  let l := Nat.min (nr Y) (nc Y) in let q := gs (nr Y) (el Y) l in
  (mkMat (nr Y) l q, mkMat l (nc Y) (fun k j => dot (nr Y) (fun s => q s k) (fun s => el Y s j))).
Theorem gram_schmidt_ok : qr_ok gram_schmidt.
Proof.
  intros Y. cbn [gram_schmidt fst snd nr nc el]. set (N := nr Y). set (l := Nat.min N (nc Y)). set (q := gs N (el Y) l).
  assert (O : ortho N q l) by (apply gs_ortho; lia).
  assert (C : forall j, (j < l)%nat -> exists c, forall s, (s < N)%nat -> el Y s j = msum (S j) (fun k => q s k * c k)).
  { intros j Hj. destruct (gs_column N (el Y) j 0 ltac:(lia) ltac:(lia)) as (c & E). exists c. intros s Hs. rewrite (E s Hs). apply msum_ext. intros k Hk. f_equal. symmetry. apply gs_stable; lia. }
  assert (CO : forall j, (j < l)%nat -> forall c, (forall s, (s < N)%nat -> el Y s j = msum (S j) (fun k => q s k * c k)) -> forall k, (k < l)%nat ->
                 dot N (fun s => q s k) (fun s => el Y s j) = if (k <? S j)%nat then c k else 0).
  { intros j Hj c E k Hk. unfold dot. rewrite (msum_ext N _ (fun s => q s k * msum (S j) (fun k => q s k * c k))) by (intros s Hs; rewrite (E s Hs); reflexivity).
    rewrite (msum_assoc N (S j) (fun s => q s k) q c). rewrite (msum_ext (S j) _ (fun a => unit_entry k a * c a)) by (intros a Ha; rewrite <- (O k a Hk ltac:(lia)); reflexivity).
    destruct (Nat.ltb_spec k (S j)) as [L|L]; [apply msum_unit_l; exact L|]. apply msum_zero. intros a Ha. unfold unit_entry. rewrite (proj2 (Nat.eqb_neq k a)) by lia. ring. }
  split; [reflexivity|]. split; [reflexivity|]. split; [exact O|]. split.
  - intros i j Hij Hi Hj. destruct (C j ltac:(lia)) as (c & E). rewrite (CO j ltac:(lia) c E i Hi). rewrite (proj2 (Nat.ltb_ge _ _)) by lia. reflexivity.
  - intros i j Hi Hj. destruct (Nat.lt_ge_cases j l) as [L|L].
    + destruct (C j L) as (c & E). rewrite (E i Hi). replace l with (S j + (l - S j))%nat at 1 by lia. rewrite msum_split.
      rewrite (msum_ext (S j) _ (fun k => q i k * dot N (fun s => q s k) (fun s => el Y s j))) at 1.
      2:{ intros k Hk. rewrite (CO j L c E k ltac:(lia)). rewrite (proj2 (Nat.ltb_lt _ _)) by lia. reflexivity. }
      rewrite (msum_zero (l - S j)); [ring|]. intros k Hk. rewrite (CO j L c E (S j + k)%nat ltac:(lia)). rewrite (proj2 (Nat.ltb_ge _ _)) by lia. ring.
    + assert (EN : l = N) by lia. rewrite EN in O |- *. assert (X := complete N q (fun s => el Y s j) i O Hi). unfold rest, proj in X. lra.
Qed.
(** For orthonormal columns the transpose is a pseudo-inverse. *)
Theorem tr_pinv : pinv_ok tr.
Proof.
  intros A O. cbn [tr nr nc]. split; [reflexivity|]. split; [reflexivity|].
  assert (U : forall i j, (i < nc A)%nat -> (j < nc A)%nat -> el (mul (tr A) A) i j = unit_entry i j) by (intros i j Hi Hj; exact (O i j Hi Hj)).
  repeat split.
  - intros i j Hi Hj. cbn [mul tr el nr nc]. rewrite <- (msum_assoc (nc A) (nr A) (el A i) (fun k s => el A s k) (fun s => el A s j)).
    rewrite (msum_ext _ _ (fun k => el A i k * unit_entry k j)) by (intros k Hk; rewrite <- (O k j Hk Hj); reflexivity). apply msum_unit_r. exact Hj.
  - intros i j Hi Hj. change (el (mul (mul (tr A) A) (tr A)) i j) with (msum (nc A) (fun k => el (mul (tr A) A) i k * el A j k)).
    rewrite (msum_ext _ _ (fun k => unit_entry i k * el A j k)) by (intros k Hk; rewrite U by assumption; reflexivity). rewrite msum_unit_l by exact Hi. reflexivity.
  - intros i j Hi Hj. cbn [mul tr el nr nc]. apply msum_ext. intros; ring.
  - intros i j Hi Hj. rewrite !U by assumption. unfold unit_entry. rewrite Nat.eqb_sym. reflexivity.
Qed.
