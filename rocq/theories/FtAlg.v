(** Complex numbers and discrete Fourier transforms. *)
From Coq Require Import Reals ZArith Bool Lra Lia List.
From Verif Require Import FtModel.
Import ListNotations.
Local Open Scope R_scope.

Lemma ceq (a b : complex) : fst a = fst b -> snd a = snd b -> a = b.
Proof. destruct a, b. cbn. congruence. Qed.
Lemma complex_ring : ring_theory c0 c1 cadd cmul csub copp (@eq complex).
Proof. constructor; intros; try reflexivity; apply ceq; cbn; ring. Qed.
Add Ring Complex : complex_ring.

Lemma conj_add a b : conj (cadd a b) = cadd (conj a) (conj b).
Proof. apply ceq; cbn; ring. Qed.
Lemma conj_mul a b : conj (cmul a b) = cmul (conj a) (conj b).
Proof. apply ceq; cbn; ring. Qed.
Lemma conj_conj a : conj (conj a) = a.
Proof. apply ceq; cbn; ring. Qed.
Lemma conj_real x : conj (real x) = real x.
Proof. apply ceq; cbn; ring. Qed.
Lemma conj_c0 : conj c0 = c0.
Proof. apply ceq; cbn; ring. Qed.
Lemma real_add x y : real (x + y) = cadd (real x) (real y).
Proof. apply ceq; cbn; ring. Qed.
Lemma real_mul x y : real (x * y) = cmul (real x) (real y).
Proof. apply ceq; cbn; ring. Qed.
Lemma domain a b : cmul a b = c0 -> a <> c0 -> b = c0.
Proof.
  intros H N. assert (Q : fst a * fst a + snd a * snd a <> 0).
  { intros E. apply N. apply ceq; cbn; nra. }
  injection H as H1 H2. assert (E1 : (fst a * fst a + snd a * snd a) * fst b = 0) by (replace ((fst a * fst a + snd a * snd a) * fst b) with (fst a * (fst a * fst b - snd a * snd b) + snd a * (fst a * snd b + snd a * fst b)) by ring; rewrite H1, H2; ring).
  assert (E2 : (fst a * fst a + snd a * snd a) * snd b = 0) by (replace ((fst a * fst a + snd a * snd a) * snd b) with (fst a * (fst a * snd b + snd a * fst b) - snd a * (fst a * fst b - snd a * snd b)) by ring; rewrite H1, H2; ring).
  apply ceq; cbn; eapply Rmult_eq_reg_l; try exact Q; lra.
Qed.

(** * Sums *)
Lemma csum_ext n f g : (forall i, (i < n)%nat -> f i = g i) -> csum n f = csum n g.
Proof. induction n as [|n IH]; intros H; cbn; [reflexivity|]. rewrite IH, H by (intros; try apply H; lia). reflexivity. Qed.
Lemma csum_add n f g : csum n (fun i => cadd (f i) (g i)) = cadd (csum n f) (csum n g).
Proof. induction n as [|n IH]; cbn; [ring|]. rewrite IH. ring. Qed.
Lemma csum_mul n a f : csum n (fun i => cmul a (f i)) = cmul a (csum n f).
Proof. induction n as [|n IH]; cbn; [ring|]. rewrite IH. ring. Qed.
Lemma csum_mul_r n a f : csum n (fun i => cmul (f i) a) = cmul (csum n f) a.
Proof. induction n as [|n IH]; cbn; [ring|]. rewrite IH. ring. Qed.
Lemma csum_zero n f : (forall i, (i < n)%nat -> f i = c0) -> csum n f = c0.
Proof. intros H. rewrite (csum_ext n f (fun _ => c0) H). clear H. induction n as [|n IH]; cbn; [reflexivity|]. rewrite IH. ring. Qed.
Lemma csum_swap n m (f : nat -> nat -> complex) : csum n (fun i => csum m (f i)) = csum m (fun j => csum n (fun i => f i j)).
Proof.
  induction n as [|n IH]; cbn; [symmetry; now apply csum_zero|]. rewrite IH, <- csum_add. reflexivity.
Qed.
Lemma csum_conj n f : conj (csum n f) = csum n (fun i => conj (f i)).
Proof. induction n as [|n IH]; cbn; [apply conj_c0|]. now rewrite conj_add, IH. Qed.
Lemma csum_one n f k : (k < n)%nat -> (forall i, (i < n)%nat -> i <> k -> f i = c0) -> csum n f = f k.
Proof.
  induction n as [|n IH]; intros K H; [lia|]. cbn. destruct (Nat.eq_dec k n) as [->|N].
  - rewrite csum_zero by (intros; apply H; lia). ring.
  - rewrite IH by (try lia; intros; apply H; lia). rewrite (H n) by lia. ring.
Qed.
Lemma csum_shift n f : csum (S n) f = cadd (f O) (csum n (fun i => f (S i))).
Proof. induction n as [|n IH]; [cbn; ring|]. cbn [csum] in *. rewrite IH. ring. Qed.
Lemma csum_rev n f : csum n (fun i => f (n - 1 - i)%nat) = csum n f.
Proof.
  induction n as [|n IH]; [reflexivity|]. rewrite csum_shift. cbn [csum]. replace (S n - 1 - 0)%nat with n by lia. rewrite <- IH.
  rewrite (csum_ext n (fun i => f (S n - 1 - S i)%nat) (fun i => f (n - 1 - i)%nat)) by (intros; f_equal; lia). ring.
Qed.
Lemma csum_const n a : csum n (fun _ => a) = cmul (real (INR n)) a.
Proof. induction n as [|n IH]; [cbn; apply ceq; cbn; ring|]. cbn [csum]. rewrite IH, S_INR, real_add. change (real 1) with c1. ring. Qed.
(** A sum over one period of a periodic function does not depend on where it starts. *)
Lemma csum_period n (F : Z -> complex) : (forall z, F (z + Z.of_nat n)%Z = F z) -> forall a, csum n (fun i => F (Z.of_nat i + a)%Z) = csum n (fun i => F (Z.of_nat i)).
Proof.
  intros P.
  assert (S1 : forall a, csum n (fun i => F (Z.of_nat i + (a + 1))%Z) = csum n (fun i => F (Z.of_nat i + a)%Z)).
  { intros a. destruct n as [|m]; [reflexivity|]. rewrite (csum_shift m (fun i => F (Z.of_nat i + a)%Z)). cbn [csum].
    rewrite (csum_ext m (fun i => F (Z.of_nat i + (a + 1))%Z) (fun i => F (Z.of_nat (S i) + a)%Z)) by (intros; f_equal; lia).
    replace (Z.of_nat m + (a + 1))%Z with (Z.of_nat 0 + a + Z.of_nat (S m))%Z by lia. rewrite P. ring. }
  assert (S2 : forall k a, csum n (fun i => F (Z.of_nat i + (a + Z.of_nat k))%Z) = csum n (fun i => F (Z.of_nat i + a)%Z)).
  { induction k as [|k IH]; intros a; [now rewrite Z.add_0_r|]. rewrite Nat2Z.inj_succ. replace (a + Z.succ (Z.of_nat k))%Z with (a + Z.of_nat k + 1)%Z by lia. now rewrite S1. }
  intros a. destruct (Z.le_ge_cases 0 a) as [L|L].
  - rewrite <- (Z2Nat.id a L). rewrite (csum_ext n _ (fun i => F (Z.of_nat i + (0 + Z.of_nat (Z.to_nat a)))%Z)) by (intros; f_equal). rewrite S2. apply csum_ext. intros; f_equal; lia.
  - rewrite <- (S2 (Z.to_nat (- a)) a). apply csum_ext. intros. f_equal. lia.
Qed.
Lemma csum_neg n (F : Z -> complex) : (forall z, F (z + Z.of_nat n)%Z = F z) -> csum n (fun i => F (- Z.of_nat i)%Z) = csum n (fun i => F (Z.of_nat i)).
Proof.
  intros P. rewrite <- csum_rev. rewrite (csum_ext n (fun i => F (- Z.of_nat (n - 1 - i))%Z) (fun i => F (Z.of_nat i + (1 - Z.of_nat n))%Z)) by (intros; f_equal; lia). apply csum_period, P.
Qed.

(** * Waves *)
Lemma wave_add n a b : wave n (a + b) = cmul (wave n a) (wave n b).
Proof.
  unfold wave. cbn zeta. replace (2 * PI * IZR (a + b) / INR n) with (2 * PI * IZR a / INR n + 2 * PI * IZR b / INR n) by (rewrite plus_IZR; unfold Rdiv; ring).
  apply ceq; cbn; [rewrite cos_plus; ring|rewrite sin_plus; ring].
Qed.
Lemma wave_0 n : wave n 0 = c1.
Proof. unfold wave. cbn zeta. replace (2 * PI * 0 / INR n) with 0 by (unfold Rdiv; ring). now rewrite cos_0, sin_0. Qed.
Lemma conj_wave n a : conj (wave n a) = wave n (- a).
Proof.
  unfold wave, conj. cbn. replace (2 * PI * IZR (- a) / INR n) with (- (2 * PI * IZR a / INR n)) by (rewrite opp_IZR; unfold Rdiv; ring). now rewrite cos_neg, sin_neg.
Qed.
Lemma wave_full n q : (0 < n)%nat -> wave n (q * Z.of_nat n) = c1.
Proof.
  intros N. assert (P : (INR n <> 0)) by (apply not_0_INR; lia).
  assert (F : forall k, wave n (Z.of_nat k * Z.of_nat n) = c1).
  { intros k. unfold wave. cbn zeta. replace (2 * PI * IZR (Z.of_nat k * Z.of_nat n) / INR n) with (0 + 2 * INR k * PI) by (rewrite mult_IZR, <- !INR_IZR_INZ; field; exact P).
    now rewrite cos_period, sin_period, cos_0, sin_0. }
  destruct (Z.le_ge_cases 0 q) as [L|L].
  - rewrite <- (Z2Nat.id q L). apply F.
  - assert (E : wave n (- (q * Z.of_nat n)) = c1) by (replace (- (q * Z.of_nat n))%Z with (Z.of_nat (Z.to_nat (- q)) * Z.of_nat n)%Z by lia; apply F).
    rewrite <- conj_wave in E. apply (f_equal conj) in E. rewrite conj_conj in E. rewrite E. apply ceq; cbn; ring.
Qed.
Lemma wave_period n a q : (0 < n)%nat -> wave n (a + q * Z.of_nat n) = wave n a.
Proof. intros N. rewrite wave_add, wave_full by exact N. ring. Qed.
Lemma wave_mod n a : (0 < n)%nat -> wave n (a mod Z.of_nat n) = wave n a.
Proof. intros N. rewrite (Z.div_mod a (Z.of_nat n)) at 2 by lia. rewrite Z.add_comm, Z.mul_comm. now rewrite wave_period. Qed.
Lemma wave_one n a : (0 < n)%nat -> wave n a = c1 -> (a mod Z.of_nat n = 0)%Z.
Proof.
  intros N H. rewrite <- wave_mod in H by exact N. set (r := (a mod Z.of_nat n)%Z) in *. assert (B : (0 <= r < Z.of_nat n)%Z) by (apply Z.mod_pos_bound; lia).
  destruct (Z.eq_dec r 0) as [E|E]; [exact E|]. exfalso. unfold wave in H. cbn zeta in H. injection H as H _.
  assert (P : 0 < INR n) by (apply lt_0_INR; lia). assert (R1 : 0 < IZR r) by (apply IZR_lt; lia). assert (R2 : IZR r < INR n) by (rewrite INR_IZR_INZ; apply IZR_lt; lia).
  pose proof PI_RGT_0 as PI0. assert (T : 0 < PI * IZR r / INR n < PI).
  { assert (U : 0 < IZR r / INR n < 1) by (split; [now apply Rdiv_lt_0_compat|apply Rmult_lt_reg_r with (INR n); [exact P|]; unfold Rdiv; rewrite Rmult_assoc, Rinv_l by lra; lra]).
    replace (PI * IZR r / INR n) with (PI * (IZR r / INR n)) by (unfold Rdiv; ring). nra. }
  pose proof (sin_gt_0 _ (proj1 T) (proj2 T)) as S.
  replace (2 * PI * IZR r / INR n) with (2 * (PI * IZR r / INR n)) in H by (unfold Rdiv; ring). rewrite cos_2a_sin in H. nra.
Qed.
(** Waves over a whole number of turns add up to nothing. *)
Lemma orthogonal n d : (0 < n)%nat -> csum n (fun k => wave n (Z.of_nat k * d)) = if (d mod Z.of_nat n =? 0)%Z then real (INR n) else c0.
Proof.
  intros N. destruct (Z.eqb_spec (d mod Z.of_nat n) 0) as [E|E].
  - rewrite (csum_ext n _ (fun _ => c1)).
    + rewrite csum_const. ring.
    + intros k _. rewrite (Z.div_mod d (Z.of_nat n)), E, Z.add_0_r by lia. replace (Z.of_nat k * (Z.of_nat n * (d / Z.of_nat n)))%Z with (Z.of_nat k * (d / Z.of_nat n) * Z.of_nat n)%Z by ring. now apply wave_full.
  - set (s := csum n _). assert (P : cmul s (wave n d) = s).
    { unfold s. rewrite <- csum_mul_r. rewrite <- (csum_period n (fun z => wave n (z * d)) ) with (a := 1%Z).
      - apply csum_ext. intros i _. rewrite <- wave_add. f_equal. ring.
      - intros z. rewrite Z.mul_add_distr_r, (Z.mul_comm (Z.of_nat n)). now apply wave_period. }
    apply domain with (a := csub (wave n d) c1).
    + transitivity (csub (cmul s (wave n d)) s); [ring|]. rewrite P. ring.
    + intros Q. apply E, wave_one; [exact N|]. transitivity (cadd (csub (wave n d) c1) c1); [ring|]. rewrite Q. ring.
Qed.

(** * Transforms *)
Lemma nth_map_seq {A} (f : nat -> A) n k d : (k < n)%nat -> nth k (map f (seq 0 n)) d = f k.
Proof. intros H. rewrite (nth_indep _ d (f 0%nat)) by (rewrite map_length, seq_length; exact H). rewrite map_nth, seq_nth by exact H. reflexivity. Qed.
Lemma fft_length x : length (fft x) = length x.
Proof. unfold fft. now rewrite map_length, seq_length. Qed.
Lemma ifft_length x : length (ifft x) = length x.
Proof. unfold ifft. now rewrite map_length, seq_length. Qed.
Lemma fft_nth x k : (k < length x)%nat -> nth k (fft x) c0 = csum (length x) (fun j => cmul (nth j x c0) (wave (length x) (- (Z.of_nat j * Z.of_nat k)))).
Proof. intros H. unfold fft. rewrite nth_map_seq by exact H. apply csum_ext. intros j _. rewrite conj_wave. do 3 f_equal. lia. Qed.
Lemma ifft_nth x j : (j < length x)%nat -> nth j (ifft x) c0 = cmul (real (/ INR (length x))) (csum (length x) (fun k => cmul (nth k x c0) (wave (length x) (Z.of_nat j * Z.of_nat k)))).
Proof. intros H. unfold ifft. rewrite nth_map_seq by exact H. f_equal. apply csum_ext. intros k _. do 2 f_equal. lia. Qed.
Lemma list_nth_eq {A} (d : A) a b : length a = length b -> (forall i, (i < length a)%nat -> nth i a d = nth i b d) -> a = b.
Proof. intros L H. exact (nth_ext a b d d L H). Qed.
Lemma inv_real n a : (0 < n)%nat -> cmul (real (/ INR n)) (cmul (real (INR n)) a) = a.
Proof. intros N. assert (INR n <> 0) by (apply not_0_INR; lia). transitivity (cmul (cmul (real (/ INR n)) (real (INR n))) a); [ring|]. rewrite <- real_mul, Rinv_l by assumption. change (real 1) with c1. ring. Qed.
Lemma small_mod n i j : (i < n)%nat -> (j < n)%nat -> ((Z.of_nat i - Z.of_nat j) mod Z.of_nat n =? 0)%Z = (i =? j)%nat.
Proof.
  intros I J. destruct (Nat.eqb_spec i j) as [->|N]; [rewrite Z.sub_diag, Z.mod_0_l by lia; reflexivity|]. apply Z.eqb_neq. intros E. apply Z.mod_divide in E; [|lia]. destruct E as [q E]. assert (q = 0 \/ 1 <= q \/ q <= -1)%Z as [->|[Q|Q]] by lia; nia.
Qed.
Lemma ifft_fft x : (0 < length x)%nat -> ifft (fft x) = x.
Proof.
  intros N. apply (list_nth_eq c0); [now rewrite ifft_length, fft_length|]. rewrite ifft_length, fft_length. intros j J. rewrite ifft_nth; rewrite fft_length; [|exact J]. set (n := length x) in *.
  rewrite (csum_ext n _ (fun k => csum n (fun i => cmul (nth i x c0) (wave n (Z.of_nat k * (Z.of_nat j - Z.of_nat i)))))).
  - rewrite csum_swap. rewrite (csum_ext n _ (fun i => cmul (nth i x c0) (if (i =? j)%nat then real (INR n) else c0))).
    + rewrite (csum_one n _ j J); [|intros i _ D; destruct (Nat.eqb_spec i j); [contradiction|ring]]. rewrite Nat.eqb_refl. transitivity (cmul (real (/ INR n)) (cmul (real (INR n)) (nth j x c0))); [ring|]. now apply inv_real.
    + intros i I. rewrite csum_mul, orthogonal by exact N. rewrite small_mod by assumption. now rewrite Nat.eqb_sym.
  - intros k K. rewrite fft_nth by exact K. rewrite <- csum_mul_r. apply csum_ext. intros i I. fold n. transitivity (cmul (nth i x c0) (cmul (wave n (- (Z.of_nat i * Z.of_nat k))) (wave n (Z.of_nat j * Z.of_nat k)))); [ring|]. rewrite <- wave_add. do 2 f_equal. ring.
Qed.
Lemma fft_ifft x : (0 < length x)%nat -> fft (ifft x) = x.
Proof.
  intros N. apply (list_nth_eq c0); [now rewrite fft_length, ifft_length|]. rewrite fft_length, ifft_length. intros k K. rewrite fft_nth; rewrite ifft_length; [|exact K]. set (n := length x) in *.
  rewrite (csum_ext n _ (fun j => cmul (real (/ INR n)) (csum n (fun i => cmul (nth i x c0) (wave n (Z.of_nat j * (Z.of_nat i - Z.of_nat k))))))).
  - rewrite csum_mul, csum_swap. rewrite (csum_ext n _ (fun i => cmul (nth i x c0) (if (i =? k)%nat then real (INR n) else c0))).
    + rewrite (csum_one n _ k K); [|intros i _ D; destruct (Nat.eqb_spec i k); [contradiction|ring]]. rewrite Nat.eqb_refl. transitivity (cmul (real (/ INR n)) (cmul (real (INR n)) (nth k x c0))); [ring|]. now apply inv_real.
    + intros i I. rewrite csum_mul, orthogonal by exact N. now rewrite small_mod by assumption.
  - intros j J. rewrite ifft_nth by exact J. fold n. transitivity (cmul (real (/ INR n)) (cmul (csum n (fun k0 => cmul (nth k0 x c0) (wave n (Z.of_nat j * Z.of_nat k0)))) (wave n (- (Z.of_nat j * Z.of_nat k))))); [ring|]. f_equal.
    rewrite <- csum_mul_r. apply csum_ext. intros i I. transitivity (cmul (nth i x c0) (cmul (wave n (Z.of_nat j * Z.of_nat i)) (wave n (- (Z.of_nat j * Z.of_nat k))))); [ring|]. rewrite <- wave_add. do 2 f_equal. ring.
Qed.
(** A product of spectra is the spectrum of a circular convolution. *)
Definition around (n : nat) (z : Z) : nat := Z.to_nat (z mod Z.of_nat n).
Lemma around_lt n z : (0 < n)%nat -> (around n z < n)%nat.
Proof. intros N. unfold around. pose proof (Z.mod_pos_bound z (Z.of_nat n)). lia. Qed.
Lemma wave_around n z k : (0 < n)%nat -> wave n (Z.of_nat (around n z) * k) = wave n (z * k).
Proof.
  intros N. unfold around. rewrite Z2Nat.id by (apply Z.mod_pos_bound; lia). rewrite (Z.div_mod z (Z.of_nat n)) at 2 by lia. replace ((Z.of_nat n * (z / Z.of_nat n) + z mod Z.of_nat n) * k)%Z with ((z mod Z.of_nat n) * k + (z / Z.of_nat n * k) * Z.of_nat n)%Z by ring. now rewrite wave_period.
Qed.
Lemma ifft_product h x j : length h = length x -> (j < length x)%nat ->
  nth j (ifft (map (fun k => cmul (nth k h c0) (nth k (fft x) c0)) (seq 0 (length x)))) c0 =
  csum (length x) (fun i => cmul (nth (around (length x) (Z.of_nat j - Z.of_nat i)) (ifft h) c0) (nth i x c0)).
Proof.
  intros LH J. set (n := length x) in *. assert (N : (0 < n)%nat) by lia. rewrite ifft_nth; rewrite map_length, seq_length; [|exact J].
  rewrite (csum_ext n _ (fun k => csum n (fun i => cmul (cmul (nth k h c0) (wave n ((Z.of_nat j - Z.of_nat i) * Z.of_nat k))) (nth i x c0)))).
  - rewrite csum_swap, <- csum_mul. apply csum_ext. intros i I. rewrite csum_mul_r. rewrite ifft_nth by (rewrite LH; now apply around_lt). rewrite LH. rewrite (csum_ext n (fun k => cmul (nth k h c0) (wave n (Z.of_nat (around n (Z.of_nat j - Z.of_nat i)) * Z.of_nat k))) (fun k => cmul (nth k h c0) (wave n ((Z.of_nat j - Z.of_nat i) * Z.of_nat k)))).
    + ring.
    + intros k _. now rewrite wave_around.
  - intros k K. rewrite nth_map_seq by exact K. rewrite fft_nth by exact K. fold n. transitivity (cmul (csum n (fun j0 => cmul (nth j0 x c0) (wave n (- (Z.of_nat j0 * Z.of_nat k))))) (cmul (nth k h c0) (wave n (Z.of_nat j * Z.of_nat k)))); [ring|].
    rewrite <- csum_mul_r. apply csum_ext. intros i I. transitivity (cmul (cmul (nth k h c0) (cmul (wave n (- (Z.of_nat i * Z.of_nat k))) (wave n (Z.of_nat j * Z.of_nat k)))) (nth i x c0)); [ring|]. rewrite <- wave_add. do 3 f_equal. ring.
Qed.
