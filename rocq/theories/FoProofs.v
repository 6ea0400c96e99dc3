(** Proofs about convolutions. *)
From Coq Require Import Reals ZArith Bool Lra Lia List.
From Verif Require Import FtModel FtAlg FtSpec FtProofs PsSpec PsProofs FoModel FoSpec.
Import ListNotations.
Local Open Scope R_scope.

Lemma even_half n : Nat.even n = true -> (n = 2 * (n / 2))%nat.
Proof. intros E. apply Nat.even_spec in E. destruct E as [m ->]. rewrite (Nat.mul_comm 2 m), Nat.div_mul by lia. lia. Qed.
Lemma default_even X n : (0 < n)%nat -> Nat.even n = true -> length X = (n / 2 + 1)%nat -> irfft_default X = irfft X n.
Proof. intros N E L. unfold irfft_default. rewrite L. f_equal. pose proof (even_half n E). lia. Qed.
(** Imaginary parts of the spectrum at frequency zero and at half the sampling frequency do not matter. *)
Definition tidy (n : nat) (g : nat -> complex) (k : nat) : complex := if ((k =? 0) || (2 * k =? n))%nat then real (fst (g k)) else g k.
Lemma wave_half n j k : (0 < n)%nat -> (k = 0 \/ 2 * k = n)%nat -> snd (wave n (Z.of_nat j * Z.of_nat k)) = 0.
Proof.
  intros N [->|H]; [rewrite Z.mul_0_r, wave_0; reflexivity|].
  unfold wave. cbn [snd]. replace (2 * PI * IZR (Z.of_nat j * Z.of_nat k) / INR n) with (INR j * PI).
  - rewrite <- (Z.mul_1_r (Z.of_nat j)) || idtac. induction j as [|j IH]; [cbn; rewrite Rmult_0_l; apply sin_0|]. rewrite S_INR, Rmult_plus_distr_r, Rmult_1_l, neg_sin. rewrite IH. ring.
  - rewrite mult_IZR, <- !INR_IZR_INZ, <- H, mult_INR. cbn [INR]. field. apply not_0_INR. lia.
Qed.
Lemma irfft_tidy g x : (0 < length x)%nat -> irfft (times g (rfft x)) (length x) = irfft (times (tidy (length x) g) (rfft x)) (length x).
Proof.
  intros N. set (n := length x) in *. unfold irfft. apply (list_nth_eq 0); [now rewrite !map_length, !ifft_length, !map_length, !seq_length|]. rewrite map_length, ifft_length, map_length, seq_length. intros j J.
  change 0 with (fst c0). rewrite !map_nth. rewrite !ifft_nth by (rewrite map_length, seq_length; exact J). rewrite !map_length, !seq_length. rewrite !csum_parts. cbn [fst cmul real]. rewrite !Rmult_0_l. f_equal. f_equal. apply rsum_ext. intros k K.
  rewrite !nth_map_seq by exact K. unfold n. rewrite !extended_times by assumption. fold n.
  unfold whole, tidy. destruct (Nat.leb_spec (2 * k) n) as [L|L].
  - destruct (Nat.eqb_spec k 0) as [->|K0]; cbn [orb].
    + pose proof (wave_half n j 0 N ltac:(now left)) as W. pose proof (F_real0 x) as FR. cbn [fst cmul real]. rewrite W, FR. ring.
    + destruct (Nat.eqb_spec (2 * k) n) as [KN|KN]; [|reflexivity]. pose proof (wave_half n j k N ltac:(now right)) as W.
      assert (FR : snd (F x k) = 0) by (pose proof (F_conj x k ltac:(fold n; lia) N) as C; fold n in C; replace (n - k)%nat with k in C by lia; apply (f_equal snd) in C; cbn [snd conj] in C; lra). cbn [fst cmul real]. rewrite W, FR. ring.
  - destruct (Nat.eqb_spec (n - k) 0); [lia|]. destruct (Nat.eqb_spec (2 * (n - k)) n); [lia|]. reflexivity.
Qed.
Lemma tidy_0 n g : snd (tidy n g 0) = 0.
Proof. reflexivity. Qed.
Lemma tidy_half n g : snd (if Nat.even n then tidy n g (n / 2)%nat else c0) = 0.
Proof. destruct (Nat.even n) eqn:E; [|reflexivity]. apply even_half in E. unfold tidy. rewrite <- E. rewrite Nat.eqb_refl, orb_true_r. reflexivity. Qed.
Lemma general_F g x k : (0 < length x)%nat -> (2 * k <= length x)%nat -> F (irfft (times g (rfft x)) (length x)) k = cmul (tidy (length x) g k) (F x k).
Proof. intros N K. rewrite irfft_tidy by exact N. apply filtered_F; [exact N|apply tidy_0|apply tidy_half|exact K]. Qed.
Lemma csum_real n f : csum n (fun i => real (f i)) = real (rsum n f).
Proof. induction n as [|n IH]; cbn; [reflexivity|]. now rewrite IH, real_add. Qed.

(** * Products of two transforms *)
Definition circled (a b : list R) : list R := map (fun j => rsum (length b) (fun i => nth (around (length b) (Z.of_nat j - Z.of_nat i)) a 0 * nth i b 0)) (seq 0 (length b)).
Lemma circled_F a b k : length a = length b -> (0 < length b)%nat -> F (circled a b) k = cmul (F a k) (F b k).
Proof.
  intros L N. set (n := length b) in *. unfold F at 1. unfold circled. rewrite map_length, seq_length. fold n.
  rewrite (csum_ext n _ (fun j => csum n (fun i => cmul (cmul (real (nth i b 0)) (wave n (- (Z.of_nat i * Z.of_nat k)))) (cmul (real (nth (around n (Z.of_nat j + - Z.of_nat i)) a 0)) (wave n (- ((Z.of_nat j + - Z.of_nat i) * Z.of_nat k))))))).
  - rewrite csum_swap. rewrite (csum_ext n _ (fun i => cmul (cmul (real (nth i b 0)) (wave n (- (Z.of_nat i * Z.of_nat k)))) (F a k))).
    + rewrite csum_mul_r. unfold F at 3. fold n. ring.
    + intros i I. rewrite csum_mul. f_equal. set (G := fun z => cmul (real (nth (around n z) a 0)) (wave n (- (z * Z.of_nat k)))). transitivity (csum n (fun d => G (Z.of_nat d + - Z.of_nat i)%Z)); [reflexivity|]. rewrite csum_period.
      * unfold F. rewrite L. apply csum_ext. intros d D. unfold G. now rewrite around_id.
      * intros z. unfold G. f_equal.
        -- rewrite <- (Z.mul_1_l (Z.of_nat n)). now rewrite around_period.
        -- replace (- ((z + Z.of_nat n) * Z.of_nat k))%Z with (- (z * Z.of_nat k) + (- Z.of_nat k) * Z.of_nat n)%Z by ring. now apply wave_period.
  - intros j J. rewrite nth_map_seq by exact J. rewrite <- csum_real, <- csum_mul_r. apply csum_ext. intros i I. rewrite real_mul. change (Z.of_nat j + - Z.of_nat i)%Z with (Z.of_nat j - Z.of_nat i)%Z.
    transitivity (cmul (cmul (real (nth (around n (Z.of_nat j - Z.of_nat i)) a 0)) (real (nth i b 0))) (cmul (wave n (- (Z.of_nat i * Z.of_nat k))) (wave n (- ((Z.of_nat j - Z.of_nat i) * Z.of_nat k))))); [|ring]. f_equal. rewrite <- wave_add. f_equal. ring.
Qed.
Lemma circled_length a b : length (circled a b) = length b.
Proof. unfold circled. now rewrite map_length, seq_length. Qed.
Lemma F_half_real x k : (0 < length x)%nat -> (k = 0 \/ 2 * k = length x)%nat -> snd (F x k) = 0.
Proof.
  intros N [->|H]; [apply F_real0|]. pose proof (F_conj x k ltac:(lia) N) as C. replace (length x - k)%nat with k in C by lia. apply (f_equal snd) in C. cbn [snd conj] in C. lra.
Qed.
Lemma convolved_circled kernel contents : length kernel = length contents -> (0 < length contents)%nat -> Nat.even (length contents) = true -> convolved kernel contents = circled kernel contents.
Proof.
  intros L N E. unfold convolved. rewrite (default_even _ (length contents)) by (try assumption; rewrite times_length, rfft_length by exact N; reflexivity).
  apply F_determines; rewrite irfft_length; [now rewrite circled_length|]. intros k K. rewrite general_F, circled_F by assumption. f_equal. unfold tidy. rewrite rfft_nth by (rewrite L; assumption).
  destruct (Nat.eqb_spec k 0) as [->|K0]; cbn [orb]; [apply ceq; [reflexivity|cbn [snd real]; symmetry; apply F_half_real; [lia|now left]]|]. destruct (Nat.eqb_spec (2 * k) (length contents)) as [K2|K2]; [|reflexivity]. apply ceq; [reflexivity|]. cbn [snd real]. symmetry. apply F_half_real; [lia|right; lia].
Qed.
(** * Correlations *)
Definition centred_correlation (x : list R) (d : nat) : R := correlation x d - sum x ^ 2 / INR (length x).
Lemma F_0 x : F x 0 = real (sum x).
Proof.
  unfold F, sum. rewrite <- csum_real. apply csum_ext. intros j _. replace (- (Z.of_nat j * Z.of_nat 0))%Z with 0%Z by lia. rewrite wave_0. ring.
Qed.
Lemma F_const n c k : (0 < n)%nat -> (k < n)%nat -> F (map (fun _ => c) (seq 0 n)) k = if (k =? 0)%nat then real (INR n * c) else c0.
Proof.
  intros N K. unfold F. rewrite map_length, seq_length. rewrite (csum_ext n _ (fun j => cmul (real c) (wave n (Z.of_nat j * - Z.of_nat k)))) by (intros j J; rewrite nth_map_seq by exact J; do 2 f_equal; ring). rewrite csum_mul, orthogonal by exact N.
  pose proof (small_mod n 0 k N K) as S. change (Z.of_nat 0 - Z.of_nat k)%Z with (- Z.of_nat k)%Z in S. rewrite S. rewrite (Nat.eqb_sym 0 k). destruct (Nat.eqb k 0); [rewrite <- real_mul; f_equal; ring|ring].
Qed.
Lemma correlated_value x : (0 < length x)%nat -> Nat.even (length x) = true -> correlated x = map (centred_correlation x) (seq 0 (length x)).
Proof.
  intros N E. set (n := length x) in *. unfold correlated.
  set (g := fun k : nat => match k with O => c0 | _ => conj (F x k) end).
  assert (EG : map (fun k => match k with O => c0 | _ => real (fst (cmul (nth k (rfft x) c0) (conj (nth k (rfft x) c0)))) end) (seq 0 (length (rfft x))) = times g (rfft x)).
  { unfold times. apply map_ext_in. intros k K. apply in_seq in K. rewrite rfft_length in K by exact N. pose proof (even_half n E) as EH. fold n in K. destruct k as [|k]; [cbn [g]; ring|]. cbn zeta. cbn [g]. rewrite rfft_nth by (fold n; lia). apply ceq; cbn; ring. }
  rewrite EG. rewrite (default_even _ n) by (try assumption; rewrite times_length; now apply rfft_length). unfold n. apply F_determines; [rewrite irfft_length, map_length, seq_length; reflexivity|]. rewrite irfft_length. fold n. intros k K. unfold n at 1. rewrite general_F by assumption. fold n.
  assert (EC : map (centred_correlation x) (seq 0 n) = combined 1 (map (correlation x) (seq 0 n)) (-1) (map (fun _ => sum x ^ 2 / INR n) (seq 0 n))).
  { unfold combined. rewrite map_length, seq_length. apply map_ext_in. intros d D. apply in_seq in D. rewrite !nth_map_seq by lia. unfold centred_correlation. fold n. ring. }
  rewrite EC, F_combined by (now rewrite !map_length). pose proof (correlation_F x k N ltac:(fold n; lia)) as CF. fold n in CF. rewrite CF, F_const by lia. unfold tidy.
  destruct (Nat.eqb_spec k 0) as [->|K0]; cbn [orb].
  - cbn [g]. rewrite F_0. apply ceq; cbn; [field; apply not_0_INR; lia|ring].
  - assert (GK : g k = conj (F x k)) by (unfold g; destruct k; [congruence|reflexivity]). rewrite GK. destruct (Nat.eqb_spec (2 * k) n) as [K2|K2].
    + pose proof (F_half_real x k N ltac:(now right)) as H0. apply ceq; cbn; rewrite H0; ring.
    + apply ceq; cbn; ring.
Qed.
(** * Gains *)
Lemma gain_sum g x : (0 < length x)%nat -> sum (irfft (times g (rfft x)) (length x)) = fst (g 0%nat) * sum x.
Proof. intros N. pose proof (general_F g x 0 N ltac:(lia)) as H. rewrite !F_0 in H. unfold tidy in H. cbn [Nat.eqb orb] in H. rewrite <- real_mul in H. apply (f_equal fst) in H. exact H. Qed.
Lemma gain_combined g a x b y : length x = length y -> (0 < length x)%nat ->
  irfft (times g (rfft (combined a x b y))) (length x) = combined a (irfft (times g (rfft x)) (length x)) b (irfft (times g (rfft y)) (length x)).
Proof.
  intros L N. apply F_determines; [now rewrite combined_length, !irfft_length|]. rewrite irfft_length. intros k K. rewrite F_combined by (now rewrite !irfft_length). 
  pose proof (general_F g (combined a x b y) k) as H. rewrite combined_length in H. rewrite H by assumption. rewrite general_F by assumption. rewrite L. rewrite general_F by lia. rewrite <- L. rewrite F_combined by exact L. ring.
Qed.
Lemma gain_moved g s x : (0 < length x)%nat -> irfft (times g (rfft (moved s x))) (length x) = moved s (irfft (times g (rfft x)) (length x)).
Proof.
  intros N. apply F_determines; [now rewrite moved_length, !irfft_length|]. rewrite irfft_length. intros k K. rewrite F_moved by (now rewrite irfft_length). rewrite irfft_length.
  pose proof (general_F g (moved s x) k) as H. rewrite moved_length in H. rewrite H by assumption. rewrite general_F by assumption. rewrite F_moved by exact N. ring.
Qed.
Lemma gain_energy g c x : (0 < length x)%nat -> (forall k, fst (g k) ^ 2 + snd (g k) ^ 2 <= c) -> energy (irfft (times g (rfft x)) (length x)) <= c * energy x.
Proof.
  intros N H. apply contents_all; [now rewrite irfft_length|exact N|]. intros k K. rewrite general_F by assumption. set (t := tidy (length x) g k). assert (T : fst t ^ 2 + snd t ^ 2 <= c).
  { specialize (H k). unfold t, tidy. destruct (_ || _)%bool; [|exact H]. cbn. cbn in H. nra. }
  cbn [fst snd cmul]. set (u := fst t) in *. set (v := snd t) in *. set (p := fst _). set (q := snd _). replace ((u * p - v * q) ^ 2 + (u * q + v * p) ^ 2) with ((u ^ 2 + v ^ 2) * (p ^ 2 + q ^ 2)) by ring. apply Rmult_le_compat_r; [|exact T]. nra.
Qed.
Lemma mirrored_length x : length (mirrored x) = length x.
Proof. unfold mirrored. now rewrite map_length, seq_length. Qed.
Lemma F_mirrored x k : (0 < length x)%nat -> F (mirrored x) k = conj (F x k).
Proof.
  intros N. unfold F. rewrite mirrored_length, csum_conj. set (n := length x) in *.
  set (G := fun z => cmul (real (nth (around n z) x 0)) (wave n (z * Z.of_nat k))).
  transitivity (csum n (fun i => G (- Z.of_nat i)%Z)).
  - apply csum_ext. intros j J. unfold mirrored. rewrite nth_map_seq by exact J. fold n. unfold G. f_equal; [|f_equal; ring]. do 2 f_equal. unfold around. apply Nat2Z.inj. rewrite Z2Nat.id by (apply Z.mod_pos_bound; lia). rewrite Nat2Z.inj_mod, Nat2Z.inj_sub by lia. replace (Z.of_nat n - Z.of_nat j)%Z with (- Z.of_nat j + 1 * Z.of_nat n)%Z by ring. now rewrite Z.mod_add by lia.
  - rewrite csum_neg.
    + apply csum_ext. intros j J. unfold G. rewrite around_id by exact J. rewrite conj_mul, conj_real, conj_wave, Z.opp_involutive. reflexivity.
    + intros z. unfold G. f_equal.
      * rewrite <- (Z.mul_1_l (Z.of_nat n)). now rewrite around_period.
      * rewrite Z.mul_add_distr_r, (Z.mul_comm (Z.of_nat n)). now apply wave_period.
Qed.
Lemma gain_mirrored g x : (0 < length x)%nat -> irfft (times (fun k => conj (g k)) (rfft (mirrored x))) (length x) = mirrored (irfft (times g (rfft x)) (length x)).
Proof.
  intros N. apply F_determines; [now rewrite mirrored_length, !irfft_length|]. rewrite irfft_length. intros k K. rewrite F_mirrored by (now rewrite irfft_length). pose proof (general_F (fun k => conj (g k)) (mirrored x) k) as H. rewrite mirrored_length in H. rewrite H by assumption. rewrite general_F by assumption. rewrite F_mirrored by exact N. rewrite conj_mul. f_equal. unfold tidy. destruct (_ || _)%bool; [now rewrite conj_real|reflexivity].
Qed.
Lemma tail_conj w y : conj (tail w y) = tail w (- y).
Proof. unfold tail, conj. cbn [fst snd]. f_equal; [f_equal; ring|]. replace (1 + (- y) ^ 2) with (1 + y ^ 2) by ring. unfold Rdiv. ring. Qed.
Lemma tail_norm w y : fst (tail w y) ^ 2 + snd (tail w y) ^ 2 = w ^ 2 / (1 + y ^ 2).
Proof. unfold tail. cbn [fst snd]. field. nra. Qed.
Lemma norm_add a b p q : 0 <= p -> 0 <= q -> fst a ^ 2 + snd a ^ 2 <= p ^ 2 -> fst b ^ 2 + snd b ^ 2 <= q ^ 2 -> fst (cadd a b) ^ 2 + snd (cadd a b) ^ 2 <= (p + q) ^ 2.
Proof.
  intros P Q A B. cbn [fst snd cadd]. set (x := fst a) in *. set (y := snd a) in *. set (u := fst b) in *. set (v := snd b) in *.
  assert (C : x * u + y * v <= p * q).
  { apply Rnot_lt_le. intros H. assert (H2 : (p * q) ^ 2 < (x * u + y * v) ^ 2) by (assert (0 <= p * q) by (apply Rmult_le_pos; assumption); nra). assert (H3 : (x * u + y * v) ^ 2 <= (x ^ 2 + y ^ 2) * (u ^ 2 + v ^ 2)) by (pose proof (pow2_ge_0 (x * v - y * u)); nra). assert (H4 : (x ^ 2 + y ^ 2) * (u ^ 2 + v ^ 2) <= p ^ 2 * q ^ 2) by (apply Rmult_le_compat; try assumption; nra). nra. }
  nra.
Qed.
