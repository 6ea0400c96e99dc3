(** Proofs about filters that scale the oscillations of a vector. *)
From Coq Require Import Reals ZArith Bool Lra Lia List.
From Verif Require Import FtModel FtAlg FtSpec.
Import ListNotations.
Local Open Scope R_scope.

(** the coefficient at k *)
Definition F (x : list R) (k : nat) : complex := csum (length x) (fun j => cmul (real (nth j x 0)) (wave (length x) (- (Z.of_nat j * Z.of_nat k)))).
Lemma nth_real x j : nth j (map real x) c0 = real (nth j x 0).
Proof. change c0 with (real 0). apply map_nth. Qed.
Lemma fft_F x k : (k < length x)%nat -> nth k (fft (map real x)) c0 = F x k.
Proof. intros K. rewrite fft_nth by (now rewrite map_length). rewrite map_length. apply csum_ext. intros j _. now rewrite nth_real. Qed.
Lemma wave_turn n j k : wave n (- (Z.of_nat j * Z.of_nat k)) = (cos (turn n k j), - sin (turn n k j)).
Proof.
  unfold wave, turn. cbn zeta. replace (2 * PI * IZR (- (Z.of_nat j * Z.of_nat k)) / INR n) with (- (2 * PI * INR j * INR k / INR n)); [now rewrite cos_neg, sin_neg|].
  rewrite opp_IZR, mult_IZR, <- !INR_IZR_INZ. unfold Rdiv. ring.
Qed.
Lemma csum_parts n (f : nat -> complex) : csum n f = (rsum n (fun i => fst (f i)), rsum n (fun i => snd (f i))).
Proof. induction n as [|n IH]; cbn; [reflexivity|]. now rewrite IH. Qed.
Lemma rsum_ext n f g : (forall i, (i < n)%nat -> f i = g i) -> rsum n f = rsum n g.
Proof. induction n as [|n IH]; intros H; cbn; [reflexivity|]. rewrite IH, H by (intros; try apply H; lia). reflexivity. Qed.
Lemma rsum_le n f g : (forall i, (i < n)%nat -> f i <= g i) -> rsum n f <= rsum n g.
Proof. induction n as [|n IH]; intros H; cbn; [lra|]. assert (rsum n f <= rsum n g) by (apply IH; intros; apply H; lia). specialize (H n ltac:(lia)). lra. Qed.
Lemma rsum_opp n f : rsum n (fun i => - f i) = - rsum n f.
Proof. induction n as [|n IH]; cbn; [ring|]. rewrite IH. ring. Qed.
Lemma F_contents x k : F x k = (cosines x k, - sines x k).
Proof.
  unfold F. rewrite csum_parts. unfold cosines, sines. f_equal.
  - apply rsum_ext. intros j _. rewrite wave_turn. cbn. ring.
  - rewrite <- rsum_opp. apply rsum_ext. intros j _. rewrite wave_turn. cbn. ring.
Qed.
Lemma F_conj x k : (k <= length x)%nat -> (0 < length x)%nat -> F x (length x - k) = conj (F x k).
Proof.
  intros K N. unfold F. rewrite csum_conj. apply csum_ext. intros j _. rewrite conj_mul, conj_real, conj_wave. f_equal.
  rewrite Nat2Z.inj_sub by exact K. replace (- (Z.of_nat j * (Z.of_nat (length x) - Z.of_nat k)))%Z with (- - (Z.of_nat j * Z.of_nat k) + (- Z.of_nat j) * Z.of_nat (length x))%Z by ring. now apply wave_period.
Qed.
Lemma F_determines x y : length x = length y -> (forall k, (2 * k <= length x)%nat -> F x k = F y k) -> x = y.
Proof.
  intros L H. destruct (Nat.eq_dec (length x) 0) as [Z|Z]; [destruct x, y; cbn in *; congruence|].
  assert (A : fft (map real x) = fft (map real y)).
  { apply (list_nth_eq c0); rewrite !fft_length, !map_length; [exact L|]. intros k K. rewrite !fft_F by lia. destruct (Nat.le_gt_cases (2 * k) (length x)) as [G|G]; [now apply H|].
    replace k with (length x - (length x - k))%nat by lia. rewrite F_conj by lia. rewrite (H (length x - k)%nat) by lia. rewrite L in *. rewrite !F_conj by lia. reflexivity. }
  assert (B : map real x = map real y) by (rewrite <- (ifft_fft (map real x)), <- (ifft_fft (map real y)) by (rewrite map_length; lia); now rewrite A).
  apply (f_equal (map fst)) in B. rewrite !map_map in B. cbn in B. now rewrite !map_id in B.
Qed.

(** * irfft *)
Lemma irfft_length X n : length (irfft X n) = n.
Proof. unfold irfft. now rewrite map_length, ifft_length, map_length, seq_length. Qed.
Lemma times_length g X : length (times g X) = length X.
Proof. unfold times. now rewrite map_length, seq_length. Qed.
Lemma rfft_length x : (0 < length x)%nat -> length (rfft x) = (length x / 2 + 1)%nat.
Proof. intros N. unfold rfft. rewrite firstn_length, fft_length, map_length. pose proof (Nat.div_lt (length x) 2 N). lia. Qed.
Lemma nth_firstn {A} (l : list A) n k d : (k < n)%nat -> nth k (firstn n l) d = nth k l d.
Proof. revert n k. induction l as [|a l IH]; intros [|n] [|k] H; cbn; try reflexivity; try lia. apply IH. lia. Qed.
Lemma half n k : (2 * k <= n -> k < n / 2 + 1)%nat.
Proof. intros H. pose proof (Nat.div_le_lower_bound n 2 k). lia. Qed.
Lemma rfft_nth x k : (0 < length x)%nat -> (2 * k <= length x)%nat -> nth k (rfft x) c0 = F x k.
Proof. intros N K. unfold rfft. rewrite nth_firstn by (now apply half). apply fft_F. lia. Qed.
Definition whole (n : nat) (g : nat -> complex) (k : nat) : complex := if (2 * k <=? n)%nat then g k else conj (g (n - k)%nat).
Lemma extended_times g x k : (0 < length x)%nat -> (k < length x)%nat -> extended (times g (rfft x)) (length x) k = cmul (whole (length x) g k) (F x k).
Proof.
  intros N K. unfold extended, whole. destruct (Nat.leb_spec (2 * k) (length x)) as [L|L].
  - unfold times. rewrite nth_map_seq by (rewrite rfft_length by exact N; now apply half). now rewrite rfft_nth.
  - unfold times. rewrite nth_map_seq by (rewrite rfft_length by exact N; apply half; lia). rewrite rfft_nth by lia. rewrite conj_mul, F_conj by lia. now rewrite conj_conj.
Qed.
(** A spectrum that is conjugate to its mirror image belongs to a real vector. *)
Lemma ifft_real X : (forall k, (0 < k < length X)%nat -> nth (length X - k) X c0 = conj (nth k X c0)) -> snd (nth 0 X c0) = 0 -> map real (map fst (ifft X)) = ifft X.
Proof.
  intros H Z. set (n := length X) in *. apply (list_nth_eq c0); rewrite !map_length; [reflexivity|]. rewrite ifft_length. intros j J. fold n in J.
  assert (N : (0 < n)%nat) by lia. rewrite nth_real. change 0 with (fst c0). rewrite map_nth. set (v := nth j (ifft X) c0). assert (C : conj v = v).
  { unfold v. rewrite ifft_nth by exact J. fold n. rewrite conj_mul, conj_real, csum_conj. f_equal.
    set (f := fun k => cmul (nth k X c0) (wave n (Z.of_nat j * Z.of_nat k))). transitivity (csum n f); [|reflexivity].
    destruct n as [|m] eqn:E; [lia|]. rewrite !csum_shift. f_equal.
    - unfold f. rewrite conj_mul. cbn [Z.of_nat]. rewrite Z.mul_0_r, wave_0. apply ceq; cbn; rewrite Z; ring.
    - rewrite <- (csum_rev m (fun i => f (S i))). apply csum_ext. intros i I. unfold f. rewrite conj_mul. replace (S (m - 1 - i)) with (S m - S i)%nat by lia. rewrite H by lia. f_equal.
      rewrite conj_wave. rewrite Nat2Z.inj_sub by lia. replace (Z.of_nat j * (Z.of_nat (S m) - Z.of_nat (S i)))%Z with (- (Z.of_nat j * Z.of_nat (S i)) + Z.of_nat j * Z.of_nat (S m))%Z by ring. now rewrite wave_period. }
  apply ceq; [reflexivity|]. apply (f_equal snd) in C. cbn in C. cbn. lra.
Qed.
Lemma whole_mirror n g k : (0 < k < n)%nat -> snd (if Nat.even n then g (n / 2)%nat else c0) = 0 -> whole n g (n - k) = conj (whole n g k).
Proof.
  intros K E. unfold whole. destruct (Nat.leb_spec (2 * k) n) as [A|A], (Nat.leb_spec (2 * (n - k)) n) as [B|B]; try lia.
  - assert (M : n = (2 * k)%nat) by lia. replace (n - k)%nat with k by lia. rewrite M, Nat.even_mul, Nat.mul_comm, Nat.div_mul in E by lia. cbn in E. apply ceq; cbn; lra.
  - replace (n - (n - k))%nat with k by lia. reflexivity.
  - now rewrite conj_conj.
Qed.
Lemma F_real0 x : snd (F x 0) = 0.
Proof. rewrite F_contents. cbn. unfold sines. rewrite (rsum_ext _ _ (fun _ => 0)); [induction (length x) as [|n IH]; cbn; lra|]. intros j _. unfold turn. cbn. replace (2 * PI * INR j * 0 / INR (length x)) with 0 by (unfold Rdiv; ring). rewrite sin_0. ring. Qed.
(** What scaling the spectrum does, for gains that are real where they must be. *)
Lemma filtered g x : (0 < length x)%nat -> snd (g 0%nat) = 0 -> snd (if Nat.even (length x) then g (length x / 2)%nat else c0) = 0 ->
  map real (irfft (times g (rfft x)) (length x)) = ifft (map (fun k => cmul (whole (length x) g k) (nth k (fft (map real x)) c0)) (seq 0 (length x))).
Proof.
  intros N G0 G2. unfold irfft. set (X := map (extended _ _) _).
  assert (EX : X = map (fun k => cmul (whole (length x) g k) (nth k (fft (map real x)) c0)) (seq 0 (length x))).
  { unfold X. apply map_ext_in. intros k K. apply in_seq in K. rewrite extended_times, fft_F by lia. reflexivity. }
  rewrite EX. apply ifft_real; rewrite ?map_length, ?seq_length.
  - intros k K. rewrite !nth_map_seq by lia. rewrite !fft_F by lia. rewrite conj_mul, <- F_conj by lia. f_equal. now apply whole_mirror.
  - rewrite nth_map_seq by exact N. rewrite fft_F by exact N. pose proof (F_real0 x) as R0. unfold whole. cbn. rewrite G0, R0. ring.
Qed.
Lemma filtered_F g x k : (0 < length x)%nat -> snd (g 0%nat) = 0 -> snd (if Nat.even (length x) then g (length x / 2)%nat else c0) = 0 -> (2 * k <= length x)%nat ->
  F (irfft (times g (rfft x)) (length x)) k = cmul (g k) (F x k).
Proof.
  intros N G0 G2 K. rewrite <- fft_F by (rewrite irfft_length; lia). rewrite filtered by assumption. rewrite fft_ifft by (now rewrite map_length, seq_length). rewrite nth_map_seq by lia. rewrite fft_F by lia. unfold whole. now rewrite (proj2 (Nat.leb_le _ _) K).
Qed.
Lemma irfft_rfft x : (0 < length x)%nat -> irfft (rfft x) (length x) = x.
Proof.
  intros N. assert (E : rfft x = times (fun _ => c1) (rfft x)).
  { apply (list_nth_eq c0); [now rewrite times_length|]. intros k K. unfold times. rewrite nth_map_seq by exact K. ring. }
  rewrite E. apply F_determines; [apply irfft_length|]. rewrite irfft_length. intros k K. rewrite filtered_F; try exact N; try exact K; [ring|reflexivity|now destruct (Nat.even _)].
Qed.
Lemma rfft_irfft X n : (0 < n)%nat -> length X = (n / 2 + 1)%nat -> snd (nth 0 X c0) = 0 -> snd (if Nat.even n then nth (n / 2) X c0 else c0) = 0 -> rfft (irfft X n) = X.
Proof.
  intros N L Z0 Z2. pose proof (Nat.mul_div_le n 2 ltac:(lia)) as M. apply (list_nth_eq c0); [rewrite rfft_length; rewrite irfft_length; lia|]. rewrite rfft_length; rewrite irfft_length; [|exact N]. intros k K. rewrite rfft_nth; rewrite ?irfft_length; try lia.
  assert (KN : (2 * k <= n)%nat) by lia. rewrite <- fft_F by (rewrite irfft_length; lia). unfold irfft. rewrite ifft_real; rewrite ?map_length, ?seq_length.
  - rewrite fft_ifft by (rewrite map_length, seq_length; lia). rewrite nth_map_seq by lia. unfold extended. now rewrite (proj2 (Nat.leb_le _ _) KN).
  - intros j J. rewrite !nth_map_seq by lia. apply (whole_mirror n (fun i => nth i X c0) j J Z2).
  - rewrite nth_map_seq by lia. exact Z0.
Qed.

(** * The energy *)
Lemma parseval x : (0 < length x)%nat -> INR (length x) * energy x = rsum (length x) (fun k => fst (F x k) ^ 2 + snd (F x k) ^ 2).
Proof.
  intros N. set (n := length x) in *.
  assert (E : cmul (real (INR n)) (csum n (fun j => cmul (real (nth j x 0)) (real (nth j x 0)))) = csum n (fun k => cmul (F x k) (conj (F x k)))).
  { rewrite (csum_ext n (fun k => cmul (F x k) (conj (F x k))) (fun k => csum n (fun j => cmul (real (nth j x 0)) (cmul (F x k) (wave n (Z.of_nat j * Z.of_nat k)))))).
    - rewrite csum_swap, <- csum_mul. apply csum_ext. intros j J. rewrite csum_mul. transitivity (cmul (real (nth j x 0)) (cmul (real (INR n)) (real (nth j x 0)))); [ring|]. f_equal.
      pose proof (ifft_fft (map real x)) as I. rewrite map_length in I. specialize (I N). apply (f_equal (fun l => nth j l c0)) in I. rewrite nth_real in I. rewrite <- I. rewrite ifft_nth by (rewrite fft_length, map_length; exact J). rewrite fft_length, map_length. fold n.
      transitivity (cmul (cmul (real (INR n)) (real (/ INR n))) (csum n (fun k => cmul (nth k (fft (map real x)) c0) (wave n (Z.of_nat j * Z.of_nat k))))); [ring|]. rewrite <- real_mul, Rinv_r by (apply not_0_INR; lia). change (real 1) with c1.
      rewrite (csum_ext n (fun k => cmul (nth k (fft (map real x)) c0) (wave n (Z.of_nat j * Z.of_nat k))) (fun i => cmul (F x i) (wave n (Z.of_nat j * Z.of_nat i)))); [ring|]. intros k K. now rewrite fft_F.
    - intros k K. unfold F at 2. rewrite csum_conj, <- csum_mul. apply csum_ext. intros j J. fold n. rewrite conj_mul, conj_real, conj_wave, Z.opp_involutive. ring. }
  apply (f_equal fst) in E. rewrite !csum_parts in E. cbn in E. unfold energy. fold n.
  rewrite (rsum_ext n (fun k => fst (F x k) ^ 2 + snd (F x k) ^ 2) (fun i => fst (F x i) * fst (F x i) - snd (F x i) * - snd (F x i))) by (intros; ring). rewrite <- E.
  rewrite (rsum_ext n (fun i => nth i x 0 * nth i x 0 - 0 * 0) (fun j => nth j x 0 ^ 2)) by (intros; ring). ring.
Qed.
Lemma contents_all x y c : length x = length y -> (0 < length x)%nat -> 
  (forall k, (2 * k <= length x)%nat -> fst (F y k) ^ 2 + snd (F y k) ^ 2 <= c * (fst (F x k) ^ 2 + snd (F x k) ^ 2)) -> energy y <= c * energy x.
Proof.
  intros L N H. apply Rmult_le_reg_l with (INR (length x)); [now apply lt_0_INR|]. rewrite L at 1. rewrite parseval by lia. replace (INR (length x) * (c * energy x)) with (c * (INR (length x) * energy x)) by ring. rewrite parseval by lia. rewrite <- L.
  assert (M : forall m f, c * rsum m f = rsum m (fun k => c * f k)) by (induction m as [|m IH]; intros f; cbn; [ring|rewrite <- IH; ring]). rewrite M. apply rsum_le. intros k K.
  destruct (Nat.le_gt_cases (2 * k) (length x)) as [G|G]; [now apply H|]. specialize (H (length x - k)%nat ltac:(lia)). rewrite F_conj in H by lia. rewrite L, F_conj in H by lia. cbn in H. cbn. nra.
Qed.

(** * Combinations, movements, tones *)
Lemma combined_length a x b y : length (combined a x b y) = length x.
Proof. unfold combined. now rewrite map_length, seq_length. Qed.
Lemma F_combined a x b y k : length x = length y -> F (combined a x b y) k = cadd (cmul (real a) (F x k)) (cmul (real b) (F y k)).
Proof.
  intros L. unfold F. rewrite combined_length, <- L, <- !csum_mul, <- csum_add. apply csum_ext. intros j J. unfold combined. rewrite nth_map_seq by exact J. rewrite real_add, !real_mul. ring.
Qed.
Lemma moved_length s x : length (moved s x) = length x.
Proof. unfold moved. now rewrite map_length, seq_length. Qed.
Lemma moved_index n s j : (0 < n)%nat -> ((j + (n - s mod n)) mod n)%nat = around n (Z.of_nat j - Z.of_nat s).
Proof.
  intros N. unfold around. apply Nat2Z.inj. rewrite Z2Nat.id by (apply Z.mod_pos_bound; lia). pose proof (Nat.mod_upper_bound s n ltac:(lia)) as U.
  rewrite Nat2Z.inj_mod, Nat2Z.inj_add, Nat2Z.inj_sub, Nat2Z.inj_mod by lia. rewrite (Z.div_mod (Z.of_nat s) (Z.of_nat n)) at 2 by lia. set (m := (Z.of_nat s mod Z.of_nat n)%Z). set (q := (Z.of_nat s / Z.of_nat n)%Z).
  replace (Z.of_nat j + (Z.of_nat n - m))%Z with (Z.of_nat j - (Z.of_nat n * q + m) + (q + 1) * Z.of_nat n)%Z by ring. now rewrite Z.mod_add by lia.
Qed.
Lemma F_moved s x k : (0 < length x)%nat -> F (moved s x) k = cmul (wave (length x) (- (Z.of_nat s * Z.of_nat k))) (F x k).
Proof.
  intros N. unfold F. rewrite moved_length, <- csum_mul. set (n := length x) in *.
  set (G := fun z => cmul (real (nth (around n z) x 0)) (wave n (- ((z + Z.of_nat s) * Z.of_nat k)))).
  assert (P : forall z, G (z + Z.of_nat n)%Z = G z).
  { intros z. unfold G. f_equal.
    - do 2 f_equal. unfold around. f_equal. replace (z + Z.of_nat n)%Z with (z + 1 * Z.of_nat n)%Z by ring. apply Z.mod_add. lia.
    - replace (- ((z + Z.of_nat n + Z.of_nat s) * Z.of_nat k))%Z with (- ((z + Z.of_nat s) * Z.of_nat k) + (- Z.of_nat k) * Z.of_nat n)%Z by ring. now apply wave_period. }
  transitivity (csum n (fun i => G (Z.of_nat i + - Z.of_nat s)%Z)).
  - apply csum_ext. intros j J. unfold moved. rewrite nth_map_seq by exact J. fold n. rewrite moved_index by exact N. unfold G. f_equal. do 2 f_equal. ring.
  - rewrite csum_period by exact P. apply csum_ext. intros j J. unfold G. assert (A : around n (Z.of_nat j) = j) by (unfold around; rewrite Z.mod_small by lia; lia). rewrite A.
    replace (- ((Z.of_nat j + Z.of_nat s) * Z.of_nat k))%Z with (- (Z.of_nat s * Z.of_nat k) + - (Z.of_nat j * Z.of_nat k))%Z by ring. rewrite wave_add. ring.
Qed.
Lemma tone_length n k a b : length (tone n k a b) = n.
Proof. unfold tone. now rewrite map_length, seq_length. Qed.
Lemma F_tone_other n k l a b : (2 * k <= n)%nat -> (2 * l <= n)%nat -> k <> l -> F (tone n k a b) l = c0.
Proof.
  intros K L D. assert (N : (0 < n)%nat) by lia. unfold F. rewrite tone_length.
  rewrite (csum_ext n _ (fun j => cadd (cmul (a / 2, - b / 2) (wave n (Z.of_nat j * (Z.of_nat k - Z.of_nat l)))) (cmul (a / 2, b / 2) (wave n (Z.of_nat j * (- Z.of_nat k - Z.of_nat l)))))).
  - rewrite csum_add, !csum_mul, !orthogonal by exact N. rewrite small_mod by lia. destruct (Nat.eqb_spec k l); [contradiction|].
    assert (Z : ((- Z.of_nat k - Z.of_nat l) mod Z.of_nat n =? 0)%Z = false).
    { apply Z.eqb_neq. intros E. apply Z.mod_divide in E; [|lia]. destruct E as [q E]. assert (q = 0 \/ 1 <= q \/ q = -1 \/ q <= -2)%Z as [->|[Q|[->|Q]]] by lia; nia. }
    rewrite Z. ring.
  - intros j J. unfold tone. rewrite nth_map_seq by exact J.
    transitivity (cmul (cadd (cmul (a / 2, - b / 2) (wave n (Z.of_nat j * Z.of_nat k))) (cmul (a / 2, b / 2) (wave n (- (Z.of_nat j * Z.of_nat k))))) (wave n (- (Z.of_nat j * Z.of_nat l)))).
    + f_equal. rewrite <- (conj_wave n (Z.of_nat j * Z.of_nat k)). replace (wave n (Z.of_nat j * Z.of_nat k)) with (conj (wave n (- (Z.of_nat j * Z.of_nat k)))) by (rewrite conj_wave; f_equal; ring). rewrite wave_turn. apply ceq; cbn; field.
    + replace (Z.of_nat j * (Z.of_nat k - Z.of_nat l))%Z with (Z.of_nat j * Z.of_nat k + - (Z.of_nat j * Z.of_nat l))%Z by ring. replace (Z.of_nat j * (- Z.of_nat k - Z.of_nat l))%Z with (- (Z.of_nat j * Z.of_nat k) + - (Z.of_nat j * Z.of_nat l))%Z by ring. rewrite !wave_add. ring.
Qed.
Lemma tone_combined n k a b g : tone n k (g * a) (g * b) = combined g (tone n k a b) 0 (tone n k a b).
Proof. unfold combined. rewrite tone_length. unfold tone at 1. apply map_ext_in. intros j J. apply in_seq in J. unfold tone. rewrite nth_map_seq by lia. ring. Qed.

(** * scaled_by *)
Lemma scaled_by_F n P x y : scaled_by n P x y <-> length x = n /\ length y = n /\ forall k, (2 * k <= n)%nat -> exists g, P k g /\ F y k = cmul (real g) (F x k).
Proof.
  unfold scaled_by. split; intros (LX & LY & H); (split; [exact LX|split; [exact LY|]]); intros k K; destruct (H k K) as (g & Pg & E); exists g; (split; [exact Pg|]); rewrite !F_contents in *.
  - destruct E as [E1 E2]. rewrite E1, E2. apply ceq; cbn; ring.
  - injection E as E1 E2. split; lra.
Qed.
Lemma filter_scales g x : (0 < length x)%nat -> scaled_by (length x) (fun k r => r = g k) x (irfft (times (fun k => real (g k)) (rfft x)) (length x)).
Proof.
  intros N. apply scaled_by_F. split; [reflexivity|]. split; [apply irfft_length|]. intros k K. exists (g k). split; [reflexivity|]. apply filtered_F; try assumption; [reflexivity|]. now destruct (Nat.even _).
Qed.
Lemma scaled_unique n (P : nat -> R -> Prop) x y z : (forall k g h, (2 * k <= n)%nat -> P k g -> P k h -> g = h) -> scaled_by n P x y -> scaled_by n P x z -> y = z.
Proof.
  intros U A B. apply scaled_by_F in A. apply scaled_by_F in B. destruct A as (LX & LY & A), B as (_ & LZ & B). apply F_determines; [congruence|]. rewrite LY. intros k K. destruct (A k K) as (g & PG & EG), (B k K) as (h & PH & EH). rewrite EG, EH. now rewrite (U k g h K PG PH).
Qed.
(** * band_limit *)
Definition kept_at (dt : R) (n : nat) (fmax f_3db : option R) (k : nat) (g : R) : Prop := kept fmax f_3db (INR k / (INR n * dt)) g.
Lemma gain_kept fmax f3 f : (forall c, f3 = Some c -> c <> 0) -> kept fmax f3 f (band_gain fmax f3 f).
Proof.
  intros C. assert (S : forall c, c <> 0 -> 0 < c ^ 2 /\ 1 + (f / c) ^ 2 <> 0 /\ 1 / (1 + (f / c) ^ 2) * (c ^ 2 + f ^ 2) = c ^ 2).
  { intros c Hc. assert (P : 0 < c ^ 2) by nra. assert (D : 1 + (f / c) ^ 2 <> 0) by nra. split; [exact P|]. split; [exact D|].
    replace (c ^ 2 + f ^ 2) with ((1 + (f / c) ^ 2) * c ^ 2) by (field; exact Hc). field. split; [exact Hc|]. nra. }
  unfold kept, band_gain. destruct fmax as [m|].
  - destruct (Rlt_dec m f) as [L|L].
    + left. exists m. repeat split; try exact L. destruct f3; [unfold Rdiv; ring|reflexivity].
    + right. split; [intros m0 [= <-]; lra|]. destruct f3 as [c|]; [|reflexivity]. apply S. now apply C.
  - right. split; [discriminate|]. destruct f3 as [c|]; [|reflexivity]. apply S. now apply C.
Qed.
Lemma kept_unique fmax f3 f g h : (forall c, f3 = Some c -> c <> 0) -> kept fmax f3 f g -> kept fmax f3 f h -> g = h.
Proof.
  intros C [(m & M & L & ->)|[A B]] [(m' & M' & L' & ->)|[A' B']].
  - reflexivity.
  - specialize (A' m M). lra.
  - specialize (A m' M'). lra.
  - destruct f3 as [c|]; [|congruence]. assert (0 < c ^ 2) by (specialize (C c eq_refl); nra). apply Rmult_eq_reg_r with (c ^ 2 + f ^ 2); nra.
Qed.
Lemma kept_unit fmax f3 f g : (forall c, f3 = Some c -> c <> 0) -> kept fmax f3 f g -> 0 <= g <= 1.
Proof.
  intros C [(m & M & L & ->)|[A B]]; [lra|]. destruct f3 as [c|]; [|lra]. assert (0 < c ^ 2) by (specialize (C c eq_refl); nra). split.
  - apply Rmult_le_reg_r with (c ^ 2 + f ^ 2); nra.
  - apply Rmult_le_reg_r with (c ^ 2 + f ^ 2); nra.
Qed.
Lemma band_scales v dt fmax f3 w : (forall c, f3 = Some c -> c <> 0) -> (fmax, f3) <> (None, None) -> band_limit v dt fmax f3 = Some w -> v <> [] /\ scaled_by (length v) (kept_at dt (length v) fmax f3) v w.
Proof.
  intros C D E. assert (G : v <> [] /\ w = irfft (times (fun k => real (band_gain fmax f3 (frequency (length v) dt k))) (rfft v)) (length v)).
  { unfold band_limit in E. destruct v as [|a v]; [destruct fmax, f3; try discriminate; congruence|]. split; [discriminate|]. destruct fmax, f3; try congruence; try (now injection E). }
  destruct G as [NV ->]. split; [exact NV|]. assert (N : (0 < length v)%nat) by (destruct v; [congruence|cbn; lia]). pose proof (filter_scales (fun k => band_gain fmax f3 (frequency (length v) dt k)) v N) as (A & B & H).
  split; [exact A|]. split; [exact B|]. intros k K. destruct (H k K) as (g & -> & HH). eexists. split; [apply gain_kept, C|exact HH].
Qed.
Lemma band_defined v dt fmax f3 : v <> [] -> exists w, band_limit v dt fmax f3 = Some w.
Proof. intros NV. unfold band_limit. destruct fmax, f3; try (destruct v; [congruence|]); eexists; reflexivity. Qed.
Lemma scaled_id n v : length v = n -> scaled_by n (fun _ g => g = 1) v v.
Proof. intros L. split; [exact L|]. split; [exact L|]. intros k K. exists 1. repeat split; ring. Qed.
Lemma band_scales_all v dt fmax f3 w : (forall c, f3 = Some c -> c <> 0) -> band_limit v dt fmax f3 = Some w -> scaled_by (length v) (kept_at dt (length v) fmax f3) v w.
Proof.
  intros C E. destruct fmax as [m|] eqn:EM, f3 as [c|] eqn:EF; try (apply (band_scales v dt _ _ w); [exact C|discriminate|exact E]).
  injection E as <-. split; [reflexivity|]. split; [reflexivity|]. intros k K. exists 1. split; [right; split; [discriminate|reflexivity]|]. split; ring.
Qed.
(** What has the right contents is the result. *)
Lemma band_is v dt fmax f3 w : (forall c, f3 = Some c -> c <> 0) -> v <> [] -> scaled_by (length v) (kept_at dt (length v) fmax f3) v w -> band_limit v dt fmax f3 = Some w.
Proof.
  intros C NV H. destruct (band_defined v dt fmax f3 NV) as (w' & E). rewrite E. f_equal. apply (scaled_unique (length v) (kept_at dt (length v) fmax f3) v).
  - intros k g h _ G1 G2. exact (kept_unique _ _ _ _ _ C G1 G2).
  - now apply band_scales_all.
  - exact H.
Qed.
Lemma cut_contents v dt fmax f3 w k : (forall c, f3 = Some c -> c <> 0) -> band_limit v dt fmax f3 = Some w -> (2 * k <= length v)%nat -> exists g, kept_at dt (length v) fmax f3 k g /\ F w k = cmul (real g) (F v k).
Proof. intros C E K. pose proof (band_scales_all _ _ _ _ _ C E) as H. apply scaled_by_F in H. now apply H. Qed.
Lemma band_length v dt fmax f3 w : band_limit v dt fmax f3 = Some w -> length w = length v.
Proof.
  intros E. unfold band_limit in E. destruct fmax, f3; try (injection E as <-; reflexivity); destruct v as [|a v]; try discriminate; injection E as <-; apply irfft_length.
Qed.

(** * filter_signal_lowpass *)
Lemma lowpass_freqs_length n fs : (0 < n)%nat -> length (lowpass_freqs n fs) = if Nat.even n then n else S n.
Proof.
  intros N. unfold lowpass_freqs. rewrite map_length, app_length, !map_length, !seq_length. destruct (Nat.even n) eqn:E.
  - apply Nat.even_spec in E. destruct E as [m ->]. rewrite Nat.mul_comm, Nat.div_mul by lia. lia.
  - assert (O : Nat.odd n = true) by (unfold Nat.odd; now rewrite E). apply Nat.odd_spec in O. destruct O as [m ->]. replace (2 * m + 1)%nat with (1 + m * 2)%nat by lia. rewrite Nat.div_add by lia. cbn [Nat.div Nat.divmod]. cbn. lia.
Qed.
Lemma lowpass_freqs_nth n fs k : (0 < n)%nat -> Nat.even n = true -> (k < n)%nat -> nth k (lowpass_freqs n fs) 0 = fs / INR n * INR (if (2 * k <=? n)%nat then k else n - k)%nat.
Proof.
  intros N E K. unfold lowpass_freqs. rewrite E. apply Nat.even_spec in E. destruct E as [m ->]. rewrite (Nat.mul_comm 2 m), Nat.div_mul by lia. rewrite (Nat.mul_comm m 2).
  rewrite (nth_indep _ 0 (fs / INR (2 * m) * 0)) by (rewrite map_length, app_length, !map_length, !seq_length; lia). rewrite map_nth. f_equal. destruct (Nat.leb_spec (2 * k) (2 * m)) as [L|L].
  - rewrite app_nth1 by (rewrite map_length, seq_length; lia). now rewrite nth_map_seq by lia.
  - rewrite app_nth2 by (rewrite map_length, seq_length; lia). rewrite map_length, seq_length. rewrite nth_map_seq by lia. rewrite !minus_INR, plus_INR, mult_INR by lia. cbn [INR]. field.
Qed.
Lemma lowpass_even sig fs fcut : (0 < length sig)%nat -> Nat.even (length sig) = true ->
  filter_signal_lowpass sig fs fcut = Some (map real (irfft (times (fun k => real (if Rlt_dec (fs / INR (length sig) * INR k) fcut then 1 else 0)) (rfft sig)) (length sig))).
Proof.
  intros N E. unfold filter_signal_lowpass. rewrite lowpass_freqs_length, E by exact N. rewrite Nat.eqb_refl. destruct (length sig) as [|m] eqn:L; [lia|]. rewrite <- L in *. f_equal.
  rewrite filtered; [|exact N|reflexivity|destruct (Nat.even _); reflexivity]. f_equal. unfold times. rewrite fft_length, map_length. apply map_ext_in. intros k K. apply in_seq in K. f_equal. rewrite lowpass_freqs_nth by (try assumption; lia).
  unfold whole. destruct (Nat.leb (2 * k) (length sig)); destruct (Rlt_dec _ _); try reflexivity; now rewrite conj_real.
Qed.
