(** Proofs about power spectra. *)
From Coq Require Import Reals ZArith Bool Lra Lia List Permutation.
From Verif Require Import FtModel FtAlg FtSpec FtProofs PsModel PsSpec.
Import ListNotations.
Local Open Scope R_scope.

Lemma product_length x y : length (product x y) = length x.
Proof. unfold product. now rewrite map_length, seq_length. Qed.
Lemma combine_product x y : length x = length y -> map (fun p => fst p * snd p) (combine x y) = product x y.
Proof.
  intros L. apply (list_nth_eq 0); [rewrite map_length, combine_length, product_length; lia|]. rewrite map_length, combine_length. intros i I. unfold product. rewrite nth_map_seq by lia.
  set (g := fun p : R * R => fst p * snd p). rewrite (nth_indep _ 0 (g (0, 0))) by (rewrite map_length, combine_length; exact I). rewrite map_nth, combine_nth by exact L. reflexivity.
Qed.
Lemma total_energy l : total (map (fun v => v ^ 2) l) = energy l.
Proof.
  unfold energy. induction l as [|v l IH]; [reflexivity|]. cbn [map total length]. rewrite IH. clear IH. cut (forall n f, rsum (S n) f = f 0%nat + rsum n (fun i => f (S i))); [intros H; now rewrite H|].
  induction n as [|n IH]; intros f; [cbn; ring|]. cbn [rsum] in *. rewrite IH. ring.
Qed.
Lemma windowed_used w m2 data x s : length data = m2 -> used w m2 data x s -> windowed w m2 data = Some (x, s) /\ length x = m2.
Proof.
  intros L U. unfold used, windowed in *. destruct w as [|f|l]; [destruct U as [-> ->]; now split| |]; destruct U as (LW & -> & ->); rewrite LW, Nat.eqb_refl, combine_product, product_length, total_energy by congruence; now split.
Qed.
Lemma add_value p data w x s : length data = (2 * p_m p)%nat -> (0 < p_m p)%nat -> used w (2 * p_m p) data x s -> s <> 0 ->
  add_segment p data w = Some {| p_m := p_m p; p_dt := p_dt p; p_segments := S (p_segments p); p_sum := map (fun k => nth k (p_sum p) 0 + density (p_dt p) s x k) (seq 0 (p_m p + 1)) |}.
Proof.
  intros L M U S0. destruct (windowed_used _ _ _ _ _ L U) as [W LX]. unfold add_segment. rewrite L, Nat.eqb_refl, W. cbn [negb]. destruct (2 * p_m p)%nat as [|q] eqn:Q; [lia|]. rewrite <- Q in *. f_equal. f_equal.
  apply map_ext_in. intros k K. apply in_seq in K. f_equal. rewrite rfft_nth by lia. rewrite F_contents. cbn [fst snd]. unfold density.
  assert (INR (2 * p_m p) <> 0) by (apply not_0_INR; lia). field. now split.
Qed.
Lemma add_raises p data w : add_segment p data w = None <-> ~ addable w (2 * p_m p) data.
Proof.
  unfold add_segment, addable. destruct (Nat.eqb_spec (length data) (2 * p_m p)) as [L|L]; cbn [negb]; [|split; [intros _ [A _]; contradiction|reflexivity]].
  assert (W : windowed w (2 * p_m p) data = None <-> ~ match w with WNone => True | WCall f => length (f (2 * p_m p)%nat) = (2 * p_m p)%nat \/ length (f (2 * p_m p)%nat) = 1%nat | WSeq l => length l = (2 * p_m p)%nat \/ length l = 1%nat end).
  { unfold windowed. destruct w as [|f|l]; [split; [discriminate|intros H; exfalso; auto]| |].
    - destruct (Nat.eqb_spec (length (f (2 * p_m p)%nat)) (2 * p_m p)) as [E|E]; [split; [discriminate|intros H; exfalso; auto]|]. destruct (f (2 * p_m p)%nat) as [|a [|b t]] eqn:EF; split; intros H; cbn in *; try discriminate; try reflexivity; try (intros [A|A]; [contradiction|discriminate]). exfalso; auto.
    - destruct (Nat.eqb_spec (length l) (2 * p_m p)) as [E|E]; [split; [discriminate|intros H; exfalso; auto]|]. destruct l as [|a [|b t]] eqn:EF; split; intros H; cbn in *; try discriminate; try reflexivity; try (intros [A|A]; [contradiction|discriminate]). exfalso; auto. }
  destruct (windowed w (2 * p_m p) data) as [[x s]|].
  - destruct (2 * p_m p)%nat as [|q] eqn:Q; [split; [intros _ (_ & A & _); lia|reflexivity]|]. split; [discriminate|]. intros H. exfalso. apply H. split; [exact L|]. split; [lia|]. destruct w as [|f|l]; [exact I| |].
    + destruct (Nat.eq_dec (length (f (S q))) (S q)); [now left|]. destruct (Nat.eq_dec (length (f (S q))) 1); [now right|]. assert (@None (list R * R) = None) as E by reflexivity. exfalso. assert (Some (x, s) = None); [|discriminate]. apply W. intros [A|A]; contradiction.
    + destruct (Nat.eq_dec (length l) (S q)); [now left|]. destruct (Nat.eq_dec (length l) 1); [now right|]. exfalso. assert (Some (x, s) = None); [|discriminate]. apply W. intros [A|A]; contradiction.
  - split; [|reflexivity]. intros _ (_ & _ & A). now apply W in A.
Qed.
Lemma add_static p data w q : add_segment p data w = Some q -> p_m q = p_m p /\ p_dt q = p_dt p /\ p_segments q = S (p_segments p).
Proof.
  unfold add_segment. destruct (negb _); [discriminate|]. destruct (windowed _ _ _) as [[x s]|]; [|discriminate]. destruct (2 * p_m p)%nat; [discriminate|]. intros [= <-]. repeat split; reflexivity.
Qed.
(** What a segment adds does not depend on what was there. *)
Lemma add_sum p data w q k : (k <= p_m p)%nat -> add_segment p data w = Some q ->
  exists v, (exists q0, add_segment (new_power (p_m p) (Some (p_dt p))) data w = Some q0 /\ nth k (spectrum q0) 0 = v) /\ nth k (p_sum q) 0 = nth k (p_sum p) 0 + v.
Proof.
  intros K. unfold add_segment. cbn [new_power p_m p_dt p_sum p_segments]. destruct (negb _); [discriminate|]. destruct (windowed _ _ _) as [[x s]|]; [|discriminate]. destruct (2 * p_m p)%nat as [|z] eqn:Q; [discriminate|]. intros [= <-]. eexists. split.
  - eexists. split; [reflexivity|]. reflexivity.
  - unfold spectrum. cbn [p_sum p_segments]. rewrite nth_map_seq by lia. rewrite map_map. rewrite nth_map_seq by lia. f_equal. rewrite nth_repeat. change (INR 1) with 1. set (sc := 2 / _ * _). set (t := sc * _). lra.
Qed.
Lemma sums_length p data w q : add_segment p data w = Some q -> length (p_sum q) = (p_m p + 1)%nat.
Proof. unfold add_segment. destruct (negb _); [discriminate|]. destruct (windowed _ _ _) as [[x s]|]; [|discriminate]. destruct (2 * p_m p)%nat; [discriminate|]. intros [= <-]. cbn. now rewrite map_length, seq_length. Qed.
Lemma total_app a b : total (a ++ b) = total a + total b.
Proof. induction a as [|v a IH]; cbn; [ring|]. rewrite IH. ring. Qed.
(** the spectrum of one segment on its own *)
Definition alone (m : nat) (dt : R) (w : window) (data : list R) (k : nat) : R :=
  match add_segment (new_power m (Some dt)) data w with Some q => nth k (spectrum q) 0 | None => 0 end.
Lemma segments_sum l : forall p w q, length (p_sum p) = (p_m p + 1)%nat -> add_segments p l w = Some q ->
  p_m q = p_m p /\ p_dt q = p_dt p /\ p_segments q = (p_segments p + length l)%nat /\ length (p_sum q) = (p_m p + 1)%nat /\
  forall k, (k <= p_m p)%nat -> nth k (p_sum q) 0 = nth k (p_sum p) 0 + total (map (fun d => alone (p_m p) (p_dt p) w d k) l).
Proof.
  induction l as [|d l IH]; intros p w q LP E; cbn in E.
  - injection E as <-. repeat split; try reflexivity; cbn; try lia. intros; ring.
  - destruct (add_segment p d w) as [p1|] eqn:E1; [|discriminate]. destruct (add_static _ _ _ _ E1) as (A & B & C). pose proof (sums_length _ _ _ _ E1) as L1. destruct (IH p1 w q ltac:(rewrite A; exact L1) E) as (A2 & B2 & C2 & L2 & H). rewrite A, B in *. split; [exact A2|]. split; [exact B2|]. split; [cbn; lia|]. split; [exact L2|].
    intros k K. rewrite H by exact K. destruct (add_sum _ _ _ _ k K E1) as (v & (q0 & Q0 & V) & ->). cbn [map total]. unfold alone at 2. rewrite Q0, V. ring.
Qed.

(** * The sum over all frequencies *)
Lemma rsum_shift n f : rsum (S n) f = f 0%nat + rsum n (fun i => f (S i)).
Proof. induction n as [|n IH]; [cbn; ring|]. cbn [rsum] in *. rewrite IH. ring. Qed.
Lemma rsum_split a b f : rsum (a + b) f = rsum a f + rsum b (fun i => f (a + i)%nat).
Proof. induction b as [|b IH]; [rewrite Nat.add_0_r; cbn; ring|]. rewrite Nat.add_succ_r. cbn. rewrite IH. ring. Qed.
Lemma rsum_rev n f : rsum n (fun i => f (n - 1 - i)%nat) = rsum n f.
Proof.
  induction n as [|n IH]; [reflexivity|]. rewrite rsum_shift. cbn [rsum]. replace (S n - 1 - 0)%nat with n by lia. rewrite <- IH.
  rewrite (rsum_ext n (fun i => f (S n - 1 - S i)%nat) (fun i => f (n - 1 - i)%nat)) by (intros; f_equal; lia). ring.
Qed.
Lemma mirror_sum m (S : nat -> R) : (0 < m)%nat -> (forall k, (0 < k < m)%nat -> S (2 * m - k)%nat = S k) -> rsum (2 * m) S = two_sided m S.
Proof.
  intros M H. unfold two_sided. replace (2 * m)%nat with (1 + (m - 1) + (1 + (m - 1)))%nat at 1 by lia. rewrite (rsum_split (1 + (m - 1)) (1 + (m - 1))), !(rsum_split 1 (m - 1)). change (rsum 1 S) with (0 + S 0%nat). change (rsum 1 (fun i => S (1 + (m - 1) + i)%nat)) with (0 + S (1 + (m - 1) + 0)%nat). rewrite !Rplus_0_l. replace (1 + (m - 1) + 0)%nat with m by lia.
  assert (E : rsum (m - 1) (fun i => S (1 + (m - 1) + (1 + i))%nat) = rsum (m - 1) (fun i => S (i + 1)%nat)).
  { rewrite <- (rsum_rev (m - 1) (fun i => S (i + 1)%nat)). apply rsum_ext. intros i I. rewrite <- (H (m - 1 - 1 - i + 1)%nat) by lia. f_equal. lia. }
  rewrite E. rewrite (rsum_ext (m - 1) (fun i => S (1 + i)%nat) (fun i => S (i + 1)%nat)) by (intros; f_equal; lia). ring.
Qed.
Lemma density_F dt s x k : density dt s x k = 2 * dt / s * (fst (F x k) ^ 2 + snd (F x k) ^ 2).
Proof. unfold density. rewrite F_contents. cbn [fst snd]. ring. Qed.
Lemma power_sum dt s x m : length x = (2 * m)%nat -> (0 < m)%nat -> two_sided m (density dt s x) = 2 * dt / s * (INR (2 * m) * energy x).
Proof.
  intros L M. rewrite <- mirror_sum.
  - rewrite <- L at 2. rewrite parseval by lia. rewrite L. rewrite (rsum_ext _ _ (fun k => 2 * dt / s * (fst (F x k) ^ 2 + snd (F x k) ^ 2))) by (intros; apply density_F).
    generalize (2 * m)%nat as n. induction n as [|n IH]; cbn; [ring|]. cbn in IH. rewrite IH. ring.
  - exact M.
  - intros k K. rewrite !density_F. rewrite <- L. rewrite F_conj by lia. cbn. ring.
Qed.
(** Autocorrelation and spectrum *)
Lemma around_add n j d : (0 < n)%nat -> ((j + d) mod n)%nat = around n (Z.of_nat j + Z.of_nat d).
Proof. intros N. unfold around. apply Nat2Z.inj. rewrite Z2Nat.id by (apply Z.mod_pos_bound; lia). now rewrite Nat2Z.inj_mod, Nat2Z.inj_add. Qed.
Lemma around_id n i : (i < n)%nat -> around n (Z.of_nat i) = i.
Proof. intros I. unfold around. rewrite Z.mod_small by lia. lia. Qed.
Lemma around_period n z q : (0 < n)%nat -> around n (z + q * Z.of_nat n) = around n z.
Proof. intros N. unfold around. now rewrite Z.mod_add by lia. Qed.
Lemma correlation_F x k : (0 < length x)%nat -> (k < length x)%nat -> 
  F (map (correlation x) (seq 0 (length x))) k = cmul (F x k) (conj (F x k)).
Proof.
  intros N K. set (n := length x) in *. unfold F at 1. rewrite map_length, seq_length.
  rewrite (csum_ext n _ (fun d => csum n (fun j => cmul (cmul (real (nth j x 0)) (wave n (Z.of_nat j * Z.of_nat k))) (cmul (real (nth (around n (Z.of_nat j + Z.of_nat d)) x 0)) (wave n (- ((Z.of_nat j + Z.of_nat d) * Z.of_nat k))))))).
  - rewrite csum_swap. transitivity (csum n (fun j => cmul (cmul (real (nth j x 0)) (wave n (Z.of_nat j * Z.of_nat k))) (F x k))).
    + apply csum_ext. intros j J. rewrite csum_mul. f_equal.
      set (G := fun z => cmul (real (nth (around n z) x 0)) (wave n (- (z * Z.of_nat k)))). transitivity (csum n (fun d => G (Z.of_nat d + Z.of_nat j)%Z)); [apply csum_ext; intros d D; unfold G; now rewrite (Z.add_comm (Z.of_nat d))|].
      rewrite csum_period.
      * unfold F. fold n. apply csum_ext. intros i I. unfold G. now rewrite around_id.
      * intros z. unfold G. f_equal.
        -- rewrite <- (Z.mul_1_l (Z.of_nat n)). now rewrite around_period.
        -- replace (- ((z + Z.of_nat n) * Z.of_nat k))%Z with (- (z * Z.of_nat k) + (- Z.of_nat k) * Z.of_nat n)%Z by ring. now apply wave_period.
    + rewrite csum_mul_r. unfold F at 3. rewrite csum_conj. fold n. rewrite (csum_ext n (fun i => conj (cmul (real (nth i x 0)) (wave n (- (Z.of_nat i * Z.of_nat k))))) (fun i => cmul (real (nth i x 0)) (wave n (Z.of_nat i * Z.of_nat k)))).
      * ring.
      * intros i I. rewrite conj_mul, conj_real, conj_wave. now rewrite Z.opp_involutive.
  - intros d D. rewrite nth_map_seq by exact D. unfold correlation. fold n. 
    assert (RS : forall m f, real (rsum m f) = csum m (fun i => real (f i))) by (induction m as [|m IH]; intros f; cbn; [reflexivity|rewrite real_add, IH; reflexivity]). rewrite RS, <- csum_mul_r. apply csum_ext. intros j J. rewrite around_add by exact N. rewrite real_mul.
    transitivity (cmul (cmul (real (nth j x 0)) (real (nth (around n (Z.of_nat j + Z.of_nat d)) x 0))) (cmul (wave n (Z.of_nat j * Z.of_nat k)) (wave n (- ((Z.of_nat j + Z.of_nat d) * Z.of_nat k))))); [|ring]. f_equal. rewrite <- wave_add. f_equal. ring.
Qed.

(** * Windows *)
Lemma spread_length n f : length (spread n f) = n.
Proof. unfold spread. now rewrite map_length, seq_length. Qed.
Lemma spread_symmetric n f : (1 < n)%nat -> (forall t, f (1 - t) = f t) -> symmetric (spread n f).
Proof.
  intros N H. unfold symmetric. apply (list_nth_eq 0); rewrite rev_length; [reflexivity|]. rewrite spread_length. intros i I. rewrite rev_nth by (rewrite spread_length; exact I). rewrite spread_length. unfold spread. rewrite !nth_map_seq by lia. rewrite <- H. f_equal.
  replace (n - S i)%nat with (n - 1 - i)%nat by lia. rewrite !minus_INR by lia. cbn [INR]. assert (INR n - 1 <> 0) by (apply lt_INR in N; cbn in N; lra). field. assumption.
Qed.
Lemma spread_between n f a b : (1 < n)%nat -> (forall t, 0 <= t <= 1 -> a <= f t <= b) -> between a b (spread n f).
Proof.
  intros N H. unfold between, spread. apply Forall_map, Forall_forall. intros k K. apply in_seq in K. apply H. assert (P : 0 < INR n - 1) by (apply lt_INR in N; cbn in N; lra). split.
  - apply Rmult_le_pos; [apply pos_INR|left; now apply Rinv_0_lt_compat].
  - apply Rmult_le_reg_r with (INR n - 1); [exact P|]. unfold Rdiv. rewrite Rmult_assoc, Rinv_l, Rmult_1_r, Rmult_1_l by lra. assert (K2 : (k <= n - 1)%nat) by lia. apply le_INR in K2. rewrite minus_INR in K2 by lia. cbn in K2. exact K2.
Qed.
