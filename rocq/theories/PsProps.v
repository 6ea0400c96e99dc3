(** Power spectra (C105). *)
From Coq Require Import Reals ZArith Bool Lra Lia List Permutation.
From Verif Require Import FtModel FtAlg FtSpec FtProofs FtProps PsModel PsSpec PsProofs.
From Verif Require NoiModel NoiProps.
Import ListNotations.
Local Open Scope R_scope.

(** Each entry is the squared contents of one oscillation of the data times the window. *)
Theorem segment_spectrum m dt data w x s : (0 < m)%nat -> length data = (2 * m)%nat -> used w (2 * m) data x s -> s <> 0 ->
  exists q, add_segment (new_power m (Some dt)) data w = Some q /\ spectrum q = map (density dt s x) (seq 0 (m + 1)) /\
    frequencies q = map (fun k => INR k / (2 * dt * INR m)) (seq 0 (m + 1)).
Proof.
  intros M L U S0. pose proof (add_value (new_power m (Some dt)) data w x s L M U S0) as E. eexists. split; [exact E|]. split; [|reflexivity]. cbn. unfold spectrum. cbn [p_sum p_segments]. rewrite map_map. apply map_ext_in. intros k _. rewrite nth_repeat. change (INR 1) with 1. unfold Rdiv. rewrite Rinv_1. ring.
Qed.
Theorem segment_raises p data w : add_segment p data w = None <-> ~ addable w (2 * p_m p) data.
Proof. exact (add_raises p data w). Qed.
(** The time step is one if none is given. *)
Theorem no_time_step m : new_power m None = new_power m (Some 1).
Proof. reflexivity. Qed.
(** Of several segments, the spectrum is the mean of theirs. *)
Theorem segments_mean m dt l w q : l <> [] -> add_segments (new_power m (Some dt)) l w = Some q ->
  length (spectrum q) = (m + 1)%nat /\ frequencies q = map (fun k => INR k / (2 * dt * INR m)) (seq 0 (m + 1)) /\
  exists qs, Forall2 (fun d p => add_segment (new_power m (Some dt)) d w = Some p) l qs /\
    forall k, (k <= m)%nat -> nth k (spectrum q) 0 = total (map (fun p => nth k (spectrum p) 0) qs) / INR (length l).
Proof.
  intros NL E. destruct (segments_sum l (new_power m (Some dt)) w q ltac:(apply repeat_length) E) as (A & B & C & D & H). cbn [new_power p_m p_dt p_segments p_sum] in *.
  split; [unfold spectrum; now rewrite map_length|]. split; [unfold frequencies; now rewrite A, B|].
  assert (Q : forall l p, add_segments p l w = Some q -> p_m p = m -> p_dt p = dt -> exists qs, Forall2 (fun d p => add_segment (new_power m (Some dt)) d w = Some p) l qs /\ forall k, map (fun d => alone m dt w d k) l = map (fun p => nth k (spectrum p) 0) qs).
  { clear. induction l as [|d l IH]; intros p E PM PD; [exists []; split; [constructor|reflexivity]|]. cbn in E. destruct (add_segment p d w) as [p1|] eqn:E1; [|discriminate]. destruct (add_static _ _ _ _ E1) as (A & B & _). destruct (IH p1 E ltac:(congruence) ltac:(congruence)) as (qs & F1 & F2).
    destruct (add_segment (new_power m (Some dt)) d w) as [q1|] eqn:E2.
    - exists (q1 :: qs). split; [now constructor|]. intros k. cbn. rewrite F2. unfold alone. now rewrite E2.
    - apply add_raises in E2. cbn in E2. rewrite <- PM in E2. apply add_raises in E2. congruence. }
  destruct (Q l _ E eq_refl eq_refl) as (qs & F1 & F2). exists qs. split; [exact F1|]. intros k K. unfold spectrum. assert (Z : INR 0 = 0) by reflexivity.
  rewrite (nth_indep _ 0 (0 / INR (p_segments q))) by (rewrite map_length; lia). rewrite (map_nth (fun v => v / INR (p_segments q))). rewrite H by exact K. rewrite nth_repeat, Rplus_0_l, C, F2. reflexivity.
Qed.
(** Their order does not matter. *)
Theorem segments_any_order m dt l l' w q : Permutation l l' -> add_segments (new_power m (Some dt)) l w = Some q -> exists q', add_segments (new_power m (Some dt)) l' w = Some q' /\ spectrum q' = spectrum q.
Proof.
  intros P E.
  assert (D : forall l p, length (p_sum p) = (p_m p + 1)%nat -> (exists q, add_segments p l w = Some q) <-> Forall (addable w (2 * p_m p)) l).
  { clear. induction l as [|d l IH]; intros p LP; cbn; [split; [constructor|eauto]|]. destruct (add_segment p d w) as [p1|] eqn:E1.
    - destruct (add_static _ _ _ _ E1) as (A & _ & _). rewrite (IH p1) by (rewrite A; exact (sums_length _ _ _ _ E1)). rewrite A. split; [intros H; constructor; [|exact H]|intros H; now inversion H]. destruct (Nat.eq_dec 0 0) as [_|]; [|congruence].
      assert (NN : ~ ~ addable w (2 * p_m p) d) by (intros H2; apply add_raises in H2; congruence). unfold addable in *. destruct (Nat.eq_dec (length d) (2 * p_m p)) as [LD|LD]; [|exfalso; apply NN; intros (X & _); contradiction]. destruct (Nat.lt_ge_cases 0 (2 * p_m p)) as [M|M]; [|exfalso; apply NN; intros (_ & X & _); lia]. split; [exact LD|]. split; [exact M|].
      destruct w as [|f|l0]; [exact I| |]. 
      + destruct (Nat.eq_dec (length (f (2 * p_m p)%nat)) (2 * p_m p)); [now left|]. destruct (Nat.eq_dec (length (f (2 * p_m p)%nat)) 1); [now right|]. exfalso. apply NN. intros (_ & _ & [X|X]); contradiction.
      + destruct (Nat.eq_dec (length l0) (2 * p_m p)); [now left|]. destruct (Nat.eq_dec (length l0) 1); [now right|]. exfalso. apply NN. intros (_ & _ & [X|X]); contradiction.
    - apply add_raises in E1. split; [intros [? ?]; discriminate|intros H; inversion H; contradiction]. }
  assert (LN : length (p_sum (new_power m (Some dt))) = (p_m (new_power m (Some dt)) + 1)%nat) by apply repeat_length.
  assert (A : Forall (addable w (2 * m)) l) by (apply (proj1 (D l _ LN)); eauto). destruct (proj2 (D l' _ LN) (Permutation_Forall P A)) as (q' & E'). exists q'. split; [exact E'|].
  destruct (segments_sum l _ w q LN E) as (A1 & B1 & C1 & D1 & H1). destruct (segments_sum l' _ w q' LN E') as (A2 & B2 & C2 & D2 & H2).
  assert (ES : p_sum q' = p_sum q).
  { apply (list_nth_eq 0); [congruence|]. rewrite D2. intros k K. rewrite H1, H2 by (cbn in *; lia). f_equal. assert (TP : forall a b, Permutation a b -> total a = total b) by (induction 1; cbn; lra). apply TP. apply Permutation_map. now apply Permutation_sym. }
  unfold spectrum. rewrite ES, C1, C2, (Permutation_length P). reflexivity.
Qed.
(** The spectrum times the frequency step adds up to the mean of the squares weighted by the window's squares, if the
    first and the last entry are halved. *)
Theorem power_adds_up m dt data w x s q : (0 < m)%nat -> 0 < dt -> length data = (2 * m)%nat -> used w (2 * m) data x s -> s <> 0 -> add_segment (new_power m (Some dt)) data w = Some q ->
  (nth 0 (spectrum q) 0 / 2 + rsum (m - 1) (fun i => nth (i + 1) (spectrum q) 0) + nth m (spectrum q) 0 / 2) * (1 / (INR (2 * m) * dt)) = energy x / s.
Proof.
  intros M D L U S0 E. destruct (segment_spectrum m dt data w x s M L U S0) as (q' & E' & SP & _). rewrite E in E'. injection E' as <-. rewrite SP. rewrite !nth_map_seq by lia. rewrite (rsum_ext (m - 1) _ (fun i => density dt s x (i + 1))) by (intros i I; apply nth_map_seq; lia).
  destruct (windowed_used _ _ _ _ _ L U) as [_ LX]. pose proof (power_sum dt s x m LX M) as P. unfold two_sided in P. assert (N : INR (2 * m) <> 0) by (apply not_0_INR; lia).
  replace (density dt s x 0 / 2 + rsum (m - 1) (fun i => density dt s x (i + 1)) + density dt s x m / 2) with ((density dt s x 0 + density dt s x m + 2 * rsum (m - 1) (fun i => density dt s x (i + 1))) / 2) by field. rewrite P. field. repeat split; try assumption. lra.
Qed.
(** The entries as they are add up to more: a constant counts twice. *)
Theorem whole_sum_refuted : exists m dt data q, (0 < m)%nat /\ 0 < dt /\ add_segment (new_power m (Some dt)) data WNone = Some q /\
  rsum (m + 1) (fun i => nth i (spectrum q) 0) * (1 / (INR (2 * m) * dt)) <> energy data / INR (2 * m) /\ rsum (m + 1) (fun i => nth i (spectrum q) 0) * (1 / (INR (2 * m) * dt)) = 2 * (energy data / INR (2 * m)).
Proof.
  destruct (segment_spectrum 1 1 [1; 1] WNone [1; 1] 2) as (q & E & SP & _); try (cbn; lia); try lra; [split; [reflexivity|cbn; lra]|]. exists 1%nat, 1, [1; 1], q. split; [lia|]. split; [lra|]. split; [exact E|]. rewrite SP.
  assert (C0 : cosines [1; 1] 0 = 2 /\ sines [1; 1] 0 = 0 /\ cosines [1; 1] 1 = 0 /\ sines [1; 1] 1 = 0).
  { unfold cosines, sines, turn. cbn. replace (2 * PI * 0 * 0 / (1 + 1)) with 0 by (unfold Rdiv; ring). replace (2 * PI * 1 * 0 / (1 + 1)) with 0 by (unfold Rdiv; ring). replace (2 * PI * 0 * 1 / (1 + 1)) with 0 by (unfold Rdiv; ring). replace (2 * PI * 1 * 1 / (1 + 1)) with PI by field. rewrite cos_0, cos_PI, sin_0, sin_PI. lra. }
  destruct C0 as (A & B & C & D). cbn [seq map rsum nth Nat.add]. unfold density. rewrite A, B, C, D. unfold energy. cbn. split; lra.
Qed.
(** A tone shows at its frequency only, with its mean square. *)
Theorem tone_spectrum m dt k a b q : (0 < k < m)%nat -> 0 < dt -> add_segment (new_power m (Some dt)) (tone (2 * m) k a b) WNone = Some q ->
  forall l, (l <= m)%nat -> nth l (spectrum q) 0 * (1 / (INR (2 * m) * dt)) = if (l =? k)%nat then (a ^ 2 + b ^ 2) / 2 else 0.
Proof.
  intros K D E l Hl. assert (M : (0 < m)%nat) by lia. assert (N : INR (2 * m) <> 0) by (apply not_0_INR; lia). set (x := tone (2 * m) k a b) in *. assert (LX : length x = (2 * m)%nat) by apply tone_length.
  destruct (segment_spectrum m dt x WNone x (INR (2 * m)) M LX (Logic.conj eq_refl eq_refl) N) as (q' & E' & SP & _). rewrite E in E'. injection E' as <-. rewrite SP, nth_map_seq by lia.
  assert (Z : forall j, (j <= m)%nat -> j <> k -> density dt (INR (2 * m)) x j = 0) by (intros j J NJ; rewrite density_F; unfold x; rewrite F_tone_other by lia; cbn; ring).
  destruct (Nat.eqb_spec l k) as [->|NK]; [|rewrite Z by assumption; ring].
  pose proof (power_sum dt (INR (2 * m)) x m LX M) as P. unfold two_sided in P. rewrite (Z 0%nat), (Z m) in P by lia.
  assert (S1 : rsum (m - 1) (fun i => density dt (INR (2 * m)) x (i + 1)) = density dt (INR (2 * m)) x k).
  { assert (G : forall n f j, (j < n)%nat -> (forall i, (i < n)%nat -> i <> j -> f i = 0) -> rsum n f = f j).
    { clear. induction n as [|n IH]; intros f j J H; [lia|]. cbn. destruct (Nat.eq_dec j n) as [->|NJ]; [|rewrite (IH f j), (H n) by (try lia; intros; apply H; lia); ring]. rewrite (rsum_ext n f (fun _ => 0)) by (intros; apply H; lia). clear. cut (rsum n (fun _ => 0) = 0); [lra|]. induction n as [|n IH]; cbn; lra. }
    rewrite (G (m - 1)%nat _ (k - 1)%nat); [f_equal; lia|lia|]. intros i I NI. apply Z; lia. }
  rewrite S1 in P.
  assert (EN : energy x = INR (2 * m) * ((a ^ 2 + b ^ 2) / 2)).
  { clear - K LX. assert (EX : energy x = rsum (2 * m) (fun j => (a * cos (turn (2 * m) k j) + b * sin (turn (2 * m) k j)) ^ 2)) by (unfold energy; rewrite LX; apply rsum_ext; intros j J; unfold x, tone; now rewrite nth_map_seq).
    set (th := fun j => turn (2 * m) (2 * k) j).
    assert (W : csum (2 * m) (fun j => wave (2 * m) (Z.of_nat j * Z.of_nat (2 * k))) = c0).
    { rewrite orthogonal by lia. rewrite Z.mod_small by lia. destruct (Z.eqb_spec (Z.of_nat (2 * k)) 0); [lia|reflexivity]. }
    rewrite csum_parts in W. pose proof (f_equal fst W) as W1. pose proof (f_equal snd W) as W2. cbn [fst snd c0] in W1, W2. clear W.
    assert (T1 : rsum (2 * m) (fun j => cos (th j)) = 0) by (rewrite <- W1; apply rsum_ext; intros j J; unfold wave, th, turn; cbn [fst]; f_equal; rewrite mult_IZR, <- !INR_IZR_INZ; unfold Rdiv; ring).
    assert (T2 : rsum (2 * m) (fun j => sin (th j)) = 0) by (rewrite <- W2; apply rsum_ext; intros j J; unfold wave, th, turn; cbn [snd]; f_equal; rewrite mult_IZR, <- !INR_IZR_INZ; unfold Rdiv; ring).
    rewrite EX. rewrite (rsum_ext _ _ (fun j => (a ^ 2 + b ^ 2) / 2 + ((a ^ 2 - b ^ 2) / 2 * cos (th j) + a * b * sin (th j)))).
    - assert (AD : forall n f g, rsum n (fun j => f j + g j) = rsum n f + rsum n g) by (induction n as [|n IH]; intros; cbn; [ring|rewrite IH; ring]). assert (SC : forall n c f, rsum n (fun j => c * f j) = c * rsum n f) by (induction n as [|n IH]; intros; cbn; [ring|rewrite IH; ring]). assert (CO : forall n c, rsum n (fun _ => c) = INR n * c) by (induction n as [|n IH]; intros c; [cbn; ring|rewrite S_INR; cbn [rsum]; rewrite IH; ring]).
      rewrite AD, AD, !SC, T1, T2, CO. ring.
    - intros j J. assert (H2 : th j = 2 * turn (2 * m) k j) by (unfold th, turn; rewrite (mult_INR 2 k); cbn [INR]; unfold Rdiv; ring). rewrite H2, cos_2a, sin_2a. pose proof (sin2_cos2 (turn (2 * m) k j)) as SC. unfold Rsqr in SC. set (c := cos _) in *. set (s := sin _) in *. nra. }
  assert (Q : density dt (INR (2 * m)) x k = dt / INR (2 * m) * (INR (2 * m) * energy x)) by lra. rewrite Q, EN. field. split; lra.
Qed.
(** Scaling the data scales the spectrum by the square; moving them round changes nothing; limiting their band scales
    each entry. *)
Theorem scaled_spectrum m dt c data w k : (0 < m)%nat -> length data = (2 * m)%nat -> (k <= m)%nat ->
  forall x s, used w (2 * m) data x s -> s <> 0 -> forall q q', add_segment (new_power m (Some dt)) data w = Some q -> add_segment (new_power m (Some dt)) (map (fun v => c * v) data) w = Some q' ->
  nth k (spectrum q') 0 = c ^ 2 * nth k (spectrum q) 0.
Proof.
  intros M L K x s U S0 q q' E E'. destruct (segment_spectrum m dt data w x s M L U S0) as (q1 & E1 & SP1 & _). rewrite E in E1. injection E1 as <-.
  assert (NM : forall l j, nth j (map (fun v => c * v) l) 0 = c * nth j l 0) by (intros l j; rewrite <- (Rmult_0_r c) at 1; apply (map_nth (fun v => c * v))).
  assert (U2 : used w (2 * m) (map (fun v => c * v) data) (map (fun v => c * v) x) s).
  { assert (PR : forall l, product l (map (fun v => c * v) data) = map (fun v => c * v) (product l data)) by (intros l; unfold product; rewrite map_map; apply map_ext; intros j; rewrite NM; ring).
    destruct w; cbn in *; [destruct U as [-> ->]; now split| |]; destruct U as (A & -> & ->); rewrite PR; repeat split; assumption. }
  destruct (segment_spectrum m dt (map (fun v => c * v) data) w (map (fun v => c * v) x) s M ltac:(now rewrite map_length) U2 S0) as (q2 & E2 & SP2 & _). rewrite E' in E2. injection E2 as <-. rewrite SP1, SP2, !nth_map_seq by lia.
  unfold density, cosines, sines. rewrite map_length. rewrite (rsum_ext _ (fun j => nth j (map (fun v => c * v) x) 0 * cos (turn (length x) k j)) (fun j => c * (nth j x 0 * cos (turn (length x) k j)))) by (intros; rewrite NM; ring). rewrite (rsum_ext _ (fun j => nth j (map (fun v => c * v) x) 0 * sin (turn (length x) k j)) (fun j => c * (nth j x 0 * sin (turn (length x) k j)))) by (intros; rewrite NM; ring).
  assert (SC : forall n f, rsum n (fun j => c * f j) = c * rsum n f) by (induction n as [|n IH]; intros; cbn; [ring|rewrite IH; ring]). rewrite !SC. ring.
Qed.
Theorem moved_spectrum m dt t data q : (0 < m)%nat -> add_segment (new_power m (Some dt)) data WNone = Some q -> exists q', add_segment (new_power m (Some dt)) (moved t data) WNone = Some q' /\ spectrum q' = spectrum q.
Proof.
  intros M E. assert (L : length data = (2 * m)%nat).
  { destruct (Nat.eq_dec (length data) (2 * m)) as [L|L]; [exact L|]. exfalso. assert (X : add_segment (new_power m (Some dt)) data WNone = None) by (apply add_raises; intros (A & _); contradiction). congruence. }
  assert (N : INR (2 * m) <> 0) by (apply not_0_INR; lia).
  destruct (segment_spectrum m dt data WNone data (INR (2 * m)) M L (Logic.conj eq_refl eq_refl) N) as (q1 & E1 & SP1 & _). rewrite E in E1. injection E1 as <-.
  destruct (segment_spectrum m dt (moved t data) WNone (moved t data) (INR (2 * m)) M ltac:(now rewrite moved_length) (Logic.conj eq_refl eq_refl) N) as (q2 & E2 & SP2 & _). exists q2. split; [exact E2|]. rewrite SP1, SP2. apply map_ext. intros k. rewrite !density_F, F_moved by lia. f_equal. unfold wave. cbn zeta. cbn [fst snd cmul].
  set (u := 2 * PI * _ / _). pose proof (sin2_cos2 u) as SC. unfold Rsqr in SC. set (c := cos u) in *. set (s := sin u) in *. set (a := fst _). set (b := snd _). replace ((c * a - s * b) ^ 2 + (c * b + s * a) ^ 2) with ((s * s + c * c) * (a ^ 2 + b ^ 2)) by ring. rewrite SC. ring.
Qed.
Theorem limited_spectrum m dt data fmax f3 lim q q' k : (forall c, f3 = Some c -> c <> 0) -> (k <= m)%nat -> band_limit data dt fmax f3 = Some lim ->
  add_segment (new_power m (Some dt)) data WNone = Some q -> add_segment (new_power m (Some dt)) lim WNone = Some q' ->
  exists g, kept fmax f3 (INR k / (INR (2 * m) * dt)) g /\ nth k (spectrum q') 0 = g ^ 2 * nth k (spectrum q) 0.
Proof.
  intros C K B E E'. assert (AD : addable WNone (2 * m) data).
  { assert (H : ~ ~ addable WNone (2 * m) data) by (intros H; apply (add_raises (new_power m (Some dt)) data WNone) in H; congruence). unfold addable in *. destruct (Nat.eq_dec (length data) (2 * m)); [|exfalso; apply H; tauto]. destruct (Nat.lt_ge_cases 0 (2 * m)); [tauto|exfalso; apply H; intros (_ & X & _); lia]. }
  destruct AD as (L & M2 & _). assert (M : (0 < m)%nat) by lia. assert (N : INR (2 * m) <> 0) by (apply not_0_INR; lia). pose proof (band_length _ _ _ _ _ B) as LL.
  destruct (segment_spectrum m dt data WNone data (INR (2 * m)) M L (Logic.conj eq_refl eq_refl) N) as (q1 & E1 & SP1 & _). rewrite E in E1. injection E1 as <-.
  destruct (segment_spectrum m dt lim WNone lim (INR (2 * m)) M ltac:(congruence) (Logic.conj eq_refl eq_refl) N) as (q2 & E2 & SP2 & _). rewrite E' in E2. injection E2 as <-.
  destruct (cut_contents _ _ _ _ _ k C B ltac:(lia)) as (g & G & FE). exists g. unfold kept_at in G. rewrite L in G. split; [exact G|]. rewrite SP1, SP2, !nth_map_seq by lia. rewrite !density_F, FE. cbn. ring.
Qed.
(** The spectrum is the cosine transform of the correlation of the data with themselves moved round. *)
Theorem spectrum_of_correlation m dt data q k : (k <= m)%nat -> add_segment (new_power m (Some dt)) data WNone = Some q ->
  nth k (spectrum q) 0 = 2 * dt / INR (2 * m) * rsum (2 * m) (fun d => correlation data d * cos (2 * PI * INR d * INR k / INR (2 * m))).
Proof.
  intros K E. assert (AD : addable WNone (2 * m) data).
  { assert (H : ~ ~ addable WNone (2 * m) data) by (intros H; apply (add_raises (new_power m (Some dt)) data WNone) in H; congruence). unfold addable in *. destruct (Nat.eq_dec (length data) (2 * m)); [|exfalso; apply H; tauto]. destruct (Nat.lt_ge_cases 0 (2 * m)); [tauto|exfalso; apply H; intros (_ & X & _); lia]. }
  destruct AD as (L & M2 & _). assert (M : (0 < m)%nat) by lia. assert (N : INR (2 * m) <> 0) by (apply not_0_INR; lia).
  destruct (segment_spectrum m dt data WNone data (INR (2 * m)) M L (Logic.conj eq_refl eq_refl) N) as (q1 & E1 & SP1 & _). rewrite E in E1. injection E1 as <-. rewrite SP1, nth_map_seq by lia. rewrite density_F. f_equal.
  pose proof (correlation_F data k ltac:(lia) ltac:(lia)) as CF. apply (f_equal fst) in CF. rewrite F_contents in CF. cbn [fst cmul FtModel.conj snd] in CF. transitivity (cosines (map (correlation data) (seq 0 (length data))) k); [rewrite CF; ring|].
  unfold cosines. rewrite map_length, seq_length, L. apply rsum_ext. intros d D. rewrite nth_map_seq by exact D. reflexivity.
Qed.
(** A window of one entry is taken for one of constant value, and the spectrum comes out 2m times too large. *)
Theorem short_window_refuted : exists m dt data q q' k, add_segment (new_power m (Some dt)) data (WSeq (repeat 1 (2 * m))) = Some q /\ add_segment (new_power m (Some dt)) data (WSeq [1]) = Some q' /\
  nth k (spectrum q) 0 <> 0 /\ nth k (spectrum q') 0 = INR (2 * m) * nth k (spectrum q) 0.
Proof.
  destruct (segment_spectrum 1 1 [1; 1] (WSeq [1; 1]) (product [1; 1] [1; 1]) (energy [1; 1])) as (q & E & SP & _); try (cbn; lia); try (repeat split; reflexivity); [unfold energy; cbn; lra|].
  assert (EQ : exists q', add_segment (new_power 1 (Some 1)) [1; 1] (WSeq [1]) = Some q' /\ spectrum q' = map (fun v => v / INR 1) (map (fun k => nth k (repeat 0 2) 0 + 2 / (1 ^ 2 * INR 2) * (1 * INR 2) * (fst (nth k (rfft [1 * 1; 1 * 1]) c0) ^ 2 + snd (nth k (rfft [1 * 1; 1 * 1]) c0) ^ 2)) (seq 0 2))) by (eexists; split; reflexivity). destruct EQ as (q' & E' & SP').
  exists 1%nat, 1, [1; 1], q, q', 0%nat. split; [exact E|]. split; [exact E'|]. rewrite SP, SP'. rewrite map_map. rewrite !nth_map_seq by lia. rewrite rfft_nth by (cbn; lia). rewrite F_contents. cbn [fst snd].
  assert (P1 : product [1; 1] [1; 1] = [1; 1]) by (unfold product; cbn; repeat f_equal; ring). rewrite P1. replace (1 * 1) with 1 by ring.
  assert (C0 : cosines [1; 1] 0 = 2 /\ sines [1; 1] 0 = 0).
  { unfold cosines, sines, turn. cbn. replace (2 * PI * 0 * 0 / (1 + 1)) with 0 by (unfold Rdiv; ring). replace (2 * PI * 1 * 0 / (1 + 1)) with 0 by (unfold Rdiv; ring). rewrite cos_0, sin_0. lra. }
  destruct C0 as [A B]. unfold density. rewrite A, B. unfold energy. cbn. split; [|field]. intros H. lra.
Qed.
(** computeSpectrum: the mean of the spectra of its segments.  A window that is a sequence is ignored. *)
Theorem compute_spectrum_mean data s dt w r : (1 <= s)%nat -> compute_spectrum data s dt w = Some r ->
  let m := (length data / (2 * s))%nat in let d := match dt with Some d => d | None => 1 end in
  let segs := if (s =? 1)%nat then [firstn (2 * m) data] else map (fun i => firstn (2 * m) (skipn (i * m) data)) (seq 0 (2 * s - 2)) in
  let w' := match w with WCall f => WSeq (f (2 * m)%nat) | _ => WNone end in
  fst r = option_map (fun d => map (fun k => INR k / (2 * d * INR m)) (seq 0 (m + 1))) dt /\ length (snd r) = (m + 1)%nat /\
  exists qs, Forall2 (fun x p => add_segment (new_power m (Some d)) x w' = Some p) segs qs /\
    forall k, (k <= m)%nat -> nth k (snd r) 0 = total (map (fun p => nth k (spectrum p) 0) qs) / INR (length segs).
Proof.
  intros S1 E. cbv zeta. unfold compute_spectrum in E. set (m := (length data / (2 * s))%nat) in *.
  assert (SG : NoiModel.compute_spectrum data s = Some (if (s =? 1)%nat then [firstn (2 * m) data] else map (fun i => firstn (2 * m) (skipn (i * m) data)) (seq 0 (2 * s - 2)))).
  { destruct (Nat.eqb_spec s 1) as [->|NS].
    - unfold NoiModel.compute_spectrum. cbn [Nat.eqb]. change (2 * 1)%nat with 2%nat in *. fold m. cbn [NoiModel.add_segments]. rewrite firstn_length. pose proof (Nat.mul_div_le (length data) 2 ltac:(lia)) as MD. fold m in MD. rewrite Nat.min_l by exact MD. now rewrite Nat.eqb_refl.
    - apply NoiProps.compute_spectrum_segments. lia. }
  rewrite SG in E. set (segs := if (s =? 1)%nat then _ else _) in *. destruct (add_segments _ _ _) as [p|] eqn:EA; [|discriminate]. injection E as <-. cbn [fst snd].
  assert (NE : segs <> []) by (unfold segs; destruct (Nat.eqb_spec s 1); [discriminate|]; intros X; apply (f_equal (@length _)) in X; rewrite map_length, seq_length in X; cbn in X; lia).
  assert (EA' : add_segments (new_power m (Some match dt with Some d => d | None => 1 end)) segs match w with WCall f => WSeq (f (2 * m)%nat) | _ => WNone end = Some p) by (destruct dt; exact EA).
  destruct (segments_mean m _ segs _ p NE EA') as (L & FR & QS). split; [destruct dt; cbn in *; [now rewrite FR|reflexivity]|]. split; [exact L|exact QS].
Qed.
Theorem window_sequence_ignored_refuted : exists data s dt l r, compute_spectrum data s dt (WSeq l) = Some r /\ compute_spectrum data s dt WNone = Some r /\ compute_spectrum data s dt (WCall (fun _ => l)) <> Some r.
Proof.
  destruct (segment_spectrum 1 1 [1; 1] WNone [1; 1] (INR 2)) as (q & E & SP & _); try (cbn; lia); [split; reflexivity|cbn; lra|].
  destruct (segment_spectrum 1 1 [1; 1] (WSeq [0; 1]) (product [0; 1] [1; 1]) (energy [0; 1])) as (q' & E' & SP' & _); try (cbn; lia); try (repeat split; reflexivity); [unfold energy; cbn; lra|].
  exists [1; 1], 1%nat, None, [0; 1], (None, spectrum q). 
  assert (A1 : compute_spectrum [1; 1] 1 None WNone = Some (None, spectrum q)) by (unfold compute_spectrum; cbn [length Nat.div Nat.divmod Nat.mul Nat.add fst snd NoiModel.compute_spectrum]; change (NoiModel.compute_spectrum [1; 1] 1) with (Some [[1; 1]]); cbn [add_segments]; change (2 - 1)%nat with 1%nat; change (new_power 1 None) with (new_power 1 (Some 1)); now rewrite E).
  split; [exact A1|]. split; [exact A1|]. assert (A2 : compute_spectrum [1; 1] 1 None (WCall (fun _ => [0; 1])) = Some (None, spectrum q')) by (unfold compute_spectrum; cbn [length Nat.div Nat.divmod Nat.mul Nat.add fst snd]; change (NoiModel.compute_spectrum [1; 1] 1) with (Some [[1; 1]]); cbn [add_segments]; change (2 - 1)%nat with 1%nat; change (new_power 1 None) with (new_power 1 (Some 1)); now rewrite E'). rewrite A2. intros [= X]. rewrite SP, SP' in X.
  assert (X0 : density 1 (energy [0; 1]) (product [0; 1] [1; 1]) 0 = density 1 (INR 2) [1; 1] 0) by (cbn [Nat.add seq map] in X; congruence). revert X0. unfold density, cosines, sines, turn, energy, product. cbn.
  replace (2 * PI * 0 * 0 / (1 + 1)) with 0 by (unfold Rdiv; ring). replace (2 * PI * 1 * 0 / (1 + 1)) with 0 by (unfold Rdiv; ring). rewrite cos_0, sin_0. lra.
Qed.
(** The windows of two or more entries are symmetric and go from their end value to one. *)
Theorem windows_shape n : (2 <= n)%nat ->
  (symmetric (bartlett n) /\ symmetric (welch n) /\ symmetric (hann n) /\ symmetric (hamming n)) /\
  (between 0 1 (bartlett n) /\ between 0 1 (welch n) /\ between 0 1 (hann n) /\ between (8 / 100) 1 (hamming n)) /\
  (nth 0 (bartlett n) 0 = 0 /\ nth 0 (welch n) 0 = 0 /\ nth 0 (hann n) 0 = 0 /\ nth 0 (hamming n) 0 = 8 / 100) /\
  (length (bartlett n) = n /\ length (welch n) = n /\ length (hann n) = n /\ length (hamming n) = n).
Proof.
  intros N. assert (M : forall (A : Type) (x y : A), match n with 1%nat => x | _ => y end = y) by (intros; destruct n as [|[|n]]; [lia|lia|reflexivity]). unfold bartlett, hann, hamming, welch. rewrite !M.
  assert (CS : forall t, cos (2 * PI * (1 - t)) = cos (2 * PI * t)) by (intros t; replace (2 * PI * (1 - t)) with (- (2 * PI * t) + 2 * INR 1 * PI) by (cbn; ring); rewrite cos_period; apply cos_neg).
  assert (CB : forall t, -1 <= cos (2 * PI * t) <= 1) by (intros; apply COS_bound).
  split; [repeat split; apply spread_symmetric; try lia; intros t|split; [repeat split; apply spread_between; try lia; intros t T|split; [|repeat split; apply spread_length]]].
  - destruct (Rle_dec _ _), (Rle_dec _ _); lra.
  - ring.
  - now rewrite CS.
  - now rewrite CS.
  - destruct (Rle_dec _ _); lra.
  - pose proof (pow2_ge_0 (2 * t - 1)). split; [|lra]. replace (1 - (2 * t - 1) ^ 2) with (4 * (t * (1 - t))) by ring. assert (0 <= t * (1 - t)) by (apply Rmult_le_pos; lra). lra.
  - specialize (CB t). lra.
  - specialize (CB t). lra.
  - unfold spread. rewrite !nth_map_seq by lia. replace (INR 0 / (INR n - 1)) with 0 by (cbn; unfold Rdiv; ring). replace (2 * PI * 0) with 0 by ring. rewrite cos_0. destruct (Rle_dec _ _); repeat split; lra.
Qed.

Print Assumptions segment_spectrum.
Print Assumptions segment_raises.
Print Assumptions no_time_step.
Print Assumptions segments_mean.
Print Assumptions segments_any_order.
Print Assumptions power_adds_up.
Print Assumptions whole_sum_refuted.
Print Assumptions tone_spectrum.
Print Assumptions scaled_spectrum.
Print Assumptions moved_spectrum.
Print Assumptions limited_spectrum.
Print Assumptions spectrum_of_correlation.
Print Assumptions short_window_refuted.
Print Assumptions compute_spectrum_mean.
Print Assumptions window_sequence_ignored_refuted.
Print Assumptions windows_shape.

(** * Cases *)
Example segment_case : used (WCall hann) (2 * 2) [1; 2; 3; 4] (product (hann 4) [1; 2; 3; 4]) (energy (hann 4)) /\ energy (hann 4) <> 0 /\ exists q, add_segment (new_power 2 (Some 1)) [1; 2; 3; 4] (WCall hann) = Some q.
Proof.
  split; [repeat split; apply (windows_shape 4); lia|]. split; [|eexists; reflexivity]. unfold energy, hann, spread. cbn. intros H.
  assert (C : cos (2 * PI * (1 / (1 + 1 + 1 + 1 - 1))) = - (1 / 2)) by (replace (2 * PI * (1 / (1 + 1 + 1 + 1 - 1))) with (2 * (PI / 3)) by field; rewrite cos_2a_cos, cos_PI3; lra). rewrite C in H.
  match type of H with 0 + ?a + ?b + ?c + ?d = 0 => assert (0 <= a /\ 0 <= c /\ 0 <= d) as (HA & HC & HD) end; [|lra].
  repeat split; match goal with |- 0 <= ?x * (?x * 1) => rewrite Rmult_1_r; apply Rle_0_sqr end.
Qed.
Example raises_case : add_segment (new_power 2 (Some 1)) [1; 2; 3] WNone = None /\ add_segment (new_power 0 (Some 1)) [] WNone = None /\ add_segment (new_power 1 (Some 1)) [1; 2] (WSeq [1; 2; 3]) = None.
Proof. repeat split. Qed.
Example mean_case : [[1; 2]; [3; 4]] <> [] /\ exists q, add_segments (new_power 1 (Some 1)) [[1; 2]; [3; 4]] WNone = Some q.
Proof. split; [discriminate|]. eexists. reflexivity. Qed.
Example order_case : Permutation [[1; 2]; [3; 4]] [[3; 4]; [1; 2]].
Proof. constructor. Qed.
Example adds_case : (0 < 1)%nat /\ 0 < 1 /\ used WNone 2 [1; 2] [1; 2] 2 /\ energy [1; 2] / 2 = 5 / 2.
Proof. repeat split; try lia; try lra; unfold energy; cbn; lra. Qed.
Example tone_spectrum_case : (0 < 1 < 2)%nat /\ exists q, add_segment (new_power 2 (Some 1)) (tone (2 * 2) 1 3 4) WNone = Some q.
Proof. split; [lia|]. eexists. reflexivity. Qed.
Example limited_case : exists lim q q', band_limit [1; 2; 3; 4] 1 (Some (1 / 3)) None = Some lim /\ add_segment (new_power 2 (Some 1)) [1; 2; 3; 4] WNone = Some q /\ add_segment (new_power 2 (Some 1)) lim WNone = Some q'.
Proof. do 3 eexists. split; [reflexivity|]. split; reflexivity. Qed.
Example correlation_case : correlation [1; 2; 3] 1 = 11.
Proof. unfold correlation. cbn. lra. Qed.
Example compute_case : exists r, compute_spectrum [1; 2; 3; 4; 5; 6; 7; 8] 2 (Some 1) (WCall hann) = Some r.
Proof. eexists. reflexivity. Qed.
Example windows_case : bartlett 1 = [1] /\ nth 1 (welch 3) 0 = 1.
Proof. split; [reflexivity|]. unfold welch, spread. cbn. lra. Qed.
