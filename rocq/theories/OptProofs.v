From Coq Require Import PeanoNat ZArith QArith Qcanon List Bool Lia.
From Verif Require Import QcPre LagModel LagSpec LagProofs DerModel ToepModel ToepSpec ToepProofs WhiModel WhiSpec WhiProofs OptModel OptSpec.
Import ListNotations.
Local Open Scope Qc_scope.

(** ** bracketR *)
Lemma fold_add (f : nat -> Qc) m : fold_left (fun acc i => acc + f i) (seq 0 m) 0 = qsum m f.
Proof. induction m as [|m IH]; [reflexivity|]. rewrite seq_S, fold_left_app. cbn [fold_left qsum Nat.add]. rewrite IH. reflexivity. Qed.

Lemma mirror_length n nz : (1 <= n)%nat -> (n <= length nz)%nat -> length (mirror n nz) = (2 * n - 1)%nat.
Proof. intros H1 H. unfold mirror. rewrite app_length, rev_length, tl_skipn, skipn_length, firstn_length. lia. Qed.
Lemma mirror_nth n nz k : (n <= length nz)%nat -> (k < 2 * n - 1)%nat -> nth k (mirror n nz) 0 = sym_toeplitz nz k (n - 1).
Proof.
  intros H Hk. unfold mirror, sym_toeplitz. assert (L : length (firstn n nz) = n) by (rewrite firstn_length; lia).
  destruct (Nat.lt_ge_cases k n) as [Hc|Hc].
  - rewrite app_nth1 by (rewrite rev_length; lia). rewrite nth_rev_q by lia. rewrite L, nth_firstn_q by lia.
    destruct (Nat.leb_spec (n - 1) k); f_equal; lia.
  - rewrite app_nth2 by (rewrite rev_length; lia). rewrite rev_length, L, tl_skipn, nth_skipn_q, nth_firstn_q by lia.
    destruct (Nat.leb_spec (n - 1) k); [f_equal; lia|lia].
Qed.
Lemma bracketR_quad q nz : q <> [] -> (length q <= length nz)%nat -> bracketR q nz = Some (quad nz q).
Proof.
  intros Hq H. unfold bracketR. set (n := length q) in *. apply len_pos in Hq. fold n in Hq.
  destruct (Nat.ltb_spec (length nz) n); [lia|]. destruct (Nat.eqb_spec n 0); [lia|]. cbn [orb]. f_equal.
  rewrite (fold_add (fun i => nth i q 0 * dot (slice (mirror n nz) (n - i - 1) n) q)). unfold quad. fold n.
  apply qsum_ext. intros i Hi. pose proof (mirror_length n nz Hq H) as L.
  rewrite (dot_sum _ _ n) by (try apply slice_length; auto; lia). rewrite <- qsum_scale. apply qsum_ext. intros j Hj.
  rewrite slice_nth by lia. rewrite mirror_nth by lia.
  replace (sym_toeplitz nz (n - i - 1 + j) (n - 1)) with (sym_toeplitz nz i j); [ring|].
  unfold sym_toeplitz. destruct (Nat.leb_spec j i), (Nat.leb_spec (n - 1) (n - i - 1 + j)); f_equal; lia.
Qed.
Lemma bracketR_some q nz v : bracketR q nz = Some v -> q <> [] /\ (length q <= length nz)%nat /\ v = quad nz q.
Proof.
  intros E. assert (H : q <> [] /\ (length q <= length nz)%nat).
  { unfold bracketR in E. destruct (Nat.ltb_spec (length nz) (length q)); [discriminate|]. destruct (Nat.eqb_spec (length q) 0); [discriminate|].
    split; [|assumption]. intros ->. cbn in *. lia. }
  destruct H as [H1 H2]. rewrite bracketR_quad in E by assumption. injection E as <-. auto.
Qed.

(** ** Lists *)
Lemma cut_length a b (l : list Qc) : length (cut a b l) = (length l - a - b)%nat.
Proof. unfold cut. rewrite firstn_length, skipn_length. lia. Qed.
Lemma cut_nth a b l i : (i < length l - a - b)%nat -> nth i (cut a b l) 0 = nth (a + i) l 0.
Proof. intros H. unfold cut. rewrite nth_firstn_q by exact H. apply nth_skipn_q. Qed.
Lemma nth_map_seq (f : nat -> Qc) n i : (i < n)%nat -> nth i (map f (seq 0 n)) 0 = f i.
Proof. apply (to_list_nth n f i). Qed.
Lemma nth_map_q (f : Qc -> Qc) l i : (i < length l)%nat -> nth i (map f l) 0 = f (nth i l 0).
Proof. intros H. rewrite (nth_indep _ _ (f 0)) by (rewrite map_length; exact H). apply map_nth. Qed.
Lemma pad_length a b f : length (pad a b f) = (a + length f + b)%nat.
Proof. unfold pad. rewrite !app_length, !repeat_length. lia. Qed.
Lemma pad_nth a b f i : nth i (pad a b f) 0 = if Nat.ltb i a then 0 else if Nat.ltb i (a + length f) then nth (i - a) f 0 else 0.
Proof.
  unfold pad. rewrite nth_pad. destruct (Nat.ltb_spec i a); [reflexivity|].
  destruct (Nat.ltb_spec i (a + length f)).
  - apply app_nth1. lia.
  - rewrite app_nth2 by lia. destruct (Nat.lt_ge_cases (i - a - length f) b); [|apply nth_overflow; rewrite repeat_length; lia].
    apply nth_repeat.
Qed.

Lemma lagged_pad a b f r m : lagged (pad a b f) r m = lagged f r (a + m).
Proof.
  unfold lagged. rewrite pad_length. rewrite <- Nat.add_assoc, qsum_split, qsum_split. rewrite (qsum_zero a), (qsum_zero b).
  - rewrite Qcplus_0_l, Qcplus_0_r. apply qsum_ext. intros i Hi. rewrite pad_nth. destruct (Nat.ltb_spec (a + i) a); [lia|].
    destruct (Nat.ltb_spec (a + i) (a + length f)); [|lia]. f_equal; f_equal; lia.
  - intros i Hi. rewrite pad_nth. destruct (Nat.ltb_spec (a + (length f + i)) a); [lia|]. destruct (Nat.ltb_spec (a + (length f + i)) (a + length f)); [lia|]. ring.
  - intros i Hi. rewrite pad_nth. destruct (Nat.ltb_spec i a); [ring|lia].
Qed.
Lemma total_pad a b f : total (pad a b f) = total f.
Proof.
  unfold total. rewrite pad_length. rewrite <- Nat.add_assoc, qsum_split, qsum_split. rewrite (qsum_zero a), (qsum_zero b).
  - rewrite Qcplus_0_l, Qcplus_0_r. apply qsum_ext. intros i Hi. rewrite pad_nth. destruct (Nat.ltb_spec (a + i) a); [lia|].
    destruct (Nat.ltb_spec (a + i) (a + length f)); [|lia]. f_equal; lia.
  - intros i Hi. rewrite pad_nth. destruct (Nat.ltb_spec (a + (length f + i)) a); [lia|]. destruct (Nat.ltb_spec (a + (length f + i)) (a + length f)); [lia|]. ring.
  - intros i Hi. rewrite pad_nth. destruct (Nat.ltb_spec i a); [ring|lia].
Qed.

Lemma lagged_affine f r s d a m alpha beta gamma : (length f + m <= length s)%nat -> follows r a s d alpha beta gamma ->
  lagged f r (a + m) = alpha * lagged f s m + beta * lagged f d m + gamma * total f.
Proof.
  intros H Hf. unfold lagged, total. rewrite <- !qsum_scale, <- !qsum_add. apply qsum_ext. intros i Hi.
  replace (i + (a + m))%nat with (a + (i + m))%nat by lia. rewrite Hf by lia. ring.
Qed.

(** ** The parabola and its vertex scale *)
Lemma parabola_scale k c0 c1 c2 c3 c4 p0 p1 p2 : parabola c0 c1 c2 c3 c4 = (p0, p1, p2) ->
  parabola (k * c0) (k * c1) (k * c2) (k * c3) (k * c4) = (k * p0, k * p1, k * p2).
Proof. unfold parabola. intros [= <- <- <-]. f_equal; [f_equal|]; ring. Qed.
Lemma qz_half : qz 1 / qz 2 * (1 + 1) = 1. Proof. apply Qc_is_canon. vm_compute. reflexivity. Qed.

(** The vertex in the form used by _normalize_5lag_filter. *)
Lemma vertex_polyval p0 p1 p2 h : qdiv p1 p2 = Some h ->
  vertex (p0, p1, p2) = Some (- (qz 1 / qz 2) * h, p0 + - (qz 1 / qz 2) * h * (p1 + - (qz 1 / qz 2) * h * p2)).
Proof.
  unfold qdiv, vertex. destruct (Qc_eq_dec p2 0); [discriminate|]. intros [= <-].
  apply f_equal. apply pair_equal_spec. split.
  - unfold Qcdiv. ring.
  - replace (qz 1 / qz 4) with (qz 1 / qz 2 * (qz 1 / qz 2)) by (apply Qc_is_canon; vm_compute; reflexivity).
    pose proof qz_half as Hh. set (u := qz 1 / qz 2) in *. clearbody u.
    transitivity (p0 - p1 * p1 / p2 * (u * u)); [field; assumption|].
    replace (p0 + - u * (p1 / p2) * (p1 + - u * (p1 / p2) * p2)) with (p0 - p1 * p1 / p2 * (u - u * u)) by (field; assumption).
    replace (u - u * u) with (u * u); [reflexivity|]. transitivity (u * (u * (1 + 1)) - u * u); [ring|]. rewrite Hh. ring.
Qed.
Lemma vertex_scale k p0 p1 p2 x v : k <> 0 -> vertex (p0, p1, p2) = Some (x, v) -> vertex (k * p0, k * p1, k * p2) = Some (x, k * v).
Proof.
  intros Hk. unfold vertex. destruct (Qc_eq_dec p2 0) as [|H]; [discriminate|].
  destruct (Qc_eq_dec (k * p2) 0) as [E|E].
  - apply Qcmult_integral in E. tauto.
  - intros [= <- <-]. f_equal. apply pair_equal_spec. split; field; repeat split; auto; discriminate.
Qed.

(** ** compute_5lag *)
Lemma normalize_signal_some m a b s p d : normalize_signal m a b = Some (s, p, d) ->
  (a + b < length (sig m))%nat /\ length s = (length (sig m) - a - b)%nat.
Proof.
  unfold normalize_signal. destruct (Nat.leb_spec (length (sig m)) (a + b)) as [|H]; [discriminate|].
  destruct (qdiv _ _); [|discriminate]. destruct (lmin _); [|discriminate]. destruct (lmax (cut _ _ _)); [|discriminate].
  destruct (lmax (map _ _)); [|discriminate]. destruct (qdiv 1 _); [|discriminate]. intros [= <- _ _].
  split; [exact H|]. rewrite cut_length. rewrite app_length, repeat_length, skipn_length, !map_length. lia.
Qed.

Lemma normalize_5lag_ok f s f' : normalize_5lag f s = Some f' ->
  (length f + 4 <= length s)%nat /\ exists k x, k <> 0 /\ f' = map (fun y => y * k) f /\
  vertex (parabola (lagged f' s 0) (lagged f' s 1) (lagged f' s 2) (lagged f' s 3) (lagged f' s 4)) = Some (x, 1).
Proof.
  unfold normalize_5lag. destruct (Nat.ltb_spec (length s) (length f + 4)) as [|H]; [discriminate|].
  assert (Ed : forall i, (i <= 4)%nat -> dot f (slice s i (length f)) = lagged f s i).
  { intros i Hi. rewrite (dot_sum _ _ (length f)) by (try apply slice_length; auto; lia). unfold lagged. apply qsum_ext. intros j Hj.
    rewrite slice_nth by exact Hj. f_equal. f_equal. lia. }
  rewrite !Ed by lia. destruct (parabola _ _ _ _ _) as [[p0 p1] p2] eqn:Ep.
  destruct (qdiv p1 p2) as [h|] eqn:Eh; [|discriminate]. pose proof (vertex_polyval p0 p1 p2 h Eh) as V.
  destruct (qdiv 1 _) as [k|] eqn:Ek; [|discriminate]. intros [= <-]. split; [exact H|].
  apply qdiv_some in Ek. destruct Ek as [Hp Ek].
  exists k, (- (qz 1 / qz 2) * h). assert (Hk : k <> 0) by (intros ->; rewrite Qcmult_0_l in Ek; discriminate Ek).
  split; [exact Hk|]. split; [reflexivity|].
  assert (El : forall i, lagged (map (fun y => y * k) f) s i = k * lagged f s i).
  { intros i. unfold lagged. rewrite map_length, <- qsum_scale. apply qsum_ext. intros j Hj. rewrite nth_map_q by exact Hj. ring. }
  rewrite !El. rewrite (parabola_scale k _ _ _ _ _ _ _ _ Ep). rewrite (vertex_scale _ _ _ _ _ _ Hk V). rewrite Ek. reflexivity.
Qed.

Definition raw (n : nat) (rs r1 : list Qc) : list Qc := map (fun i => total r1 * nth i rs 0 - total rs * nth i r1 0) (seq 0 n).
Lemma raw_length n rs r1 : length (raw n rs r1) = n. Proof. unfold raw. rewrite map_length, seq_length. reflexivity. Qed.
Lemma raw_total n rs r1 : length rs = n -> length r1 = n -> total (raw n rs r1) = 0.
Proof.
  intros H1 H2. unfold total at 1. rewrite raw_length. unfold raw.
  rewrite (qsum_ext n _ (fun i => total r1 * nth i rs 0 - total rs * nth i r1 0)) by (intros i Hi; apply nth_map_seq; exact Hi).
  rewrite qsum_sub, !qsum_scale. unfold total. rewrite H1, H2. ring.
Qed.
Lemma total_map k f : total (map (fun y => y * k) f) = total f * k.
Proof. unfold total. rewrite map_length, <- qsum_scale_r. apply qsum_ext. intros i Hi. apply nth_map_q. exact Hi. Qed.

(** Everything known about a computed filter. *)
Lemma compute_5lag_inv m a b F : compute_5lag m a b = Some F -> exists f nz k rs r1 x,
  noise m = Some nz /\
  values F = pad a b f /\ length (avg_signal F) = (length (sig m) - a - b)%nat /\ (a + b < length (sig m))%nat /\
  (6 <= length (avg_signal F))%nat /\ length f = (length (avg_signal F) - 4)%nat /\ (length f <= length nz)%nat /\
  solves (length f) (sym_toeplitz nz) rs (cut 2 2 (avg_signal F)) /\ solves (length f) (sym_toeplitz nz) r1 (repeat 1 (length f)) /\
  k <> 0 /\ f = map (fun y => y * k) (raw (length f) rs r1) /\
  vertex (parabola (lagged f (avg_signal F) 0) (lagged f (avg_signal F) 1) (lagged f (avg_signal F) 2) (lagged f (avg_signal F) 3) (lagged f (avg_signal F) 4)) = Some (x, 1) /\
  variance F = quad nz f.
Proof.
  unfold compute_5lag. destruct (normalize_signal m a b) as [[[s p] d]|] eqn:En; [|discriminate].
  apply normalize_signal_some in En. destruct En as [Hab Ls].
  destruct (Nat.ltb_spec (length (autocorr m a b)) (length (cut 2 2 s))) as [|HL]; [discriminate|].
  set (n := length (cut 2 2 s)) in *.
  destruct (solve_symmetric _ (cut 2 2 s)) as [rs|] eqn:Es; [|discriminate].
  destruct (solve_symmetric _ (repeat 1 n)) as [r1|] eqn:E1; [|discriminate].
  change (map (fun i => total r1 * nth i rs 0 - total rs * nth i r1 0) (seq 0 n)) with (raw n rs r1).
  destruct (normalize_5lag (raw n rs r1) s) as [f|] eqn:Ef; [|discriminate].
  destruct (bracketR f _) as [v|] eqn:Ev; [|discriminate]. intros [= <-]. cbn [values avg_signal variance].
  apply normalize_5lag_ok in Ef. destruct Ef as [HL4 [k [x [Hk [Ef V]]]]]. rewrite raw_length in HL4.
  assert (Lf : length f = n) by (rewrite Ef, map_length, raw_length; reflexivity).
  assert (Hn : n = (length s - 4)%nat) by (unfold n; rewrite cut_length; lia).
  apply bracketR_some in Ev. destruct Ev as [_ [_ Ev]].
  set (corr := firstn n (autocorr m a b)) in *.
  assert (Lc : length corr = n) by (unfold corr; rewrite firstn_length; lia).
  assert (Hn2 : (2 <= n)%nat).
  { unfold solve_symmetric in E1. rewrite Lc in E1. destruct (Nat.leb_spec n 1); [discriminate|lia]. }
  unfold autocorr in *. destruct (noise m) as [nz|]; [|cbn in HL; lia].
  assert (Hnz : (n <= length nz)%nat) by (rewrite firstn_length in HL; lia).
  assert (Ec : forall i j, (i < n)%nat -> (j < n)%nat -> sym_toeplitz corr i j = sym_toeplitz nz i j).
  { intros i j Hi Hj. unfold corr, sym_toeplitz. rewrite firstn_firstn. destruct (Nat.leb_spec j i); apply nth_firstn_q; lia. }
  assert (Es' : forall z y, solves n (sym_toeplitz corr) z y -> solves n (sym_toeplitz nz) z y).
  { intros z y [L Hz]. split; [exact L|]. intros i Hi. rewrite <- (Hz i Hi). unfold mat_vec. apply qsum_ext. intros j Hj. rewrite Ec by assumption. reflexivity. }
  apply solve_symmetric_solves in Es, E1. rewrite Lc in Es, E1.
  exists f, nz, k, rs, r1, x. repeat split; try (first [reflexivity|lia|assumption]).
  - rewrite Lf. apply Es. 
  - intros i Hi. rewrite Lf in *. apply Es'; assumption.
  - rewrite Lf. apply E1.
  - intros i Hi. rewrite Lf in *. apply Es'; assumption.
  - rewrite Lf. exact Ef.
  - rewrite Ev. unfold quad. rewrite Lf. apply qsum_ext. intros i Hi. apply qsum_ext. intros j Hj. rewrite Ec by assumption. reflexivity.
Qed.

Lemma five_lag_sum m a b F : compute_5lag m a b = Some F -> total (values F) = 0.
Proof.
  intros E. apply compute_5lag_inv in E. destruct E as [f [nz [k [rs [r1 [x [_ [-> [_ [_ [_ [_ [_ [[L1 _] [[L2 _] [_ [Ef _]]]]]]]]]]]]]]]]].
  rewrite total_pad, Ef, total_map, raw_total by assumption. ring.
Qed.

Lemma five_lag_length m a b F : compute_5lag m a b = Some F -> (length (values F) + 4 = length (sig m))%nat.
Proof.
  intros E. apply compute_5lag_inv in E. destruct E as [f [nz [k [rs [r1 [x [_ [-> [La [Hab [H6 [Lf _]]]]]]]]]]]].
  rewrite pad_length. lia.
Qed.

Lemma five_lag_unit m a b F : compute_5lag m a b = Some F -> exists x, forall (cython : bool) pt rec alpha gamma,
  (8 <= length rec)%nat -> length rec = length (sig m) -> alpha <> 0 ->
  follows rec a (avg_signal F) [] alpha 0 gamma ->
  filter_data_row cython None (values F) pt rec = Some (Some (x, alpha)).
Proof.
  intros E. pose proof (five_lag_length m a b F E) as HL. pose proof (five_lag_sum m a b F E) as HS.
  apply compute_5lag_inv in E. destruct E as [f [nz [k [rs [r1 [x [_ [Ev [La [Hab [H6 [Lf [_ [_ [_ [_ [_ [V _]]]]]]]]]]]]]]]]]].
  exists x. intros cython pt rec alpha gamma H8 Lr Ha Hf. unfold filter_data_row.
  rewrite lag_row_ok, segment_row_ok by lia. rewrite Ev in *. rewrite total_pad in HS.
  assert (El : forall i, (i <= 4)%nat -> lagged (pad a b f) rec i = alpha * lagged f (avg_signal F) i).
  { intros i Hi. rewrite lagged_pad. rewrite (lagged_affine f rec (avg_signal F) [] a i alpha 0 gamma) by (auto; lia). rewrite HS. ring. }
  rewrite !El by lia.
  destruct (parabola (lagged f (avg_signal F) 0) _ _ _ _) as [[p0 p1] p2] eqn:Ep.
  rewrite (parabola_scale alpha _ _ _ _ _ _ _ _ Ep). rewrite (vertex_scale alpha _ _ _ _ _ Ha V).
  replace (alpha * 1) with alpha by ring. destruct cython; reflexivity.
Qed.

(** ** Optimality *)
Definition bil (R : nat -> nat -> Qc) (n : nat) (f g : nat -> Qc) : Qc := qsum n (fun i => qsum n (fun j => f i * R i j * g j)).
Lemma bil_sym R n f g : (forall i j, R i j = R j i) -> bil R n f g = bil R n g f.
Proof. intros H. unfold bil. rewrite qsum_swap. apply qsum_ext. intros i Hi. apply qsum_ext. intros j Hj. rewrite (H i j). ring. Qed.
Lemma bil_sub R n f g : bil R n (fun i => g i - f i) (fun i => g i - f i) = bil R n g g - bil R n f g - bil R n g f + bil R n f f.
Proof.
  unfold bil. rewrite <- !qsum_sub, <- qsum_add. apply qsum_ext. intros i Hi. rewrite <- !qsum_sub, <- qsum_add. apply qsum_ext. intros j Hj. ring.
Qed.
Lemma quad_bil nz q n : length q = n -> quad nz q = bil (sym_toeplitz nz) n (fun i => nth i q 0) (fun i => nth i q 0).
Proof. intros <-. reflexivity. Qed.

(** If R f is a combination of constraints on which f and g agree, f has no more variance than g. *)
Lemma optimal nz n f g : covariance n nz -> length f = n -> length g = n ->
  bil (sym_toeplitz nz) n (fun i => nth i g 0) (fun i => nth i f 0) = quad nz f -> quad nz f <= quad nz g.
Proof.
  intros HC Lf Lg H. set (d := map (fun i => nth i g 0 - nth i f 0) (seq 0 n)).
  assert (Ld : length d = n) by (unfold d; rewrite map_length, seq_length; reflexivity).
  specialize (HC d Ld). rewrite (quad_bil nz d n Ld) in HC. rewrite (quad_bil nz f n Lf), (quad_bil nz g n Lg) in *.
  assert (E : bil (sym_toeplitz nz) n (fun i => nth i d 0) (fun i => nth i d 0) =
              bil (sym_toeplitz nz) n (fun i => nth i g 0 - nth i f 0) (fun i => nth i g 0 - nth i f 0)).
  { unfold bil. apply qsum_ext. intros i Hi. apply qsum_ext. intros j Hj. unfold d. rewrite !nth_map_seq by assumption. reflexivity. }
  rewrite E, bil_sub in HC. rewrite (bil_sym _ n (fun i => nth i f 0) (fun i => nth i g 0)) in HC by (apply sym_toeplitz_sym).
  rewrite H in HC. clear - HC.
  generalize dependent (bil (sym_toeplitz nz) n (fun i => nth i f 0) (fun i => nth i f 0)). generalize dependent (bil (sym_toeplitz nz) n (fun i => nth i g 0) (fun i => nth i g 0)). intros. qlra.
Qed.

Lemma five_lag_optimal m nz F g : compute_5lag m 0 0 = Some F -> noise m = Some nz -> covariance (length (values F)) nz ->
  length g = length (values F) -> total g = 0 -> lagged g (avg_signal F) 2 = lagged (values F) (avg_signal F) 2 ->
  variance F = quad nz (values F) /\ variance F <= quad nz g.
Proof.
  intros E Hnz HC Lg Hg0 Hg. apply compute_5lag_inv in E.
  destruct E as [f [nz' [k [rs [r1 [x [Hnz' [Ev [La [Hab [H6 [Lf [Hl [[L1 S1] [[L2 S2] [Hk [Ef [V Evar]]]]]]]]]]]]]]]]]].
  assert (nz' = nz) as -> by congruence. unfold pad in Ev. cbn [repeat app] in Ev. rewrite app_nil_r in Ev. rewrite Ev in *.
  split; [exact Evar|]. rewrite Evar. apply (optimal nz (length f)); auto. set (n := length f) in *.
  (* h' R f for any h *)
  assert (P : forall h, length h = n -> total h = 0 -> bil (sym_toeplitz nz) n (fun i => nth i h 0) (fun i => nth i f 0) = k * total r1 * lagged h (avg_signal F) 2).
  { intros h Lh Hh. unfold bil.
    rewrite (qsum_ext n _ (fun i => k * total r1 * (nth i h 0 * nth i (cut 2 2 (avg_signal F)) 0) - k * total rs * nth i h 0)).
    - rewrite qsum_sub, !qsum_scale. unfold total in Hh. rewrite Lh in Hh. rewrite Hh. unfold lagged. rewrite Lh.
      rewrite (qsum_ext n (fun i => nth i h 0 * nth i (cut _ _ _) 0) (fun i => nth i h 0 * nth (i + 2) (avg_signal F) 0)).
      + ring.
      + intros i Hi. rewrite cut_nth by lia. rewrite Nat.add_comm. reflexivity.
    - intros i Hi.
      rewrite (qsum_ext n _ (fun j => k * total r1 * nth i h 0 * (sym_toeplitz nz i j * nth j rs 0) - k * total rs * nth i h 0 * (sym_toeplitz nz i j * nth j r1 0))).
      + rewrite qsum_sub, !qsum_scale. specialize (S1 i Hi). specialize (S2 i Hi). unfold mat_vec in S1, S2. rewrite S1, S2.
        replace (nth i (repeat 1 n) 0) with 1; [ring|]. symmetry. 
        rewrite (nth_indep _ 0 1) by (rewrite repeat_length; exact Hi). apply nth_repeat.
      + intros j Hj. rewrite Ef at 1. rewrite nth_map_q by (rewrite raw_length; exact Hj). unfold raw. rewrite nth_map_seq by exact Hj. ring. }
  rewrite (quad_bil nz f n eq_refl). rewrite (P g Lg Hg0), (P f eq_refl).
  - rewrite Hg. reflexivity.
  - rewrite Ef, total_map, raw_total by assumption. ring.
Qed.

(** ** compute_ats *)
Lemma inv3_ok A B : inv3 A = Some B -> forall i j, (i < 3)%nat -> (j < 3)%nat ->
  B i 0%nat * A 0%nat j + B i 1%nat * A 1%nat j + B i 2%nat * A 2%nat j = if Nat.eqb i j then 1 else 0.
Proof.
  unfold inv3. destruct (Qc_eq_dec _ 0) as [|H]; [discriminate|]. intros [= <-] i j Hi Hj.
  destruct i as [|[|[|i]]]; try lia; destruct j as [|[|[|j]]]; try lia; cbn [Nat.eqb] in *; field; exact H.
Qed.

Lemma opt3_3 {A} (f : list Qc -> option A) x y z l : opt3 f [x; y; z] = Some l -> exists u v w, f x = Some u /\ f y = Some v /\ f z = Some w /\ l = [u; v; w].
Proof.
  cbn. destruct (f x) as [u|]; [|discriminate]. destruct (f y) as [v|]; [|discriminate]. destruct (f z) as [w|]; [|discriminate].
  intros [= <-]. eauto 10.
Qed.

Lemma combine3_length n c vs : length (combine3 n c vs) = n.
Proof. unfold combine3. rewrite map_length, seq_length. reflexivity. Qed.
Lemma combine3_resp n c vs r : lagged (combine3 n c vs) r 0 =
  c 0%nat * qsum n (fun j => nth j (row vs 0) 0 * nth j r 0) + c 1%nat * qsum n (fun j => nth j (row vs 1) 0 * nth j r 0) + c 2%nat * qsum n (fun j => nth j (row vs 2) 0 * nth j r 0).
Proof.
  unfold lagged. rewrite combine3_length. rewrite <- !qsum_scale, <- !qsum_add. apply qsum_ext. intros j Hj.
  unfold combine3. rewrite nth_map_seq by exact Hj. rewrite Nat.add_0_r. ring.
Qed.

(** What both ways of computing the normal matrix have in common: A(i,j) is V_j . M_i and symmetric. *)
Definition normal3 (n : nat) (MT V : list (list Qc)) (A : nat -> nat -> Qc) : Prop :=
  forall i j, (i < 3)%nat -> (j < 3)%nat -> A i j = qsum n (fun k => nth k (row V i) 0 * nth k (row MT j) 0) /\ A i j = A j i.

Lemma normal3_noise n nz MT RM : length nz = n -> (forall i, (i < 3)%nat -> length (row MT i) = n) ->
  (forall i, (i < 3)%nat -> solve_symmetric nz (row MT i) = Some (row RM i)) -> normal3 n MT RM (fun i j => dot (row MT i) (row RM j)).
Proof.
  intros Ln LM HS.
  assert (HR : forall i, (i < 3)%nat -> solves n (sym_toeplitz nz) (row RM i) (row MT i)).
  { intros i Hi. rewrite <- Ln. apply solve_symmetric_solves. apply HS. exact Hi. }
  assert (E : forall i j, (i < 3)%nat -> (j < 3)%nat -> dot (row MT i) (row RM j) = bil (sym_toeplitz nz) n (fun k => nth k (row RM j) 0) (fun k => nth k (row RM i) 0)).
  { intros i j Hi Hj. destruct (HR i Hi) as [Li Si]. destruct (HR j Hj) as [Lj _]. rewrite (dot_sum _ _ n) by auto. unfold bil. apply qsum_ext. intros k Hk.
    rewrite <- (Si k Hk). unfold mat_vec. rewrite <- qsum_scale_r. apply qsum_ext. intros l Hl. ring. }
  assert (Sy : forall i j, (i < 3)%nat -> (j < 3)%nat -> dot (row MT i) (row RM j) = dot (row MT j) (row RM i)).
  { intros i j Hi Hj. rewrite !E by assumption. apply bil_sym. apply sym_toeplitz_sym. }
  intros i j Hi Hj. split; [|apply Sy; assumption]. rewrite (Sy i j Hi Hj). destruct (HR i Hi) as [Li _].
  rewrite (dot_sum _ _ n) by auto. apply qsum_ext. intros k Hk. ring.
Qed.

Lemma regular_of_some theta phi v w : whiten theta phi v = Some w -> length w = length v.
Proof. intros E. unfold whiten in E. apply guard_some in E. destruct E as [_ [_ [_ ->]]]. apply to_list_length. Qed.
Lemma apply_len theta phi v w : applyWT theta phi v = Some w -> length w = length v.
Proof. intros E. unfold applyWT in E. apply guard_some in E. destruct E as [_ [_ [_ ->]]]. apply to_list_length. Qed.

Lemma normal3_white n theta phi MT WM V : (forall i, (i < 3)%nat -> length (row MT i) = n /\ regular theta (row MT i)) ->
  (forall i, (i < 3)%nat -> whiten theta phi (row MT i) = Some (row WM i)) ->
  (forall i, (i < 3)%nat -> applyWT theta phi (row WM i) = Some (row V i)) -> normal3 n MT V (fun i j => dot (row WM i) (row WM j)).
Proof.
  intros LM HW HV i j Hi Hj. destruct (LM i Hi) as [Li Ri], (LM j Hj) as [Lj Rj].
  pose proof (regular_of_some _ _ _ _ (HW i Hi)) as Lwi. pose proof (regular_of_some _ _ _ _ (HW j Hj)) as Lwj.
  rewrite (dot_sum _ _ n) by lia. rewrite (dot_sum (row WM j) _ n) by lia. split; [|apply qsum_ext; intros; ring].
  pose proof (whiten_adjoint theta phi (row MT j) (row WM i) (row WM j) (row V i) ltac:(lia) Rj (HW j Hj) (HV i Hi)) as Ad.
  unfold inner in Ad. rewrite Lwj, Lj in Ad. transitivity (qsum n (fun k => nth k (row WM j) 0 * nth k (row WM i) 0)).
  - apply qsum_ext; intros; ring.
  - rewrite Ad. apply qsum_ext; intros; ring.
Qed.

Lemma row3 {P : list Qc -> list Qc -> Prop} x y z u v w : P x u -> P y v -> P z w -> forall i, (i < 3)%nat -> P (row [x; y; z] i) (row [u; v; w] i).
Proof. intros Hx Hy Hz [|[|[|i]]] Hi; cbn; auto; lia. Qed.

Definition ats_regular (m : maker) (n : nat) : Prop :=
  match wht m with None => True | Some (theta, _) => (2 <= length theta)%nat \/ nth 0 theta 0 = 1 \/ n = 1%nat end.

Lemma compute_ats_inv m a b F : compute_ats m a b = Some F -> ats_regular m (length (a_signal F)) ->
  let n := length (a_signal F) in let MT := [a_signal F; a_dt F; repeat 1 n] in
  length (a_dt F) = n /\ (a + n + b = length (sig m))%nat /\
  exists nz A Ainv V, noise m = Some nz /\ normal3 n MT V A /\ inv3 A = Some Ainv /\
  f_values F = pad a b (combine3 n (Ainv 0%nat) V) /\ f_dt F = pad a b (combine3 n (Ainv 1%nat) V) /\ f_baseline F = pad a b (combine3 n (Ainv 2%nat) V) /\
  a_variance F = quad nz (f_values F) /\
  (wht m = None -> (n <= length nz)%nat /\ forall i, (i < 3)%nat -> solves n (sym_toeplitz nz) (row V i) (row MT i)).
Proof.
  unfold compute_ats. destruct (normalize_signal m a b) as [[[s p] d]|] eqn:En; [|discriminate].
  apply normalize_signal_some in En. destruct En as [Hab Ls].
  destruct (dtm m); [|discriminate]. destruct (Nat.eqb_spec (length s) (length d)) as [Hd|]; [|discriminate]. cbn [negb].
  set (n := length s) in *. set (MT := [s; d; repeat 1 n]).
  match goal with |- match ?X with _ => _ end = _ -> _ => destruct X as [[A V]|] eqn:EA; [|discriminate] end.
  destruct (inv3 A) as [Ainv|] eqn:Ei; [|discriminate]. destruct (noise m) as [nz|] eqn:Enz; [|discriminate].
  destruct (bracketR _ _) as [v|] eqn:Ev; [|discriminate]. intros [= <-]. cbn [a_signal a_dt f_values f_dt f_baseline a_variance].
  intros HR. cbn zeta. fold n. fold MT. split; [lia|]. split; [lia|]. exists nz, A, Ainv, V.
  apply bracketR_some in Ev. destruct Ev as [_ [Lnz Ev]].
  assert (LM : forall i, (i < 3)%nat -> length (row MT i) = n) by (intros [|[|[|i]]] Hi; cbn; try lia; apply repeat_length).
  unfold ats_regular in HR. fold n in HR.
  assert (HN : normal3 n MT V A /\ (wht m = None -> (n <= length nz)%nat /\ forall i, (i < 3)%nat -> solves n (sym_toeplitz nz) (row V i) (row MT i))).
  { destruct (wht m) as [[theta phi]|].
    - split; [|discriminate]. destruct (opt3 (whiten theta phi) MT) as [WM|] eqn:EW; [|discriminate].
      destruct (opt3 (applyWT theta phi) WM) as [WtWM|] eqn:EV; [|discriminate]. injection EA as <- <-.
      apply opt3_3 in EW. destruct EW as [u [v' [w [E1 [E2 [E3 ->]]]]]]. apply opt3_3 in EV. destruct EV as [u2 [v2 [w2 [F1 [F2 [F3 ->]]]]]].
      apply (normal3_white n theta phi).
      + intros i Hi. split; [apply LM; exact Hi|]. unfold regular. rewrite (LM i Hi). tauto.
      + apply (row3 (P := fun x y => whiten theta phi x = Some y)); assumption.
      + apply (row3 (P := fun x y => applyWT theta phi x = Some y)); assumption.
    - destruct (Nat.ltb_spec (length (autocorr m a b)) n) as [|HL]; [discriminate|].
      destruct (opt3 (solve_symmetric (firstn n (autocorr m a b))) MT) as [RM|] eqn:ER; [|discriminate]. injection EA as <- <-.
      apply opt3_3 in ER. destruct ER as [u [v' [w [E1 [E2 [E3 ->]]]]]].
      pose proof (row3 (P := fun x y => solve_symmetric (firstn n (autocorr m a b)) x = Some y) _ _ _ _ _ _ E1 E2 E3) as HS. fold MT in HS.
      unfold autocorr in *. rewrite Enz in *.
      assert (Lc : length (firstn n (firstn (length (sig m) - (a + b)) nz)) = n) by (rewrite firstn_length; lia).
      split; [apply (normal3_noise n (firstn n (firstn (length (sig m) - (a + b)) nz))); auto|].
      intros _. rewrite firstn_length in HL. split; [lia|]. intros i Hi. specialize (HS i Hi). apply solve_symmetric_solves in HS. rewrite Lc in HS.
      destruct HS as [L1 H1]. split; [exact L1|]. intros k Hk. rewrite <- (H1 k Hk). unfold mat_vec. apply qsum_ext. intros j Hj. f_equal.
      unfold sym_toeplitz. rewrite firstn_firstn. destruct (Nat.leb_spec j k); symmetry; apply nth_firstn_q; lia. }
  destruct HN as [HN1 HN2]. repeat (split; [first [reflexivity|assumption]|]). exact HN2.
Qed.

Lemma ats_responses m a b F : compute_ats m a b = Some F -> ats_regular m (length (a_signal F)) ->
  forall rec alpha beta gamma, length rec = length (sig m) -> follows rec a (a_signal F) (a_dt F) alpha beta gamma ->
  response (f_values F) rec = alpha /\ response (f_dt F) rec = beta /\ response (f_baseline F) rec = gamma.
Proof.
  intros E HR rec alpha beta gamma Lr Hf. apply compute_ats_inv in E; [|exact HR]. cbn zeta in E.
  set (n := length (a_signal F)) in *. destruct E as [Ld [Ln [nz [A [Ainv [V [_ [HN [Ei [E0 [E1 [E2 _]]]]]]]]]]]].
  assert (G : forall i, (i < 3)%nat -> response (pad a b (combine3 n (Ainv i) V)) rec = match i with O => alpha | 1%nat => beta | _ => gamma end).
  { intros i Hi. unfold response. rewrite lagged_pad. rewrite (lagged_affine _ rec (a_signal F) (a_dt F) a 0 alpha beta gamma) by (try exact Hf; rewrite combine3_length; fold n; lia).
    assert (T : total (combine3 n (Ainv i) V) = lagged (combine3 n (Ainv i) V) (repeat 1 n) 0).
    { unfold total, lagged. rewrite combine3_length. apply qsum_ext. intros j Hj. rewrite Nat.add_0_r.
      rewrite (nth_indep (repeat 1 n) 0 1) by (rewrite repeat_length; exact Hj). rewrite nth_repeat. ring. }
    rewrite T. 
    set (MT := [a_signal F; a_dt F; repeat 1 n]) in HN.
    change (a_signal F) with (row MT 0). change (a_dt F) with (row MT 1). change (repeat 1 n) with (row MT 2).
    rewrite !combine3_resp.
    rewrite <- !(fun i j Hi Hj => proj1 (HN i j Hi Hj)) by lia.
    pose proof (fun j Hj => inv3_ok A Ainv Ei i j Hi Hj) as I.
    rewrite (I 0%nat), (I 1%nat), (I 2%nat) by lia.
    destruct i as [|[|[|i]]]; [| | |lia]; cbn [Nat.eqb]; ring. }
  rewrite E0, E1, E2. split; [|split]; [apply (G 0%nat)|apply (G 1%nat)|apply (G 2%nat)]; lia.
Qed.

Lemma ats_optimal m nz F g : compute_ats m 0 0 = Some F -> wht m = None -> noise m = Some nz -> covariance (length (f_values F)) nz ->
  length g = length (f_values F) ->
  response g (a_signal F) = 1 -> response g (a_dt F) = 0 -> total g = 0 ->
  a_variance F = quad nz (f_values F) /\ a_variance F <= quad nz g.
Proof.
  intros E HW Hnz HC Lg H0 H1 H2.
  assert (HR : ats_regular m (length (a_signal F))) by (unfold ats_regular; rewrite HW; exact I).
  pose proof (ats_responses m 0 0 F E HR) as RESP.
  apply compute_ats_inv in E; [|exact HR]. cbn zeta in E. set (n := length (a_signal F)) in *.
  destruct E as [Ld [Ln [nz' [A [Ainv [V [Hnz' [HN [Ei [E0 [_ [_ [Evar HS]]]]]]]]]]]]]. assert (nz' = nz) as -> by congruence.
  specialize (HS HW). destruct HS as [Lnz HS]. split; [exact Evar|]. rewrite Evar.
  unfold pad in E0. cbn [repeat app] in E0. rewrite app_nil_r in E0.
  assert (Lf : length (f_values F) = n) by (rewrite E0; apply combine3_length). rewrite Lf in *.
  apply (optimal nz n); auto. set (MT := [a_signal F; a_dt F; repeat 1 n]) in *.
  assert (P : forall h, length h = n -> bil (sym_toeplitz nz) n (fun i => nth i h 0) (fun i => nth i (f_values F) 0) =
     Ainv 0%nat 0%nat * response h (a_signal F) + Ainv 0%nat 1%nat * response h (a_dt F) + Ainv 0%nat 2%nat * total h).
  { intros h Lh. unfold bil, response, lagged, total. rewrite Lh. rewrite <- !qsum_scale, <- !qsum_add. apply qsum_ext. intros i Hi.
    transitivity (nth i h 0 * (Ainv 0%nat 0%nat * mat_vec n (sym_toeplitz nz) (row V 0) i + Ainv 0%nat 1%nat * mat_vec n (sym_toeplitz nz) (row V 1) i + Ainv 0%nat 2%nat * mat_vec n (sym_toeplitz nz) (row V 2) i)).
    - unfold mat_vec. rewrite <- !qsum_scale, <- !qsum_add, <- qsum_scale. apply qsum_ext. intros j Hj. rewrite E0. unfold combine3. rewrite nth_map_seq by exact Hj. ring.
    - rewrite (proj2 (HS 0%nat ltac:(lia)) i Hi), (proj2 (HS 1%nat ltac:(lia)) i Hi), (proj2 (HS 2%nat ltac:(lia)) i Hi).
      unfold MT. cbn [row nth]. rewrite !Nat.add_0_r. rewrite (nth_indep (repeat 1 n) 0 1) by (rewrite repeat_length; exact Hi). rewrite nth_repeat. ring. }
  rewrite (quad_bil nz (f_values F) n Lf). rewrite (P g Lg), (P (f_values F) Lf).
  rewrite H0, H1, H2.
  assert (R1 : response (f_values F) (a_signal F) = 1).
  { apply (RESP (a_signal F) 1 0 0); [fold n; lia|]. intros i Hi. cbn [Nat.add]. ring. }
  assert (R2 : response (f_values F) (a_dt F) = 0).
  { apply (RESP (a_dt F) 0 1 0); [lia|]. intros i Hi. cbn [Nat.add]. ring. }
  assert (R3 : total (f_values F) = 0).
  { transitivity (response (f_values F) (repeat 1 n)).
    - unfold total, response, lagged. rewrite Lf. apply qsum_ext. intros j Hj. rewrite Nat.add_0_r. rewrite (nth_indep (repeat 1 n) 0 1) by (rewrite repeat_length; exact Hj). rewrite nth_repeat. ring.
    - apply (RESP (repeat 1 n) 0 0 1); [rewrite repeat_length; lia|]. intros i Hi. cbn [Nat.add]. rewrite (nth_indep (repeat 1 n) 0 1) by (rewrite repeat_length; exact Hi). rewrite nth_repeat. ring. }
  rewrite R1, R2, R3. reflexivity.
Qed.

Lemma dot_response d f : length d = length f -> dot d f = response f d.
Proof. intros H. rewrite (dot_sum _ _ (length f)) by auto. unfold response, lagged. apply qsum_ext. intros i Hi. rewrite Nat.add_0_r. ring. Qed.

Lemma ats_row_ok m a b F : compute_ats m a b = Some F -> ats_regular m (length (a_signal F)) ->
  forall (shift1 : bool) pulse alpha beta gamma, length pulse = S (length (sig m)) -> alpha <> 0 ->
  follows pulse (a + if shift1 then 0 else 1)%nat (a_signal F) (a_dt F) alpha beta gamma ->
  ats_row (f_values F) (f_dt F) shift1 pulse = Some (beta / alpha, alpha).
Proof.
  intros E HR shift1 pulse alpha beta gamma Lp Ha Hf. pose proof E as E'. apply compute_ats_inv in E'; [|exact HR]. cbn zeta in E'.
  destruct E' as [Ld [Ln [nz [A [Ainv [V [_ [_ [_ [E0 [E1 _]]]]]]]]]]].
  set (d := if shift1 then firstn (length pulse - 1) pulse else tl pulse).
  assert (Ldd : length d = length (sig m)) by (unfold d; destruct shift1; [rewrite firstn_length; lia|rewrite tl_skipn, skipn_length; lia]).
  assert (Hd : follows d a (a_signal F) (a_dt F) alpha beta gamma).
  { intros i Hi. rewrite <- (Hf i Hi). unfold d. destruct shift1.
    - rewrite nth_firstn_q by lia. f_equal. lia.
    - rewrite tl_skipn, nth_skipn_q. f_equal. lia. }
  pose proof (ats_responses m a b F E HR d alpha beta gamma Ldd Hd) as [R0 [R1 _]].
  assert (L0 : length (f_values F) = length (sig m)) by (rewrite E0, pad_length, combine3_length; lia).
  assert (L1 : length (f_dt F) = length (sig m)) by (rewrite E1, pad_length, combine3_length; lia).
  unfold ats_row. rewrite L0, Lp, Nat.add_1_r, Nat.eqb_refl. cbn [negb]. rewrite <- Lp. fold d.
  rewrite !dot_response by lia. rewrite R0, R1. unfold qdiv. destruct (Qc_eq_dec alpha 0); [contradiction|reflexivity].
Qed.

(** ** The normalised signal *)
Lemma lmax_fold x t hi : fold_left (fun m y => if qltb m y then y else m) t x = hi ->
  In hi (x :: t) /\ forall y, In y (x :: t) -> y <= hi.
Proof.
  revert x; induction t as [|z t IH]; intros x E; cbn [fold_left] in E.
  - subst. split; [left; reflexivity|]. intros y [<-|[]]. apply Qcle_refl.
  - apply IH in E. destruct (qltb x z) eqn:Ez.
    + apply qltb_lt in Ez. destruct E as [[E|E] H]; (split; [cbn; tauto|]).
      * intros y [<-|Hy]; [specialize (H z ltac:(left; reflexivity)); qlra|apply H; exact Hy].
      * intros y [<-|Hy]; [specialize (H z ltac:(left; reflexivity)); qlra|apply H; exact Hy].
    + apply qltb_ge in Ez. destruct E as [[E|E] H]; (split; [cbn; tauto|]).
      * intros y [<-|[<-|Hy]]; [apply H; left; reflexivity|specialize (H x ltac:(left; reflexivity)); qlra|apply H; right; exact Hy].
      * intros y [<-|[<-|Hy]]; [apply H; left; reflexivity|specialize (H x ltac:(left; reflexivity)); qlra|apply H; right; exact Hy].
Qed.
Definition greatest (hi : Qc) (l : list Qc) : Prop := In hi l /\ forall y, In y l -> y <= hi.
Definition least (lo : Qc) (l : list Qc) : Prop := In lo l /\ forall y, In y l -> lo <= y.
Lemma lmax_ok l hi : lmax l = Some hi -> greatest hi l.
Proof. destruct l as [|x t]; [discriminate|]. unfold lmax. intros [= E]. apply lmax_fold. exact E. Qed.
Lemma lmin_fold x t lo : fold_left (fun m y => if qltb y m then y else m) t x = lo ->
  In lo (x :: t) /\ forall y, In y (x :: t) -> lo <= y.
Proof.
  revert x; induction t as [|z t IH]; intros x E; cbn [fold_left] in E.
  - subst. split; [left; reflexivity|]. intros y [<-|[]]. apply Qcle_refl.
  - apply IH in E. destruct (qltb z x) eqn:Ez.
    + apply qltb_lt in Ez. destruct E as [[E|E] H]; (split; [cbn; tauto|]).
      * intros y [<-|Hy]; [specialize (H z ltac:(left; reflexivity)); qlra|apply H; exact Hy].
      * intros y [<-|Hy]; [specialize (H z ltac:(left; reflexivity)); qlra|apply H; exact Hy].
    + apply qltb_ge in Ez. destruct E as [[E|E] H]; (split; [cbn; tauto|]).
      * intros y [<-|[<-|Hy]]; [apply H; left; reflexivity|specialize (H x ltac:(left; reflexivity)); qlra|apply H; right; exact Hy].
      * intros y [<-|[<-|Hy]]; [apply H; left; reflexivity|specialize (H x ltac:(left; reflexivity)); qlra|apply H; right; exact Hy].
Qed.
Lemma lmin_ok l lo : lmin l = Some lo -> least lo l.
Proof. destruct l as [|x t]; [discriminate|]. unfold lmin. intros [= E]. apply lmin_fold. exact E. Qed.
Lemma greatest_unique l a b : greatest a l -> greatest b l -> a = b.
Proof. intros [A1 A2] [B1 B2]. apply Qcle_antisym; auto. Qed.
Lemma least_unique l a b : least a l -> least b l -> a = b.
Proof. intros [A1 A2] [B1 B2]. apply Qcle_antisym; auto. Qed.
Lemma greatest_shift l hi c : greatest hi l -> greatest (hi - c) (map (fun x => x - c) l).
Proof.
  intros [H1 H2]. split; [apply (in_map (fun x => x - c)); exact H1|]. intros y Hy. apply in_map_iff in Hy. destruct Hy as [x [<- Hx]].
  specialize (H2 x Hx). qlra.
Qed.
Lemma cut_0 l : cut 0 0 l = l.
Proof. unfold cut. cbn [skipn]. rewrite !Nat.sub_0_r. apply firstn_all. Qed.

Lemma normalize_positive m s p d mu hi lo : normalize_signal m 0 0 = Some (s, p, d) -> upeak m <= 0 ->
  (2 <= npre m <= length (sig m))%nat -> qz (Z.of_nat (npre m - 1)) * mu = qsum (npre m - 1) (fun i => nth i (sig m) 0) ->
  greatest hi (sig m) -> least lo (sig m) -> mu - lo <= hi - mu ->
  p = hi - mu /\ p <> 0 /\ forall i, (i < length (sig m))%nat -> p * nth i s 0 = if Nat.ltb i (npre m) then 0 else nth i (sig m) 0 - mu.
Proof.
  unfold normalize_signal. destruct (Nat.leb_spec (length (sig m)) (0 + 0)) as [|Hl]; [discriminate|]. intros E Hu Hn Hmu Hhi Hlo Hpos.
  destruct (npre m) as [|k] eqn:Ek; [lia|]. rewrite Nat.min_l in E by lia. rewrite !Nat.sub_0_r, !cut_0 in E.
  assert (Ls : length (slice (sig m) 0 k) = k) by (apply slice_length; lia).
  rewrite Ls in E. cbn [Nat.sub] in Hmu. rewrite Nat.sub_0_r in Hmu.
  assert (Kz : qz (Z.of_nat k) <> 0) by (apply qz_neq; lia).
  unfold qdiv at 1 in E. destruct (Qc_eq_dec (qz (Z.of_nat k)) 0) as [C|_]; [contradiction|].
  assert (Emu : total (slice (sig m) 0 k) / qz (Z.of_nat k) = mu).
  { unfold total. rewrite Ls. rewrite (qsum_ext k _ (fun i => nth i (sig m) 0)) by (intros i Hi; apply slice_nth; exact Hi). rewrite <- Hmu. field. exact Kz. }
  rewrite Emu in E.
  destruct (lmin (sig m)) as [lo'|] eqn:Elo; [|discriminate]. apply lmin_ok in Elo. assert (lo' = lo) as -> by (apply (least_unique (sig m)); assumption).
  destruct (lmax (sig m)) as [hi'|] eqn:Ehi; [|discriminate]. apply lmax_ok in Ehi. assert (hi' = hi) as -> by (apply (greatest_unique (sig m)); assumption).
  rewrite (proj2 (qltb_ge 0 (upeak m)) Hu) in E. rewrite (proj2 (qltb_ge (hi - mu) (mu - lo)) Hpos) in E.
  destruct (lmax (map _ _)) as [top|] eqn:Et; [|discriminate]. apply lmax_ok in Et.
  assert (top = hi - mu) as -> by (apply (greatest_unique _ _ _ Et); apply greatest_shift; exact Hhi).
  destruct (qdiv 1 (hi - mu)) as [r|] eqn:Er; [|discriminate]. apply qdiv_some in Er. destruct Er as [Hz Er].
  rewrite Nat.min_l in E by lia. set (w := repeat 0 (S k) ++ _) in E. rewrite cut_0 in E.
  assert (Ew : s = w) by congruence. assert (Epk : p = hi - mu) by congruence. clear E. subst s p.
  split; [reflexivity|]. split; [exact Hz|]. intros i Hi. unfold w.
  rewrite nth_pad. destruct (Nat.ltb_spec i (S k)); [ring|].
  rewrite nth_skipn_q. replace (S k + (i - S k))%nat with i by lia. rewrite nth_map_q by (rewrite map_length; exact Hi). rewrite nth_map_q by exact Hi.
  transitivity ((nth i (sig m) 0 - mu) * (r * (hi - mu))); [ring|]. rewrite Er. ring.
Qed.

Lemma five_lag_peak m F mu hi lo : compute_5lag m 0 0 = Some F -> upeak m <= 0 ->
  (2 <= npre m <= length (sig m))%nat -> qz (Z.of_nat (npre m - 1)) * mu = qsum (npre m - 1) (fun i => nth i (sig m) 0) ->
  greatest hi (sig m) -> least lo (sig m) -> mu - lo <= hi - mu ->
  nominal_peak F = hi - mu /\ exists x, forall (cython : bool) pt rec gamma, (8 <= length rec)%nat -> length rec = length (sig m) ->
    (forall i, (i < length rec)%nat -> nth i rec 0 = (if Nat.ltb i (npre m) then 0 else nth i (sig m) 0 - mu) + gamma) ->
    filter_data_row cython None (values F) pt rec = Some (Some (x, nominal_peak F)).
Proof.
  intros E Hu Hn Hmu Hhi Hlo Hpos. pose proof (five_lag_unit m 0 0 F E) as [x U].
  assert (HN : normalize_signal m 0 0 = Some (avg_signal F, nominal_peak F, match normalize_signal m 0 0 with Some (_, _, d) => d | None => [] end)).
  { unfold compute_5lag in E. destruct (normalize_signal m 0 0) as [[[s p] d]|]; [|discriminate].
    destruct (Nat.ltb _ _); [discriminate|]. destruct (solve_symmetric _ _); [|discriminate]. destruct (solve_symmetric _ (repeat _ _)); [|discriminate].
    destruct (normalize_5lag _ _); [|discriminate]. destruct (bracketR _ _); [|discriminate]. injection E as <-. reflexivity. }
  pose proof (normalize_signal_some _ _ _ _ _ _ HN) as [_ Ls].
  apply (normalize_positive m _ _ _ mu hi lo) in HN; auto. destruct HN as [Ep [Hp Hs]].
  split; [exact Ep|]. exists x. intros cython pt rec gamma H8 Lr Hr. apply (U cython pt rec (nominal_peak F) gamma); auto.
  intros i Hi. cbn [Nat.add]. rewrite Hr by lia. rewrite <- Hs by lia. ring.
Qed.
