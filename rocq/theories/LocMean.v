(** Bisquare and Huber weighted means. *)
From Coq Require Import ZArith QArith Qcanon List Bool Lia Permutation.
From Verif Require Import QcPre LagModel LagProofs FluxModel FluxProofs DerModel QSort LocModel LocSpec LocProofs.
Import ListNotations.
Local Open Scope Qc_scope.

(* ---------- sums ---------- *)

Lemma sum_cons f a l : sum_of f (a :: l) = f a + sum_of f l.
Proof. reflexivity. Qed.
Lemma sum_ext f g l : (forall v, In v l -> f v = g v) -> sum_of f l = sum_of g l.
Proof. induction l as [|a l IH]; intros H; [reflexivity|]. rewrite !sum_cons, (H a (or_introl eq_refl)), IH by (intros; apply H; right; assumption). reflexivity. Qed.
Lemma sum_map f g l : sum_of f (map g l) = sum_of (fun v => f (g v)) l.
Proof. induction l as [|a l IH]; [reflexivity|]. cbn [map]. rewrite !sum_cons, IH. reflexivity. Qed.
Lemma sum_plus f g l : sum_of (fun v => f v + g v) l = sum_of f l + sum_of g l.
Proof. induction l as [|a l IH]; [cbn; ring|]. rewrite !sum_cons, IH. ring. Qed.
Lemma sum_scale c f l : sum_of (fun v => c * f v) l = c * sum_of f l.
Proof. induction l as [|a l IH]; [cbn; ring|]. rewrite !sum_cons, IH. ring. Qed.
Lemma sum_le f g l : (forall v, In v l -> f v <= g v) -> sum_of f l <= sum_of g l.
Proof.
  induction l as [|a l IH]; intros H; [apply Qcle_refl|]. rewrite !sum_cons. pose proof (H a (or_introl eq_refl)) as H1. assert (H2 : sum_of f l <= sum_of g l) by (apply IH; intros; apply H; right; assumption). qlra.
Qed.
Lemma sum_nonneg f l : (forall v, In v l -> 0 <= f v) -> 0 <= sum_of f l.
Proof. induction l as [|a l IH]; intros H; [apply Qcle_refl|]. rewrite sum_cons. pose proof (H a (or_introl eq_refl)) as H1. assert (H2 : 0 <= sum_of f l) by (apply IH; intros; apply H; right; assumption). qlra. Qed.
Lemma sum_perm f l l' : Permutation l l' -> sum_of f l = sum_of f l'.
Proof. induction 1; [reflexivity|rewrite !sum_cons, IHPermutation; reflexivity|rewrite !sum_cons; ring|congruence]. Qed.
Lemma sum_const c l : sum_of (fun _ => c) l = c * qz (Z.of_nat (length l)).
Proof. induction l as [|a l IH]; [cbn; change (qz 0) with 0; ring|]. rewrite sum_cons, IH. cbn [length]. rewrite qz_nat_S. ring. Qed.
Lemma sum_filter f g l : (forall v, In v l -> g v = false -> f v = 0) -> sum_of f (filter g l) = sum_of f l.
Proof.
  induction l as [|a l IH]; intros H; [reflexivity|]. cbn [filter]. assert (E : sum_of f (filter g l) = sum_of f l) by (apply IH; intros; apply H; [right|]; assumption).
  destruct (g a) eqn:G; rewrite !sum_cons, E; [reflexivity|]. rewrite (H a (or_introl eq_refl) G). ring.
Qed.
Lemma sum_zero_all f l : (forall v, In v l -> 0 <= f v) -> sum_of f l = 0 -> forall v, In v l -> f v = 0.
Proof.
  induction l as [|a l IH]; intros H E v Hv; [destruct Hv|]. rewrite sum_cons in E. pose proof (H a (or_introl eq_refl)) as H1. assert (H2 : 0 <= sum_of f l) by (apply sum_nonneg; intros; apply H; right; assumption).
  assert (f a = 0 /\ sum_of f l = 0) as [A B] by (split; qlra). destruct Hv as [<-|Hv]; [exact A|]. apply IH; [intros; apply H; right; assumption|exact B|exact Hv].
Qed.

(* ---------- one round ---------- *)

Lemma weighted_total (w : Qc -> option Qc) (W : Qc -> Qc) x : (forall v, In v x -> w v = Some (W v)) ->
  fold_right (fun v acc => match w v, acc with Some a, Some (s, t) => Some (a + s, a * v + t) | _, _ => None end) (Some (0, 0)) x = Some (sum_of W x, sum_of (fun v => W v * v) x).
Proof. induction x as [|a x IH]; intros H; [reflexivity|]. cbn [fold_right]. rewrite IH by (intros; apply H; right; assumption). rewrite (H a (or_introl eq_refl)). reflexivity. Qed.
Lemma weighted_spec (w : Qc -> option Qc) (W : Qc -> Qc) x m : (forall v, In v x -> w v = Some (W v)) -> (weighted w x = Some m <-> weighted_mean_is W x m).
Proof.
  intros H. unfold weighted. rewrite (weighted_total w W x H). unfold weighted_mean_is. destruct (Qc_eq_dec (sum_of W x) 0) as [E|E].
  - split; [discriminate|]. intros [C _]. contradiction.
  - split.
    + intros A. apply loc_inj in A. subst m. split; [exact E|]. field. exact E.
    + intros [_ A]. f_equal. rewrite <- A. field. exact E.
Qed.
Lemma weighted_none (w : Qc -> option Qc) x : x <> [] -> (forall v, In v x -> w v = None) -> weighted w x = None.
Proof. intros H N. unfold weighted. destruct x as [|a x]; [contradiction|]. cbn [fold_right]. rewrite (N a (or_introl eq_refl)). reflexivity. Qed.

Lemma bisquare_weight_spec k c v : 0 < k -> bisquare_weight k c v = Some (bisquare_w k (v - c)).
Proof. intros H. unfold bisquare_weight, bisquare_w. assert (E : qleb k 0 = false) by (apply qleb_gt, H). rewrite E, qabs_magnitude. destruct (qltb k (magnitude (v - c))); reflexivity. Qed.
Lemma div_le_1 a b : 0 < b -> (a / b <= 1 <-> a <= b).
Proof. intros H. assert (E : a / b * b = a) by (field; intro C; subst b; qlra). set (q := a / b) in *. clearbody q. split; intros; [|destruct (Qclt_le_dec 1 q) as [C|C]; [exfalso|exact C]]; qnra. Qed.
Lemma huber_weight_spec k c v : 0 < k -> huber_weight k c v = Some (huber_w k (v - c)).
Proof.
  intros H. unfold huber_weight, huber_w. destruct (Qc_eq_dec v c) as [->|N].
  - replace (c - c) with 0 by ring. assert (E : qltb 0 k = true) by (apply qltb_lt, H). rewrite E. assert (M : magnitude 0 = 0) by (apply magnitude_0; reflexivity). rewrite M. assert (E' : qltb k 0 = false) by (apply qltb_ge; qlra). rewrite E'. reflexivity.
  - rewrite qabs_magnitude. assert (P : 0 < magnitude (v - c)).
    { pose proof (magnitude_nonneg (v - c)) as G. apply Qcle_lt_or_eq in G as [G|G]; [exact G|]. exfalso. apply N. symmetry in G. apply (proj1 (magnitude_0 _)) in G. assert (v = v - c + c) as -> by ring. rewrite G. ring. }
    set (t := magnitude (v - c)) in *. clearbody t. f_equal. assert (E : k / t * t = k) by (field; intro C; subst t; qlra).
    destruct (qltb 1 (k / t)) eqn:A, (qltb k t) eqn:B; try reflexivity.
    + apply qltb_lt in A. apply qltb_lt in B. exfalso. set (q := k / t) in *. clearbody q. qnra.
    + apply qltb_ge in A. apply qltb_ge in B. apply Qcle_antisym; [exact A|]. set (q := k / t) in *. clearbody q. destruct (Qclt_le_dec q 1) as [C|C]; [exfalso; qnra|exact C].
Qed.

Lemma bisquare_w_nonneg k t : 0 <= bisquare_w k t.
Proof. unfold bisquare_w. destruct (qltb _ _); [apply Qcle_refl|]. set (u := 1 - _). clearbody u. qnra. Qed.
Lemma huber_w_bounds k t : 0 < k -> 0 < huber_w k t /\ huber_w k t <= 1.
Proof.
  intros H. unfold huber_w. destruct (qltb k (magnitude t)) eqn:E; [|split; qlra]. apply qltb_lt in E. set (s := magnitude t) in *. clearbody s.
  assert (Q : k / s * s = k) by (field; intro C; subst s; qlra). set (q := k / s) in *. clearbody q. split.
  - destruct (Qclt_le_dec 0 q) as [C|C]; [exact C|exfalso; qnra].
  - destruct (Qclt_le_dec 1 q) as [C|C]; [exfalso; qnra|exact C].
Qed.
Lemma huber_w_even k t : huber_w k (- t) = huber_w k t.
Proof. unfold huber_w. rewrite magnitude_opp. reflexivity. Qed.
Lemma bisquare_w_even k t : bisquare_w k (- t) = bisquare_w k t.
Proof. unfold bisquare_w. rewrite magnitude_opp. replace (- t / k * (- t / k)) with (t / k * (t / k)) by (unfold Qcdiv; ring). reflexivity. Qed.
Lemma scale_lt a x y : 0 < a -> qltb (a * x) (a * y) = qltb x y.
Proof. intros H. destruct (qltb x y) eqn:E; [apply qltb_lt in E; apply qltb_lt; qnra|apply qltb_ge in E; apply qltb_ge; qnra]. Qed.
Lemma magnitude_pos a : 0 < a -> magnitude a = a.
Proof. intros H. destruct (magnitude_cases a) as [[_ E]|[C _]]; [exact E|exfalso; qlra]. Qed.
Lemma bisquare_w_scale a k t : 0 < a -> k <> 0 -> bisquare_w (a * k) (a * t) = bisquare_w k t.
Proof.
  intros H Hk. unfold bisquare_w. rewrite magnitude_mul, (magnitude_pos a H), (scale_lt a k _ H). replace (a * t / (a * k)) with (t / k); [reflexivity|]. field. split; [exact Hk|intro C; subst a; qlra].
Qed.
Lemma huber_w_scale a k t : 0 < a -> 0 < k -> huber_w (a * k) (a * t) = huber_w k t.
Proof.
  intros H Hk. unfold huber_w. rewrite magnitude_mul, (magnitude_pos a H), (scale_lt a k _ H). destruct (qltb k (magnitude t)) eqn:E; [|reflexivity]. apply qltb_lt in E. field. split; intro C; [rewrite C in E; qlra|subst a; qlra].
Qed.

Lemma mean_positive W x m : (forall v, In v x -> 0 <= W v) -> weighted_mean_is W x m -> 0 < sum_of W x.
Proof. intros H [N _]. pose proof (sum_nonneg W x H) as P. apply Qcle_lt_or_eq in P as [P|P]; [exact P|congruence]. Qed.
Lemma mean_bounds W x m lo hi : (forall v, In v x -> 0 <= W v) -> weighted_mean_is W x m -> (forall v, In v x -> W v <> 0 -> lo <= v <= hi) -> lo <= m <= hi.
Proof.
  intros H M B. pose proof (mean_positive W x m H M) as P. destruct M as [_ M].
  assert (A1 : lo * sum_of W x <= sum_of (fun v => W v * v) x).
  { rewrite <- sum_scale. apply sum_le. intros v Hv. pose proof (H v Hv) as G. destruct (Qc_eq_dec (W v) 0) as [E|E]; [rewrite E; assert (T : lo * 0 = 0 * v) by ring; rewrite T; apply Qcle_refl|]. destruct (B v Hv E). qnra. }
  assert (A2 : sum_of (fun v => W v * v) x <= hi * sum_of W x).
  { rewrite <- sum_scale. apply sum_le. intros v Hv. pose proof (H v Hv) as G. destruct (Qc_eq_dec (W v) 0) as [E|E]; [rewrite E; assert (T : hi * 0 = 0 * v) by ring; rewrite T; apply Qcle_refl|]. destruct (B v Hv E). qnra. }
  rewrite <- M in A1, A2. set (s := sum_of W x) in *. clearbody s. split; [destruct (Qclt_le_dec m lo) as [C|C]|destruct (Qclt_le_dec hi m) as [C|C]]; try exact C; exfalso; qnra.
Qed.
(** The weighted mean minimises the weighted sum of squares. *)
Lemma mean_squares W x m c : weighted_mean_is W x m ->
  sum_of (fun v => W v * ((v - m) * (v - m))) x + (m - c) * (m - c) * sum_of W x = sum_of (fun v => W v * ((v - c) * (v - c))) x.
Proof.
  intros [_ M].
  assert (E : forall u, sum_of (fun v => W v * ((v - u) * (v - u))) x = sum_of (fun v => W v * (v * v)) x + (- (u + u)) * sum_of (fun v => W v * v) x + u * u * sum_of W x).
  { intros u. rewrite <- !sum_scale, <- !sum_plus. apply sum_ext. intros. ring. }
  rewrite !E, <- M. ring.
Qed.

(* ---------- the losses ---------- *)

Lemma two_half t : t / qz 2 * (1 + 1) = t.
Proof. assert (T : qz 2 = 1 + 1) by (apply Qc_is_canon; reflexivity). pose proof qz2 as Q. rewrite T in *. field. exact Q. Qed.
Lemma huber_majorised k s t : 0 < k -> (1 + 1) * huber_loss k t <= (1 + 1) * huber_loss k s + huber_w k s * (t * t - s * s).
Proof.
  intros H. unfold huber_loss, huber_w. rewrite <- (magnitude_sq s), <- (magnitude_sq t). pose proof (magnitude_nonneg s) as Ps. pose proof (magnitude_nonneg t) as Pt.
  set (a := magnitude s) in *. set (b := magnitude t) in *. clearbody a b.
  pose proof (two_half (k * k)) as T1. pose proof (two_half (b * b)) as T2. pose proof (two_half (a * a)) as T3.
  set (h1 := k * k / qz 2) in *. set (h2 := b * b / qz 2) in *. set (h3 := a * a / qz 2) in *. clearbody h1 h2 h3.
  destruct (qltb k b) eqn:B, (qltb k a) eqn:A; [apply qltb_lt in B, A|apply qltb_lt in B; apply qltb_ge in A|apply qltb_ge in B; apply qltb_lt in A|apply qltb_ge in B, A].
  - assert (E : k / a * a = k) by (field; intro C; subst a; qlra). set (w := k / a) in *. clearbody w. assert (W : 0 < w) by (destruct (Qclt_le_dec 0 w) as [C|C]; [exact C|exfalso; clear - C E H Ps; qnra]).
    assert (G : 0 <= w * ((b - a) * (b - a))) by (apply Qclt_le_weak in W; clear - W; set (z := b - a); clearbody z; qnra). clear - E G T1 H.
    replace (w * (b * b - a * a)) with (w * ((b - a) * (b - a)) + (1 + 1) * ((w * a) * (b - a))) by ring. rewrite E. qlra.
  - clear - T1 T2 T3 H. assert (G : 0 <= (b - k) * (b - k)) by (set (z := b - k); clearbody z; qnra). qlra.
  - assert (E : k / a * a = k) by (field; intro C; subst a; qlra). set (w := k / a) in *. clearbody w. assert (W : 0 < w) by (destruct (Qclt_le_dec 0 w) as [C|C]; [exact C|exfalso; clear - C E H Ps; qnra]).
    assert (W1 : w <= 1) by (destruct (Qclt_le_dec 1 w) as [C|C]; [exfalso; clear - C E H A; qnra|exact C]).
    assert (bb : b * b <= k * a) by (clear - B A Pt H; qnra).
    assert (G : 0 <= (1 - w) * (k * a - b * b)) by (set (z := k * a - b * b) in *; assert (0 <= z) by (unfold z; qlra); clearbody z; clear - W1 H0; qnra).
    clear - G E T1 T2. replace ((1 - w) * (k * a - b * b)) with (k * a - b * b - k * (w * a) + w * (b * b)) in G by ring. rewrite E in G. replace (w * (b * b - a * a)) with (w * (b * b) - w * a * a) by ring. rewrite E. qlra.
  - clear - T2 T3. qlra.
Qed.
(** The limited deviation is the slope of the loss, which is convex. *)
Lemma limited_huber k t : 0 < k -> limited k t = huber_w k t * t.
Proof.
  intros H. unfold limited, huber_w. destruct (magnitude_cases t) as [[P E]|[P E]]; rewrite E.
  - destruct (qltb k t) eqn:A; [apply qltb_lt in A; field; intro C; subst t; qlra|]. assert (B : qltb t (- k) = false) by (apply qltb_ge; qlra). rewrite B. ring.
  - assert (A : qltb k t = false) by (apply qltb_ge; qlra). rewrite A. destruct (qltb t (- k)) eqn:B.
    + apply qltb_lt in B. assert (C : qltb k (- t) = true) by (apply qltb_lt; qlra). rewrite C. field. intro D. assert (t = - 0) by (rewrite <- D; ring). subst t. qlra.
    + apply qltb_ge in B. assert (C : qltb k (- t) = false) by (apply qltb_ge; qlra). rewrite C. ring.
Qed.
Lemma huber_convex k s t : 0 < k -> huber_loss k s + limited k s * (t - s) <= huber_loss k t.
Proof.
  intros H. unfold huber_loss, limited.
  pose proof (two_half (k * k)) as T1. pose proof (two_half (t * t)) as T2. pose proof (two_half (s * s)) as T3.
  set (h1 := k * k / qz 2) in *. set (h2 := t * t / qz 2) in *. set (h3 := s * s / qz 2) in *. clearbody h1 h2 h3.
  assert (S1 : 0 <= (t - s) * (t - s)) by (set (z := t - s); clearbody z; qnra).
  assert (S2 : 0 <= (t - k) * (t - k)) by (set (z := t - k); clearbody z; qnra).
  assert (S3 : 0 <= (t + k) * (t + k)) by (set (z := t + k); clearbody z; qnra).
  destruct (magnitude_cases s) as [[Ps ->]|[Ps ->]], (magnitude_cases t) as [[Pt ->]|[Pt ->]].
  - assert (N : qltb s (- k) = false) by (apply qltb_ge; qlra). rewrite N. destruct (qltb k s) eqn:A, (qltb k t) eqn:B; [apply qltb_lt in B, A|apply qltb_ge in B; apply qltb_lt in A|apply qltb_lt in B; apply qltb_ge in A|apply qltb_ge in B, A]; try qlra.
    assert (0 <= (t - s) * (k - s) + 0) by qnra. assert (0 <= (k - s) * (t - k)) by qnra. assert (0 <= (k - s) * (k - s)) by (set (z := k - s); clearbody z; qnra). qlra.
  - assert (N : qltb s (- k) = false) by (apply qltb_ge; qlra). rewrite N. destruct (qltb k s) eqn:A, (qltb k (- t)) eqn:B; [apply qltb_lt in B, A|apply qltb_ge in B; apply qltb_lt in A|apply qltb_lt in B; apply qltb_ge in A|apply qltb_ge in B, A]; try qlra.
    + assert (0 <= k * (- t)) by qnra. qlra.
    + assert (0 <= s * (- t)) by qnra. assert (0 <= (k + s) * (- t - k)) by qnra. assert (0 <= (k - s) * (k - s)) by (set (z := k - s); clearbody z; qnra). assert (0 <= (k + s) * (k + s)) by (set (z := k + s); clearbody z; qnra). qlra.
  - assert (N : qltb k s = false) by (apply qltb_ge; qlra). rewrite N. destruct (qltb k (- s)) eqn:A, (qltb k t) eqn:B; [apply qltb_lt in B, A|apply qltb_ge in B; apply qltb_lt in A|apply qltb_lt in B; apply qltb_ge in A|apply qltb_ge in B, A].
    + assert (N' : qltb s (- k) = true) by (apply qltb_lt; qlra). rewrite N'. assert (0 <= k * t) by qnra. qlra.
    + assert (N' : qltb s (- k) = true) by (apply qltb_lt; qlra). rewrite N'. assert (0 <= k * t) by qnra. qlra.
    + assert (N' : qltb s (- k) = false) by (apply qltb_ge; qlra). rewrite N'. assert (0 <= (k - s) * (t - k)) by qnra. assert (0 <= (k - s) * (k - s)) by (set (z := k - s); clearbody z; qnra). qlra.
    + assert (N' : qltb s (- k) = false) by (apply qltb_ge; qlra). rewrite N'. qlra.
  - assert (N : qltb k s = false) by (apply qltb_ge; qlra). rewrite N. destruct (qltb k (- s)) eqn:A, (qltb k (- t)) eqn:B; [apply qltb_lt in B, A|apply qltb_ge in B; apply qltb_lt in A|apply qltb_lt in B; apply qltb_ge in A|apply qltb_ge in B, A].
    + assert (N' : qltb s (- k) = true) by (apply qltb_lt; qlra). rewrite N'. qlra.
    + assert (N' : qltb s (- k) = true) by (apply qltb_lt; qlra). rewrite N'. qlra.
    + assert (N' : qltb s (- k) = false) by (apply qltb_ge; qlra). rewrite N'. assert (0 <= (k + s) * (- t - k)) by qnra. assert (0 <= (k + s) * (k + s)) by (set (z := k + s); clearbody z; qnra). qlra.
    + assert (N' : qltb s (- k) = false) by (apply qltb_ge; qlra). rewrite N'. qlra.
Qed.
Lemma ratio_le_1 k t : 0 < k -> qltb k (magnitude t) = false -> t / k * (t / k) <= 1.
Proof.
  intros H A. apply qltb_ge in A. assert (E : t / k * k = t) by (field; intro C; subst k; qlra). set (q := t / k) in *. clearbody q. subst t. rewrite magnitude_mul, (magnitude_pos k H) in A.
  pose proof (magnitude_nonneg q) as P. rewrite <- (magnitude_sq q). set (a := magnitude q) in *. clearbody a. assert (a <= 1) by (destruct (Qclt_le_dec 1 a) as [C|C]; [exfalso; qnra|exact C]). qnra.
Qed.
Lemma ratio_gt_1 k t : 0 < k -> qltb k (magnitude t) = true -> 1 < t / k * (t / k).
Proof.
  intros H A. apply qltb_lt in A. assert (E : t / k * k = t) by (field; intro C; subst k; qlra). set (q := t / k) in *. clearbody q. subst t. rewrite magnitude_mul, (magnitude_pos k H) in A.
  pose proof (magnitude_nonneg q) as P. rewrite <- (magnitude_sq q). set (a := magnitude q) in *. clearbody a. assert (1 < a) by (destruct (Qclt_le_dec 1 a) as [C|C]; [exact C|exfalso; qnra]). qnra.
Qed.
Lemma bisquare_majorised k s t : 0 < k -> bisquare_loss k t <= bisquare_loss k s + (1 + 1 + 1) / (k * k) * (bisquare_w k s * (t * t - s * s)).
Proof.
  intros H. unfold bisquare_loss, bisquare_w.
  assert (NK : k <> 0) by (intro C; subst k; qlra).
  assert (R : forall w, (1 + 1 + 1) / (k * k) * (w * (t * t - s * s)) = (1 + 1 + 1) * w * (t / k * (t / k) - s / k * (s / k))) by (intros w; field; exact NK). rewrite R. clear R.
  destruct (qltb k (magnitude t)) eqn:B, (qltb k (magnitude s)) eqn:A.
  - qlra.
  - apply (ratio_le_1 k s H) in A. apply (ratio_gt_1 k t H) in B. set (u := t / k * (t / k)) in *. set (v := s / k * (s / k)) in *. clearbody u v. set (b := 1 - v). assert (P : 0 <= b) by (unfold b; qlra).
    replace ((1 + 1 + 1) * (b * b) * (u - v)) with ((1 + 1 + 1) * (b * b) * (u - 1) + (1 + 1 + 1) * (b * b) * b) by (unfold b; ring). clearbody b. set (c := u - 1) in *. assert (0 <= c) by (unfold c; qlra). clearbody c. clear - P H0.
    assert (0 <= b * b) by qnra. assert (0 <= b * b * c) by qnra. assert (0 <= b * b * b) by qnra. qlra.
  - apply (ratio_le_1 k t H) in B. apply (ratio_gt_1 k s H) in A. set (u := t / k * (t / k)) in *. clearbody u. set (b := 1 - u). assert (P : 0 <= b) by (unfold b; qlra). clearbody b. assert (0 <= b * b) by (clear - P; qnra). assert (0 <= b * b * b) by (clear - P H0; qnra). qlra.
  - apply (ratio_le_1 k s H) in A. apply (ratio_le_1 k t H) in B. set (u := t / k * (t / k)) in *. set (v := s / k * (s / k)) in *. clearbody u v. set (b := 1 - v). set (a := 1 - u). assert (P : 0 <= b) by (unfold b; qlra). assert (P' : 0 <= a) by (unfold a; qlra).
    replace (u - v) with (b - a) by (unfold a, b; ring). clearbody a b. clear - P P'.
    assert (G : 0 <= (a - b) * (a - b) * (a + b + b)). { set (z := (a - b) * (a - b)). assert (0 <= z) by (unfold z; set (y := a - b); clearbody y; qnra). clearbody z. qnra. }
    qlra.
Qed.

(* ---------- the loop ---------- *)

Lemma rounds_sequence step tol : forall n c m, rounds n step tol c = Some m <->
  exists (i : nat) (s : nat -> Qc), (i < n)%nat /\ s 0%nat = c /\ (forall j, (j <= i)%nat -> step (s j) = Some (s (S j))) /\
    (forall j, (j < i)%nat -> tol <= magnitude (s (S j) - s j)) /\ magnitude (s (S i) - s i) < tol /\ m = s (S i).
Proof.
  induction n as [|n IH]; intros c m.
  - cbn [rounds]. split; [discriminate|]. intros [i [s [C _]]]. lia.
  - cbn [rounds]. split.
    + destruct (step c) as [c'|] eqn:E; [|discriminate]. rewrite qabs_magnitude. destruct (qltb (magnitude (c' - c)) tol) eqn:T.
      * intros H. apply loc_inj in H. subst c'. exists 0%nat, (fun j => match j with O => c | _ => m end). split; [lia|]. split; [reflexivity|]. split; [intros j Hj; replace j with 0%nat by lia; exact E|]. split; [intros; lia|]. split; [apply qltb_lt, T|reflexivity].
      * intros H. apply IH in H as [i [s [Hi [S0 [Hs [Hn [Hl ->]]]]]]]. exists (S i), (fun j => match j with O => c | S j' => s j' end). split; [lia|]. split; [reflexivity|].
        split; [intros [|j] Hj; [rewrite S0; exact E|apply Hs; lia]|]. split; [intros [|j] Hj; [apply qltb_ge in T; rewrite S0; exact T|apply Hn; lia]|]. split; [exact Hl|reflexivity].
    + intros [i [s [Hi [S0 [Hs [Hn [Hl ->]]]]]]]. pose proof (Hs 0%nat ltac:(lia)) as E. rewrite S0 in E. rewrite E, qabs_magnitude. destruct i as [|i].
      * rewrite S0 in Hl. apply qltb_lt in Hl. rewrite Hl. reflexivity.
      * pose proof (Hn 0%nat ltac:(lia)) as N. rewrite S0 in N. apply qltb_ge in N. rewrite N. apply IH. exists i, (fun j => s (S j)). split; [lia|]. split; [reflexivity|]. split; [intros; apply Hs; lia|]. split; [intros; apply Hn; lia|]. split; [exact Hl|reflexivity].
Qed.
(** What a round preserves holds of the result. *)
Lemma rounds_last step tol n c m : rounds n step tol c = Some m -> exists c', step c' = Some m /\ magnitude (m - c') < tol.
Proof. intros H. apply rounds_sequence in H as [i [s [_ [_ [Hs [_ [Hl ->]]]]]]]. exists (s i). split; [apply Hs; lia|exact Hl]. Qed.
Lemma rounds_invariant (P : Qc -> Prop) step tol n c m : P c -> (forall u u', P u -> step u = Some u' -> P u') -> rounds n step tol c = Some m -> P m /\ exists c', P c' /\ step c' = Some m /\ magnitude (m - c') < tol.
Proof.
  revert c. induction n as [|n IH]; intros c Pc Hs H; [discriminate|]. cbn [rounds] in H. destruct (step c) as [c'|] eqn:E; [|discriminate]. rewrite qabs_magnitude in H. destruct (qltb (magnitude (c' - c)) tol) eqn:T.
  - apply loc_inj in H. subst c'. split; [exact (Hs _ _ Pc E)|]. exists c. apply qltb_lt in T. auto.
  - apply (IH c'); [exact (Hs _ _ Pc E)|exact Hs|exact H].
Qed.
Lemma rounds_ext (P : Qc -> Prop) f g tol n c : P c -> (forall u u', P u -> f u = Some u' -> P u') -> (forall u, P u -> f u = g u) -> rounds n f tol c = rounds n g tol c.
Proof.
  revert c. induction n as [|n IH]; intros c Pc Hs Hf; [reflexivity|]. cbn [rounds]. rewrite <- (Hf c Pc). destruct (f c) as [c'|] eqn:E; [|reflexivity]. destruct (qltb _ _); [reflexivity|]. apply IH; [exact (Hs _ _ Pc E)|exact Hs|exact Hf].
Qed.
Lemma rounds_map f g a b tol n c : a <> 0 -> (forall u, g (a * u + b) = option_map (fun m => a * m + b) (f u)) ->
  rounds n g (magnitude a * tol) (a * c + b) = option_map (fun m => a * m + b) (rounds n f tol c).
Proof.
  intros Ha H. assert (P : 0 < magnitude a) by (pose proof (magnitude_nonneg a) as P; apply Qcle_lt_or_eq in P as [P|P]; [exact P|symmetry in P; apply (proj1 (magnitude_0 _)) in P; contradiction]).
  revert c. induction n as [|n IH]; intros c; [reflexivity|]. cbn [rounds]. rewrite H. destruct (f c) as [c'|]; [|reflexivity]. cbn [option_map].
  rewrite !qabs_magnitude. replace (a * c' + b - (a * c + b)) with (a * (c' - c)) by ring. rewrite magnitude_mul, (scale_lt _ _ _ P). destruct (qltb _ tol); [reflexivity|apply IH].
Qed.
Lemma rounds_tol step tol n c : tol <= 0 -> rounds n step tol c = None.
Proof.
  intros H. destruct (rounds n step tol c) as [m|] eqn:E; [|reflexivity]. destruct (rounds_last _ _ _ _ _ E) as [c' [_ L]]. pose proof (magnitude_nonneg (m - c')). exfalso. qlra.
Qed.


(* ---------- both estimators at once ---------- *)

Definition bisquare_loop x k tol c := rounds 100 (fun c => weighted (bisquare_weight k c) x) tol c.
Definition huber_loop x k tol c := rounds 100 (fun c => weighted (huber_weight k c) x) tol c.

Lemma loop_spec (wf : Qc -> Qc -> option Qc) (w : Qc -> Qc) x tol c m : (forall c v, wf c v = Some (w (v - c))) -> (rounds 100 (fun c => weighted (wf c) x) tol c = Some m <-> reweighted w x c tol m).
Proof.
  intros H. unfold reweighted. rewrite (rounds_sequence (fun c => weighted (wf c) x) tol 100 c m).
  split; intros [i [s [Hi [S0 [Hs R]]]]]; exists i, s; (split; [exact Hi|]); (split; [exact S0|]); (split; [|exact R]); intros j Hj;
    apply (weighted_spec (wf (s j)) (fun v => w (v - s j)) x (s (S j)) (fun v _ => H (s j) v)), Hs, Hj.
Qed.
Lemma bisquare_step k c x m : 0 < k -> (weighted (bisquare_weight k c) x = Some m <-> weighted_mean_is (fun v => bisquare_w k (v - c)) x m).
Proof. intros H. apply weighted_spec. intros v _. apply bisquare_weight_spec, H. Qed.
Lemma huber_step k c x m : 0 < k -> (weighted (huber_weight k c) x = Some m <-> weighted_mean_is (fun v => huber_w k (v - c)) x m).
Proof. intros H. apply weighted_spec. intros v _. apply huber_weight_spec, H. Qed.

Lemma bisquare_nonpos x k c tol : k <= 0 -> bisquare_loop x k tol c = None.
Proof.
  intros H. unfold bisquare_loop. assert (E : forall u, weighted (bisquare_weight k u) x = None).
  { intros u. destruct x as [|a x]; [reflexivity|]. apply weighted_none; [discriminate|]. intros v _. unfold bisquare_weight. assert (E : qleb k 0 = true) by (apply qleb_le, H). rewrite E. reflexivity. }
  cbn [rounds]. rewrite E. reflexivity.
Qed.
Lemma huber_zero x c tol : huber_loop x 0 tol c = None.
Proof.
  unfold huber_loop. cbn [rounds]. assert (E : weighted (huber_weight 0 c) x = None); [|rewrite E; reflexivity].
  unfold weighted. assert (forall y, fold_right (fun v acc => match huber_weight 0 c v, acc with Some a, Some (s, t) => Some (a + s, a * v + t) | _, _ => None end) (Some (0, 0)) y = None \/ exists t, fold_right (fun v acc => match huber_weight 0 c v, acc with Some a, Some (s, t) => Some (a + s, a * v + t) | _, _ => None end) (Some (0, 0)) y = Some (0, t)) as F.
  { induction y as [|v y IH]; [right; exists 0; reflexivity|]. cbn [fold_right]. unfold huber_weight at 1 3. assert (Z : qltb 0 0 = false) by (apply qltb_ge, Qcle_refl). rewrite Z. destruct (Qc_eq_dec v c) as [_|N]; [left; reflexivity|].
    assert (D : 0 / qabs (v - c) = 0) by (unfold Qcdiv; ring). rewrite D. assert (Z' : qltb 1 0 = false) by reflexivity. rewrite Z'. destruct IH as [->|[t ->]]; [left; reflexivity|right]. exists (0 * v + t). reflexivity. }
  destruct (F x) as [->|[t ->]]; [reflexivity|]. destruct (Qc_eq_dec 0 0) as [_|C]; [reflexivity|contradiction].
Qed.

(** Losses. *)
Lemma huber_descends k c x m : 0 < k -> weighted_mean_is (fun v => huber_w k (v - c)) x m ->
  (1 + 1) * sum_of (fun v => huber_loss k (v - m)) x + (m - c) * (m - c) * sum_of (fun v => huber_w k (v - c)) x <= (1 + 1) * sum_of (fun v => huber_loss k (v - c)) x.
Proof.
  intros H M. pose proof (mean_squares _ _ _ c M) as Q.
  assert (S : (1 + 1) * sum_of (fun v => huber_loss k (v - m)) x <= (1 + 1) * sum_of (fun v => huber_loss k (v - c)) x + (sum_of (fun v => huber_w k (v - c) * ((v - m) * (v - m))) x + (-(1)) * sum_of (fun v => huber_w k (v - c) * ((v - c) * (v - c))) x)).
  { rewrite <- !sum_scale, <- !sum_plus. apply sum_le. intros v _. pose proof (huber_majorised k (v - c) (v - m) H) as G. set (w := huber_w k (v - c)) in *. clearbody w. set (l1 := huber_loss k (v - m)) in *. set (l2 := huber_loss k (v - c)) in *. clearbody l1 l2. set (a := (v - m) * (v - m)) in *. set (b := (v - c) * (v - c)) in *. clearbody a b. clear - G. qlra. }
  set (A := sum_of (fun v => huber_loss k (v - m)) x) in *. set (B := sum_of (fun v => huber_loss k (v - c)) x) in *. set (C := sum_of (fun v => huber_w k (v - c) * ((v - m) * (v - m))) x) in *. set (D := sum_of (fun v => huber_w k (v - c) * ((v - c) * (v - c))) x) in *.
  set (E := (m - c) * (m - c) * _) in *. clearbody A B C D E. qlra.
Qed.
Lemma bisquare_descends k c x m : 0 < k -> weighted_mean_is (fun v => bisquare_w k (v - c)) x m ->
  sum_of (fun v => bisquare_loss k (v - m)) x + (1 + 1 + 1) / (k * k) * ((m - c) * (m - c) * sum_of (fun v => bisquare_w k (v - c)) x) <= sum_of (fun v => bisquare_loss k (v - c)) x.
Proof.
  intros H M. pose proof (mean_squares _ _ _ c M) as Q.
  assert (S : sum_of (fun v => bisquare_loss k (v - m)) x <= sum_of (fun v => bisquare_loss k (v - c)) x + (1 + 1 + 1) / (k * k) * (sum_of (fun v => bisquare_w k (v - c) * ((v - m) * (v - m))) x + (-(1)) * sum_of (fun v => bisquare_w k (v - c) * ((v - c) * (v - c))) x)).
  { set (f := (1 + 1 + 1) / (k * k)). rewrite <- !sum_scale, <- !sum_plus, <- !sum_scale, <- sum_plus. apply sum_le. intros v _. pose proof (bisquare_majorised k (v - c) (v - m) H) as G. fold f in G. clearbody f. set (w := bisquare_w k (v - c)) in *. clearbody w. set (l1 := bisquare_loss k (v - m)) in *. set (l2 := bisquare_loss k (v - c)) in *. clearbody l1 l2. set (a := (v - m) * (v - m)) in *. set (b := (v - c) * (v - c)) in *. clearbody a b. clear - G. replace (w * a + -(1) * (w * b)) with (w * (a - b)) by ring. exact G. }
  rewrite <- Q in S.
  set (A := sum_of (fun v => bisquare_loss k (v - m)) x) in *. set (B := sum_of (fun v => bisquare_loss k (v - c)) x) in *. set (C := sum_of (fun v => bisquare_w k (v - c) * ((v - m) * (v - m))) x) in *. clear Q.
  set (E := (m - c) * (m - c) * _) in *. set (f := (1 + 1 + 1) / (k * k)) in *. clearbody A B C E f. replace (f * (C + -(1) * (C + E))) with (- (f * E)) in S by ring. qlra.
Qed.
Lemma three_k2 k : 0 < k -> 0 < (1 + 1 + 1) / (k * k).
Proof.
  intros H. assert (E : (1 + 1 + 1) / (k * k) * (k * k) = 1 + 1 + 1) by (field; intro C; subst k; qlra). set (q := (1 + 1 + 1) / (k * k)) in *. clearbody q. assert (0 < k * k) by qnra. set (s := k * k) in *. clearbody s. destruct (Qclt_le_dec 0 q) as [C|C]; [exact C|exfalso; qnra].
Qed.
Lemma huber_descends' k c x m : 0 < k -> weighted_mean_is (fun v => huber_w k (v - c)) x m -> sum_of (fun v => huber_loss k (v - m)) x <= sum_of (fun v => huber_loss k (v - c)) x /\ (m <> c -> sum_of (fun v => huber_loss k (v - m)) x < sum_of (fun v => huber_loss k (v - c)) x).
Proof.
  intros H M. pose proof (huber_descends k c x m H M) as D. pose proof (mean_positive _ _ _ (fun v _ => Qclt_le_weak _ _ (proj1 (huber_w_bounds k (v - c) H))) M) as P.
  set (A := sum_of (fun v => huber_loss k (v - m)) x) in *. set (B := sum_of (fun v => huber_loss k (v - c)) x) in *. set (W := sum_of (fun v => huber_w k (v - c)) x) in *. clearbody A B W. split.
  - assert (0 <= (m - c) * (m - c)) by (set (z := m - c); clearbody z; qnra). set (z := (m - c) * (m - c)) in *. clearbody z. assert (0 <= z * W) by qnra. qlra.
  - intros N. assert (0 < (m - c) * (m - c)). { assert (m - c <> 0) by (intro C; apply N; assert (m = m - c + c) as -> by ring; rewrite C; ring). destruct (sign_cases (m - c)) as [G|[G|G]]; [| |contradiction]; set (z := m - c) in *; clearbody z; qnra. } set (z := (m - c) * (m - c)) in *. clearbody z. assert (0 < z * W) by qnra. qlra.
Qed.
Lemma bisquare_descends' k c x m : 0 < k -> weighted_mean_is (fun v => bisquare_w k (v - c)) x m -> sum_of (fun v => bisquare_loss k (v - m)) x <= sum_of (fun v => bisquare_loss k (v - c)) x /\ (m <> c -> sum_of (fun v => bisquare_loss k (v - m)) x < sum_of (fun v => bisquare_loss k (v - c)) x).
Proof.
  intros H M. pose proof (bisquare_descends k c x m H M) as D. pose proof (mean_positive _ _ _ (fun v _ => bisquare_w_nonneg k (v - c)) M) as P. pose proof (three_k2 k H) as K.
  set (A := sum_of (fun v => bisquare_loss k (v - m)) x) in *. set (B := sum_of (fun v => bisquare_loss k (v - c)) x) in *. set (W := sum_of (fun v => bisquare_w k (v - c)) x) in *. set (f := (1 + 1 + 1) / (k * k)) in *. clearbody A B W f. split.
  - assert (0 <= (m - c) * (m - c)) by (set (z := m - c); clearbody z; qnra). set (z := (m - c) * (m - c)) in *. clearbody z. assert (0 <= z * W) by qnra. set (y := z * W) in *. clearbody y. assert (0 <= f * y) by qnra. qlra.
  - intros N. assert (0 < (m - c) * (m - c)). { assert (m - c <> 0) by (intro C; apply N; assert (m = m - c + c) as -> by ring; rewrite C; ring). destruct (sign_cases (m - c)) as [G|[G|G]]; [| |contradiction]; set (z := m - c) in *; clearbody z; qnra. } set (z := (m - c) * (m - c)) in *. clearbody z. assert (0 < z * W) by qnra. set (y := z * W) in *. clearbody y. assert (0 < f * y) by qnra. qlra.
Qed.

(** Huber's estimate balances the limited deviations. *)
Lemma limited_lipschitz k d t : 0 < k -> 0 <= d -> 0 <= limited k (t + d) - limited k t /\ limited k (t + d) - limited k t <= d.
Proof.
  intros H D. unfold limited. destruct (qltb k (t + d)) eqn:A, (qltb k t) eqn:B, (qltb (t + d) (- k)) eqn:C, (qltb t (- k)) eqn:E;
    repeat match goal with H : qltb _ _ = true |- _ => apply qltb_lt in H | H : qltb _ _ = false |- _ => apply qltb_ge in H end; split; qlra.
Qed.
Lemma magnitude_le a b : - b <= a -> a <= b -> magnitude a <= b.
Proof. intros. destruct (magnitude_cases a) as [[_ ->]|[_ ->]]; qlra. Qed.
Lemma huber_balance k c x m : 0 < k -> weighted_mean_is (fun v => huber_w k (v - c)) x m ->
  magnitude (sum_of (fun v => limited k (v - m)) x) <= magnitude (m - c) * qz (Z.of_nat (length x)).
Proof.
  intros H M. destruct M as [_ M].
  assert (E : sum_of (fun v => limited k (v - c)) x = (m - c) * sum_of (fun v => huber_w k (v - c)) x).
  { rewrite (sum_ext (fun v => limited k (v - c)) (fun v => huber_w k (v - c) * v + (- c) * huber_w k (v - c))) by (intros v _; rewrite limited_huber by exact H; ring). rewrite sum_plus, <- M, sum_scale. ring. }
  rewrite <- sum_const.
  assert (F : sum_of (fun v => limited k (v - m)) x = sum_of (fun v => (m - c) * huber_w k (v - c) + (limited k (v - m) + (-(1)) * limited k (v - c))) x).
  { rewrite !sum_plus, !sum_scale, E. ring. }
  rewrite F.
  assert (B : forall v, - magnitude (m - c) <= (m - c) * huber_w k (v - c) + (limited k (v - m) + -(1) * limited k (v - c)) /\ (m - c) * huber_w k (v - c) + (limited k (v - m) + -(1) * limited k (v - c)) <= magnitude (m - c)).
  { intros v. destruct (huber_w_bounds k (v - c) H) as [W0 W1]. set (w := huber_w k (v - c)) in *. clearbody w. destruct (magnitude_cases (m - c)) as [[G ->]|[G ->]].
    - destruct (limited_lipschitz k (m - c) (v - m) H G) as [L0 L1]. replace (v - m + (m - c)) with (v - c) in * by ring. set (a := limited k (v - m)) in *. set (b := limited k (v - c)) in *. set (d := m - c) in *. clearbody a b d. clear - W0 W1 L0 L1 G. assert (0 <= d * w) by qnra. assert (d * w <= d) by qnra. split; qlra.
    - assert (G' : 0 <= c - m) by qlra. destruct (limited_lipschitz k (c - m) (v - c) H G') as [L0 L1]. replace (v - c + (c - m)) with (v - m) in * by ring. replace (m - c) with (- (c - m)) by ring. set (a := limited k (v - m)) in *. set (b := limited k (v - c)) in *. set (d := c - m) in *. clearbody a b d. clear - W0 W1 L0 L1 G'. assert (0 <= d * w) by qnra. assert (d * w <= d) by qnra. split; qlra. }
  apply magnitude_le.
  - replace (- sum_of (fun _ => magnitude (m - c)) x) with (sum_of (fun _ => - magnitude (m - c)) x) by (rewrite (sum_ext (fun _ => - magnitude (m - c)) (fun _ => (-(1)) * magnitude (m - c))) by (intros; ring); rewrite sum_scale; ring). apply sum_le. intros v _. apply B.
  - apply sum_le. intros v _. apply B.
Qed.
Lemma huber_near_optimal k x m b c : 0 < k -> magnitude (sum_of (fun v => limited k (v - m)) x) <= b -> sum_of (fun v => huber_loss k (v - m)) x <= sum_of (fun v => huber_loss k (v - c)) x + b * magnitude (c - m).
Proof.
  intros H B. assert (S : sum_of (fun v => huber_loss k (v - m)) x + (m - c) * sum_of (fun v => limited k (v - m)) x <= sum_of (fun v => huber_loss k (v - c)) x).
  { rewrite <- sum_scale, <- sum_plus. apply sum_le. intros v _. pose proof (huber_convex k (v - m) (v - c) H) as G. replace (v - c - (v - m)) with (m - c) in G by ring. set (p := limited k (v - m)) in *. set (q := huber_loss k (v - m)) in *. set (r := huber_loss k (v - c)) in *. clearbody p q r. clear - G. replace ((m - c) * p) with (p * (m - c)) by ring. exact G. }
  set (L := sum_of (fun v => limited k (v - m)) x) in *. set (A := sum_of (fun v => huber_loss k (v - m)) x) in *. set (C := sum_of (fun v => huber_loss k (v - c)) x) in *. clearbody L A C.
  assert (G : - (b * magnitude (c - m)) <= (m - c) * L).
  { clear S. assert (P : magnitude ((m - c) * L) <= b * magnitude (c - m)).
    - rewrite magnitude_mul. replace (magnitude (m - c)) with (magnitude (c - m)) by (rewrite <- magnitude_opp; f_equal; ring). pose proof (magnitude_nonneg (c - m)). set (p := magnitude (c - m)) in *. set (q := magnitude L) in *. clearbody p q. qnra.
    - destruct (magnitude_cases ((m - c) * L)) as [[Q E]|[Q E]]; rewrite E in P; qlra. }
  qlra.
Qed.

(* ---------- the arguments ---------- *)

Lemma quantile_nonempty p q l v : quantile p q l v -> l <> [].
Proof. intros [k [r [a [b [_ [_ [[I _] _]]]]]]] ->. destruct I. Qed.
Lemma median_is x m : median x = Some m <-> quantile 1 2 x m.
Proof. rewrite median_quantile. split; [intros [_ H]; exact H|intros H; split; [exact (quantile_nonempty _ _ _ _ H)|exact H]]. Qed.
Lemma mad_is x d : median_abs_dev x false = Some d <-> median_deviation x d.
Proof.
  rewrite mad_unfold. unfold median_deviation. split.
  - intros [m [e [A [B ->]]]]. exists m. split; apply median_is; assumption.
  - intros [m [A B]]. exists m, d. split; [apply median_is, A|]. split; [apply median_is, B|reflexivity].
Qed.
Lemma mad_normalised x d : median_abs_dev x true = Some d <-> exists e, median_deviation x e /\ d * qd 67448 100000 = e.
Proof.
  rewrite mad_unfold. assert (S : qd 674480 1000000 = qd 67448 100000) by (apply Qc_is_canon; vm_compute; reflexivity). rewrite S.
  assert (N : qd 67448 100000 <> 0) by (intro C; apply (f_equal (fun q => qltb 0 q)) in C; vm_compute in C; discriminate C). set (s := qd 67448 100000) in *. clearbody s. split.
  - intros [m [e [A [B ->]]]]. exists e. split; [exists m; split; apply median_is; assumption|]. field. exact N.
  - intros [e [[m [A B]] <-]]. exists m, (d * s). split; [apply median_is, A|]. split; [apply median_is, B|]. field. exact N.
Qed.
Lemma start_is x center c : start x center = Some c <-> starts_at x center c.
Proof.
  unfold start, starts_at. destruct center as [u|].
  - split; [intros H; left; exact H|]. intros [H|[H _]]; [exact H|discriminate].
  - rewrite median_is. split; [intros H; right; split; [reflexivity|exact H]|]. intros [H|[_ H]]; [discriminate|exact H].
Qed.
Lemma tolerance_is x tol t : tolerance x tol = Some t <-> stops_at x tol t.
Proof.
  unfold tolerance, stops_at. destruct tol as [u|].
  - split; [intros H; left; exact H|]. intros [H|[H _]]; [exact H|discriminate].
  - assert (S : qd 1 100000 * qz 67448 = qd 67448 100000) by (apply Qc_is_canon; vm_compute; reflexivity). assert (U : qd 1 100000 * qz 100000 = 1) by (apply Qc_is_canon; vm_compute; reflexivity). split.
    + destruct (median_abs_dev x true) as [d|] eqn:E; [|discriminate]. intros H. apply loc_inj in H. subst t. right. split; [reflexivity|]. apply mad_normalised in E as [e [E1 E2]]. exists e. split; [exact E1|]. rewrite <- E2, <- S. ring.
    + intros [H|[_ [e [E1 E2]]]]; [discriminate|]. assert (M : median_abs_dev x true = Some (t * qz 100000)).
      { apply mad_normalised. exists e. split; [exact E1|]. rewrite <- E2, <- S. transitivity (t * (qd 1 100000 * qz 100000) * qz 67448); [ring|rewrite U; ring]. }
      rewrite M. f_equal. transitivity (t * (qd 1 100000 * qz 100000)); [ring|rewrite U; ring].
Qed.

Lemma bisquare_is x k center tol m : 0 < k -> (bisquare_weighted_mean x k center tol = Some m <-> exists c t, starts_at x center c /\ stops_at x tol t /\ reweighted (bisquare_w k) x c t m).
Proof.
  intros H. pose proof (fun t c => loop_spec (bisquare_weight k) (bisquare_w k) x t c m (fun c v => bisquare_weight_spec k c v H)) as L. unfold bisquare_weighted_mean. split.
  - destruct (start x center) as [c|] eqn:S; [|discriminate]. destruct (tolerance x tol) as [t|] eqn:T; [|discriminate]. intros E. exists c, t. split; [apply start_is, S|]. split; [apply tolerance_is, T|]. apply L, E.
  - intros [c [t [S [T R]]]]. apply start_is in S. apply tolerance_is in T. rewrite S, T. apply L, R.
Qed.
Lemma huber_is x k center tol m : 0 < k -> (huber_weighted_mean x k center tol = Some m <-> exists c t, starts_at x center c /\ stops_at x tol t /\ reweighted (huber_w k) x c t m).
Proof.
  intros H. pose proof (fun t c => loop_spec (huber_weight k) (huber_w k) x t c m (fun c v => huber_weight_spec k c v H)) as L. unfold huber_weighted_mean. split.
  - destruct (start x center) as [c|] eqn:S; [|discriminate]. destruct (tolerance x tol) as [t|] eqn:T; [|discriminate]. intros E. exists c, t. split; [apply start_is, S|]. split; [apply tolerance_is, T|]. apply L, E.
  - intros [c [t [S [T R]]]]. apply start_is in S. apply tolerance_is in T. rewrite S, T. apply L, R.
Qed.

(* ---------- moved and rearranged data ---------- *)

Lemma weighted_map w w' (W : Qc -> Qc) a b x : (forall v, w v = Some (W v)) -> (forall v, w' (a * v + b) = Some (W v)) -> weighted w' (map (fun v => a * v + b) x) = option_map (fun m => a * m + b) (weighted w x).
Proof.
  intros H H'.
  assert (F : fold_right (fun v acc => match w' v, acc with Some a, Some (s, t) => Some (a + s, a * v + t) | _, _ => None end) (Some (0, 0)) (map (fun v => a * v + b) x) = Some (sum_of W x, a * sum_of (fun v => W v * v) x + b * sum_of W x)).
  { clear H. induction x as [|v x IH]; [cbn; f_equal; f_equal; ring|]. cbn [map fold_right]. rewrite IH, H', !sum_cons. f_equal. f_equal. ring. }
  unfold weighted. rewrite F, (weighted_total w W x (fun v _ => H v)). destruct (Qc_eq_dec (sum_of W x) 0) as [E|E]; [reflexivity|]. cbn [option_map]. f_equal. field. exact E.
Qed.
Lemma weighted_perm (w : Qc -> option Qc) W x y : (forall v, w v = Some (W v)) -> Permutation x y -> weighted w x = weighted w y.
Proof. intros H P. unfold weighted. rewrite !(weighted_total w W _ (fun v _ => H v)), (sum_perm W _ _ P), (sum_perm (fun v => W v * v) _ _ P). reflexivity. Qed.

Lemma nonzero_magnitude a : a <> 0 -> 0 < magnitude a.
Proof. intros H. pose proof (magnitude_nonneg a) as P. apply Qcle_lt_or_eq in P as [P|P]; [exact P|symmetry in P; apply (proj1 (magnitude_0 _)) in P; contradiction]. Qed.
Lemma w_scaled (w : Qc -> Qc -> Qc) a k t : a <> 0 -> (forall p u v, 0 < p -> w (p * u) (p * v) = w u v \/ u <= 0) -> (forall u v, w u (- v) = w u v) -> 0 < k -> w (magnitude a * k) (a * t) = w k t.
Proof.
  intros Ha S E Hk. pose proof (nonzero_magnitude a Ha) as P. destruct (magnitude_cases a) as [[_ M]|[_ M]].
  - rewrite <- M at 2. destruct (S (magnitude a) k t P) as [G|G]; [exact G|exfalso; qlra].
  - replace (a * t) with (- (magnitude a * t)) by (rewrite M; ring). rewrite E. destruct (S (magnitude a) k t P) as [G|G]; [exact G|exfalso; qlra].
Qed.
Lemma bisquare_w_any a k t : a <> 0 -> 0 < k -> bisquare_w (magnitude a * k) (a * t) = bisquare_w k t.
Proof. intros Ha Hk. apply w_scaled; [exact Ha| |apply bisquare_w_even|exact Hk]. intros p u v Hp. destruct (Qclt_le_dec 0 u) as [C|C]; [left|right; exact C]. apply bisquare_w_scale; [exact Hp|intro D; subst u; qlra]. Qed.
Lemma huber_w_any a k t : a <> 0 -> 0 < k -> huber_w (magnitude a * k) (a * t) = huber_w k t.
Proof. intros Ha Hk. apply w_scaled; [exact Ha| |apply huber_w_even|exact Hk]. intros p u v Hp. destruct (Qclt_le_dec 0 u) as [C|C]; [left|right; exact C]. apply huber_w_scale; [exact Hp|exact C]. Qed.

Lemma start_affine x center a b : start (map (fun v => a * v + b) x) (option_map (fun c => a * c + b) center) = option_map (fun c => a * c + b) (start x center).
Proof.
  destruct center as [c|]; [reflexivity|]. cbn [option_map start]. destruct (median x) as [m|] eqn:E; [apply median_affine, E|]. apply median_none in E. subst x. reflexivity.
Qed.
Lemma tolerance_affine x tol a b : tolerance (map (fun v => a * v + b) x) (option_map (fun t => magnitude a * t) tol) = option_map (fun t => magnitude a * t) (tolerance x tol).
Proof.
  destruct tol as [t|]; [reflexivity|]. cbn [option_map tolerance]. destruct (median_abs_dev x true) as [d|] eqn:E.
  - rewrite (mad_affine x a b true d E). cbn [option_map]. f_equal. ring.
  - assert (x = []) as -> by (destruct x as [|v x]; [reflexivity|destruct (mad_some (v :: x) true ltac:(discriminate)) as [d D]; congruence]). reflexivity.
Qed.
Lemma bisquare_affine x k center tol a b : a <> 0 -> 0 < k ->
  bisquare_weighted_mean (map (fun v => a * v + b) x) (magnitude a * k) (option_map (fun c => a * c + b) center) (option_map (fun t => magnitude a * t) tol) =
  option_map (fun m => a * m + b) (bisquare_weighted_mean x k center tol).
Proof.
  intros Ha Hk. unfold bisquare_weighted_mean. rewrite start_affine, tolerance_affine. destruct (start x center) as [c|]; [|reflexivity]. destruct (tolerance x tol) as [t|]; [|reflexivity]. cbn [option_map].
  assert (K : 0 < magnitude a * k) by (pose proof (nonzero_magnitude a Ha) as P; set (p := magnitude a) in *; clearbody p; qnra).
  apply rounds_map; [exact Ha|]. intros u. apply (weighted_map _ _ (fun v => bisquare_w k (v - u))); intros v.
  - apply bisquare_weight_spec, Hk.
  - rewrite (bisquare_weight_spec _ _ _ K). replace (a * v + b - (a * u + b)) with (a * (v - u)) by ring. rewrite bisquare_w_any by assumption. reflexivity.
Qed.
Lemma huber_affine x k center tol a b : a <> 0 -> 0 < k ->
  huber_weighted_mean (map (fun v => a * v + b) x) (magnitude a * k) (option_map (fun c => a * c + b) center) (option_map (fun t => magnitude a * t) tol) =
  option_map (fun m => a * m + b) (huber_weighted_mean x k center tol).
Proof.
  intros Ha Hk. unfold huber_weighted_mean. rewrite start_affine, tolerance_affine. destruct (start x center) as [c|]; [|reflexivity]. destruct (tolerance x tol) as [t|]; [|reflexivity]. cbn [option_map].
  assert (K : 0 < magnitude a * k) by (pose proof (nonzero_magnitude a Ha) as P; set (p := magnitude a) in *; clearbody p; qnra).
  apply rounds_map; [exact Ha|]. intros u. apply (weighted_map _ _ (fun v => huber_w k (v - u))); intros v.
  - apply huber_weight_spec, Hk.
  - rewrite (huber_weight_spec _ _ _ K). replace (a * v + b - (a * u + b)) with (a * (v - u)) by ring. rewrite huber_w_any by assumption. reflexivity.
Qed.
Lemma start_perm x y center : Permutation x y -> start x center = start y center.
Proof. intros P. destruct center; [reflexivity|]. apply median_perm, P. Qed.
Lemma tolerance_perm x y tol : Permutation x y -> tolerance x tol = tolerance y tol.
Proof. intros P. destruct tol; [reflexivity|]. unfold tolerance. rewrite (mad_perm x y true P). reflexivity. Qed.
Lemma bisquare_perm x y k center tol : 0 < k -> Permutation x y -> bisquare_weighted_mean x k center tol = bisquare_weighted_mean y k center tol.
Proof.
  intros Hk P. unfold bisquare_weighted_mean. rewrite (start_perm x y center P), (tolerance_perm x y tol P). destruct (start y center) as [c|]; [|reflexivity]. destruct (tolerance y tol) as [t|]; [|reflexivity].
  apply (rounds_ext (fun _ => True)); [exact I|intros; exact I|]. intros u _. apply (weighted_perm _ (fun v => bisquare_w k (v - u))); [intros; apply bisquare_weight_spec, Hk|exact P].
Qed.
Lemma huber_perm x y k center tol : 0 < k -> Permutation x y -> huber_weighted_mean x k center tol = huber_weighted_mean y k center tol.
Proof.
  intros Hk P. unfold huber_weighted_mean. rewrite (start_perm x y center P), (tolerance_perm x y tol P). destruct (start y center) as [c|]; [|reflexivity]. destruct (tolerance y tol) as [t|]; [|reflexivity].
  apply (rounds_ext (fun _ => True)); [exact I|intros; exact I|]. intros u _. apply (weighted_perm _ (fun v => huber_w k (v - u))); [intros; apply huber_weight_spec, Hk|exact P].
Qed.

(* ---------- far data ---------- *)

Lemma magnitude_gt a b : b < a \/ a < - b -> 0 <= b -> b < magnitude a.
Proof. intros [H|H] P; destruct (magnitude_cases a) as [[A ->]|[A ->]]; qlra. Qed.
Lemma bisquare_far x k c tol lo hi : 0 < k -> lo <= c <= hi -> (forall v, In v x -> lo <= v <= hi \/ v < lo - k \/ hi + k < v) ->
  bisquare_weighted_mean x k (Some c) (Some tol) = bisquare_weighted_mean (filter (fun v => qleb lo v && qleb v hi)%bool x) k (Some c) (Some tol).
Proof.
  intros Hk Hc Hx. unfold bisquare_weighted_mean. cbn [start tolerance]. set (f := fun v => (qleb lo v && qleb v hi)%bool).
  assert (Z : forall u, lo <= u <= hi -> forall v, In v x -> f v = false -> bisquare_w k (v - u) = 0).
  { intros u [U1 U2] v Hv F. unfold bisquare_w. assert (G : qltb k (magnitude (v - u)) = true); [|rewrite G; reflexivity]. apply qltb_lt, magnitude_gt; [|qlra].
    destruct (Hx v Hv) as [[A B]|[A|A]]; [|right; qlra|left; qlra]. exfalso. apply qleb_le in A, B. unfold f in F. rewrite A, B in F. discriminate. }
  apply (rounds_ext (fun u => lo <= u <= hi)); [exact Hc| |].
  - intros u u' Hu E. apply (bisquare_step k u x u' Hk) in E. apply (mean_bounds (fun v => bisquare_w k (v - u)) x u' lo hi); [intros; apply bisquare_w_nonneg|exact E|].
    intros v Hv N. destruct (f v) eqn:F; [apply andb_true_iff in F as [A B]; split; apply qleb_le; assumption|]. exfalso. apply N. apply Z; assumption.
  - intros u Hu. unfold weighted. rewrite (weighted_total _ (fun v => bisquare_w k (v - u)) x), (weighted_total _ (fun v => bisquare_w k (v - u)) (filter f x)) by (intros; apply bisquare_weight_spec, Hk).
    rewrite !sum_filter; [reflexivity| |]; intros v Hv F; [rewrite (Z u Hu v Hv F); ring|apply (Z u Hu v Hv F)].
Qed.
Lemma bisquare_lost x k c tol : (forall v, In v x -> k <= magnitude (v - c)) -> bisquare_weighted_mean x k (Some c) (Some tol) = None.
Proof.
  intros H. unfold bisquare_weighted_mean. cbn [start tolerance]. destruct (Qclt_le_dec 0 k) as [K|K]; [|apply bisquare_nonpos, K]. cbn [rounds]. assert (E : weighted (bisquare_weight k c) x = None); [|rewrite E; reflexivity].
  unfold weighted. rewrite (weighted_total _ (fun v => bisquare_w k (v - c)) x) by (intros; apply bisquare_weight_spec, K).
  rewrite (sum_ext (fun v => bisquare_w k (v - c)) (fun _ => 0)); [rewrite sum_const; destruct (Qc_eq_dec _ 0) as [_|N]; [reflexivity|exfalso; apply N; ring]|].
  intros v Hv. unfold bisquare_w. destruct (qltb k (magnitude (v - c))) eqn:A; [reflexivity|]. pose proof (H v Hv) as L. apply qltb_ge in A. assert (M : magnitude (v - c) = k) by (apply Qcle_antisym; assumption).
  assert (R : (v - c) / k * ((v - c) / k) = 1); [|rewrite R; ring]. transitivity ((v - c) * (v - c) / (k * k)); [field; intro C; subst k; qlra|]. rewrite <- (magnitude_sq (v - c)), M. field. intro C. subst k. qlra.
Qed.
Lemma huber_near x k c tol lo : 0 < k -> 0 < tol -> x <> [] -> lo <= c <= lo + k -> (forall v, In v x -> lo <= v <= lo + k) ->
  huber_weighted_mean x k (Some c) (Some tol) = Some (sum_of (fun v => v) x / qz (Z.of_nat (length x))).
Proof.
  intros Hk Ht Nx Hc Hx. unfold huber_weighted_mean. cbn [start tolerance].
  assert (S : forall u, lo <= u <= lo + k -> weighted (huber_weight k u) x = Some (sum_of (fun v => v) x / qz (Z.of_nat (length x))) /\ lo <= sum_of (fun v => v) x / qz (Z.of_nat (length x)) <= lo + k).
  { intros u [U1 U2]. assert (W : forall v, In v x -> huber_w k (v - u) = 1).
    { intros v Hv. destruct (Hx v Hv) as [V1 V2]. unfold huber_w. assert (G : qltb k (magnitude (v - u)) = false); [apply qltb_ge, magnitude_le; qlra|rewrite G; reflexivity]. }
    assert (N : qz (Z.of_nat (length x)) <> 0) by (apply qz_neq; destruct x; [contradiction|cbn; lia]).
    assert (M : weighted_mean_is (fun v => huber_w k (v - u)) x (sum_of (fun v => v) x / qz (Z.of_nat (length x)))).
    { unfold weighted_mean_is. rewrite (sum_ext (fun v => huber_w k (v - u)) (fun _ => 1) x W), sum_const, (sum_ext (fun v => huber_w k (v - u) * v) (fun v => v)) by (intros v Hv; rewrite (W v Hv); ring). rewrite Qcmult_1_l. split; [exact N|]. field. exact N. }
    split; [apply (huber_step k u x _ Hk), M|]. apply (mean_bounds (fun v => huber_w k (v - u)) x); [intros v _; apply Qclt_le_weak, huber_w_bounds, Hk|exact M|]. intros v Hv _. apply Hx, Hv. }
  destruct (S c Hc) as [E B]. set (m := sum_of (fun v => v) x / qz (Z.of_nat (length x))) in *. clearbody m. destruct (S m B) as [E' _].
  change 100%nat with (Datatypes.S (Datatypes.S 98)). cbn [rounds]. rewrite E. destruct (qltb (qabs (m - c)) tol); [reflexivity|]. rewrite E', qabs_magnitude. replace (m - m) with 0 by ring. assert (Z : magnitude 0 = 0) by (apply magnitude_0; reflexivity). rewrite Z.
  assert (T : qltb 0 tol = true) by (apply qltb_lt, Ht). rewrite T. reflexivity.
Qed.

(* ---------- more than half of the data equal ---------- *)

Lemma majority_median x v : (length x < 2 * equal_to v x)%nat -> median x = Some v /\ tolerance x None = Some 0.
Proof.
  intros H. assert (Nx : x <> []) by (intro C; subst x; cbn in H; lia). destruct (median_some x Nx) as [m M].
  assert (E : v <= m <= v).
  { apply (median_majority x m v v M). rewrite (qcount_ext _ (fun y => if Qc_eq_dec y v then true else false)); [exact H|]. intros y _. destruct (Qc_eq_dec y v) as [->|N].
    - assert (G : qleb v v = true) by (apply qleb_le, Qcle_refl). rewrite G. reflexivity.
    - destruct (qleb v y) eqn:A; [|reflexivity]. destruct (qleb y v) eqn:B; [|reflexivity]. apply qleb_le in A, B. exfalso. apply N, Qcle_antisym; assumption. }
  assert (m = v) by (apply Qcle_antisym; apply E). subst m. split; [exact M|]. destruct (mad_some x true Nx) as [d D]. destruct (mad_zero x true d v M D) as [_ Z]. unfold tolerance. rewrite D. f_equal. rewrite (proj2 Z H). ring.
Qed.
Lemma majority_raises x v k center : (length x < 2 * equal_to v x)%nat -> bisquare_weighted_mean x k center None = None /\ huber_weighted_mean x k center None = None.
Proof.
  intros H. destruct (majority_median x v H) as [_ T]. unfold bisquare_weighted_mean, huber_weighted_mean. rewrite T. destruct (start x center) as [c|]; [|split; reflexivity]. split; apply rounds_tol, Qcle_refl.
Qed.
