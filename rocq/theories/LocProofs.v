(** Medians and quartiles. *)
From Coq Require Import ZArith QArith Qcanon List Bool Lia Permutation.
From Verif Require Import QcPre LagModel LagProofs FluxModel FluxProofs DerModel QSort LocModel LocSpec.
Import ListNotations.
Local Open Scope Qc_scope.

Lemma loc_inj {A} (a b : A) : Some a = Some b -> a = b.
Proof. congruence. Qed.
Lemma qabs_magnitude q : qabs q = magnitude q.
Proof.
  unfold qabs, magnitude. destruct (qltb q 0) eqn:A, (qleb 0 q) eqn:B; try reflexivity.
  - apply qltb_lt in A. apply qleb_le in B. exfalso. qlra.
  - apply qltb_ge in A. apply qleb_gt in B. exfalso. qlra.
Qed.
Lemma magnitude_cases q : 0 <= q /\ magnitude q = q \/ q < 0 /\ magnitude q = - q.
Proof. unfold magnitude. destruct (qleb 0 q) eqn:B; [apply qleb_le in B; left; split; [exact B|reflexivity]|apply qleb_gt in B; right; split; [exact B|reflexivity]]. Qed.
Lemma magnitude_nonneg q : 0 <= magnitude q.
Proof. destruct (magnitude_cases q) as [[A ->]|[A ->]]; qlra. Qed.
Lemma magnitude_0 q : magnitude q = 0 <-> q = 0.
Proof. destruct (magnitude_cases q) as [[A ->]|[A ->]]; split; intros H; try (subst q); qlra. Qed.
Lemma magnitude_sq q : magnitude q * magnitude q = q * q.
Proof. destruct (magnitude_cases q) as [[A ->]|[A ->]]; ring. Qed.
Lemma magnitude_mul a b : magnitude (a * b) = magnitude a * magnitude b.
Proof.
  destruct (magnitude_cases a) as [[A ->]|[A ->]], (magnitude_cases b) as [[B ->]|[B ->]], (magnitude_cases (a * b)) as [[C ->]|[C ->]]; try ring.
  - exfalso. qnra.
  - assert (a * b = 0) by qnra. transitivity 0; [exact H|]. transitivity (- (a * b)); [rewrite H; ring|ring].
  - assert (a * b = 0) by qnra. transitivity 0; [exact H|]. transitivity (- (a * b)); [rewrite H; ring|ring].
  - exfalso. qnra.
Qed.
Lemma magnitude_opp q : magnitude (- q) = magnitude q.
Proof. destruct (magnitude_cases q) as [[A ->]|[A ->]], (magnitude_cases (- q)) as [[B ->]|[B ->]]; qlra. Qed.

(* ---------- order statistics under maps ---------- *)

Lemma qcount_ext f g l : (forall a, In a l -> f a = g a) -> qcount f l = qcount g l.
Proof. induction l as [|a l IH]; intros H; [reflexivity|]. rewrite !qcount_cons, (H a (or_introl eq_refl)), IH by (intros; apply H; right; assumption). reflexivity. Qed.
Lemma qcount_map f g l : qcount f (map g l) = qcount (fun a => f (g a)) l.
Proof. induction l as [|a l IH]; [reflexivity|]. cbn [map]. rewrite !qcount_cons, IH. reflexivity. Qed.
Lemma qcount_neg f l : (qcount f l + qcount (fun a => negb (f a)) l = length l)%nat.
Proof. induction l as [|a l IH]; [reflexivity|]. rewrite !qcount_cons. cbn [length]. destruct (f a); cbn [negb]; lia. Qed.
Lemma order_lt k l v : order_statistic k l v -> (k < length l)%nat.
Proof. intros [_ [_ H]]. pose proof (qcount_le (fun x => qleb x v) l). lia. Qed.

Lemma order_increasing k l v f : (forall a b, a < b -> f a < f b) -> order_statistic k l v -> order_statistic k (map f l) (f v).
Proof.
  intros Hf [I C]. split; [apply in_map, I|]. rewrite !qcount_map.
  assert (E1 : forall a, qltb (f a) (f v) = qltb a v).
  { intros a. destruct (qltb a v) eqn:A; [apply qltb_lt in A; apply qltb_lt, Hf, A|]. apply qltb_ge in A. apply qltb_ge. destruct (Qc_eq_dec v a) as [->|N]; [apply Qcle_refl|]. apply Qclt_le_weak, Hf. apply Qcle_lt_or_eq in A as [A|A]; [exact A|contradiction]. }
  assert (E2 : forall a, qleb (f a) (f v) = qleb a v).
  { intros a. destruct (qleb a v) eqn:A; [apply qleb_le in A; apply qleb_le; destruct (Qc_eq_dec a v) as [->|N]; [apply Qcle_refl|]; apply Qclt_le_weak, Hf; apply Qcle_lt_or_eq in A as [A|A]; [exact A|contradiction]|]. apply qleb_gt in A. apply qleb_gt. apply Hf, A. }
  rewrite (qcount_ext _ (fun x => qltb x v)), (qcount_ext (fun a => qleb (f a) (f v)) (fun x => qleb x v)); [exact C| |]; intros a _; auto.
Qed.
Lemma order_decreasing k l v f : (forall a b, a < b -> f b < f a) -> order_statistic k l v -> order_statistic (length l - 1 - k) (map f l) (f v).
Proof.
  intros Hf H. pose proof (order_lt _ _ _ H) as L. destruct H as [I C]. split; [apply in_map, I|]. rewrite !qcount_map.
  assert (E1 : forall a, qltb (f a) (f v) = negb (qleb a v)).
  { intros a. destruct (qleb a v) eqn:A; cbn [negb]; [apply qleb_le in A; apply qltb_ge; destruct (Qc_eq_dec a v) as [->|N]; [apply Qcle_refl|]; apply Qclt_le_weak, Hf; apply Qcle_lt_or_eq in A as [A|A]; [exact A|contradiction]|].
    apply qleb_gt in A. apply qltb_lt, Hf, A. }
  assert (E2 : forall a, qleb (f a) (f v) = negb (qltb a v)).
  { intros a. destruct (qltb a v) eqn:A; cbn [negb]; [apply qltb_lt in A; apply qleb_gt, Hf, A|]. apply qltb_ge in A. apply qleb_le. destruct (Qc_eq_dec v a) as [->|N]; [apply Qcle_refl|]; apply Qclt_le_weak, Hf; apply Qcle_lt_or_eq in A as [A|A]; [exact A|contradiction]. }
  rewrite (qcount_ext _ (fun x => negb (qleb x v))), (qcount_ext (fun a => qleb (f a) (f v)) (fun x => negb (qltb x v))) by (intros a _; auto).
  pose proof (qcount_neg (fun x => qleb x v) l). pose proof (qcount_neg (fun x => qltb x v) l). lia.
Qed.
Lemma order_le k k' l v v' : (k <= k')%nat -> order_statistic k l v -> order_statistic k' l v' -> v <= v'.
Proof.
  intros H [_ [A B]] [_ [C D]]. destruct (qleb v v') eqn:E; [apply qleb_le; exact E|]. apply qleb_gt in E. exfalso.
  assert (qcount (fun x => qleb x v') l <= qcount (fun x => qltb x v) l)%nat; [|lia].
  apply qcount_impl. intros a _ Ha. apply qleb_le in Ha. apply qltb_lt. qlra.
Qed.
Lemma order_bounds k l v lo hi : order_statistic k l v -> (forall x, In x l -> lo <= x <= hi) -> lo <= v <= hi.
Proof. intros [I _] H. apply H, I. Qed.
Lemma order_exists k l : (k < length l)%nat -> order_statistic k l (nth k (qsort l) 0).
Proof.
  intros H. apply (order_statistic_perm k (qsort l)); [apply Permutation_sym, qsort_perm|]. apply sorted_order_statistic; [apply qsort_sorted|]. rewrite qsort_length. exact H.
Qed.

(* ---------- the quartiles and the median ---------- *)

Lemma qz4 : qz 4 <> 0. Proof. apply qz_neq. lia. Qed.
Lemma qz2 : qz 2 <> 0. Proof. apply qz_neq. lia. Qed.
Lemma quartile_quantile j x v : (j <= 4)%nat -> quartile j x = Some v -> x <> [] /\ quantile j 4 x v.
Proof.
  intros Hj. unfold quartile. destruct (Nat.eqb_spec (length x) 0) as [E|N]; [discriminate|]. intros H. apply loc_inj in H. subst v.
  split; [intro C; subst x; cbn in N; lia|].
  set (n := length x) in *. pose proof (Nat.div_mod ((n - 1) * j) 4 ltac:(lia)) as D. pose proof (Nat.mod_upper_bound ((n - 1) * j) 4 ltac:(lia)) as M.
  set (k := Nat.div ((n - 1) * j) 4) in *. set (r := Nat.modulo ((n - 1) * j) 4) in *.
  exists k, r, (nth k (qsort x) 0), (nth (Nat.min (k + 1) (n - 1)) (qsort x) 0). split; [lia|]. split; [lia|]. split; [apply order_exists; fold n; nia|].
  destruct (Nat.eq_dec r 0) as [R|R].
  - left. split; [exact R|]. rewrite R. change (qz (Z.of_nat 0)) with 0. field. exact qz4.
  - right. assert (k + 1 <= n - 1)%nat by nia. rewrite Nat.min_l by lia. split; [apply order_exists; fold n; lia|]. reflexivity.
Qed.
Lemma quantile_unique p q l v v' : quantile p q l v -> quantile p q l v' -> v = v'.
Proof.
  intros [k [r [a [b [E [L [A B]]]]]]] [k' [r' [a' [b' [E' [L' [A' B']]]]]]].
  assert (k = k') as <- by (clear - E E' L L'; rewrite E in E'; destruct (Nat.lt_trichotomy k k') as [C|[C|C]]; [nia|exact C|nia]). assert (r = r') as <- by lia.
  pose proof (order_statistic_unique _ _ _ _ A A') as <-.
  destruct B as [[R ->]|[B ->]], B' as [[R' ->]|[B' ->]]; try lia; try reflexivity.
  - subst r. change (qz (Z.of_nat 0)) with 0. unfold Qcdiv. ring.
  - subst r. change (qz (Z.of_nat 0)) with 0. unfold Qcdiv. ring.
  - pose proof (order_statistic_unique _ _ _ _ B B') as <-. reflexivity.
Qed.
Lemma quartile_of j x v : (j <= 4)%nat -> x <> [] -> quantile j 4 x v -> quartile j x = Some v.
Proof.
  intros Hj Hx H. destruct (quartile j x) as [v'|] eqn:E.
  - destruct (quartile_quantile _ _ _ Hj E) as [_ H']. f_equal. exact (quantile_unique _ _ _ _ _ H' H).
  - unfold quartile in E. destruct (Nat.eqb_spec (length x) 0) as [E0|N]; [destruct x; [contradiction|discriminate]|discriminate].
Qed.
Lemma quartile_none j x : quartile j x = None <-> x = [].
Proof. unfold quartile. destruct x; cbn [length Nat.eqb]; split; intros H; congruence. Qed.
Lemma median_none x : median x = None <-> x = [].
Proof. unfold median. destruct x; cbn [length Nat.eqb]; [split; reflexivity|]. destruct (Nat.odd _); split; intros H; congruence. Qed.

Lemma median_quantile x v : median x = Some v <-> x <> [] /\ quantile 1 2 x v.
Proof.
  assert (A : forall v, median x = Some v -> x <> [] /\ quantile 1 2 x v).
  { clear v. intros v. unfold median. destruct (Nat.eqb_spec (length x) 0) as [E|N]; [discriminate|]. intros H. split; [intro C; subst x; cbn in N; lia|].
    pose proof (Nat.div_mod (length x) 2 ltac:(lia)) as D. pose proof (Nat.mod_upper_bound (length x) 2 ltac:(lia)) as M.
    destruct (Nat.odd (length x)) eqn:O; apply loc_inj in H; subst v.
    - apply Nat.odd_spec in O as [h O]. assert (Nat.div (length x) 2 = h) as Hh by (rewrite O; replace (2 * h + 1)%nat with (1 + h * 2)%nat by lia; rewrite Nat.div_add by lia; reflexivity). rewrite Hh.
      exists h, 0%nat, (nth h (qsort x) 0), 0. split; [lia|]. split; [lia|]. split; [apply order_exists; lia|]. left. split; reflexivity.
    - assert (EV : Nat.even (length x) = true) by (rewrite <- Nat.negb_odd, O; reflexivity). apply Nat.even_spec in EV as [h EV]. assert (Nat.div (length x) 2 = h) as Hh by (rewrite EV, Nat.mul_comm; apply Nat.div_mul; lia). rewrite Hh.
      exists (h - 1)%nat, 1%nat, (nth (h - 1) (qsort x) 0), (nth h (qsort x) 0). split; [lia|]. split; [lia|]. split; [apply order_exists; lia|]. right.
      replace (h - 1 + 1)%nat with h by lia. split; [apply order_exists; lia|]. change (qz (Z.of_nat 1)) with 1. change (qz (Z.of_nat 2)) with (qz 2). set (a := nth (h - 1) _ 0). set (b := nth h _ 0). clearbody a b.
      assert (T : qz 2 = 1 + 1) by (apply Qc_is_canon; reflexivity). field_simplify_eq; [rewrite T; ring|exact qz2]. }
  split; [apply A|]. intros [Hx Q]. destruct (median x) as [v'|] eqn:E; [|apply median_none in E; contradiction].
  destruct (A v' eq_refl) as [_ Q']. f_equal. exact (quantile_unique _ _ _ _ _ Q' Q).
Qed.
Lemma quantile_double p q l v : (0 < q)%nat -> quantile p q l v -> quantile (2 * p) (2 * q) l v.
Proof.
  intros Hq [k [r [a [b [E [L [A B]]]]]]]. exists k, (2 * r)%nat, a, b. split; [lia|]. split; [lia|]. split; [exact A|].
  destruct B as [[R ->]|[B ->]]; [left; split; [lia|reflexivity]|right; split; [exact B|]]. f_equal. f_equal.
  rewrite !Nat2Z.inj_mul, !qz_mul. change (qz (Z.of_nat 2)) with (qz 2). assert (qz (Z.of_nat q) <> 0) by (apply qz_neq; lia). pose proof qz2. field. split; assumption.
Qed.
Lemma median_is_quartile x : median x = quartile 2 x.
Proof.
  destruct (median x) as [v|] eqn:E; [|apply median_none in E; symmetry; apply quartile_none, E].
  apply median_quantile in E as [Hx Q]. symmetry. apply quartile_of; [lia|exact Hx|]. apply (quantile_double 1 2); [lia|exact Q].
Qed.
Lemma quartile_some j x : x <> [] -> exists v, quartile j x = Some v.
Proof. intros H. destruct (quartile j x) as [v|] eqn:E; [exists v; reflexivity|apply quartile_none in E; contradiction]. Qed.

(** Affine maps. *)
Lemma quantile_affine p q l v a b : 0 < a -> quantile p q l v -> quantile p q (map (fun x => a * x + b) l) (a * v + b).
Proof.
  intros Ha [k [r [u [w [E [L [A B]]]]]]]. assert (F : forall x y, x < y -> a * x + b < a * y + b) by (intros; qnra).
  exists k, r, (a * u + b), (a * w + b). rewrite map_length. split; [exact E|]. split; [exact L|]. split; [apply (order_increasing _ _ _ (fun x => a * x + b)); assumption|].
  destruct B as [[R ->]|[B ->]]; [left; split; [exact R|reflexivity]|right; split; [apply (order_increasing _ _ _ (fun x => a * x + b)); assumption|]]. ring.
Qed.
Lemma quantile_mirror p q l v a b : a < 0 -> (p <= q)%nat -> l <> [] -> quantile p q l v -> quantile (q - p) q (map (fun x => a * x + b) l) (a * v + b).
Proof.
  intros Ha Hpq Hl [k [r [u [w [E [L [A B]]]]]]]. assert (F : forall x y, x < y -> a * y + b < a * x + b) by (intros; qnra).
  assert (N : (0 < length l)%nat) by (destruct l; [contradiction|cbn; lia]). pose proof (order_lt _ _ _ A) as K.
  destruct (Nat.eq_dec r 0) as [R|R].
  - exists (length l - 1 - k)%nat, 0%nat, (a * u + b), 0. rewrite map_length. split; [nia|]. split; [lia|]. split; [apply (order_decreasing _ _ _ (fun x => a * x + b)); assumption|]. left. split; [reflexivity|].
    destruct B as [[_ ->]|[_ ->]]; [reflexivity|]. subst r. change (qz (Z.of_nat 0)) with 0. unfold Qcdiv. ring.
  - destruct B as [[C _]|[B ->]]; [lia|]. pose proof (order_lt _ _ _ B) as K2.
    exists (length l - 1 - (k + 1))%nat, (q - r)%nat, (a * w + b), (a * u + b). rewrite map_length. split; [nia|]. split; [lia|]. split; [apply (order_decreasing _ _ _ (fun x => a * x + b)); assumption|]. right.
    replace (length l - 1 - (k + 1) + 1)%nat with (length l - 1 - k)%nat by lia. split; [apply (order_decreasing _ _ _ (fun x => a * x + b)); assumption|].
    rewrite Nat2Z.inj_sub by lia. rewrite qz_sub. assert (qz (Z.of_nat q) <> 0) by (apply qz_neq; lia). field. assumption.
Qed.
Lemma quantile_perm p q l l' v : Permutation l l' -> quantile p q l v -> quantile p q l' v.
Proof.
  intros P [k [r [u [w [E [L [A B]]]]]]]. exists k, r, u, w. rewrite <- (Permutation_length P). split; [exact E|]. split; [exact L|]. split; [apply (order_statistic_perm _ _ _ _ P A)|].
  destruct B as [B|[B B']]; [left; exact B|right; split; [apply (order_statistic_perm _ _ _ _ P B)|exact B']].
Qed.
Lemma frac_bounds (r q : nat) : (r < q)%nat -> 0 <= qz (Z.of_nat r) / qz (Z.of_nat q) /\ qz (Z.of_nat r) / qz (Z.of_nat q) <= 1.
Proof.
  intros H. assert (P : 0 < qz (Z.of_nat q)) by (change 0 with (qz 0); apply qz_lt; lia). assert (R : 0 <= qz (Z.of_nat r)) by (change 0 with (qz 0); apply qz_le; lia). assert (L : qz (Z.of_nat r) < qz (Z.of_nat q)) by (apply qz_lt; lia).
  assert (N : qz (Z.of_nat q) <> 0) by (apply qz_neq; lia). set (x := qz (Z.of_nat r)) in *. set (y := qz (Z.of_nat q)) in *. clearbody x y. assert (E : x / y * y = x) by (field; exact N). set (f := x / y) in *. clearbody f.
  split; [destruct (Qclt_le_dec f 0) as [C|C]; [exfalso; clear L; qnra|exact C]|]. destruct (Qclt_le_dec 1 f) as [C|C]; [exfalso; clear R; qnra|exact C].
Qed.
Lemma quantile_between p q l v : quantile p q l v -> exists k a b, order_statistic k l a /\ In b l /\ a <= v <= b.
Proof.
  intros [k [r [a [b [E [L [A B]]]]]]]. exists k. destruct B as [[R ->]|[B ->]].
  - exists a, a. split; [exact A|]. split; [apply A|]. split; apply Qcle_refl.
  - exists a, b. split; [exact A|]. split; [apply B|]. pose proof (order_le k (k + 1) l a b ltac:(lia) A B) as AB. destruct (frac_bounds r q L) as [F0 F1]. set (f := qz (Z.of_nat r) / qz (Z.of_nat q)) in *. clearbody f. split; qnra.
Qed.
Lemma quantile_bounds p q l v lo hi : quantile p q l v -> (forall x, In x l -> lo <= x <= hi) -> lo <= v <= hi.
Proof. intros Q H. destruct (quantile_between _ _ _ _ Q) as [k [a [b [[A _] [B [L1 L2]]]]]]. destruct (H a A). destruct (H b B). split; qlra. Qed.

(* ---------- the median ---------- *)

Lemma below_above_eq v l : (below v l + equal_to v l + above v l = length l)%nat.
Proof.
  unfold below, above, equal_to. induction l as [|a l IH]; [reflexivity|]. rewrite !qcount_cons. cbn [length].
  destruct (Qc_eq_dec a v) as [->|N].
  - assert (E : qltb v v = false) by (apply qltb_ge, Qcle_refl). rewrite E. lia.
  - destruct (qltb a v) eqn:A, (qltb v a) eqn:B; try lia; [apply qltb_lt in A, B; exfalso; qlra|].
    apply qltb_ge in A, B. exfalso. apply N. apply Qcle_antisym; assumption.
Qed.
Lemma median_halves x m : median x = Some m -> (2 * below m x <= length x)%nat /\ (2 * above m x <= length x)%nat.
Proof.
  intros H. apply median_quantile in H as [Hx [k [r [a [b [E [L [A B]]]]]]]].
  assert (N : (0 < length x)%nat) by (destruct x; [contradiction|cbn; lia]).
  pose proof (qcount_neg (fun v => qleb v m) x) as G.
  assert (GA : above m x = qcount (fun v => negb (qleb v m)) x).
  { unfold above. apply qcount_ext. intros v _. destruct (qleb v m) eqn:C; cbn [negb]; [apply qleb_le in C; apply qltb_ge, C|apply qleb_gt in C; apply qltb_lt, C]. }
  destruct B as [[R ->]|[B ->]].
  - destruct A as [_ [A1 A2]]. unfold below in *. lia.
  - destruct (Nat.eq_dec r 0) as [R|R].
    + subst r. revert G GA. change (qz (Z.of_nat 0)) with 0. replace (a + 0 / qz (Z.of_nat 2) * (b - a)) with a by (unfold Qcdiv; ring). intros G GA. destruct A as [_ [A1 A2]]. unfold below in *. lia.
    + pose proof (order_le k (k + 1) x a b ltac:(lia) A B) as AB. destruct (frac_bounds r 2 L) as [F0 F1]. set (f := qz (Z.of_nat r) / qz (Z.of_nat 2)) in *. clearbody f.
      destruct A as [_ [A1 A2]], B as [_ [B1 B2]].
      assert (below (a + f * (b - a)) x <= qcount (fun v => qltb v b) x)%nat by (apply qcount_impl; intros v _ Hv; apply qltb_lt in Hv; apply qltb_lt; qnra).
      assert (qcount (fun v => qleb v a) x <= qcount (fun v => qleb v (a + f * (b - a))) x)%nat by (apply qcount_impl; intros v _ Hv; apply qleb_le in Hv; apply qleb_le; qnra).
      lia.
Qed.
Lemma median_majority x m lo hi : median x = Some m -> (length x < 2 * qcount (fun v => qleb lo v && qleb v hi)%bool x)%nat -> lo <= m <= hi.
Proof.
  intros H C. destruct (median_halves _ _ H) as [B A]. split.
  - destruct (Qclt_le_dec m lo) as [D|D]; [exfalso|exact D].
    assert (qcount (fun v => qleb lo v && qleb v hi)%bool x <= above m x)%nat; [|lia]. apply qcount_impl. intros v _ Hv. apply andb_true_iff in Hv as [H1 _]. apply qleb_le in H1. apply qltb_lt. qlra.
  - destruct (Qclt_le_dec hi m) as [D|D]; [exfalso|exact D].
    assert (qcount (fun v => qleb lo v && qleb v hi)%bool x <= below m x)%nat; [|lia]. apply qcount_impl. intros v _ Hv. apply andb_true_iff in Hv as [_ H1]. apply qleb_le in H1. apply qltb_lt. qlra.
Qed.

Lemma qz_nat_S n : qz (Z.of_nat (S n)) = 1 + qz (Z.of_nat n).
Proof. rewrite Nat2Z.inj_succ, <- Z.add_1_l, qz_add. reflexivity. Qed.
Lemma far_right m c x : m <= c -> sum_of (fun v => magnitude (v - m)) x + (c - m) * (qz (Z.of_nat (length x)) - qz 2 * qz (Z.of_nat (above m x))) <= sum_of (fun v => magnitude (v - c)) x.
Proof.
  intros H. assert (T : qz 2 = 1 + 1) by (apply Qc_is_canon; reflexivity). unfold above. induction x as [|a x IH].
  - cbn. change (qz 0) with 0. replace (0 + (c - m) * (0 - qz 2 * 0)) with 0 by ring. apply Qcle_refl.
  - rewrite qcount_cons. cbn [sum_of fold_right length]. fold (sum_of (fun v => magnitude (v - m)) x) (sum_of (fun v => magnitude (v - c)) x).
    set (S1 := sum_of (fun v => magnitude (v - m)) x) in *. set (S2 := sum_of (fun v => magnitude (v - c)) x) in *. rewrite qz_nat_S.
    set (n := qz (Z.of_nat (length x))) in *. set (k := qcount _ x) in *. rewrite T in *.
    destruct (qltb m a) eqn:E.
    + apply qltb_lt in E. cbn [Nat.add]. rewrite qz_nat_S. set (q := qz (Z.of_nat k)) in *. clearbody S1 S2 n q.
      destruct (magnitude_cases (a - m)) as [[A ->]|[A ->]], (magnitude_cases (a - c)) as [[B ->]|[B ->]]; try (exfalso; qlra); qlra.
    + apply qltb_ge in E. cbn [Nat.add]. set (q := qz (Z.of_nat k)) in *. clearbody S1 S2 n q.
      destruct (magnitude_cases (a - m)) as [[A ->]|[A ->]], (magnitude_cases (a - c)) as [[B ->]|[B ->]]; qlra.
Qed.
Lemma far_left m c x : c <= m -> sum_of (fun v => magnitude (v - m)) x + (m - c) * (qz (Z.of_nat (length x)) - qz 2 * qz (Z.of_nat (below m x))) <= sum_of (fun v => magnitude (v - c)) x.
Proof.
  intros H. assert (T : qz 2 = 1 + 1) by (apply Qc_is_canon; reflexivity). unfold below. induction x as [|a x IH].
  - cbn. change (qz 0) with 0. replace (0 + (m - c) * (0 - qz 2 * 0)) with 0 by ring. apply Qcle_refl.
  - rewrite qcount_cons. cbn [sum_of fold_right length]. fold (sum_of (fun v => magnitude (v - m)) x) (sum_of (fun v => magnitude (v - c)) x).
    set (S1 := sum_of (fun v => magnitude (v - m)) x) in *. set (S2 := sum_of (fun v => magnitude (v - c)) x) in *. rewrite qz_nat_S.
    set (n := qz (Z.of_nat (length x))) in *. set (k := qcount _ x) in *. rewrite T in *.
    destruct (qltb a m) eqn:E.
    + apply qltb_lt in E. cbn [Nat.add]. rewrite qz_nat_S. set (q := qz (Z.of_nat k)) in *. clearbody S1 S2 n q.
      destruct (magnitude_cases (a - m)) as [[A ->]|[A ->]], (magnitude_cases (a - c)) as [[B ->]|[B ->]]; try (exfalso; qlra); qlra.
    + apply qltb_ge in E. cbn [Nat.add]. set (q := qz (Z.of_nat k)) in *. clearbody S1 S2 n q.
      destruct (magnitude_cases (a - m)) as [[A ->]|[A ->]], (magnitude_cases (a - c)) as [[B ->]|[B ->]]; qlra.
Qed.
Lemma halves_minimise m c x : (2 * below m x <= length x)%nat -> (2 * above m x <= length x)%nat -> sum_of (fun v => magnitude (v - m)) x <= sum_of (fun v => magnitude (v - c)) x.
Proof.
  intros B A.
  assert (P : forall k, (2 * k <= length x)%nat -> 0 <= qz (Z.of_nat (length x)) - qz 2 * qz (Z.of_nat k)).
  { intros k Hk. rewrite <- qz_mul, <- qz_sub. change 0 with (qz 0). apply qz_le. lia. }
  destruct (Qclt_le_dec c m) as [C|C].
  - pose proof (far_left m c x (Qclt_le_weak _ _ C)) as F. pose proof (P _ B) as P'. set (u := qz (Z.of_nat (length x)) - _) in *. clearbody u. qnra.
  - pose proof (far_right m c x C) as F. pose proof (P _ A) as P'. set (u := qz (Z.of_nat (length x)) - _) in *. clearbody u. qnra.
Qed.

(* ---------- how median, quartiles and their combinations follow the data ---------- *)

Lemma map_nonempty {A B} (f : A -> B) l : l <> [] -> map f l <> [].
Proof. destruct l; [intros C; contradiction|discriminate]. Qed.
Lemma quartile_affine j x a b v : (j <= 4)%nat -> 0 < a -> quartile j x = Some v -> quartile j (map (fun u => a * u + b) x) = Some (a * v + b).
Proof. intros Hj Ha H. destruct (quartile_quantile _ _ _ Hj H) as [Hx Q]. apply quartile_of; [exact Hj|apply map_nonempty, Hx|]. apply quantile_affine; assumption. Qed.
Lemma quartile_mirror j x a b v : (j <= 4)%nat -> a < 0 -> quartile j x = Some v -> quartile (4 - j) (map (fun u => a * u + b) x) = Some (a * v + b).
Proof. intros Hj Ha H. destruct (quartile_quantile _ _ _ Hj H) as [Hx Q]. apply quartile_of; [lia|apply map_nonempty, Hx|]. apply quantile_mirror; assumption. Qed.
Lemma quartile_const j x b : (j <= 4)%nat -> x <> [] -> quartile j (map (fun u => 0 * u + b) x) = Some b.
Proof.
  intros Hj Hx. destruct (quartile_some j (map (fun u => 0 * u + b) x) (map_nonempty _ _ Hx)) as [v E]. rewrite E. f_equal. destruct (quartile_quantile _ _ _ Hj E) as [_ Q].
  destruct (quantile_bounds _ _ _ _ b b Q) as [A B]; [intros y Hy; apply in_map_iff in Hy as [z [<- _]]; split; [assert (T : 0 * z + b = b) by ring; rewrite T; apply Qcle_refl|assert (T : 0 * z + b = b) by ring; rewrite T; apply Qcle_refl]|].
  apply Qcle_antisym; assumption.
Qed.
Lemma quartile_perm j x y : (j <= 4)%nat -> Permutation x y -> quartile j x = quartile j y.
Proof.
  intros Hj P. destruct (quartile j x) as [v|] eqn:E.
  - destruct (quartile_quantile _ _ _ Hj E) as [Hx Q]. symmetry. apply quartile_of; [exact Hj|intro C; subst y; apply Permutation_sym, Permutation_nil in P; contradiction|]. exact (quantile_perm _ _ _ _ _ P Q).
  - apply quartile_none in E. subst x. apply Permutation_nil in P. subst y. symmetry. apply quartile_none. reflexivity.
Qed.
Lemma sign_cases (a : Qc) : 0 < a \/ a < 0 \/ a = 0.
Proof. destruct (Qclt_le_dec 0 a) as [H|H]; [left; exact H|]. right. apply Qcle_lt_or_eq in H. exact H. Qed.
Lemma median_affine x a b m : median x = Some m -> median (map (fun u => a * u + b) x) = Some (a * m + b).
Proof.
  rewrite !median_is_quartile. intros H. destruct (sign_cases a) as [A|[A|A]].
  - apply quartile_affine; [lia|exact A|exact H].
  - apply (quartile_mirror 2); [lia|exact A|exact H].
  - subst a. rewrite quartile_const; [f_equal; ring|lia|intro C; subst x; discriminate H].
Qed.
Lemma median_perm x y : Permutation x y -> median x = median y.
Proof. rewrite !median_is_quartile. apply quartile_perm. lia. Qed.
Lemma median_some x : x <> [] -> exists m, median x = Some m.
Proof. rewrite median_is_quartile. apply quartile_some. Qed.

Lemma trimean_affine x a b m : trimean x = Some m -> trimean (map (fun u => a * u + b) x) = Some (a * m + b).
Proof.
  unfold trimean. destruct (quartile 1 x) as [q1|] eqn:E1; [|discriminate]. destruct (quartile 2 x) as [q2|] eqn:E2; [|discriminate]. destruct (quartile 3 x) as [q3|] eqn:E3; [|discriminate].
  intros H. apply loc_inj in H. subst m. assert (T : qd 25 100 * (1 + 1) + qd 5 10 = 1) by (apply Qc_is_canon; vm_compute; reflexivity). set (u := qd 25 100) in *. set (w := qd 5 10) in *. clearbody u w.
  assert (W : w = 1 - u * (1 + 1)) by (clear - T; qlra). subst w.
  destruct (sign_cases a) as [A|[A|A]].
  - rewrite (quartile_affine 1 x a b _ ltac:(lia) A E1), (quartile_affine 2 x a b _ ltac:(lia) A E2), (quartile_affine 3 x a b _ ltac:(lia) A E3). f_equal. ring.
  - rewrite (quartile_mirror 3 x a b _ ltac:(lia) A E3 : quartile 1 _ = _), (quartile_mirror 2 x a b _ ltac:(lia) A E2 : quartile 2 _ = _), (quartile_mirror 1 x a b _ ltac:(lia) A E1 : quartile 3 _ = _). f_equal. ring.
  - subst a. assert (x <> []) by (intro C; subst x; discriminate E1). rewrite !quartile_const by (try lia; assumption). f_equal. ring.
Qed.
Lemma trimean_perm x y : Permutation x y -> trimean x = trimean y.
Proof. intros P. unfold trimean. rewrite (quartile_perm 1 x y), (quartile_perm 2 x y), (quartile_perm 3 x y) by (try lia; exact P). reflexivity. Qed.
Lemma trimean_value x m : trimean x = Some m <-> x <> [] /\ exists q1 q2 q3, quantile 1 4 x q1 /\ quantile 1 2 x q2 /\ quantile 3 4 x q3 /\ m = (q1 + qz 2 * q2 + q3) / qz 4.
Proof.
  assert (V : forall q1 q2 q3, qd 25 100 * (q1 + q3) + qd 5 10 * q2 = (q1 + qz 2 * q2 + q3) / qz 4).
  { intros. assert (T : qd 25 100 * qz 4 = 1) by (apply Qc_is_canon; vm_compute; reflexivity). assert (T2 : qd 5 10 = qd 25 100 * qz 2) by (apply Qc_is_canon; vm_compute; reflexivity). rewrite T2.
    pose proof qz4 as N. set (u := qd 25 100) in *. set (f := qz 4) in *. set (w := qz 2) in *. clearbody u f w. assert (U : u = / f) by (transitivity (u * f / f); [field; exact N|rewrite T; unfold Qcdiv; ring]). subst u. unfold Qcdiv. ring. }
  assert (M : forall q2, quartile 2 x = Some q2 <-> x <> [] /\ quantile 1 2 x q2) by (intros; rewrite <- median_is_quartile; apply median_quantile).
  unfold trimean. split.
  - destruct (quartile 1 x) as [q1|] eqn:E1; [|discriminate]. destruct (quartile 2 x) as [q2|] eqn:E2; [|discriminate]. destruct (quartile 3 x) as [q3|] eqn:E3; [|discriminate].
    intros H. apply loc_inj in H. subst m. destruct (quartile_quantile 1 _ _ ltac:(lia) E1) as [Hx Q1]. destruct (quartile_quantile 3 _ _ ltac:(lia) E3) as [_ Q3]. destruct (proj1 (M q2) eq_refl) as [_ Q2].
    split; [exact Hx|]. exists q1, q2, q3. split; [exact Q1|]. split; [exact Q2|]. split; [exact Q3|]. apply V.
  - intros [Hx [q1 [q2 [q3 [Q1 [Q2 [Q3 ->]]]]]]]. rewrite (quartile_of 1 x q1 ltac:(lia) Hx Q1), (quartile_of 3 x q3 ltac:(lia) Hx Q3), (proj2 (M q2) (conj Hx Q2)). f_equal. apply V.
Qed.
Lemma quarter_pos : 0 < qd 25 100. Proof. apply qltb_lt. vm_compute. reflexivity. Qed.
Lemma trimean_bounds x m lo hi : trimean x = Some m -> (forall v, In v x -> lo <= v <= hi) -> lo <= m <= hi.
Proof.
  unfold trimean. destruct (quartile 1 x) as [q1|] eqn:E1; [|discriminate]. destruct (quartile 2 x) as [q2|] eqn:E2; [|discriminate]. destruct (quartile 3 x) as [q3|] eqn:E3; [|discriminate].
  intros H B. apply loc_inj in H. subst m. assert (T : qd 25 100 * (1 + 1) + qd 5 10 = 1) by (apply Qc_is_canon; vm_compute; reflexivity). assert (T2 : qd 5 10 = qd 25 100 * (1 + 1)) by (apply Qc_is_canon; vm_compute; reflexivity).
  rewrite T2 in *. pose proof quarter_pos as P. set (u := qd 25 100) in *. clearbody u.
  destruct (quantile_bounds 1 4 x q1 lo hi (proj2 (quartile_quantile 1 _ _ ltac:(lia) E1)) B). destruct (quantile_bounds 2 4 x q2 lo hi (proj2 (quartile_quantile 2 _ _ ltac:(lia) E2)) B). destruct (quantile_bounds 3 4 x q3 lo hi (proj2 (quartile_quantile 3 _ _ ltac:(lia) E3)) B).
  clear T2 E1 E2 E3. assert (M : forall p q, p <= q -> u * p <= u * q) by (intros; qnra). split.
  - apply (Qcle_trans _ (u * (lo + lo) + u * (1 + 1) * lo)); [|pose proof (M _ _ H); pose proof (M _ _ H1); pose proof (M _ _ H3); clear - H5 H6 H7; qlra]. replace (u * (lo + lo) + u * (1 + 1) * lo) with ((u * (1 + 1) + u * (1 + 1)) * lo) by ring. rewrite T. rewrite Qcmult_1_l. apply Qcle_refl.
  - apply (Qcle_trans _ (u * (hi + hi) + u * (1 + 1) * hi)); [pose proof (M _ _ H0); pose proof (M _ _ H2); pose proof (M _ _ H4); clear - H5 H6 H7; qlra|]. replace (u * (hi + hi) + u * (1 + 1) * hi) with ((u * (1 + 1) + u * (1 + 1)) * hi) by ring. rewrite T. rewrite Qcmult_1_l. apply Qcle_refl.
Qed.

(* ---------- median absolute deviation ---------- *)

Lemma mad_unfold x norm d : median_abs_dev x norm = Some d <-> exists m e, median x = Some m /\ median (map (fun v => magnitude (v - m)) x) = Some e /\ d = (if norm then e / qd 674480 1000000 else e).
Proof.
  unfold median_abs_dev. destruct (median x) as [m|]; [|split; [discriminate|intros [m [e [C _]]]; discriminate]].
  rewrite (map_ext (fun v => qabs (v - m)) (fun v => magnitude (v - m))) by (intros; apply qabs_magnitude).
  split.
  - destruct (median (map _ x)) as [e|] eqn:E; [|discriminate]. intros H. apply loc_inj in H. exists m, e. split; [reflexivity|]. split; [exact E|]. symmetry. exact H.
  - intros [m' [e [A [B ->]]]]. apply loc_inj in A. subst m'. rewrite B. reflexivity.
Qed.
Lemma mad_some x norm : x <> [] -> exists d, median_abs_dev x norm = Some d.
Proof. intros H. destruct (median_some x H) as [m E]. destruct (median_some (map (fun v => magnitude (v - m)) x) (map_nonempty _ _ H)) as [e E']. exists (if norm then e / qd 674480 1000000 else e). apply mad_unfold. exists m, e. auto. Qed.
Lemma mad_affine x a b norm d : median_abs_dev x norm = Some d -> median_abs_dev (map (fun u => a * u + b) x) norm = Some (magnitude a * d).
Proof.
  intros H. apply mad_unfold in H as [m [e [M [E ->]]]]. apply mad_unfold. exists (a * m + b), (magnitude a * e + 0). split; [apply median_affine, M|]. split.
  - rewrite map_map. rewrite (map_ext (fun v => magnitude (a * v + b - (a * m + b))) (fun v => magnitude a * magnitude (v - m) + 0)).
    + rewrite <- (map_map (fun v => magnitude (v - m)) (fun u => magnitude a * u + 0)). apply median_affine, E.
    + intros v. replace (a * v + b - (a * m + b)) with (a * (v - m)) by ring. rewrite magnitude_mul. ring.
  - destruct norm; unfold Qcdiv; ring.
Qed.
Lemma mad_perm x y norm : Permutation x y -> median_abs_dev x norm = median_abs_dev y norm.
Proof. intros P. unfold median_abs_dev. rewrite (median_perm x y P). destruct (median y) as [m|]; [|reflexivity]. rewrite (median_perm _ (map (fun v => qabs (v - m)) y)); [reflexivity|apply Permutation_map, P]. Qed.

Lemma order_zero k l v : (forall a, In a l -> 0 <= a) -> order_statistic k l v -> (v = 0 <-> (k < qcount (fun x => qleb x 0) l)%nat).
Proof.
  intros N [I [A B]]. split; [intros ->; exact B|]. intros C. destruct (Qc_eq_dec v 0) as [E|E]; [exact E|exfalso].
  assert (P : 0 < v) by (pose proof (N v I) as P; apply Qcle_lt_or_eq in P as [P|P]; [exact P|congruence]).
  assert (qcount (fun x => qleb x 0) l <= qcount (fun x => qltb x v) l)%nat by (apply qcount_impl; intros u _ Hu; apply qleb_le in Hu; apply qltb_lt; qlra). lia.
Qed.
Lemma median_zero l m : (forall a, In a l -> 0 <= a) -> median l = Some m -> 0 <= m /\ (m = 0 <-> (length l < 2 * qcount (fun x => qleb x 0) l)%nat).
Proof.
  intros N H. pose proof H as H0. apply median_quantile in H as [Hx [k [r [a [b [E [L [A B]]]]]]]].
  assert (Ln : (0 < length l)%nat) by (destruct l; [contradiction|cbn; lia]). pose proof (N a (proj1 A)) as Pa. pose proof (order_zero _ _ _ N A) as Za.
  assert (case0 : r = 0%nat -> m = a -> 0 <= m /\ (m = 0 <-> (length l < 2 * qcount (fun x => qleb x 0) l)%nat)) by (intros R ->; split; [exact Pa|]; rewrite Za; lia).
  destruct B as [[R B]|[B V]]; [apply case0; assumption|]. destruct (Nat.eq_dec r 0) as [R|R].
  - apply case0; [exact R|]. rewrite V, R. change (qz (Z.of_nat 0)) with 0. unfold Qcdiv. ring.
  - assert (r = 1)%nat by lia. subst r. pose proof (N b (proj1 B)) as Pb. pose proof (order_zero _ _ _ N B) as Zb. pose proof (order_le k (k + 1) l a b ltac:(lia) A B) as AB.
    change (qz (Z.of_nat 1)) with 1 in V. change (qz (Z.of_nat 2)) with (qz 2) in V. assert (V' : m * (1 + 1) = a + b) by (rewrite V; assert (T : qz 2 = 1 + 1) by (apply Qc_is_canon; reflexivity); pose proof qz2 as Q; rewrite T in *; field; exact Q).
    clear V. split; [qlra|]. split.
    + intros M. assert (b = 0) by (subst m; qlra). apply Zb in H. lia.
    + intros C. assert (b = 0) by (apply Zb; lia). assert (a = 0) by (apply Za; lia). subst a b. qlra.
Qed.
Lemma scale_pos : 0 < / qd 674480 1000000. Proof. apply qltb_lt. vm_compute. reflexivity. Qed.
Lemma mad_zero x norm d m : median x = Some m -> median_abs_dev x norm = Some d -> 0 <= d /\ (d = 0 <-> (length x < 2 * equal_to m x)%nat).
Proof.
  intros M H. apply mad_unfold in H as [m' [e [M' [E ->]]]]. rewrite M in M'. apply loc_inj in M'. subst m'.
  destruct (median_zero _ _ ltac:(intros a Ha; apply in_map_iff in Ha as [v [<- _]]; apply magnitude_nonneg) E) as [P Z].
  rewrite map_length, qcount_map in Z. unfold equal_to. rewrite (qcount_ext _ (fun v => if Qc_eq_dec v m then true else false)) in Z.
  2:{ intros v _. pose proof (magnitude_nonneg (v - m)) as G. destruct (Qc_eq_dec v m) as [->|D].
      - apply qleb_le. replace (m - m) with 0 by ring. apply Qcle_refl.
      - apply qleb_gt. apply Qcle_lt_or_eq in G as [G|G]; [exact G|]. exfalso. apply D. symmetry in G. apply (proj1 (magnitude_0 _)) in G. assert (v = v - m + m) as -> by ring. rewrite G. ring. }
  destruct norm; [|split; [exact P|exact Z]]. unfold Qcdiv. pose proof scale_pos as S. set (s := / qd 674480 1000000) in *. clearbody s. split; [qnra|]. rewrite <- Z. split; intros C; [|rewrite C; ring].
  apply Qcmult_integral in C as [C|C]; [exact C|]. exfalso. rewrite C in S. exact (Qclt_not_eq _ _ S eq_refl).
Qed.

(* ---------- a few wild data ---------- *)

Lemma order_ge_lo k l v lo : order_statistic k l v -> (below lo l <= k)%nat -> lo <= v.
Proof.
  intros [_ [_ B]] H. destruct (Qclt_le_dec v lo) as [C|C]; [exfalso|exact C]. assert (qcount (fun x => qleb x v) l <= below lo l)%nat; [|lia].
  apply qcount_impl. intros a _ Ha. apply qleb_le in Ha. apply qltb_lt. qlra.
Qed.
Lemma order_le_hi k l v hi : order_statistic k l v -> (above hi l + k < length l)%nat -> v <= hi.
Proof.
  intros [_ [B _]] H. destruct (Qclt_le_dec hi v) as [C|C]; [exfalso|exact C].
  pose proof (qcount_neg (fun x => qltb hi x) l) as N. fold (above hi l) in N. assert (qcount (fun x => negb (qltb hi x)) l <= qcount (fun x => qltb x v) l)%nat; [|lia].
  apply qcount_impl. intros a _ Ha. apply negb_true_iff in Ha. apply qltb_ge in Ha. apply qltb_lt. qlra.
Qed.
Lemma quantile_tamed p q l v lo hi : (0 < q)%nat -> (p <= q)%nat -> quantile p q l v -> (q * below lo l <= (length l - 1) * p)%nat -> (q * above hi l <= (length l - 1) * (q - p))%nat -> lo <= v <= hi.
Proof.
  intros Hq Hpq [k [r [a [b [E [L [A B]]]]]]] H1 H2. pose proof (order_lt _ _ _ A) as Lk.
  assert (La : lo <= a) by (apply (order_ge_lo k l); [exact A|]; clear - E H1 L; nia).
  assert (C0 : r = 0%nat -> a <= hi) by (intros R; apply (order_le_hi k l); [exact A|]; subst r; assert ((length l - 1) * (q - p) = (length l - 1) * q - k * q)%nat by (rewrite Nat.mul_sub_distr_l; lia); clear - H H2 Hq Lk E Hpq; assert (k <= length l - 1)%nat by lia; assert (q * above hi l <= (length l - 1 - k) * q)%nat by (rewrite Nat.mul_sub_distr_r; lia); nia).
  destruct B as [[R ->]|[B ->]]; [split; [exact La|apply C0, R]|]. destruct (Nat.eq_dec r 0) as [R|R].
  - rewrite R. change (qz (Z.of_nat 0)) with 0. replace (a + 0 / qz (Z.of_nat q) * (b - a)) with a by (unfold Qcdiv; ring). split; [exact La|apply C0, R].
  - pose proof (order_lt _ _ _ B) as Lk2. assert (Hb : b <= hi).
    { apply (order_le_hi (k + 1) l); [exact B|]. clear - H2 E L Lk2 R Hpq Hq. assert ((length l - 1) * (q - p) = (length l - 1) * q - (k * q + r))%nat by (rewrite Nat.mul_sub_distr_l; lia). rewrite H in H2. clear H. assert (q * above hi l + k * q + r <= (length l - 1) * q)%nat by nia. nia. }
    pose proof (order_le k (k + 1) l a b ltac:(lia) A B) as AB. destruct (frac_bounds r q L) as [F0 F1]. set (f := qz (Z.of_nat r) / qz (Z.of_nat q)) in *. clearbody f. clear - La Hb AB F0 F1. split; qnra.
Qed.
Lemma trimean_tamed x m lo hi : trimean x = Some m -> (4 * below lo x < length x)%nat -> (4 * above hi x < length x)%nat -> lo <= m <= hi.
Proof.
  intros H B A. apply trimean_value in H as [Nx [q1 [q2 [q3 [Q1 [Q2 [Q3 ->]]]]]]].
  destruct (quantile_tamed 1 4 x q1 lo hi ltac:(lia) ltac:(lia) Q1 ltac:(lia) ltac:(lia)) as [L1 H1]. destruct (quantile_tamed 1 2 x q2 lo hi ltac:(lia) ltac:(lia) Q2 ltac:(lia) ltac:(lia)) as [L2 H2]. destruct (quantile_tamed 3 4 x q3 lo hi ltac:(lia) ltac:(lia) Q3 ltac:(lia) ltac:(lia)) as [L3 H3].
  assert (E : (q1 + qz 2 * q2 + q3) / qz 4 * qz 4 = q1 + qz 2 * q2 + q3) by (field; exact qz4). set (m := (q1 + qz 2 * q2 + q3) / qz 4) in *. clearbody m.
  assert (T2 : qz 2 = 1 + 1) by (apply Qc_is_canon; reflexivity). assert (T4 : qz 4 = 1 + 1 + 1 + 1) by (apply Qc_is_canon; reflexivity). rewrite T2, T4 in E. split; qlra.
Qed.
Lemma mad_tamed x d lo hi : median_abs_dev x false = Some d -> (length x < 2 * qcount (fun v => qleb lo v && qleb v hi)%bool x)%nat -> d <= hi - lo.
Proof.
  intros H C. apply mad_unfold in H as [m [e [M [E ->]]]]. pose proof (median_majority x m lo hi M C) as [B1 B2].
  apply (fun h => proj2 (median_majority _ _ 0 (hi - lo) E h)). rewrite map_length, qcount_map. apply (Nat.lt_le_trans _ _ _ C). apply Nat.mul_le_mono_l, qcount_impl.
  intros v _ Hv. apply andb_true_iff in Hv as [V1 V2]. apply qleb_le in V1, V2. apply andb_true_iff. split; apply qleb_le; [apply magnitude_nonneg|]. destruct (magnitude_cases (v - m)) as [[_ ->]|[_ ->]]; qlra.
Qed.
Lemma mad_halves x d m : median x = Some m -> median_abs_dev x false = Some d -> (2 * qcount (fun v => qltb (magnitude (v - m)) d) x <= length x)%nat /\ (2 * qcount (fun v => qltb d (magnitude (v - m))) x <= length x)%nat.
Proof.
  intros M H. apply mad_unfold in H as [m' [e [M' [E ->]]]]. rewrite M in M'. apply loc_inj in M'. subst m'. destruct (median_halves _ _ E) as [B A]. unfold below, above in *. rewrite map_length, qcount_map in *. split; assumption.
Qed.
