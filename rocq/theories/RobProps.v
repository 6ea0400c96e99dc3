(** Properties C13 to C15: shorth, high median, Q estimator. *)
From Coq Require Import ZArith QArith Qcanon List Bool Lia Permutation.
From Verif Require Import QcPre LagModel QSort RobModel RobSpec RobProofs QscProofs QscLoop RobMore.
Import ListNotations.
Local Open Scope Qc_scope.

(** shorth_range returns the length and the centre of a shortest interval between data points that holds more
    than half of the data; it fails only without data or when asked to sort something that is not an array, and
    the caller's data change only by being sorted, on request. *)
Theorem shorth_is_shortest : forall x is_array inplace,
  match shorth_range x is_array false inplace with
  | (Some r, after) =>
      (exists a b, shortest_interval (more_than_half (length x)) x a b /\ sh_range r = b - a /\ qz 2 * sh_center r = a + b) /\
      (inplace = false -> after = x) /\ (inplace = true -> Permutation x after /\ qsorted after)
  | (None, after) => after = x /\ (x = [] \/ (inplace = true /\ is_array = false))
  end.
Proof.
  intros x is_array inplace. destruct (shorth_cases x is_array inplace) as [[-> [-> ->]] | [[-> [_ ->]] | [a [b [i [O [H [_ [_ [_ ->]]]]]]]]]].
  - split; [reflexivity|right; split; reflexivity].
  - split; [reflexivity|left; reflexivity].
  - cbn [sh_range sh_center]. split; [|split].
    + exists a, b. split; [exact H|]. split; [reflexivity|]. change (qz 1) with 1. change (qz 2) with (1 + 1). field. intro X; discriminate X.
    + intros ->. reflexivity.
    + intros ->. split; [apply qsort_perm|apply qsort_sorted].
Qed.
Print Assumptions shorth_is_shortest.

(** Normalising multiplies the range by a positive factor that depends only on the number of data; with a single
    datum it raises instead. *)
Theorem shorth_normalized : forall n, (2 <= n)%nat -> exists c, 0 < c /\ forall x is_array inplace r after, length x = n ->
  shorth_range x is_array false inplace = (Some r, after) ->
  shorth_range x is_array true inplace = (Some (mkShorth (sh_range r * c) (sh_mean r) (sh_center r)), after).
Proof. exact shorth_scaled. Qed.
Print Assumptions shorth_normalized.
Theorem shorth_normalized_one_refuted : exists x, shorth_range x true true false = (None, x) /\ length x = 1%nat.
Proof. exists [qz 7]. split; [vm_compute; reflexivity|reflexivity]. Qed.
Print Assumptions shorth_normalized_one_refuted.

(** The documented "at least half of the elements" fails for an even number of data. *)
Theorem shorth_half_refuted : exists x r after, shorth_range x true false false = (Some r, after) /\
  ~ (exists a b, shortest_interval (at_least_half (length x)) x a b /\ sh_range r = b - a).
Proof.
  exists [qz 0; qz 1], (mkShorth (qz 1) (qz 1 / qz 2) (qz 1 / qz 2)), [qz 0; qz 1]. split.
  - vm_compute. reflexivity.
  - intros [a [b [[_ [_ [_ [_ H]]]] E]]]. cbn [sh_range] in E.
    specialize (H (qz 0) (qz 0) (or_introl eq_refl) (or_introl eq_refl) (Qcle_refl _)).
    rewrite <- E in H. assert (X : at_least_half (length [qz 0; qz 1]) (points_in (qz 0) (qz 0) [qz 0; qz 1])) by (vm_compute; lia).
    specialize (H X). vm_compute in H. apply H. reflexivity.
Qed.
Print Assumptions shorth_half_refuted.

(** The documented "mean of all samples in the closed range" fails when there are ties. *)
Theorem shorth_mean_refuted : exists x r after, shorth_range x true false false = (Some r, after) /\
  forall a b, In a x -> In b x -> sh_range r = b - a -> qz 2 * sh_center r = a + b -> ~ mean_of (inside a b x) (sh_mean r).
Proof.
  exists (map qz [0; 0; 1; 1]%Z), (mkShorth (qz 1) (qz 1 / qz 3) (qz 1 / qz 2)), (map qz [0; 0; 1; 1]%Z). split.
  - vm_compute. reflexivity.
  - intros a b _ _ E1 E2 H. cbn [sh_range sh_center sh_mean] in *.
    assert (a = qz 0). { assert (qz 2 * (qz 1 / qz 2) = qz 1) by (apply Qc_is_canon; vm_compute; reflexivity). rewrite H0 in E2.
      change (qz 0) with 0. change (qz 1) with 1 in *. qlra. }
    assert (b = qz 1). { subst a. change (qz 0) with 0 in *. qlra. }
    subst a b. vm_compute in H. discriminate H.
Qed.
Print Assumptions shorth_mean_refuted.

(** Without weights (or with equal positive weights) high_median returns the high median. *)
Theorem high_median_unweighted : forall argsort x, x <> [] -> sorts (argsort x) x ->
  exists v i, high_median argsort x None = Some (v, i) /\ nth_error x i = Some v /\ is_high_median x (map (fun _ => 1) x) v.
Proof.
  intros argsort x Hx Hs. destruct (high_median_equal argsort x 1 Hx eq_refl Hs) as [v [i H]]. exists v, i.
  replace (map (fun _ : Qc => 1) x) with (repeat (1 : Qc) (length x)); [exact H|]. clear. induction x; cbn; [reflexivity|]. f_equal. exact IHx.
Qed.
Print Assumptions high_median_unweighted.
Theorem high_median_equal_weights : forall argsort x c, x <> [] -> 0 < c -> sorts (argsort x) x ->
  exists v i, high_median argsort x (Some (repeat c (length x))) = Some (v, i) /\ nth_error x i = Some v /\
    is_high_median x (repeat c (length x)) v.
Proof. exact high_median_equal. Qed.
Print Assumptions high_median_equal_weights.

(** With any weights it returns a datum below which at most half of the weight lies. The datum can be too small,
    but only by so much: with at most 2^j data and weights up to m, the weight up to it and j times m more exceed
    half of the total. *)
Theorem high_median_weighted : forall argsort x w m j, x <> [] -> length w = length x -> sorts (argsort x) x ->
  (forall i, (i < length x)%nat -> 0 <= nth i w 0 <= m) -> (length x <= 2 ^ j)%nat ->
  exists v i, high_median argsort x (Some w) = Some (v, i) /\ nth_error x i = Some v /\
    (forall y, In y x -> y < v -> weight_upto x w y + weight_upto x w y <= total_weight w) /\
    (0 < total_weight w -> total_weight w < qz 2 * (weight_upto x w v + qz (Z.of_nat j) * m)).
Proof. exact high_median_bounds. Qed.
Print Assumptions high_median_weighted.
Theorem high_median_refuted : exists argsort x w v i, (forall l, sorts (argsort l) l) /\ length w = length x /\
  (forall a, In a w -> 0 <= a) /\ high_median argsort x (Some w) = Some (v, i) /\ ~ is_high_median x w v.
Proof.
  exists argsort_ins, (map qz [0; 1; 2; 3; 4; 5; 6; 7]%Z), (map qz [1; 1; 1; 1; 3; 0; 0; 0]%Z), (qz 2), 2%nat.
  split; [exact argsort_ins_sorts|]. split; [reflexivity|]. split.
  - intros a H. cbn in H. repeat (destruct H as [<- | H]; [intro X; discriminate X|]). destruct H.
  - split; [vm_compute; reflexivity|]. intros [_ [H _]]. vm_compute in H. discriminate H.
Qed.
Print Assumptions high_median_refuted.

Example high_median_instance : high_median argsort_ins (map qz [4; 1; 3; 2; 5]%Z) (Some (map qz [1; 3; 1; 1; 1]%Z)) = Some (qz 2, 3%nat)
  /\ is_high_median (map qz [4; 1; 3; 2; 5]%Z) (map qz [1; 3; 1; 1; 1]%Z) (qz 2).
Proof.
  split; [vm_compute; reflexivity|]. split; [cbn; auto|]. split; [reflexivity|].
  intros y H. cbn in H. repeat (destruct H as [<- | H]; [intros L; first [discriminate L | intro X; discriminate X]|]). destruct H.
Qed.
(** The case that refutes the exact claim meets the hypotheses of the bound (eight data, weights up to 3). *)
Example high_median_weighted_instance :
  high_median argsort_ins (map qz [0; 1; 2; 3; 4; 5; 6; 7]%Z) (Some (map qz [1; 1; 1; 1; 3; 0; 0; 0]%Z)) = Some (qz 2, 2%nat) /\
  total_weight (map qz [1; 1; 1; 1; 3; 0; 0; 0]%Z) = qz 7 /\
  weight_upto (map qz [0; 1; 2; 3; 4; 5; 6; 7]%Z) (map qz [1; 1; 1; 1; 3; 0; 0; 0]%Z) (qz 2) = qz 3 /\
  (length (map qz [0; 1; 2; 3; 4; 5; 6; 7]%Z) <= 2 ^ 3)%nat.
Proof. split; [|split; [|split]]; vm_compute; reflexivity. Qed.
Example shorth_instance : match fst (shorth_range (map qz [11; 1; 8; 4; 6]%Z) true false false) with
  | Some r => (this (sh_range r), this (sh_mean r), this (sh_center r)) | None => (0, 0, 0)%Q end = (4, 6, 6)%Q.
Proof. vm_compute. reflexivity. Qed.

(** Whenever Qscale returns, its statistic (before the constant factor) is the right order statistic of all
    pairwise distances. Data up to 65537 values; beyond that the 32-bit product on line 474 wraps. *)
Theorem qscale_order_statistic : forall argsort x q,
  (forall l, sorts (argsort l) l) -> (Z.of_nat (length x) <= 65537)%Z ->
  qscale_statistic argsort x = Some q -> order_statistic (q_rank (length x)) (distances x) q.
Proof. exact qscale_ok. Qed.
Print Assumptions qscale_order_statistic.
(** Up to five data it always returns. *)
Theorem qscale_small : forall argsort x, (2 <= length x <= 5)%nat ->
  exists q, qscale_statistic argsort x = Some q /\ order_statistic (q_rank (length x)) (distances x) q.
Proof. exact qscale_small_ok. Qed.
Print Assumptions qscale_small.
(** But it need not return: eight equal values exhaust the allowed number of rounds and raise. *)
Theorem qscale_returns_refuted : exists argsort x, (forall l, sorts (argsort l) l) /\ length x = 8%nat /\
  (forall a b, In a x -> In b x -> a = b) /\ qscale_statistic argsort x = None.
Proof.
  exists argsort_ins, (repeat (qz 3) 8). split; [exact argsort_ins_sorts|]. split; [reflexivity|]. split.
  - intros a b Ha Hb. apply repeat_spec in Ha, Hb. congruence.
  - vm_compute. reflexivity.
Qed.
Print Assumptions qscale_returns_refuted.
Example qscale_instance : qscale_statistic argsort_ins (map qz [9; 1; 4; 20; 6; 15; 30; 2]%Z) = Some (qz 6)
  /\ order_statistic (q_rank 8) (distances (map qz [9; 1; 4; 20; 6; 15; 30; 2]%Z)) (qz 6).
Proof. split; [vm_compute; reflexivity|]. apply (qscale_ok argsort_ins); [exact argsort_ins_sorts|cbn; lia|vm_compute; reflexivity]. Qed.
