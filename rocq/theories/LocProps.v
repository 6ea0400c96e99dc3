(** Robust averages (C73, C74). *)
From Coq Require Import ZArith QArith Qcanon List Bool Lia Permutation.
From Verif Require Import QcPre LagModel LagProofs FluxModel FluxProofs DerModel QSort LocModel LocSpec LocProofs LocMean.
Import ListNotations.
Local Open Scope Qc_scope.

Lemma by_value (a b : option Qc) : option_map this a = option_map this b -> a = b.
Proof.
  destruct a as [a|], b as [b|]; cbn; intros H; try congruence. f_equal. apply Qc_is_canon. assert (E : this a = this b) by congruence. rewrite E. apply Qeq_refl.
Qed.
Ltac qcan := apply by_value; vm_compute; reflexivity.

(* ---------- C73: trimean and median absolute deviation ---------- *)

(** The trimean is (q1 + 2 q2 + q3)/4 of the quartiles; it fails only without data. *)
Theorem trimean_of_quartiles x m : trimean x = Some m <-> exists q1 q2 q3, quantile 1 4 x q1 /\ quantile 1 2 x q2 /\ quantile 3 4 x q3 /\ m = (q1 + qz 2 * q2 + q3) / qz 4.
Proof.
  rewrite trimean_value. split; [intros [_ H]; exact H|]. intros H. split; [|exact H]. destruct H as [q1 [_ [_ [Q _]]]]. exact (quantile_nonempty _ _ _ _ Q).
Qed.
Print Assumptions trimean_of_quartiles.
Theorem trimean_defined x : (trimean x = None <-> x = []) /\ forall norm, median_abs_dev x norm = None <-> x = [].
Proof.
  split.
  - split; [|intros ->; reflexivity]. intros H. destruct x as [|v x]; [reflexivity|]. exfalso. unfold trimean in H.
    destruct (quartile_some 1 (v :: x) ltac:(discriminate)) as [a A]. destruct (quartile_some 2 (v :: x) ltac:(discriminate)) as [b B]. destruct (quartile_some 3 (v :: x) ltac:(discriminate)) as [c C]. rewrite A, B, C in H. discriminate.
  - intros norm. split; [|intros ->; reflexivity]. intros H. destruct x as [|v x]; [reflexivity|]. destruct (mad_some (v :: x) norm ltac:(discriminate)) as [d D]. congruence.
Qed.
Print Assumptions trimean_defined.
Example trimean_case : trimean (map qz [7; 1; 100; 3; 2]%Z) = Some (qd 15 4).
Proof. qcan. Qed.
Example trimean_even_case : trimean (map qz [4; 1; 3; 2]%Z) = Some (qd 5 2).
Proof. qcan. Qed.

(** The order of the data does not matter; moving and scaling them, with either sign, moves and scales the results. *)
Theorem trimean_follows x a b m : trimean x = Some m -> trimean (map (fun v => a * v + b) x) = Some (a * m + b).
Proof. apply trimean_affine. Qed.
Print Assumptions trimean_follows.
Theorem deviation_follows x a b norm d : median_abs_dev x norm = Some d -> median_abs_dev (map (fun v => a * v + b) x) norm = Some (magnitude a * d).
Proof. apply mad_affine. Qed.
Print Assumptions deviation_follows.
Theorem any_order x y : Permutation x y -> trimean x = trimean y /\ forall norm, median_abs_dev x norm = median_abs_dev y norm.
Proof. intros P. split; [apply trimean_perm, P|intros; apply mad_perm, P]. Qed.
Print Assumptions any_order.
Example follows_case : trimean (map (fun v => qz (-2) * v + qz 5) (map qz [7; 1; 100; 3; 2]%Z)) = Some (qd (-5) 2) /\ median_abs_dev (map (fun v => qz (-2) * v + qz 5) (map qz [7; 1; 100; 3; 2]%Z)) false = Some (qz 4).
Proof. split; qcan. Qed.

(** Fewer than a quarter of the data on either side cannot carry the trimean out of a range. *)
Theorem trimean_robust x m lo hi : trimean x = Some m -> (4 * below lo x < length x)%nat -> (4 * above hi x < length x)%nat -> lo <= m <= hi.
Proof. apply trimean_tamed. Qed.
Print Assumptions trimean_robust.
Example robust_case : trimean (map qz [1; 2; 3; 4; 1000000]%Z) = Some (qz 3) /\ (4 * below (qz 1) (map qz [1; 2; 3; 4; 1000000]%Z) < 5)%nat /\ (4 * above (qz 4) (map qz [1; 2; 3; 4; 1000000]%Z) < 5)%nat.
Proof. split; [qcan|]. split; vm_compute; lia. Qed.

(** The median absolute deviation: the median of the distances from the median, divided by 0.67448 if normalized. *)
Theorem deviation_value x d : (median_abs_dev x false = Some d <-> median_deviation x d) /\ (median_abs_dev x true = Some d <-> exists e, median_deviation x e /\ d * qd 67448 100000 = e).
Proof. split; [apply mad_is|apply mad_normalised]. Qed.
Print Assumptions deviation_value.
(** At most half of the data are closer to the median, and at most half farther. *)
Theorem deviation_halves x d m : quantile 1 2 x m -> median_abs_dev x false = Some d ->
  (2 * qcount (fun v => qltb (magnitude (v - m)) d) x <= length x)%nat /\ (2 * qcount (fun v => qltb d (magnitude (v - m))) x <= length x)%nat.
Proof. intros M. apply mad_halves, median_is, M. Qed.
Print Assumptions deviation_halves.
(** It is never negative, and zero exactly when more than half of the data are the same. *)
Theorem deviation_zero x norm d m : quantile 1 2 x m -> median_abs_dev x norm = Some d -> 0 <= d /\ (d = 0 <-> (length x < 2 * equal_to m x)%nat).
Proof. intros M. apply mad_zero, median_is, M. Qed.
Print Assumptions deviation_zero.
(** A majority of the data limits it. *)
Theorem deviation_robust x d lo hi : median_abs_dev x false = Some d -> (length x < 2 * qcount (fun v => qleb lo v && qleb v hi)%bool x)%nat -> d <= hi - lo.
Proof. apply mad_tamed. Qed.
Print Assumptions deviation_robust.
(** The median it is taken about minimises the sum of distances. *)
Theorem median_minimises x m c : quantile 1 2 x m -> sum_of (fun v => magnitude (v - m)) x <= sum_of (fun v => magnitude (v - c)) x.
Proof. intros M. apply median_is in M. destruct (median_halves _ _ M) as [B A]. apply halves_minimise; assumption. Qed.
Print Assumptions median_minimises.
Example deviation_case : median_abs_dev (map qz [1; 1; 2; 2; 4; 6; 9]%Z) false = Some 1 /\ median_abs_dev (map qz [1; 1; 2; 2; 4; 6; 9]%Z) true = Some (qd 100000 67448) /\ median_abs_dev (map qz [5; 5; 5; 8; 9]%Z) false = Some 0 /\ median_abs_dev (map qz [5; 5; 8; 9]%Z) false = Some (qd 3 2).
Proof. repeat split; qcan. Qed.
Example median_case : quantile 1 2 (map qz [1; 1; 2; 2; 4; 6; 9]%Z) (qz 2).
Proof. apply median_is. qcan. Qed.

(* ---------- C74: bisquare and Huber weighted means ---------- *)

(** Both return the first weighted mean that differs by less than the tolerance from the centre its weights were taken
    about, if there is one within 100 rounds. *)
Theorem bisquare_value x k center tol m : 0 < k -> (bisquare_weighted_mean x k center tol = Some m <-> exists c t, starts_at x center c /\ stops_at x tol t /\ reweighted (bisquare_w k) x c t m).
Proof. apply bisquare_is. Qed.
Print Assumptions bisquare_value.
Theorem huber_value x k center tol m : 0 < k -> (huber_weighted_mean x k center tol = Some m <-> exists c t, starts_at x center c /\ stops_at x tol t /\ reweighted (huber_w k) x c t m).
Proof. apply huber_is. Qed.
Print Assumptions huber_value.
Theorem no_width_raises x k center tol : (k <= 0 -> bisquare_weighted_mean x k center tol = None) /\ huber_weighted_mean x 0 center tol = None.
Proof.
  split.
  - intros H. unfold bisquare_weighted_mean. destruct (start x center); [|reflexivity]. destruct (tolerance x tol); [|reflexivity]. apply bisquare_nonpos, H.
  - unfold huber_weighted_mean. destruct (start x center); [|reflexivity]. destruct (tolerance x tol); [|reflexivity]. apply huber_zero.
Qed.
Print Assumptions no_width_raises.
Example bisquare_case : bisquare_weighted_mean (map qz [0; 2; 100]%Z) (qz 4) (Some 1) (Some (qd 1 10)) = Some 1.
Proof. qcan. Qed.
Example huber_case : huber_weighted_mean (map qz [0; 0; 0; 100]%Z) 1 (Some (qd 1 3)) (Some (qd 1 1000)) = Some (qd 1 3).
Proof. qcan. Qed.

(** The result is within the range of the data, wherever the search started. *)
Theorem means_in_range x k center tol m lo hi : 0 < k -> bisquare_weighted_mean x k center tol = Some m \/ huber_weighted_mean x k center tol = Some m ->
  (forall v, In v x -> lo <= v <= hi) -> lo <= m <= hi.
Proof.
  intros H E B. destruct E as [E|E].
  - apply (bisquare_is _ _ _ _ _ H) in E as [c [t [_ [_ [i [s [_ [_ [S [_ [_ ->]]]]]]]]]]]. apply (mean_bounds (fun v => bisquare_w k (v - s i)) x); [intros; apply bisquare_w_nonneg|apply S; lia|intros; apply B; assumption].
  - apply (huber_is _ _ _ _ _ H) in E as [c [t [_ [_ [i [s [_ [_ [S [_ [_ ->]]]]]]]]]]]. apply (mean_bounds (fun v => huber_w k (v - s i)) x); [intros; apply Qclt_le_weak, huber_w_bounds, H|apply S; lia|intros; apply B; assumption].
Qed.
Print Assumptions means_in_range.

(** They follow moved and scaled data; the order of the data does not matter. *)
Theorem means_follow x k center tol a b : a <> 0 -> 0 < k ->
  bisquare_weighted_mean (map (fun v => a * v + b) x) (magnitude a * k) (option_map (fun c => a * c + b) center) (option_map (fun t => magnitude a * t) tol) =
    option_map (fun m => a * m + b) (bisquare_weighted_mean x k center tol) /\
  huber_weighted_mean (map (fun v => a * v + b) x) (magnitude a * k) (option_map (fun c => a * c + b) center) (option_map (fun t => magnitude a * t) tol) =
    option_map (fun m => a * m + b) (huber_weighted_mean x k center tol).
Proof. intros Ha Hk. split; [apply bisquare_affine|apply huber_affine]; assumption. Qed.
Print Assumptions means_follow.
Theorem means_any_order x y k center tol : 0 < k -> Permutation x y -> bisquare_weighted_mean x k center tol = bisquare_weighted_mean y k center tol /\ huber_weighted_mean x k center tol = huber_weighted_mean y k center tol.
Proof. intros Hk P. split; [apply bisquare_perm|apply huber_perm]; assumption. Qed.
Print Assumptions means_any_order.
Example means_follow_case : bisquare_weighted_mean (map (fun v => qz (-3) * v + 1) (map qz [0; 2; 100]%Z)) (magnitude (qz (-3)) * qz 4) (Some (qz (-3) * 1 + 1)) (Some (magnitude (qz (-3)) * qd 1 10)) = Some (qz (-2)).
Proof. qcan. Qed.

(** The search goes downhill: the loss of the result is not above that of the starting point, and below it unless the
    search stood still. *)
Theorem bisquare_improves x k center tol m c : 0 < k -> starts_at x center c -> bisquare_weighted_mean x k center tol = Some m ->
  sum_of (fun v => bisquare_loss k (v - m)) x <= sum_of (fun v => bisquare_loss k (v - c)) x /\ (m <> c -> sum_of (fun v => bisquare_loss k (v - m)) x < sum_of (fun v => bisquare_loss k (v - c)) x).
Proof.
  intros H S E. apply start_is in S. unfold bisquare_weighted_mean in E. rewrite S in E. destruct (tolerance x tol) as [t|]; [|discriminate].
  refine (proj1 (rounds_invariant (fun u => sum_of (fun v => bisquare_loss k (v - u)) x <= sum_of (fun v => bisquare_loss k (v - c)) x /\ (u <> c -> sum_of (fun v => bisquare_loss k (v - u)) x < sum_of (fun v => bisquare_loss k (v - c)) x)) _ _ _ _ _ (conj (Qcle_refl _) (fun N => False_ind _ (N eq_refl))) _ E)).
  intros u u' [P1 P2] St. apply (bisquare_step k u x u' H) in St. destruct (bisquare_descends' k u x u' H St) as [D1 D2]. split; [exact (Qcle_trans _ _ _ D1 P1)|].
  intros N. destruct (Qc_eq_dec u' u) as [Q|Q]; [subst u'; exact (P2 N)|]. exact (Qclt_le_trans _ _ _ (D2 Q) P1).
Qed.
Print Assumptions bisquare_improves.
Theorem huber_improves x k center tol m c : 0 < k -> starts_at x center c -> huber_weighted_mean x k center tol = Some m ->
  sum_of (fun v => huber_loss k (v - m)) x <= sum_of (fun v => huber_loss k (v - c)) x /\ (m <> c -> sum_of (fun v => huber_loss k (v - m)) x < sum_of (fun v => huber_loss k (v - c)) x).
Proof.
  intros H S E. apply start_is in S. unfold huber_weighted_mean in E. rewrite S in E. destruct (tolerance x tol) as [t|]; [|discriminate].
  refine (proj1 (rounds_invariant (fun u => sum_of (fun v => huber_loss k (v - u)) x <= sum_of (fun v => huber_loss k (v - c)) x /\ (u <> c -> sum_of (fun v => huber_loss k (v - u)) x < sum_of (fun v => huber_loss k (v - c)) x)) _ _ _ _ _ (conj (Qcle_refl _) (fun N => False_ind _ (N eq_refl))) _ E)).
  intros u u' [P1 P2] St. apply (huber_step k u x u' H) in St. destruct (huber_descends' k u x u' H St) as [D1 D2]. split; [exact (Qcle_trans _ _ _ D1 P1)|].
  intros N. destruct (Qc_eq_dec u' u) as [Q|Q]; [subst u'; exact (P2 N)|]. exact (Qclt_le_trans _ _ _ (D2 Q) P1).
Qed.
Print Assumptions huber_improves.
(** Huber's result is, to within the tolerance, the best of all: the deviations, limited to k, average to less than the
    tolerance, and no centre has a loss smaller by more than the tolerance times its distance, per datum. *)
Theorem huber_optimal x k center tol m t : 0 < k -> stops_at x tol t -> huber_weighted_mean x k center tol = Some m ->
  magnitude (sum_of (fun v => limited k (v - m)) x) < t * qz (Z.of_nat (length x)) /\
  forall c, sum_of (fun v => huber_loss k (v - m)) x <= sum_of (fun v => huber_loss k (v - c)) x + t * qz (Z.of_nat (length x)) * magnitude (c - m).
Proof.
  intros H T E. apply tolerance_is in T. unfold huber_weighted_mean in E. rewrite T in E. destruct (start x center) as [c0|]; [|discriminate].
  destruct (rounds_last _ _ _ _ _ E) as [u [St L]]. apply (huber_step k u x m H) in St. pose proof (huber_balance k u x m H St) as B.
  assert (Nx : 0 < qz (Z.of_nat (length x))). { change 0 with (qz 0). apply qz_lt. destruct x; [|cbn; lia]. destruct St as [C _]. exfalso. apply C. reflexivity. }
  assert (S : magnitude (sum_of (fun v => limited k (v - m)) x) < t * qz (Z.of_nat (length x))).
  { set (n := qz (Z.of_nat (length x))) in *. set (d := magnitude (m - u)) in *. set (y := magnitude (sum_of _ x)) in *. clearbody n d y. qnra. }
  split; [exact S|]. intros c. apply huber_near_optimal; [exact H|]. apply Qclt_le_weak, S.
Qed.
Print Assumptions huber_optimal.
Example improves_case : huber_weighted_mean (map qz [0; 0; 0; 100]%Z) 1 (Some (qz 50)) (Some (qz 17)) = Some (qz 10).
Proof. qcan. Qed.

(** Data farther than k from a range that holds the centre and the other data have no influence at all on the bisquare
    mean; with no data nearer than k to the centre it raises. *)
Theorem bisquare_ignores x k c tol lo hi : 0 < k -> lo <= c <= hi -> (forall v, In v x -> lo <= v <= hi \/ v < lo - k \/ hi + k < v) ->
  bisquare_weighted_mean x k (Some c) (Some tol) = bisquare_weighted_mean (filter (fun v => qleb lo v && qleb v hi)%bool x) k (Some c) (Some tol).
Proof. apply bisquare_far. Qed.
Print Assumptions bisquare_ignores.
Theorem bisquare_without_data x k c tol : (forall v, In v x -> k <= magnitude (v - c)) -> bisquare_weighted_mean x k (Some c) (Some tol) = None.
Proof. apply bisquare_lost. Qed.
Print Assumptions bisquare_without_data.
Example ignores_case : bisquare_weighted_mean (map qz [0; 2; 100; -57]%Z) (qz 4) (Some 1) (Some (qd 1 10)) = bisquare_weighted_mean (map qz [0; 2]%Z) (qz 4) (Some 1) (Some (qd 1 10)) /\ bisquare_weighted_mean (map qz [0; 2]%Z) (qz 4) (Some (qz 6)) (Some (qd 1 10)) = None.
Proof. split; vm_compute; reflexivity. Qed.
(** Huber's docstring says the same of it, but distant data keep their influence. *)
Theorem huber_ignores_refuted : exists x k c tol m m' v, huber_weighted_mean (v :: x) k (Some c) (Some tol) = Some m /\ huber_weighted_mean x k (Some c) (Some tol) = Some m' /\ k + tol < magnitude (v - m) /\ tol < magnitude (m - m').
Proof.
  exists (map qz [0; 0; 0]%Z), 1, (qd 1 3), (qd 1 1000), (qd 1 3), 0, (qz 100). split; [qcan|]. split; [qcan|]. split; apply qltb_lt; vm_compute; reflexivity.
Qed.
Print Assumptions huber_ignores_refuted.
(** With all data within k of each other Huber's result is the mean. *)
Theorem huber_of_near_data x k c tol lo : 0 < k -> 0 < tol -> x <> [] -> lo <= c <= lo + k -> (forall v, In v x -> lo <= v <= lo + k) ->
  huber_weighted_mean x k (Some c) (Some tol) = Some (sum_of (fun v => v) x / qz (Z.of_nat (length x))).
Proof. apply huber_near. Qed.
Print Assumptions huber_of_near_data.
Example near_case : huber_weighted_mean (map qz [1; 2; 6]%Z) (qz 5) (Some (qz 2)) (Some (qd 1 100)) = Some (qz 3).
Proof. qcan. Qed.

(** With the default tolerance neither returns a value once more than half of the data are equal, whatever k and the
    starting point. *)
Theorem equal_data_raise x v k center : (length x < 2 * equal_to v x)%nat -> bisquare_weighted_mean x k center None = None /\ huber_weighted_mean x k center None = None.
Proof. apply majority_raises. Qed.
Print Assumptions equal_data_raise.
Theorem always_a_mean_refuted : exists x k, x <> [] /\ 0 < k /\ (forall v, In v x -> v = qz 7) /\ bisquare_weighted_mean x k None None = None /\ huber_weighted_mean x k None None = None.
Proof.
  exists (map qz [7; 7; 7]%Z), 1. split; [discriminate|]. split; [apply qltb_lt; reflexivity|]. split; [cbn; intros v [<-|[<-|[<-|[]]]]; reflexivity|]. apply (majority_raises _ (qz 7)). vm_compute. lia.
Qed.
Print Assumptions always_a_mean_refuted.
