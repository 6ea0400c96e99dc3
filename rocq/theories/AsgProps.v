(** Peaks and their assignment to lines: properties C75 and C76. *)
From Coq Require Import ZArith QArith Qcanon List Bool Lia Permutation Sorted.
From Verif Require Import QcPre LagModel LagProofs FluxModel FluxProofs DerModel QSort NameModel NameProofs FitModel FitProofs AsgModel AsgSpec AsgProofs.
Import ListNotations.
Local Open Scope Qc_scope.

(* ---------- C75: find_local_maxima ---------- *)

(** Without pulses it raises; otherwise every pulse is in exactly one of the equal bins, which reach three widths
    beyond the pulses, and the result is the centres and heights of all strict inner maxima of the smoothed histogram,
    the highest first. *)
Theorem maxima_found n smooth argsort p w : (0 < n)%nat -> 0 < w -> (forall h r, length (smooth h r) = length h) -> argsorts argsort ->
  (find_local_maxima n smooth argsort p w = None <-> p = []) /\
  forall xs ys, find_local_maxima n smooth argsort p w = Some (xs, ys) ->
  exists mn mx hist lm, smallest p mn /\ largest p mx /\
    let lo := mn - qz 3 * w in let hi := mx + qz 3 * w in let y := smooth hist (w / (hi - lo)) in
    length hist = n /\ list_sum hist = length p /\
    (forall i, (i < n)%nat -> counted (in_bin lo hi n i) p (nth i hist 0%nat)) /\
    (forall v, In v p -> exists i, (i < n)%nat /\ in_bin lo hi n i v /\ forall j, in_bin lo hi n j v -> j = i) /\
    NoDup lm /\ (forall i, In i lm <-> local_maximum y i) /\
    xs = map (fun i => lo + (hi - lo) * qz (2 * Z.of_nat i + 1) / qz (2 * Z.of_nat n)) lm /\
    ys = map (fun i => nth i y 0) lm /\
    (forall i j, (i <= j < length ys)%nat -> nth j ys 0 <= nth i ys 0).
Proof.
  intros Hn Hw Hs Ha. split; [destruct p; cbn; split; congruence|]. intros xs ys E. destruct p as [|v0 t]; [discriminate|]. set (p := v0 :: t) in *. assert (P : p <> []) by discriminate.
  unfold find_local_maxima in E. change (match p with [] => _ | _ => ?x end) with x in E. cbv zeta in E.
  pose proof (qmin_smallest p P) as Mn. pose proof (qmax_largest p P) as Mx. set (mn := qmin_list p) in *. set (mx := qmax_list p) in *. clearbody mn mx.
  set (lo := mn - qz 3 * w) in *. set (hi := mx + qz 3 * w) in *. set (hist := map (bin_count p lo hi n) (seq 0 n)) in *. set (y := smooth hist (w / (hi - lo))) in *. set (lm0 := filter (is_peak y) (seq 1 (n - 2))) in *.
  apply asg_inj in E. pose proof (Ha (map (fun i => - nth i y 0) lm0)) as [A1 A2]. rewrite map_length in A1, A2. set (ix := argsort (map (fun i => - nth i y 0) lm0)) in *. set (lm := map (fun j => nth j lm0 0%nat) ix) in *.
  assert (W3 : 0 < qz 3 * w) by (assert (0 < qz 3) by (rewrite <- qz_0; apply qz_lt; lia); set (q := qz 3) in *; clearbody q; qnra).
  assert (In_range : forall v, In v p -> lo <= v /\ v < hi). { intros v Hv. pose proof (proj2 Mn v Hv). pose proof (proj2 Mx v Hv). unfold lo, hi. set (q := qz 3 * w) in *. clearbody q. split; qlra. }
  assert (R : lo < hi). { destruct (In_range v0 (or_introl eq_refl)) as [R1 R2]. qlra. }
  assert (Lh : length hist = n) by (unfold hist; rewrite map_length, seq_length; reflexivity).
  assert (Ly : length y = n) by (unfold y; rewrite Hs; exact Lh).
  assert (Pm : Permutation lm lm0) by (apply map_nth_perm; exact A1).
  exists mn, mx, hist, lm. split; [exact Mn|]. split; [exact Mx|]. cbv zeta. fold lo hi y. split; [exact Lh|]. split; [apply all_counted; assumption|]. split.
  { intros i Hi. unfold hist. rewrite (nth_map_in _ _ _ 0%nat) by (rewrite seq_length; exact Hi). rewrite seq_nth by exact Hi. cbn [Nat.add]. apply counted_filter. intros v Hv. destruct (In_range v Hv). apply bin_flag; assumption. }
  split; [intros v Hv; destruct (In_range v Hv); apply one_bin; assumption|].
  split; [apply (Permutation_NoDup (Permutation_sym Pm)); apply NoDup_filter, seq_NoDup|]. split.
  { intros i. rewrite (Permutation_in' eq_refl Pm). unfold lm0. rewrite filter_In, in_seq. unfold is_peak, local_maximum. rewrite andb_true_iff, !qltb_lt, Ly. split; [intros [? [? ?]]; repeat split; (lia || assumption)|intros [? [? [? ?]]]; repeat split; (lia || assumption)]. }
  assert (N0 : qz (Z.of_nat n) <> 0). { pose proof (qz_pos n Hn n Hn) as Q. intros C. rewrite C in Q. exact (Qclt_not_eq _ _ Q eq_refl). }
  split.
  { transitivity (map (center lo hi n) lm); [exact (f_equal fst (eq_sym E))|]. apply map_ext. intros i. unfold center, edge. rewrite Nat2Z.inj_add, !qz_add, !qz_mul. change (Z.of_nat 1) with 1%Z. change (qz 1) with 1. assert (Q2 : qz 2 = 1 + 1) by (change 2%Z with (1 + 1)%Z; rewrite qz_add; reflexivity).
    rewrite Q2. field. split; [exact N0|discriminate]. }
  assert (Y : ys = map (fun i => nth i y 0) lm) by exact (f_equal snd (eq_sym E)). split; [exact Y|]. subst ys. rewrite map_length. intros i j Hij. rewrite !(nth_map_in _ _ _ 0%nat) by lia.
  assert (Lix : length ix = length lm0) by (rewrite (Permutation_length A1), seq_length; reflexivity). assert (Llm : length lm = length lm0) by (unfold lm; rewrite map_length; exact Lix).
  unfold lm. rewrite !(nth_map_in _ ix _ 0%nat) by lia. assert (B : forall k, (k < length lm0)%nat -> (nth k ix 0%nat < length lm0)%nat). { intros k Hk. assert (In (nth k ix 0%nat) ix) as I by (apply nth_In; lia). apply (Permutation_in _ A1), in_seq in I. lia. }
  specialize (A2 i j ltac:(lia)). rewrite !(nth_map_in _ lm0 _ 0%nat) in A2 by (apply B; lia). apply neg_le, A2.
Qed.
Print Assumptions maxima_found.

(** Pulses moved, and stretched together with the width: the maxima move in the same way, with the same heights. *)
Theorem maxima_follow n smooth argsort p w s c : 0 < s -> 0 < w ->
  find_local_maxima n smooth argsort (map (fun x => s * x + c) p) (s * w) =
  option_map (fun r => (map (fun x => s * x + c) (fst r), snd r)) (find_local_maxima n smooth argsort p w).
Proof.
  intros S W. destruct p as [|v0 t]; [reflexivity|]. set (p := v0 :: t) in *. assert (P : p <> []) by discriminate. assert (P' : map (fun x => s * x + c) p <> []) by discriminate.
  unfold find_local_maxima. change (match p with [] => _ | _ => ?x end) with x. change (match map (fun x => s * x + c) p with [] => _ | _ => ?x end) with x. cbv zeta.
  assert (Mn : qmin_list (map (fun x => s * x + c) p) = s * qmin_list p + c).
  { apply (smallest_unique _ _ _ (qmin_smallest _ P')). destruct (qmin_smallest p P) as [I B]. split; [apply (in_map (fun x => s * x + c)), I|]. intros v Hv. apply in_map_iff in Hv as [u [<- Hu]]. specialize (B u Hu). qnra. }
  assert (Mx : qmax_list (map (fun x => s * x + c) p) = s * qmax_list p + c).
  { apply (largest_unique _ _ _ (qmax_largest _ P')). destruct (qmax_largest p P) as [I B]. split; [apply (in_map (fun x => s * x + c)), I|]. intros v Hv. apply in_map_iff in Hv as [u [<- Hu]]. specialize (B u Hu). qnra. }
  assert (R : 0 < qmax_list p + qz 3 * w - (qmin_list p - qz 3 * w)).
  { destruct (qmin_smallest p P) as [I _]. destruct (qmax_largest p P) as [_ B]. specialize (B _ I). assert (0 < qz 3) by (rewrite <- qz_0; apply qz_lt; lia). set (q := qz 3) in *. clearbody q. set (a := qmin_list p) in *. set (b := qmax_list p) in *. clearbody a b. qnra. }
  rewrite Mn, Mx. set (lo := qmin_list p - qz 3 * w) in *. set (hi := qmax_list p + qz 3 * w) in *.
  assert (s * qmin_list p + c - qz 3 * (s * w) = s * lo + c) as -> by (unfold lo; ring). assert (s * qmax_list p + c + qz 3 * (s * w) = s * hi + c) as -> by (unfold hi; ring).
  assert (N1 : hi - lo <> 0) by (intros C; rewrite C in R; exact (Qclt_not_eq _ _ R eq_refl)). assert (N2 : s <> 0) by (intros C; rewrite C in S; exact (Qclt_not_eq _ _ S eq_refl)).
  assert (s * w / (s * hi + c - (s * lo + c)) = w / (hi - lo)) as ->. { assert (s * hi + c - (s * lo + c) = s * (hi - lo)) as -> by ring. field. split; assumption. }
  assert (Ed : forall i, edge (s * lo + c) (s * hi + c) n i = s * edge lo hi n i + c) by (intros; unfold edge, Qcdiv; ring).
  assert (Le : forall a b, qleb (s * a + c) (s * b + c) = qleb a b). { intros a b. destruct (qleb a b) eqn:E; [apply qleb_le in E; apply qleb_le; qnra|apply qleb_gt in E; apply qleb_gt; qnra]. }
  assert (Lt : forall a b, qltb (s * a + c) (s * b + c) = qltb a b). { intros a b. destruct (qltb a b) eqn:E; [apply qltb_lt in E; apply qltb_lt; qnra|apply qltb_ge in E; apply qltb_ge; qnra]. }
  assert (Bc : forall i, bin_count (map (fun x => s * x + c) p) (s * lo + c) (s * hi + c) n i = bin_count p lo hi n i).
  { intros i. unfold bin_count. generalize p. induction p0 as [|v q IH]; [reflexivity|]. cbn [map filter]. rewrite !Ed, !Le, !Lt in *. destruct (_ && _)%bool; cbn [length]; rewrite IH; reflexivity. }
  rewrite (map_ext _ _ Bc). cbn [option_map fst snd]. f_equal. f_equal. rewrite (map_map (center lo hi n)). apply map_ext. intros i. unfold center. rewrite !Ed. assert (Q2 : qz 2 = 1 + 1) by (change 2%Z with (1 + 1)%Z; rewrite qz_add; reflexivity). rewrite Q2. field. discriminate.
Qed.
Print Assumptions maxima_follow.

(* ---------- C76: find_opt_assignment ---------- *)

Lemma nodup_thrice l : NoDup l -> never_thrice l.
Proof.
  intros T v. enough (qcount (fun x => if Qc_eq_dec x v then true else false) l <= 1)%nat by lia.
  induction T as [|x l Nx ND IH]; [cbn; lia|]. rewrite qcount_cons. destruct (Qc_eq_dec x v) as [->|N]; [|lia]. rewrite qcount_none; [lia|]. intros a Ha. destruct (Qc_eq_dec a v) as [->|]; [contradiction|reflexivity].
Qed.

Section Lines.
Context {A : Type}.
Variable energy : A -> Qc.

Lemma names_energies lines : snd (names_and_energies energy lines) = map energy (fst (names_and_energies energy lines)).
Proof. reflexivity. Qed.
Lemma energies_length lines : length (snd (names_and_energies energy lines)) = length lines.
Proof. rewrite <- (Permutation_length (energies_perm energy lines)). apply map_length. Qed.
Lemma thrice_spread lines : never_thrice (map energy lines) -> spread (snd (names_and_energies energy lines)).
Proof.
  intros H. apply sorted_spread; [rewrite energies_sort; apply qsort_sorted|]. intros v. rewrite <- (qcount_perm _ _ _ (energies_perm energy lines)). apply H.
Qed.

(** The names and energies that are returned: all lines, by increasing energy. *)
Theorem assignment_lines peaks lines nextra ninc nmax maxacc fuel names e o : find_opt_assignment energy peaks lines nextra ninc nmax maxacc fuel = (names, e, o) ->
  Permutation lines names /\ e = map energy names /\ qsorted e.
Proof.
  unfold find_opt_assignment. destruct (names_and_energies energy lines) as [nm en] eqn:E. intros H. injection H as <- <- _.
  pose proof (names_perm energy lines) as P. pose proof (names_energies lines) as M. pose proof (energies_sort energy lines) as S. rewrite E in P, M, S. cbn [fst snd] in *. split; [exact P|]. split; [exact M|]. rewrite S. apply qsort_sorted.
Qed.

(** No energy and no peak more than twice, and a positive increment: the loop ends, with an assignment exactly if some
    number of peaks that is tried allows a good one; it is then the best one of the smallest such number. *)
Theorem assignment_found peaks lines nextra ninc nmax maxacc fuel names e o :
  never_thrice (map energy lines) -> never_thrice peaks -> (0 < ninc)%nat -> (length lines + nmax < fuel)%nat ->
  find_opt_assignment energy peaks lines nextra ninc nmax maxacc fuel = (names, e, o) ->
  let tried n := tries (length lines + nextra) ninc (length lines + nmax) n in
  o <> Unfinished /\
  (forall a, o = Found a <-> exists n, tried n /\ best e peaks n a /\ good maxacc e a /\ (forall m, tried m -> (m < n)%nat -> ~ any_good maxacc e peaks m)) /\
  (o = Raises <-> forall n, tried n -> ~ any_good maxacc e peaks n).
Proof.
  intros T P I F H. unfold find_opt_assignment in H. pose proof (thrice_spread lines T) as S. pose proof (energies_length lines) as L. destruct (names_and_energies energy lines) as [nm en]. cbn [snd] in *. injection H as <- <- <-. cbv zeta. split; [|split; [intros a|]].
  - apply finishes; (assumption || lia).
  - apply result_found; try assumption. lia.
  - apply result_raises; try assumption. lia.
Qed.

(** Different energies, and peaks exactly on a straight line with them among the first ones: the result is on a straight line. *)
Theorem straight_found peaks lines nextra ninc nmax maxacc fuel names e o :
  NoDup (map energy lines) -> never_thrice peaks -> (0 < ninc)%nat -> (length lines + nmax < fuel)%nat -> 0 <= maxacc ->
  find_opt_assignment energy peaks lines nextra ninc nmax maxacc fuel = (names, e, o) ->
  (exists is b, choice (Nat.min (length lines + nextra) (length peaks)) (length lines) is /\ arranged peaks is b /\ straight e b) ->
  exists is a, o = Found a /\ choice (Nat.min (length lines + nextra) (length peaks)) (length lines) is /\ arranged peaks is a /\ straight e a.
Proof.
  intros T P I F M H [is [b [C [Ab Sb]]]].
  assert (T3 : never_thrice (map energy lines)).
  { apply nodup_thrice, T. }
  pose proof (assignment_lines _ _ _ _ _ _ _ _ _ _ H) as [Pn [Ee Se]].
  pose proof (assignment_found _ _ _ _ _ _ _ _ _ _ T3 P I F H) as [_ [Hf _]].
  assert (Le : length e = length lines) by (rewrite Ee, map_length; symmetry; apply Permutation_length, Pn).
  assert (St : StronglySorted Qclt e).
  { assert (NDe : NoDup e) by (rewrite Ee; apply (Permutation_NoDup (Permutation_map energy Pn) T)). clear - Se NDe. induction e as [|x t IH]; [constructor|]. apply (qsorted_app [x] t) in Se as [_ [S1 S2]]. inversion NDe as [|? ? N1 N2]; subst. constructor; [apply IH; assumption|]. apply Forall_forall. intros z Hz. specialize (S2 x z (or_introl eq_refl) Hz). apply Qcle_lt_or_eq in S2 as [S2|S2]; [exact S2|subst; contradiction]. }
  assert (C' := C). rewrite <- Le in C' at 2. clear C. rename C' into C. assert (Spread : forall js c, choice (Nat.min (length lines + nextra) (length peaks)) (length e) js -> arranged peaks js c -> spread c /\ length e = length c).
  { intros js c Cj [Pc Sc]. split; [|rewrite <- (Permutation_length Pc), map_length; symmetry; apply Cj]. apply sorted_spread; [exact Sc|]. intros v. rewrite <- (qcount_perm _ _ _ Pc). apply choice_combo in Cj. apply (in_map (map (fun i => nth i peaks 0))) in Cj. rewrite <- combos_map, <- firstn_nth in Cj. apply (combos_count (fun x => if Qc_eq_dec x v then true else false)) in Cj. apply (Nat.le_trans _ _ _ Cj). apply (Nat.le_trans _ (qcount (fun x => if Qc_eq_dec x v then true else false) peaks)); [|apply P]. rewrite <- (firstn_skipn (length lines + nextra) peaks) at 2. rewrite qcount_app. lia. }
  destruct (Spread is b C Ab) as [Spb Lb]. apply (misfit_straight e b Lb St (proj2 Ab) Spb) in Sb.
  assert (Qn : 0 <= qz (Z.of_nat (length e))) by (rewrite <- qz_0; apply qz_le; lia). assert (Good : forall c, misfit e c = 0 -> good maxacc e c). { intros c Hc. split; [|left; exact M]. rewrite Hc. set (q := qz _) in *. clearbody q. assert (0 <= maxacc * maxacc) by qnra. set (m := maxacc * maxacc) in *. clearbody m. qnra. }
  pose proof (choice_enough _ _ _ C) as En. destruct (some_attempt e peaks (length lines + nextra) ltac:(lia) ltac:(lia)) as [a Ea]. apply attempt_best in Ea; [|apply strict_spread, St|exact P]. destruct Ea as [js [Cj [Aj Hj]]].
  assert (Ma : misfit e a = 0). { destruct (Hj is b C Ab) as [L _]. rewrite Sb in L. apply Qcle_antisym; [exact L|apply misfit_nonneg]. }
  exists js, a. split; [|split; [rewrite Le in Cj; exact Cj|]; split; [exact Aj|]; destruct (Spread js a Cj Aj) as [Spa La]; apply (misfit_straight e a La St (proj2 Aj) Spa), Ma].
  apply Hf. exists (length lines + nextra)%nat. split; [left; reflexivity|]. split; [exists js; auto|]. split; [apply Good, Ma|]. intros m [->|[j [-> _]]] Hm; lia.
Qed.

(** The best assignment has misfit zero exactly if it is straight; the misfit is at most the number of lines, so with
    maxacc of one or more only a lack of peaks is refused. *)
Theorem tolerant peaks lines nextra ninc nmax maxacc fuel names e o :
  never_thrice (map energy lines) -> never_thrice peaks -> (0 < ninc)%nat -> (length lines + nmax < fuel)%nat -> 1 <= maxacc ->
  find_opt_assignment energy peaks lines nextra ninc nmax maxacc fuel = (names, e, o) ->
  (length peaks < length lines)%nat /\ o = Raises \/ (length lines <= length peaks)%nat /\ exists a, o = Found a /\ best e peaks (length lines + nextra) a.
Proof.
  intros T P I F M H. pose proof (assignment_lines _ _ _ _ _ _ _ _ _ _ H) as [Pn [Ee Se]]. pose proof (assignment_found _ _ _ _ _ _ _ _ _ _ T P I F H) as [_ [Hf Hr]].
  assert (Le : length e = length lines) by (rewrite Ee, map_length; symmetry; apply Permutation_length, Pn).
  assert (Spe : spread e) by (unfold find_opt_assignment in H; pose proof (thrice_spread lines T) as S; destruct (names_and_energies energy lines); injection H as <- <- _; exact S).
  destruct (Nat.le_gt_cases (length lines) (length peaks)) as [L|L]; [right|left].
  - split; [exact L|]. destruct (some_attempt e peaks (length lines + nextra) ltac:(lia) ltac:(lia)) as [a Ea]. apply attempt_best in Ea; [|exact Spe|exact P]. exists a. split; [|exact Ea]. apply Hf. exists (length lines + nextra)%nat. split; [left; reflexivity|]. split; [exact Ea|]. split.
    + destruct Ea as [is [C [Aa _]]]. split; [|left; qlra]. assert (Spa : spread a).
      { destruct Aa as [Pc Sc]. apply sorted_spread; [exact Sc|]. intros v. rewrite <- (qcount_perm _ _ _ Pc). apply choice_combo in C. apply (in_map (map (fun i => nth i peaks 0))) in C. rewrite <- combos_map, <- firstn_nth in C. apply (combos_count (fun x => if Qc_eq_dec x v then true else false)) in C. apply (Nat.le_trans _ _ _ C). apply (Nat.le_trans _ (qcount (fun x => if Qc_eq_dec x v then true else false) peaks)); [|apply P]. rewrite <- (firstn_skipn (length lines + nextra) peaks) at 2. rewrite qcount_app. lia. }
      pose proof (misfit_bound e a Se (proj2 Aa) Spe Spa) as B. assert (Qn : 0 <= qz (Z.of_nat (length e))) by (rewrite <- qz_0; apply qz_le; lia). set (q := qz _) in *. set (m := misfit e a) in *. clearbody q m. assert (1 <= maxacc * maxacc) by qnra. set (k := maxacc * maxacc) in *. clearbody k. qnra.
    + intros m [->|[j [-> _]]] Hm; lia.
  - split; [exact L|]. apply Hr. intros n _ G. apply good_enough in G. lia.
Qed.

(** At most two lines: the first peaks, in order. *)
Theorem few_lines peaks lines nextra ninc nmax maxacc fuel : (length lines <= 2)%nat -> (length lines <= length peaks)%nat -> 0 <= maxacc ->
  snd (find_opt_assignment energy peaks lines nextra ninc nmax maxacc (S fuel)) = Found (qsort (firstn (length lines) peaks)).
Proof.
  intros L2 L M. unfold find_opt_assignment. pose proof (energies_length lines) as Le. destruct (names_and_energies energy lines) as [nm e]. cbn [snd] in *. cbn [search]. rewrite attempt_first; [|intros a b _ _; rewrite !accuracy_short by lia; reflexivity|lia|lia]. rewrite accuracy_short by lia.
  assert (too_bad maxacc (length e) (Some 0) = false) as ->; [|rewrite Le; reflexivity]. unfold too_bad. apply orb_false_iff. split; [apply andb_false_iff; left; apply qltb_ge; exact M|]. apply qltb_ge. assert (Qn : 0 <= qz (Z.of_nat (length e))) by (rewrite <- qz_0; apply qz_le; lia). set (q := qz _) in *. clearbody q. assert (0 <= maxacc * maxacc) by qnra. set (k := maxacc * maxacc) in *. clearbody k. qnra.
Qed.

(** Three lines of the same energy: not-a-number is accepted, whatever the peaks are. *)
Theorem same_energy_thrice peaks lines nextra ninc nmax maxacc fuel v : (3 <= qcount (fun x => if Qc_eq_dec x v then true else false) (map energy lines))%nat -> (length lines <= length peaks)%nat ->
  snd (find_opt_assignment energy peaks lines nextra ninc nmax maxacc (S fuel)) = Found (qsort (firstn (length lines) peaks)).
Proof.
  intros C L. unfold find_opt_assignment. pose proof (energies_length lines) as Le. pose proof (energies_sort energy lines) as Es. pose proof (energies_perm energy lines) as Ep. destruct (names_and_energies energy lines) as [nm e]. cbn [snd] in *.
  assert (NS : ~ spread e).
  { rewrite (qcount_perm _ _ _ Ep) in C. assert (Se : qsorted e) by (rewrite Es; apply qsort_sorted). clear - C Se. intros Sp. induction e as [|x t IH]; [cbn in C; lia|]. rewrite qcount_cons in C. destruct (Qc_eq_dec x v) as [->|N].
    - destruct t as [|y [|z t]]; [cbn in C; lia|rewrite qcount_cons in C; destruct (Qc_eq_dec y v); cbn in C; lia|]. destruct Sp as [Sp _]. apply Sp. apply (qsorted_app [v] (y :: z :: t)) in Se as [_ [Se1 Se2]]. apply Qcle_antisym; [apply Se2; [left; reflexivity|right; left; reflexivity]|].
      destruct (Qc_eq_dec z v) as [->|Nz]; [apply Qcle_refl|]. exfalso. assert (vz : v < z) by (assert (v <= z) as G by (apply Se2; [left; reflexivity|right; left; reflexivity]); apply Qcle_lt_or_eq in G as [G|G]; [exact G|subst; contradiction]).
      apply (qsorted_app [y] (z :: t)) in Se1 as [_ [Sz _]]. apply (qsorted_app [z] t) in Sz as [_ [_ Sz]]. rewrite !qcount_cons in C. destruct (Qc_eq_dec z v) as [|_]; [contradiction|]. rewrite (qcount_none _ t) in C; [destruct (Qc_eq_dec y v); lia|]. intros a Ha. specialize (Sz z a (or_introl eq_refl) Ha). destruct (Qc_eq_dec a v) as [->|]; [qlra|reflexivity].
    - apply (qsorted_app [x] t) in Se as [_ [Se _]]. apply IH; [cbn in C; exact C|exact Se|]. destruct t as [|y [|z t]]; [exact I|exact I|apply Sp]. }
  cbn [search]. rewrite attempt_first; [| |lia|lia].
  - rewrite accuracy_nan; [cbn [too_bad]; rewrite Le; reflexivity| |left; exact NS]. rewrite qsort_length, firstn_length. lia.
  - intros a b La Lb. rewrite !accuracy_nan; [reflexivity|symmetry; exact Lb|left; exact NS|symmetry; exact La|left; exact NS].
Qed.

(** Moving and stretching the peaks does the same to the result; moving and stretching the energies does nothing to it. *)
Theorem assignment_follows peaks lines nextra ninc nmax maxacc fuel s c names e o : 0 < s -> find_opt_assignment energy peaks lines nextra ninc nmax maxacc fuel = (names, e, o) ->
  find_opt_assignment energy (map (fun x => s * x + c) peaks) lines nextra ninc nmax maxacc fuel =
    (names, e, match o with Found a => Found (map (fun x => s * x + c) a) | Raises => Raises | Unfinished => Unfinished end) /\
  find_opt_assignment (fun l => s * energy l + c) peaks lines nextra ninc nmax maxacc fuel = (names, map (fun x => s * x + c) e, o).
Proof.
  intros S H. unfold find_opt_assignment in *. split.
  - destruct (names_and_energies energy lines) as [nm en]. injection H as <- <- <-. rewrite search_affine by exact S. reflexivity.
  - assert (names_and_energies (fun l => s * energy l + c) lines = (fst (names_and_energies energy lines), map (fun x => s * x + c) (snd (names_and_energies energy lines)))) as ->.
    { unfold names_and_energies. cbn [fst snd]. rewrite (sort_ext (fun a b => qleb (s * energy a + c) (s * energy b + c)) (fun a b => qleb (energy a) (energy b))); [rewrite map_map; reflexivity|]. intros a b. destruct (qleb (energy a) (energy b)) eqn:E; [apply qleb_le in E; apply qleb_le; qnra|apply qleb_gt in E; apply qleb_gt; qnra]. }
    destruct (names_and_energies energy lines) as [nm en]. cbn [fst snd]. injection H as <- <- <-. rewrite search_energies; [reflexivity|]. intros C. rewrite C in S. exact (Qclt_not_eq _ _ S eq_refl).
Qed.
End Lines.
Print Assumptions assignment_lines.
Print Assumptions assignment_found.
Print Assumptions straight_found.
Print Assumptions tolerant.
Print Assumptions few_lines.
Print Assumptions same_energy_thrice.
Print Assumptions assignment_follows.

(** With an increment of zero, a first attempt that is not good enough is repeated for ever. *)
Theorem no_increment_refuted : exists (peaks lines : list Qc), forall fuel, snd (find_opt_assignment (fun x => x) peaks lines 0 0 8 (qd 15 1000) fuel) = Unfinished.
Proof.
  exists [qz 1; qz 2; qz 10], [qz 1; qz 2; qz 3]. assert (E : names_and_energies (fun x : Qc => x) [qz 1; qz 2; qz 3] = ([qz 1; qz 2; qz 3], [qz 1; qz 2; qz 3])) by (unfold names_and_energies; vm_compute; reflexivity).
  intros fuel. unfold find_opt_assignment. rewrite E. cbn [snd length Nat.add]. induction fuel as [|f IH]; [reflexivity|]. cbn [search].
  assert (attempt [qz 1; qz 2; qz 3] [qz 1; qz 2; qz 10] 3 = Some [qz 1; qz 2; qz 10]) as -> by (vm_compute; reflexivity).
  assert (too_bad (qd 15 1000) (length [qz 1; qz 2; qz 3]) (accuracy [qz 1; qz 2; qz 3] [qz 1; qz 2; qz 10]) = true) as -> by (vm_compute; reflexivity). exact IH.
Qed.
Print Assumptions no_increment_refuted.

(** Peaks that occur three times are assigned to any three lines, although a straight assignment exists. *)
Theorem same_peak_thrice_refuted : exists (peaks lines : list Qc) is b, choice (length peaks) 3 is /\ arranged peaks is b /\ straight lines b /\
  snd (find_opt_assignment (fun x => x) peaks lines 2 3 8 (qd 15 1000) 12) = Found [qz 5; qz 5; qz 5].
Proof.
  exists [qz 1; qz 2; qz 5; qz 5; qz 5], [qz 1; qz 2; qz 5], [0; 1; 2]%nat, [qz 1; qz 2; qz 5].
  split; [split; [reflexivity|]; split; [repeat constructor|]; intros i Hi; cbn in *; lia|]. split; [split; [apply Permutation_refl|repeat split; repeat (apply Forall_cons || apply Forall_nil)]|].
  - intros y [<-|[<-|[]]]; discriminate.
  - intros y [<-|[]]; discriminate.
  - intros y [].
  - split; [exists 1, 0; split; [discriminate|]|].
    + cbn [map]. repeat f_equal; ring.
    + vm_compute. reflexivity.
Qed.
Print Assumptions same_peak_thrice_refuted.

(* ---------- examples ---------- *)

Definition flat (h : list nat) (_ : Qc) : list Qc := map (fun k => qz (Z.of_nat k)) h.
Definition some_argsort (l : list Qc) : list nat := map snd (stable_sort (fun a b => qleb (fst a) (fst b)) (combine l (seq 0 (length l)))).
(** Pulses 0, 1, 1, 4, 4, 4 and width 1: bins of width 1 from -3 to 7. *)
Example two_maxima : option_map (fun r => (map this (fst r), map this (snd r))) (find_local_maxima 10 flat some_argsort [0; 1; 1; qz 4; qz 4; qz 4] 1) = Some ([(9 # 2)%Q; (3 # 2)%Q], [3%Q; 2%Q]).
Proof. vm_compute. reflexivity. Qed.
Ltac different := repeat (apply NoDup_cons; [let H := fresh in intros H; cbn [In] in H; repeat (destruct H as [H|H]; [discriminate H|]); exact H|]); apply NoDup_nil.
(** The conditions of the theorems hold here, and there is a straight assignment. *)
Example conditions_hold : NoDup (map (fun x : Qc => x) [qz 20; qz 10; qz 40]) /\ never_thrice [qz 400; qz 130; qz 100; qz 200; qz 170] /\
  (exists is b, choice (Nat.min 5 5) 3 is /\ arranged [qz 400; qz 130; qz 100; qz 200; qz 170] is b /\ straight [qz 10; qz 20; qz 40] b).
Proof.
  split; [different|]. split; [apply nodup_thrice; different|]. exists [0; 2; 3]%nat, [qz 100; qz 200; qz 400]. split; [split; [reflexivity|]; split; [repeat constructor|]; intros i Hi; cbn in *; lia|]. split.
  - apply arranged_sort. vm_compute. reflexivity.
  - exists (qz 10), 0. split; [discriminate|]. vm_compute. reflexivity.
Qed.
(** Five peaks, three of them in proportion to the lines. *)
Example assigned : snd (find_opt_assignment (fun x => x) [qz 400; qz 130; qz 100; qz 200; qz 170] [qz 20; qz 10; qz 40] 2 3 8 (qd 15 1000) 12) = Found [qz 100; qz 200; qz 400].
Proof. vm_compute. reflexivity. Qed.
Example nothing_fits : snd (find_opt_assignment (fun x => x) [qz 400; qz 395; qz 100; qz 105] [qz 20; qz 10; qz 40] 2 3 8 (qd 15 1000) 12) = Raises.
Proof. vm_compute. reflexivity. Qed.
(** The best one is found later, when more peaks are used. *)
Example later : snd (find_opt_assignment (fun x => x) [qz 400; qz 395; qz 100; qz 105; qz 398; qz 200] [qz 20; qz 10; qz 40] 2 3 8 (qd 15 1000) 12) = Found [qz 100; qz 200; qz 400].
Proof. vm_compute. reflexivity. Qed.
