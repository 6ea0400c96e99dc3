From Coq Require Import ZArith QArith Qcanon Bool List Permutation Lia.
From Verif Require Import QcPre QSort LagModel LagProofs NameModel NameProofs FitModel FitSpec.
Import ListNotations.
Local Open Scope Qc_scope.

Lemma half a : (a / qz 2) + (a / qz 2) = a.
Proof.
  assert (N : qz 2 <> 0) by (apply qz_neq; lia).
  assert (E : qz 2 = 1 + 1) by (apply Qc_is_canon; vm_compute; reflexivity).
  transitivity ((1 + 1) * (a / qz 2)); [ring|]. rewrite <- E. field. exact N.
Qed.
Lemma half_val a : exists h, a / qz 2 = h /\ h + h = a.
Proof. exists (a / qz 2). split; [reflexivity | apply half]. Qed.

Lemma py_max_le a b x : py_max a b <= x <-> a <= x /\ b <= x.
Proof. unfold py_max. destruct (qltb a b) eqn:E; [apply qltb_lt in E | apply qltb_ge in E]; split; intros H; [split; qlra | destruct H; qlra | split; qlra | destruct H; qlra]. Qed.
Lemma py_min_ge a b x : x <= py_min a b <-> x <= a /\ x <= b.
Proof. unfold py_min. destruct (qltb b a) eqn:E; [apply qltb_lt in E | apply qltb_ge in E]; split; intros H; [split; qlra | destruct H; qlra | split; qlra | destruct H; qlra]. Qed.

Lemma last_opt_none l : last_opt l = None -> l = [].
Proof. destruct l as [|x t]; [reflexivity|]. cbn. destruct (last_opt t); discriminate. Qed.
Lemma last_opt_in l x : last_opt l = Some x -> In x l.
Proof. induction l as [|y t IH]; cbn; [discriminate|]. destruct (last_opt t); intros E; inversion E; subst; auto. Qed.
Lemma last_opt_max l x : qsorted l -> last_opt l = Some x -> forall y, In y l -> y <= x.
Proof.
  induction l as [|z t IH]; intros S E; [discriminate|]. cbn in E.
  change (z :: t) with ([z] ++ t) in S. apply qsorted_app in S. destruct S as (_ & S & Z).
  intros y Y. destruct (last_opt t) as [w|] eqn:W; inversion E; subst.
  - destruct Y as [<- | Y]; [|now apply IH]. apply Z; [now left | now apply last_opt_in].
  - apply last_opt_none in W. subst t. destruct Y as [<- | []]. apply Qcle_refl.
Qed.

Lemma filter_sorted f l : qsorted l -> qsorted (filter f l).
Proof.
  induction l as [|x t IH]; intros S; [exact S|].
  change (x :: t) with ([x] ++ t) in S. apply qsorted_app in S. destruct S as (_ & S & X).
  cbn [filter]. destruct (f x); [|now apply IH].
  change (x :: filter f t) with ([x] ++ filter f t). apply qsorted_app. split; [cbn; repeat split; intros ? [] | split; [now apply IH|]].
  intros a b A B. apply X; [exact A|]. now apply filter_In in B.
Qed.

(** The range is the set of nearby energies. *)
Lemma fit_range_nearby all h e : qsorted all ->
  forall x, fst (fit_range all h e) <= x <= snd (fit_range all h e) <-> nearby all h e x.
Proof.
  intros S x.
  assert (L : fst (fit_range all h e) <= x <-> e - h <= x /\ (forall b, In b all -> b < e -> e + b <= x + x)).
  { cbn [fst fit_range]. destruct (last_opt (filter (fun x => qltb x e) all)) as [b|] eqn:E.
    - rewrite py_max_le. destruct (half_val (e + b)) as [m [-> M]].
      pose proof (last_opt_in _ _ E) as I. apply filter_In in I. destruct I as [I B]. apply qltb_lt in B.
      split; intros [H1 H2]; (split; [exact H1|]).
      + intros c C Ce. assert (c <= b); [|qlra].
        apply (last_opt_max _ _ (filter_sorted _ _ S) E). apply filter_In. split; [exact C | now apply qltb_lt].
      + specialize (H2 b I B). qlra.
    - apply last_opt_none in E. split; [intros H; split; [exact H|]|tauto].
      intros b B Be. exfalso. assert (In b (filter (fun x => qltb x e) all)) by (apply filter_In; split; [exact B | now apply qltb_lt]).
      rewrite E in H0. exact H0. }
  assert (R : x <= snd (fit_range all h e) <-> x <= e + h /\ (forall a, In a all -> e < a -> x + x <= e + a)).
  { cbn [snd fit_range]. destruct (filter (fun x => qltb e x) all) as [|a t] eqn:E.
    - split; [intros H; split; [exact H|]|tauto].
      intros a A Ae. exfalso. assert (In a (filter (fun x => qltb e x) all)) by (apply filter_In; split; [exact A | now apply qltb_lt]).
      rewrite E in H0. exact H0.
    - rewrite py_min_ge. destruct (half_val (e + a)) as [m [-> M]].
      assert (I : In a (filter (fun x => qltb e x) all)) by (rewrite E; now left).
      pose proof (filter_sorted (fun x => qltb e x) _ S) as S'. rewrite E in S'.
      apply filter_In in I. destruct I as [I A]. apply qltb_lt in A.
      split; intros [H1 H2]; (split; [exact H1|]).
      + intros c C Ce. assert (a <= c); [|qlra].
        assert (K : In c (a :: t)) by (rewrite <- E; apply filter_In; split; [exact C | now apply qltb_lt]).
        change (a :: t) with ([a] ++ t) in S'. apply qsorted_app in S'. destruct K as [<- | K]; [apply Qcle_refl|].
        apply S'; [now left | exact K].
      + specialize (H2 a I A). qlra. }
  rewrite L, R. unfold nearby, dist. split.
  - intros [[A1 A2] [B1 B2]]. split; [destruct (Qclt_le_dec x e); qlra|].
    intros c C. destruct (Qclt_le_dec c e) as [Ce|Ce].
    + specialize (A2 c C Ce). destruct (Qclt_le_dec x e), (Qclt_le_dec x c); qlra.
    + destruct (Qcle_lt_or_eq _ _ Ce) as [Ce'|<-]; [|apply Qcle_refl].
      specialize (B2 c C Ce'). destruct (Qclt_le_dec x e), (Qclt_le_dec x c); qlra.
  - intros [D N]. split; (split; [destruct (Qclt_le_dec x e); qlra|]); intros c C Ce; specialize (N c C);
      destruct (Qclt_le_dec x e), (Qclt_le_dec x c); qlra.
Qed.

(** * The assertion *)

Lemma unique_length l : (length (unique l) <= length l)%nat.
Proof.
  induction l as [|x [|y t] IH]; [cbn; lia | cbn; lia|].
  change (unique (x :: y :: t)) with (if Qc_eq_bool x y then unique (y :: t) else x :: unique (y :: t)).
  destruct (Qc_eq_bool x y); cbn [length] in *; lia.
Qed.
Lemma qceqb x y : Qc_eq_bool x y = true <-> x = y.
Proof. split; [apply Qc_eq_bool_correct|]. intros ->. unfold Qc_eq_bool. destruct (Qc_eq_dec y y); [reflexivity | contradiction]. Qed.
Lemma unique_nodup l : qsorted l -> (length l = length (unique l) <-> NoDup l).
Proof.
  induction l as [|x t IH]; intros S; [split; [constructor | reflexivity]|].
  change (x :: t) with ([x] ++ t) in S. apply qsorted_app in S. destruct S as (_ & S & X). specialize (IH S).
  destruct t as [|y t]; [split; [intros _; repeat constructor; intros [] | reflexivity]|].
  change (unique (x :: y :: t)) with (if Qc_eq_bool x y then unique (y :: t) else x :: unique (y :: t)).
  pose proof (unique_length (y :: t)) as U.
  destruct (Qc_eq_bool x y) eqn:E.
  - apply qceqb in E. subst y. split; [cbn [length] in *; lia|]. intros N. inversion N; subst. exfalso. apply H1. now left.
  - split.
    + intros H. constructor; [|apply IH; cbn [length] in *; lia].
      intros [<- | I]; [rewrite (proj2 (qceqb y y) eq_refl) in E; discriminate|].
      assert (x = y); [|subst; rewrite (proj2 (qceqb y y) eq_refl) in E; discriminate].
      apply Qcle_antisym; [apply X; [now left | now left]|].
      change (y :: t) with ([y] ++ t) in S. apply qsorted_app in S. apply S; [now left | exact I].
    + intros N. inversion N; subst. apply IH in H2. cbn [length] in *. lia.
Qed.

Lemma names_perm {A : Type} (energy : A -> Qc) lines : Permutation lines (fst (names_and_energies energy lines)).
Proof. symmetry. apply sort_perm. Qed.
Lemma energies_perm {A : Type} (energy : A -> Qc) lines : Permutation (map energy lines) (snd (names_and_energies energy lines)).
Proof. cbn [snd names_and_energies]. apply Permutation_map, names_perm. Qed.

Lemma insert_map {A : Type} (energy : A -> Qc) x l :
  map energy (insert (fun a b => qleb (energy a) (energy b)) x l) = qinsert (energy x) (map energy l).
Proof.
  induction l as [|y t IH]; cbn [insert map qinsert]; [reflexivity|].
  destruct (qleb (energy x) (energy y)) eqn:E; cbn [map].
  - reflexivity.
  - now rewrite IH.
Qed.
Lemma energies_sort {A : Type} (energy : A -> Qc) lines : snd (names_and_energies energy lines) = qsort (map energy lines).
Proof.
  cbn [snd names_and_energies]. unfold stable_sort. induction lines as [|x t IH]; [reflexivity|].
  cbn [fold_right map qsort]. now rewrite insert_map, IH.
Qed.

Lemma fit_ranges_distinct {A : Type} (energy : A -> Qc) d lines excluded width :
  build_fit_ranges energy d lines excluded width <> None <-> NoDup (map energy (lines ++ excluded)).
Proof.
  unfold build_fit_ranges.
  set (all := qsort _).
  assert (P : Permutation (map energy (lines ++ excluded)) all).
  { unfold all. rewrite <- qsort_perm, map_app. apply Permutation_app; apply energies_perm. }
  assert (N : NoDup (map energy (lines ++ excluded)) <-> NoDup all).
  { split; apply Permutation_NoDup; [exact P | now symmetry]. }
  rewrite N, <- (unique_nodup all) by apply qsort_sorted.
  destruct (Nat.eqb_spec (length all) (length (unique all))); split; intros H; try congruence; try discriminate.
Qed.

Lemma fit_ranges_all {A : Type} (energy : A -> Qc) d lines excluded width es ranges slopes :
  build_fit_ranges energy d lines excluded width = Some (es, ranges, slopes) ->
  es = qsort (map energy lines) /\ slopes = map d es /\ length ranges = length es /\
  forall i, (i < length es)%nat -> forall x,
    fst (nth i ranges (0, 0)) <= x <= snd (nth i ranges (0, 0)) <->
    nearby (map energy (lines ++ excluded)) (width / qz 2) (nth i es 0) x.
Proof.
  unfold build_fit_ranges. set (all := qsort _).
  destruct (Nat.eqb _ _); [|discriminate]. intros E. inversion E; subst; clear E.
  split; [apply energies_sort|]. split; [reflexivity|]. split; [apply map_length|].
  intros i I x.
  rewrite (nth_indep _ (0, 0) (fit_range all (width / qz 2) 0)) by now rewrite map_length.
  rewrite map_nth, fit_range_nearby by apply qsort_sorted.
  assert (M : forall y, In y all <-> In y (map energy (lines ++ excluded))).
  { intros y. unfold all. rewrite qsort_in, map_app, !in_app_iff.
    split; intros [H|H]; [left|right|left|right];
      (eapply Permutation_in; [|exact H]; (apply energies_perm || (symmetry; apply energies_perm))). }
  unfold nearby. split; intros [H1 H2]; (split; [exact H1|]); intros y Y; apply H2, M, Y.
Qed.

Lemma dist_self x : dist x x = 0.
Proof. unfold dist. destruct (Qclt_le_dec x x); ring. Qed.
Lemma dist_nonneg x y : 0 <= dist x y.
Proof. unfold dist. destruct (Qclt_le_dec x y); qlra. Qed.

Lemma fit_ranges_contain {A : Type} (energy : A -> Qc) d lines excluded width es ranges slopes :
  build_fit_ranges energy d lines excluded width = Some (es, ranges, slopes) -> 0 <= width ->
  forall i, (i < length es)%nat -> let '(lo, hi) := nth i ranges (0, 0) in let e := nth i es 0 in
    lo <= e <= hi /\ e - lo <= width / qz 2 /\ hi - e <= width / qz 2.
Proof.
  intros H W i I. destruct (fit_ranges_all _ _ _ _ _ _ _ _ H) as (_ & _ & _ & R). specialize (R i I).
  destruct (nth i ranges (0, 0)) as [lo hi]. cbn [fst snd] in R. cbv zeta.
  destruct (half_val width) as [h [Hh M]]. rewrite Hh in *.
  assert (C : lo <= nth i es 0 <= hi).
  { apply R. unfold nearby. rewrite dist_self. split; [qlra | intros; apply dist_nonneg]. }
  split; [exact C|]. destruct C as [C1 C2].
  destruct (proj1 (R lo) (conj (Qcle_refl _) (Qcle_trans _ _ _ C1 C2))) as [L _].
  destruct (proj1 (R hi) (conj (Qcle_trans _ _ _ C1 C2) (Qcle_refl _))) as [U _].
  unfold dist in L, U. destruct (Qclt_le_dec lo (nth i es 0)), (Qclt_le_dec hi (nth i es 0)); split; qlra.
Qed.

(** Another line is outside the range, and at least as far from it as the end of the range is
    from the line of the range. *)
Lemma fit_ranges_between {A : Type} (energy : A -> Qc) d lines excluded width es ranges slopes :
  build_fit_ranges energy d lines excluded width = Some (es, ranges, slopes) -> 0 <= width ->
  forall i y, (i < length es)%nat -> In y (map energy (lines ++ excluded)) ->
    let '(lo, hi) := nth i ranges (0, 0) in let e := nth i es 0 in
    (y < e -> e - lo <= lo - y) /\ (e < y -> hi - e <= y - hi).
Proof.
  intros H W i y I Y. pose proof (fit_ranges_contain _ _ _ _ _ _ _ _ H W i I) as C.
  destruct (fit_ranges_all _ _ _ _ _ _ _ _ H) as (_ & _ & _ & R). specialize (R i I).
  destruct (nth i ranges (0, 0)) as [lo hi]. cbn [fst snd] in R. cbv zeta in *. destruct C as ([C1 C2] & _ & _).
  destruct (proj1 (R lo) (conj (Qcle_refl _) (Qcle_trans _ _ _ C1 C2))) as [_ L]. specialize (L y Y).
  destruct (proj1 (R hi) (conj (Qcle_trans _ _ _ C1 C2) (Qcle_refl _))) as [_ U]. specialize (U y Y).
  unfold dist in L, U.
  split; intros E; destruct (Qclt_le_dec lo (nth i es 0)), (Qclt_le_dec hi (nth i es 0)), (Qclt_le_dec lo y), (Qclt_le_dec hi y); qlra.
Qed.

Lemma fit_ranges_disjoint {A : Type} (energy : A -> Qc) d lines excluded width es ranges slopes :
  build_fit_ranges energy d lines excluded width = Some (es, ranges, slopes) -> 0 <= width ->
  forall i j, (i < j < length es)%nat -> snd (nth i ranges (0, 0)) <= fst (nth j ranges (0, 0)).
Proof.
  intros H W i j IJ.
  destruct (fit_ranges_all _ _ _ _ _ _ _ _ H) as (E & _ & _ & _).
  assert (M : forall k, (k < length es)%nat -> In (nth k es 0) (map energy (lines ++ excluded))).
  { intros k K. rewrite map_app. apply in_or_app. left. apply qsort_in. rewrite <- E. now apply nth_In. }
  assert (I : (i < length es)%nat) by lia. assert (J : (j < length es)%nat) by lia.
  pose proof (fit_ranges_between _ _ _ _ _ _ _ _ H W i _ I (M j J)) as A1.
  pose proof (fit_ranges_between _ _ _ _ _ _ _ _ H W j _ J (M i I)) as A2.
  assert (L : nth i es 0 < nth j es 0).
  { assert (L : nth i es 0 <= nth j es 0) by (rewrite E in *; apply qsorted_nth; [apply qsort_sorted | lia]).
    apply Qcle_lt_or_eq in L. destruct L as [L|L]; [exact L|]. exfalso.
    assert (N : NoDup es).
    { rewrite E. apply (Permutation_NoDup (qsort_perm _)).
      assert (N : NoDup (map energy (lines ++ excluded))) by (apply (fit_ranges_distinct energy d _ _ width); rewrite H; discriminate).
      rewrite map_app in N. clear -N. induction (map energy lines) as [|x t IH]; [constructor|].
      inversion N; subst. constructor; [|now apply IH]. intros C. apply H1, in_or_app. now left. }
    rewrite NoDup_nth in N. apply (N i j) in L; lia. }
  destruct (nth i ranges (0, 0)) as [l1 h1], (nth j ranges (0, 0)) as [l2 h2]. cbn [fst snd]. cbv zeta in *.
  destruct A1 as [_ A1], A2 as [A2 _]. specialize (A1 L). specialize (A2 L). qlra.
Qed.

Lemma fit_ranges_ph_map {A : Type} (energy : A -> Qc) d f lines excluded width es ranges slopes :
  build_fit_ranges_ph energy d f lines excluded width = Some (es, ranges, slopes) -> 0 <= width ->
  (forall x y, x <= y -> f x <= f y) ->
  (forall i, (i < length es)%nat -> fst (nth i ranges (0, 0)) <= f (nth i es 0) <= snd (nth i ranges (0, 0))) /\
  (forall i j, (i < j < length es)%nat -> snd (nth i ranges (0, 0)) <= fst (nth j ranges (0, 0))).
Proof.
  unfold build_fit_ranges_ph. intros H W F.
  destruct (build_fit_ranges energy d lines excluded width) as [[[es' rs] ss]|] eqn:E; [|discriminate].
  inversion H; subst; clear H.
  destruct (fit_ranges_all _ _ _ _ _ _ _ _ E) as (_ & _ & L & _).
  assert (N : forall i, (i < length es)%nat ->
              nth i (map (fun r => (f (fst r), f (snd r))) rs) (0, 0) = (f (fst (nth i rs (0, 0))), f (snd (nth i rs (0, 0))))).
  { intros i I. rewrite (nth_indep _ (0, 0) (f (fst (0, 0)), f (snd (0, 0)))) by (rewrite map_length; lia).
    exact (map_nth (fun r => (f (fst r), f (snd r))) rs (0, 0) i). }
  split.
  - intros i I. rewrite N by exact I. cbn [fst snd].
    pose proof (fit_ranges_contain _ _ _ _ _ _ _ _ E W i I) as C. destruct (nth i rs (0, 0)). cbv zeta in C. cbn [fst snd].
    split; apply F; apply C.
  - intros i j IJ. rewrite !N by lia. cbn [fst snd]. apply F. now apply (fit_ranges_disjoint _ _ _ _ _ _ _ _ E W).
Qed.
