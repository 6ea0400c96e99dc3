(** Assignments of peaks to lines. *)
From Coq Require Import ZArith QArith Qcanon List Bool Lia Permutation Sorted.
From Verif Require Import QcPre LagModel LagProofs FluxModel FluxProofs DerModel QSort NameModel NameProofs FitModel AsgModel AsgSpec.
Import ListNotations.
Local Open Scope Qc_scope.

Lemma asg_inj {A} (a b : A) : Some a = Some b -> a = b.
Proof. congruence. Qed.

(* ---------- combinations ---------- *)

Lemma combos_map {A B} (f : A -> B) k l : combos k (map f l) = map (map f) (combos k l).
Proof.
  revert k. induction l as [|x t IH]; intros [|k]; try reflexivity. cbn [combos map]. rewrite map_app, !IH, !map_map. reflexivity.
Qed.
Lemma combos_seq k : forall n i s, In s (combos k (seq i n)) <-> length s = k /\ StronglySorted lt s /\ (forall j, In j s -> (i <= j < i + n)%nat).
Proof.
  intros n. revert k. induction n as [|n IH]; intros k i s.
  - cbn [seq]. destruct k as [|k]; cbn [combos].
    + split; [intros [<-|[]]; split; [reflexivity|]; split; [constructor|intros j []]|]. intros [L _]. destruct s; [left; reflexivity|discriminate].
    + split; [intros []|]. intros [L [_ H]]. destruct s as [|j s]; [discriminate|]. specialize (H j (or_introl eq_refl)). lia.
  - cbn [seq]. destruct k as [|k]; cbn [combos].
    + split; [intros [<-|[]]; split; [reflexivity|]; split; [constructor|intros j []]|]. intros [L _]. destruct s; [left; reflexivity|discriminate].
    + rewrite in_app_iff, in_map_iff. split.
      * intros [[t [<- T]]|T].
        -- apply IH in T as [L [S H]]. split; [cbn; lia|]. split; [constructor; [exact S|]; apply Forall_forall; intros j Hj; specialize (H j Hj); lia|]. intros j [<-|Hj]; [lia|]. specialize (H j Hj). lia.
        -- apply IH in T as [L [S H]]. split; [exact L|]. split; [exact S|]. intros j Hj. specialize (H j Hj). lia.
      * intros [L [S H]]. destruct s as [|j s]; [discriminate|]. inversion S as [|? ? S' F]; subst. rewrite Forall_forall in F. destruct (Nat.eq_dec j i) as [->|N].
        -- left. exists s. split; [reflexivity|]. apply IH. split; [cbn in L; lia|]. split; [exact S'|]. intros m Hm. specialize (F m Hm). specialize (H m (or_intror Hm)). lia.
        -- right. apply IH. split; [exact L|]. split; [exact S|]. pose proof (H j (or_introl eq_refl)) as Hj. intros m Hm. pose proof (H m Hm). destruct Hm as [<-|Hm]; [lia|]. specialize (F m Hm). lia.
Qed.
Lemma combos_order k : forall n i, StronglySorted earlier (combos k (seq i n)).
Proof.
  intros n. revert k. induction n as [|n IH]; intros k i; (destruct k as [|k]; [cbn; constructor; constructor|]).
  - constructor.
  - cbn [seq combos]. assert (A : StronglySorted earlier (map (cons i) (combos k (seq (S i) n)))).
    { specialize (IH k (S i)). induction IH as [|s l _ IHs F]; [constructor|]. cbn [map]. constructor; [exact IHs|]. rewrite Forall_forall in *. intros t Ht. apply in_map_iff in Ht as [u [<- Hu]]. apply earlier_later, F, Hu. }
    specialize (IH (S k) (S i)).
    assert (B : forall s t, In s (map (cons i) (combos k (seq (S i) n))) -> In t (combos (S k) (seq (S i) n)) -> earlier s t).
    { intros s t Hs Ht. apply in_map_iff in Hs as [u [<- _]]. apply combos_seq in Ht as [L [_ H]]. destruct t as [|j t]; [discriminate|]. apply earlier_here. specialize (H j (or_introl eq_refl)). lia. }
    revert A B. generalize (map (cons i) (combos k (seq (S i) n))). intros l A B. induction A as [|s l A IHl F]; [exact IH|]. cbn [app]. constructor; [apply IHl; intros; apply B; [right|]; assumption|].
    rewrite Forall_forall in *. intros t Ht. apply in_app_iff in Ht as [Ht|Ht]; [apply F, Ht|apply B; [left; reflexivity|exact Ht]].
Qed.
Lemma combos_count {k} f (l s : list Qc) : In s (combos k l) -> (qcount f s <= qcount f l)%nat.
Proof.
  revert k s. induction l as [|x t IH]; intros [|k] s H; cbn [combos] in H.
  - destruct H as [<-|[]]. cbn. lia.
  - destruct H.
  - destruct H as [<-|[]]. cbn. lia.
  - rewrite qcount_cons. apply in_app_iff in H as [H|H]; [|specialize (IH _ _ H); lia]. apply in_map_iff in H as [u [<- Hu]]. rewrite qcount_cons. specialize (IH _ _ Hu). lia.
Qed.
Lemma combos_none {A} k (l : list A) : combos k l = [] <-> (length l < k)%nat.
Proof.
  revert k. induction l as [|x t IH]; intros [|k]; cbn [combos length].
  - split; [discriminate|lia].
  - split; [lia|reflexivity].
  - split; [discriminate|lia].
  - split.
    + intros H. apply app_eq_nil in H as [H _]. apply map_eq_nil in H. apply IH in H. lia.
    + intros H. rewrite (proj2 (IH k)) by lia. rewrite (proj2 (IH (S k))) by lia. reflexivity.
Qed.
Lemma firstn_nth (l : list Qc) n : firstn n l = map (fun i => nth i l 0) (seq 0 (Nat.min n (length l))).
Proof.
  revert n. induction l as [|x t IH]; intros [|n]; try reflexivity. cbn [firstn length Nat.min seq map nth]. rewrite IH, <- seq_shift, map_map. reflexivity.
Qed.

(* ---------- the first smallest ---------- *)

Lemma less_trans x y z : less_nan x y = true -> less_nan y z = true -> less_nan x z = true.
Proof. destruct x as [x|], y as [y|], z as [z|]; cbn; intros A B; try congruence. apply qltb_lt in A, B. apply qltb_lt. qlra. Qed.
Lemma less_weak x y z : less_nan x y = true -> less_nan z y = false -> less_nan x z = true \/ less_nan z x = false.
Proof. destruct x as [x|], y as [y|], z as [z|]; cbn; intros A B; try congruence; try (left; reflexivity). apply qltb_lt in A. apply qltb_ge in B. left. apply qltb_lt. qlra. Qed.
Lemma less_le_trans x y z : less_nan x y = true -> less_nan z y = false -> less_nan x z = true.
Proof. destruct x as [x|], y as [y|], z as [z|]; cbn; intros A B; try congruence. apply qltb_lt in A. apply qltb_ge in B. apply qltb_lt. qlra. Qed.
Lemma pick_split {A} (key : A -> option Qc) : forall l p cur r, (forall y, In y p -> less_nan (key cur) (key y) = true) -> (forall y, In y r -> less_nan (key y) (key cur) = false) ->
  exists p' q', p ++ cur :: r ++ l = p' ++ pick key cur l :: q' /\ (forall y, In y p' -> less_nan (key (pick key cur l)) (key y) = true) /\ (forall y, In y q' -> less_nan (key y) (key (pick key cur l)) = false).
Proof.
  induction l as [|x t IH]; intros p cur r P R; cbn [pick].
  - exists p, r. rewrite app_nil_r. auto.
  - destruct (less_nan (key x) (key cur)) eqn:E.
    + destruct (IH (p ++ cur :: r) x []) as [p' [q' [H1 [H2 H3]]]].
      * intros y Hy. apply in_app_iff in Hy as [Hy|[<-|Hy]]; [exact (less_trans _ _ _ E (P y Hy))|exact E|exact (less_le_trans _ _ _ E (R y Hy))].
      * intros y [].
      * exists p', q'. split; [|auto]. rewrite <- H1, <- app_assoc. reflexivity.
    + destruct (IH p cur (r ++ [x])) as [p' [q' [H1 [H2 H3]]]]; [exact P|intros y Hy; apply in_app_iff in Hy as [Hy|[<-|[]]]; [exact (R y Hy)|exact E]|].
      exists p', q'. split; [|auto]. rewrite <- H1, <- app_assoc. reflexivity.
Qed.
Lemma pick_first {A} (key : A -> option Qc) cur l : exists p q, cur :: l = p ++ pick key cur l :: q /\ (forall y, In y p -> less_nan (key (pick key cur l)) (key y) = true) /\ (forall y, In y q -> less_nan (key y) (key (pick key cur l)) = false).
Proof. exact (pick_split key l [] cur [] (fun y (H : In y []) => False_ind _ H) (fun y (H : In y []) => False_ind _ H)). Qed.

(* ---------- the accuracy ---------- *)

Lemma windows_cons {A} (x y z : A) t : windows (x :: y :: z :: t) = (x, y, z) :: windows (y :: z :: t).
Proof. reflexivity. Qed.
Lemma misfit_cons e0 e1 e2 e a0 a1 a2 a : misfit (e0 :: e1 :: e2 :: e) (a0 :: a1 :: a2 :: a) =
  (fraction e0 e1 e2 - fraction a0 a1 a2) * (fraction e0 e1 e2 - fraction a0 a1 a2) + misfit (e1 :: e2 :: e) (a1 :: a2 :: a).
Proof. reflexivity. Qed.
Lemma sub_0 a b : a - b = 0 <-> b = a.
Proof. split; intros H; [assert (a = a - b + b) as -> by ring; rewrite H; ring|subst; ring]. Qed.
Lemma accuracy_misfit : forall e a, length e = length a -> spread e -> spread a -> accuracy e a = Some (misfit e a).
Proof.
  induction e as [|e0 e IH]; intros [|a0 a] L Se Sa; try discriminate; [reflexivity|].
  destruct e as [|e1 [|e2 e]], a as [|a1 [|a2 a]]; try discriminate; try reflexivity.
  unfold accuracy in *. rewrite !windows_cons, misfit_cons. cbn [combine fold_right fst snd]. destruct Se as [E Se], Sa as [A Sa].
  rewrite (IH (a1 :: a2 :: a) ltac:(cbn in L |- *; lia) Se Sa). unfold deviation. destruct (Qc_eq_dec (e2 - e0) 0) as [C|Ne]; [apply (proj1 (sub_0 _ _)) in C; contradiction|]. destruct (Qc_eq_dec (a2 - a0) 0) as [C|Na]; [apply (proj1 (sub_0 _ _)) in C; contradiction|].
  cbn [add_nan]. f_equal. f_equal. unfold fraction. assert (G : (a0 * (1 - (e1 - e0) / (e2 - e0)) + a2 * ((e1 - e0) / (e2 - e0)) - a1) / (a2 - a0) = (e1 - e0) / (e2 - e0) - (a1 - a0) / (a2 - a0)) by (field; split; assumption).
  rewrite G. reflexivity.
Qed.
Lemma accuracy_nan e a : length e = length a -> ~ spread e \/ ~ spread a -> accuracy e a = None.
Proof.
  revert a. induction e as [|e0 e IH]; intros [|a0 a] L N; try discriminate; [exfalso; destruct N as [N|N]; apply N; exact I|].
  destruct e as [|e1 [|e2 e]], a as [|a1 [|a2 a]]; try discriminate; try (exfalso; destruct N as [N|N]; apply N; exact I).
  unfold accuracy in *. rewrite !windows_cons. cbn [combine fold_right fst snd]. cbn [deviation]. destruct (Qc_eq_dec (e2 - e0) 0) as [C|Ne]; [reflexivity|]. destruct (Qc_eq_dec (a2 - a0) 0) as [C|Na]; [reflexivity|].
  rewrite (IH (a1 :: a2 :: a)); [reflexivity|cbn in L |- *; lia|]. destruct N as [N|N]; [left|right]; intro S; apply N; (split; [|exact S]); intro C; [apply Ne|apply Na]; apply (proj2 (sub_0 _ _)); exact C.
Qed.
Lemma misfit_nonneg : forall e a, 0 <= misfit e a.
Proof.
  induction e as [|e0 e IH]; intros a; [apply Qcle_refl|]. destruct e as [|e1 [|e2 e]]; [apply Qcle_refl|destruct a; apply Qcle_refl|]. destruct a as [|a0 [|a1 [|a2 a]]]; try apply Qcle_refl.
  rewrite misfit_cons. specialize (IH (a1 :: a2 :: a)). set (d := fraction e0 e1 e2 - fraction a0 a1 a2). set (m := misfit _ _) in *. clearbody d m. qnra.
Qed.

(** Sorted peaks, none of them three times, are spread. *)
Lemma sorted_spread a : qsorted a -> never_thrice a -> spread a.
Proof.
  induction a as [|x t IH]; intros S N; [exact I|]. destruct t as [|y [|z t]]; [exact I|exact I|]. split.
  - intros ->. assert (y = z) as ->. { apply Qcle_antisym; [apply (qsorted_nth _ S 1 2); cbn; lia|apply (qsorted_nth _ S 0 1); cbn; lia]. }
    specialize (N z). rewrite !qcount_cons in N. destruct (Qc_eq_dec z z) as [_|C]; [lia|contradiction].
  - apply IH; [apply (qsorted_app [x] (y :: z :: t)) in S; apply S|]. intros v. specialize (N v). rewrite qcount_cons in N. lia.
Qed.

(* ---------- one attempt ---------- *)

Section Attempt.
Variables e peaks : list Qc.

Local Notation best := (AsgSpec.best e peaks).

Lemma sorted_unique a b : qsorted a -> qsorted b -> Permutation a b -> a = b.
Proof.
  intros Sa Sb P. apply (nth_ext _ _ 0 0 (Permutation_length P)). intros i Hi.
  apply (order_statistic_unique i a); [apply sorted_order_statistic; assumption|]. apply (order_statistic_perm i b); [apply Permutation_sym, P|]. apply sorted_order_statistic; [exact Sb|]. rewrite <- (Permutation_length P). exact Hi.
Qed.
Lemma arranged_sort is a : arranged peaks is a <-> a = qsort (map (fun i => nth i peaks 0) is).
Proof.
  split.
  - intros [P S]. apply sorted_unique; [exact S|apply qsort_sorted|]. apply (Permutation_trans (Permutation_sym P)), qsort_perm.
  - intros ->. split; [apply qsort_perm|apply qsort_sorted].
Qed.
Lemma earlier_irrefl s : ~ earlier s s.
Proof. induction s as [|i s IH]; intros H; inversion H; subst; [lia|auto]. Qed.
Lemma earlier_asym s t : earlier s t -> ~ earlier t s.
Proof. induction 1; intros H'; inversion H'; subst; try lia. auto. Qed.

Hypothesis spread_e : spread e.
Hypothesis peaks_ok : never_thrice peaks.

Lemma choice_combo n is : choice (Nat.min n (length peaks)) (length e) is <-> In is (combos (length e) (seq 0 (Nat.min n (length peaks)))).
Proof. rewrite combos_seq. unfold choice. split; intros [A [B C]]; (split; [exact A|]); (split; [exact B|]); intros j Hj; specialize (C j Hj); lia. Qed.
Lemma choice_accuracy n is a : choice (Nat.min n (length peaks)) (length e) is -> arranged peaks is a -> accuracy e a = Some (misfit e a) /\ length a = length e.
Proof.
  intros C [P S]. assert (L : length a = length e) by (rewrite <- (Permutation_length P), map_length; apply C). split; [|exact L]. apply accuracy_misfit; [symmetry; exact L|exact spread_e|].
  apply sorted_spread; [exact S|]. intros v. rewrite <- (qcount_perm _ _ _ P). apply (Nat.le_trans _ (qcount (fun x => if Qc_eq_dec x v then true else false) peaks)); [|apply peaks_ok].
  apply choice_combo in C. apply (in_map (map (fun i => nth i peaks 0))) in C. rewrite <- combos_map, <- firstn_nth in C. apply (combos_count (fun x => if Qc_eq_dec x v then true else false)) in C.
  apply (Nat.le_trans _ _ _ C). rewrite <- (firstn_skipn n peaks) at 2. rewrite qcount_app. lia.
Qed.
Lemma attempt_none n : attempt e peaks n = None <-> (Nat.min n (length peaks) < length e)%nat.
Proof.
  unfold attempt. rewrite <- (firstn_length n peaks), <- (combos_none (length e) (firstn n peaks)). destruct (combos (length e) (firstn n peaks)) as [|s l]; cbn [map]; split; congruence.
Qed.
Lemma attempt_best n a : attempt e peaks n = Some a -> best n a.
Proof.
  unfold attempt. rewrite firstn_nth, combos_map, map_map. set (C := combos (length e) (seq 0 (Nat.min n (length peaks)))).
  intros H. destruct (map _ C) as [|a0 t] eqn:E; [discriminate|]. apply asg_inj in H.
  destruct (pick_first (accuracy e) a0 t) as [p [q [H1 [H2 H3]]]]. rewrite H, <- E in H1. rewrite H in H2, H3. clear H E a0 t.
  (* split the list of choices in the same way *)
  assert (K : exists p1 is q1, C = p1 ++ is :: q1 /\ p = map (fun x => qsort (map (fun i => nth i peaks 0) x)) p1 /\ a = qsort (map (fun i => nth i peaks 0) is) /\ q = map (fun x => qsort (map (fun i => nth i peaks 0) x)) q1).
  { clear H2 H3. revert p H1. induction C as [|s l IH]; intros p H1; [destruct p; discriminate|]. cbn [map] in H1. destruct p as [|b p].
    - injection H1 as H1 H4. exists [], s, l. subst. auto.
    - injection H1 as H1 H4. destruct (IH p H4) as [p1 [is [q1 [A [B [D F]]]]]]. exists (s :: p1), is, q1. subst. auto. }
  destruct K as [p1 [is [q1 [EC [-> [Ea ->]]]]]]. exists is.
  assert (Ci : choice (Nat.min n (length peaks)) (length e) is) by (apply choice_combo; fold C; rewrite EC; apply in_app_iff; right; left; reflexivity).
  assert (Ai : arranged peaks is a) by (apply arranged_sort; exact Ea). split; [exact Ci|]. split; [exact Ai|].
  destruct (choice_accuracy n is a Ci Ai) as [Va _]. rewrite Va in H2, H3.
  intros js b Cj Aj. destruct (choice_accuracy n js b Cj Aj) as [Vb _]. pose proof Cj as Ij. apply choice_combo in Ij. fold C in Ij. rewrite EC in Ij. apply arranged_sort in Aj.
  pose proof (combos_order (length e) (Nat.min n (length peaks)) 0) as O. fold C in O. rewrite EC in O.
  apply in_app_iff in Ij as [Ij|[Ij|Ij]].
  - specialize (H2 b). rewrite Vb in H2. cbn [less_nan] in H2. rewrite Aj in H2 at 1. specialize (H2 (in_map _ _ _ Ij)). apply qltb_lt in H2. split; [apply Qclt_le_weak, H2|intros _; exact H2].
  - subst js. rewrite <- Ea in Aj. subst b. split; [apply Qcle_refl|]. intros F. exfalso. exact (earlier_irrefl _ F).
  - specialize (H3 b). rewrite Vb in H3. cbn [less_nan] in H3. rewrite Aj in H3 at 1. specialize (H3 (in_map _ _ _ Ij)). apply qltb_ge in H3. split; [exact H3|]. intros F. exfalso.
    assert (G : earlier is js). { clear - O Ij. induction p1 as [|s p1 IH]; cbn [app] in O; inversion O as [|? ? O' Fa]; subst; [rewrite Forall_forall in Fa; apply Fa, Ij|apply IH, O']. } exact (earlier_asym _ _ G F).
Qed.
Lemma attempt_is n a : attempt e peaks n = Some a <-> best n a.
Proof.
  split; [apply attempt_best|]. intros B. destruct (attempt e peaks n) as [a'|] eqn:E.
  - apply attempt_best in E. destruct B as [is [Ci [Ai Hi]]], E as [js [Cj [Aj Hj]]]. destruct (Hi js a' Cj Aj) as [L1 S1]. destruct (Hj is a Ci Ai) as [L2 S2].
    assert (M : misfit e a = misfit e a') by (apply Qcle_antisym; assumption). f_equal.
    assert (is = js \/ earlier is js \/ earlier js is) as T. { clear - Ci Cj. destruct Ci as [L1 [S1 _]], Cj as [L2 [S2 _]]. rewrite <- L2 in L1. clear - L1. revert js L1. induction is as [|i is IH]; intros [|j js] L; try discriminate; [left; reflexivity|]. destruct (Nat.lt_trichotomy i j) as [G|[G|G]]; [right; left; apply earlier_here, G| |right; right; apply earlier_here, G]. subst j. cbn in L. destruct (IH js ltac:(lia)) as [H|[H|H]]; [left; congruence|right; left; apply earlier_later, H|right; right; apply earlier_later, H]. }
    destruct T as [T|[T|T]]; [subst js; apply arranged_sort in Ai, Aj; congruence| |].
    + specialize (S2 T). rewrite M in S2. exfalso. exact (Qclt_not_eq _ _ S2 eq_refl).
    + specialize (S1 T). rewrite M in S1. exfalso. exact (Qclt_not_eq _ _ S1 eq_refl).
  - apply attempt_none in E. destruct B as [is [[L [S B]] _]]. exfalso. clear - E L S B.
    assert (ND : NoDup is). { clear - S. induction S as [|i s S IH F]; constructor; [|exact IH]. rewrite Forall_forall in F. intros C. specialize (F i C). lia. }
    assert (incl is (seq 0 (Nat.min n (length peaks)))) as I by (intros i Hi; apply in_seq; specialize (B i Hi); lia).
    pose proof (NoDup_incl_length ND I) as G. rewrite seq_length in G. lia.
Qed.

(** Good enough, in squares. *)
Variable maxacc : Qc.
Lemma too_bad_good a : too_bad maxacc (length e) (Some (misfit e a)) = false <-> good maxacc e a.
Proof.
  unfold too_bad, good. split.
  - intros H. apply orb_false_iff in H as [H1 H2]. apply qltb_ge in H2. split; [exact H2|]. apply andb_false_iff in H1 as [H1|H1]; [left; apply qltb_ge; exact H1|right]. apply negb_false_iff, Nat.eqb_eq in H1. destruct e; [reflexivity|discriminate].
  - intros [H1 H2]. apply orb_false_iff. split; [|apply qltb_ge; exact H1]. apply andb_false_iff. destruct H2 as [H2|H2]; [left; apply qltb_ge; exact H2|right]. rewrite H2. reflexivity.
Qed.
Local Notation any_good := (AsgSpec.any_good maxacc e peaks).
Lemma best_good n a : best n a -> (good maxacc e a <-> any_good n).
Proof.
  intros [is [C [A H]]]. split; [intros G; exists is, a; auto|]. intros [js [b [Cj [Aj [G1 G2]]]]]. split; [|exact G2]. destruct (H js b Cj Aj) as [L _]. exact (Qcle_trans _ _ _ L G1).
Qed.
Lemma attempt_verdict n a : attempt e peaks n = Some a -> (too_bad maxacc (length e) (accuracy e a) = false <-> any_good n) /\ (too_bad maxacc (length e) (accuracy e a) = true <-> ~ any_good n).
Proof.
  intros H. apply attempt_best in H. pose proof (best_good n a H) as G. destruct H as [is [C [A _]]]. destruct (choice_accuracy n is a C A) as [V _]. rewrite V, <- G, <- too_bad_good. destruct (too_bad _ _ _); split; split; congruence.
Qed.

(* ---------- the loop ---------- *)

Variables nincrement nmax : nat.
(** The numbers of peaks tried. *)
Definition tried (n0 j : nat) : nat := (n0 + j * nincrement)%nat.
Lemma search_found : forall fuel n a, search e peaks maxacc nincrement nmax fuel n = Found a <->
  exists j, (j < fuel)%nat /\ (forall i, (i < j)%nat -> (tried n (S i) <= nmax)%nat /\ ~ any_good (tried n i) /\ attempt e peaks (tried n i) <> None) /\ attempt e peaks (tried n j) = Some a /\ any_good (tried n j).
Proof.
  induction fuel as [|f IH]; intros n a; cbn [search]; [split; [discriminate|intros [j [C _]]; lia]|].
  assert (T0 : tried n 0 = n) by (unfold tried; lia). assert (TS : forall j, tried n (S j) = tried (n + nincrement) j) by (intros; unfold tried; lia).
  destruct (attempt e peaks n) as [b|] eqn:E.
  - destruct (attempt_verdict n b E) as [V1 V2]. destruct (too_bad maxacc (length e) (accuracy e b)) eqn:T.
    + assert (NG : ~ any_good n) by (apply V2; reflexivity). destruct (Nat.ltb nmax (n + nincrement)) eqn:M.
      * apply Nat.ltb_lt in M. split; [discriminate|]. intros [[|j] [J1 [J2 [J3 J4]]]]; [rewrite T0 in J4; contradiction|]. destruct (J2 0%nat ltac:(lia)) as [C _]. unfold tried in C. lia.
      * apply Nat.ltb_ge in M. rewrite IH. split.
        -- intros [j [J1 [J2 [J3 J4]]]]. exists (S j). split; [lia|]. split; [|rewrite TS; auto]. intros [|i] Hi; [rewrite T0; split; [unfold tried; lia|]; split; [exact NG|rewrite E; discriminate]|]. rewrite !TS. apply J2. lia.
        -- intros [[|j] [J1 [J2 [J3 J4]]]]; [rewrite T0 in J4; contradiction|]. exists j. split; [lia|]. rewrite !TS in *. split; [intros i Hi; rewrite <- !TS; apply J2; lia|auto].
    + assert (G : any_good n) by (apply V1; reflexivity). split.
      * intros H. injection H as <-. exists 0%nat. split; [lia|]. split; [intros; lia|]. rewrite T0. auto.
      * intros [[|j] [J1 [J2 [J3 J4]]]]; [rewrite T0, E in J3; apply asg_inj in J3; subst b; reflexivity|]. destruct (J2 0%nat ltac:(lia)) as [_ [C _]]. rewrite T0 in C. contradiction.
  - split; [discriminate|]. intros [[|j] [J1 [J2 [J3 J4]]]]; [rewrite T0, E in J3; discriminate|]. destruct (J2 0%nat ltac:(lia)) as [_ [_ C]]. rewrite T0 in C. contradiction.
Qed.
Lemma search_unfinished : forall fuel n, search e peaks maxacc nincrement nmax fuel n = Unfinished -> forall i, (i < fuel)%nat -> (tried n (S i) <= nmax)%nat /\ ~ any_good (tried n i).
Proof.
  induction fuel as [|f IH]; intros n H i Hi; [lia|]. cbn [search] in H. destruct (attempt e peaks n) as [b|] eqn:E; [|discriminate]. destruct (attempt_verdict n b E) as [V1 V2]. destruct (too_bad maxacc (length e) (accuracy e b)) eqn:T; [|discriminate].
  destruct (Nat.ltb nmax (n + nincrement)) eqn:M; [discriminate|]. apply Nat.ltb_ge in M. destruct i as [|i].
  - unfold tried. split; [lia|]. replace (n + 0 * nincrement)%nat with n by lia. apply V2. reflexivity.
  - specialize (IH (n + nincrement)%nat H i ltac:(lia)). unfold tried in *. replace (n + S (S i) * nincrement)%nat with (n + nincrement + S i * nincrement)%nat by lia. replace (n + S i * nincrement)%nat with (n + nincrement + i * nincrement)%nat by lia. exact IH.
Qed.
End Attempt.

(* ---------- with enough rounds ---------- *)

Lemma choice_enough n k is : choice n k is -> (k <= n)%nat.
Proof.
  intros [L [S B]]. assert (ND : NoDup is). { clear - S. induction S as [|i s S IH F]; constructor; [|exact IH]. rewrite Forall_forall in F. intros C. specialize (F i C). lia. }
  assert (incl is (seq 0 n)) as I by (intros i Hi; apply in_seq; specialize (B i Hi); lia). pose proof (NoDup_incl_length ND I) as G. rewrite seq_length in G. lia.
Qed.
Lemma good_enough maxacc e peaks n : any_good maxacc e peaks n -> (length e <= length peaks /\ length e <= n)%nat.
Proof. intros [is [a [C _]]]. apply choice_enough in C. lia. Qed.

Lemma some_attempt e peaks n : (length e <= n)%nat -> (length e <= length peaks)%nat -> exists a, attempt e peaks n = Some a.
Proof. intros A B. destruct (attempt e peaks n) as [a|] eqn:E; [exists a; reflexivity|]. apply attempt_none in E. lia. Qed.
Section Search.
Variables e peaks : list Qc.
Variable maxacc : Qc.
Variables nincrement nmax n0 fuel : nat.
Hypothesis spread_e : spread e.
Hypothesis peaks_ok : never_thrice peaks.
Hypothesis increment : (0 < nincrement)%nat.
Hypothesis enough : (nmax < fuel)%nat.
Hypothesis start : (length e <= n0)%nat.
Local Notation result := (search e peaks maxacc nincrement nmax fuel n0).

Lemma finishes : result <> Unfinished.
Proof.
  intros H. pose proof (search_unfinished e peaks spread_e peaks_ok maxacc nincrement nmax fuel n0 H nmax enough) as [T _]. unfold tried in T. nia.
Qed.
Lemma result_found a : result = Found a <->
  exists n, tries n0 nincrement nmax n /\ best e peaks n a /\ good maxacc e a /\ (forall m, tries n0 nincrement nmax m -> (m < n)%nat -> ~ any_good maxacc e peaks m).
Proof.
  rewrite (search_found e peaks spread_e peaks_ok). split.
  - intros [j [J1 [J2 [J3 J4]]]]. exists (tried nincrement n0 j). apply (attempt_is e peaks spread_e peaks_ok) in J3. split; [|split; [exact J3|split; [apply (best_good e peaks maxacc _ a J3), J4|]]].
    + destruct j as [|j]; [left; unfold tried; lia|right]. exists (S j). split; [reflexivity|]. apply (J2 j ltac:(lia)).
    + intros m T Hm. assert (exists i, m = tried nincrement n0 i) as [i ->] by (destruct T as [->|[i [-> _]]]; [exists 0%nat; unfold tried; lia|exists i; reflexivity]). apply J2. unfold tried in Hm. nia.
  - intros [n [T [B [G M]]]]. apply (best_good e peaks maxacc n a B) in G. apply (attempt_is e peaks spread_e peaks_ok) in B. pose proof (good_enough _ _ _ _ G) as [E1 E2].
    assert (exists j, n = tried nincrement n0 j /\ (j = 0%nat \/ (n <= nmax)%nat)) as [j [-> Hj]] by (destruct T as [->|[i [-> T]]]; [exists 0%nat; unfold tried; split; [lia|left; reflexivity]|exists i; split; [reflexivity|right; exact T]]).
    exists j. split; [|split; [|auto]].
    + destruct Hj as [->|Hj]; [lia|]. unfold tried in Hj. nia.
    + intros i Hi. destruct Hj as [->|Hj]; [lia|]. split; [unfold tried in *; nia|]. split.
      * apply M; [right; exists i; split; [reflexivity|unfold tried in *; nia]|unfold tried; nia].
      * destruct (some_attempt e peaks (tried nincrement n0 i)) as [b Eb]; [unfold tried; lia|exact E1|rewrite Eb; discriminate].
Qed.
Lemma least_try (P : nat -> Prop) : (forall n, P n \/ ~ P n) -> forall k, (exists j, (j <= k)%nat /\ P j) -> exists j, (j <= k)%nat /\ P j /\ forall i, (i < j)%nat -> ~ P i.
Proof.
  intros D. induction k as [|k IH]; intros [j [J1 J2]].
  - exists j. split; [exact J1|]. split; [exact J2|]. intros; lia.
  - assert (Dk : (exists i, (i <= k)%nat /\ P i) \/ ~ (exists i, (i <= k)%nat /\ P i)).
    { clear - D. induction k as [|k IH]; [destruct (D 0%nat) as [H|H]; [left; exists 0%nat; auto|right; intros [i [A B]]; assert (i = 0%nat) as -> by lia; contradiction]|].
      destruct IH as [[i [A B]]|IH]; [left; exists i; split; [lia|exact B]|]. destruct (D (S k)) as [H|H]; [left; exists (S k); auto|right]. intros [i [A B]]. destruct (Nat.eq_dec i (S k)) as [->|N]; [contradiction|]. apply IH. exists i. split; [lia|exact B]. }
    destruct Dk as [Y|N]; [destruct (IH Y) as [i [A [B C]]]; exists i; split; [lia|auto]|]. exists j. split; [exact J1|]. split; [exact J2|]. intros i Hi C. apply N. exists i. split; [lia|exact C].
Qed.
Lemma good_decides n : (length e <= n)%nat -> any_good maxacc e peaks n \/ ~ any_good maxacc e peaks n.
Proof.
  intros L. destruct (Nat.le_gt_cases (length e) (length peaks)) as [G|G]; [|right; intros C; apply good_enough in C; lia].
  destruct (some_attempt e peaks n L G) as [b Eb]. destruct (attempt_verdict e peaks spread_e peaks_ok maxacc n b Eb) as [V1 V2]. destruct (too_bad maxacc (length e) (accuracy e b)); [right; apply V2|left; apply V1]; reflexivity.
Qed.
Lemma result_raises : result = Raises <-> (forall n, tries n0 nincrement nmax n -> ~ any_good maxacc e peaks n).
Proof.
  split.
  - intros H n T G. set (P := fun j => tries n0 nincrement nmax (tried nincrement n0 j) /\ any_good maxacc e peaks (tried nincrement n0 j)).
    assert (exists j, n = tried nincrement n0 j) as [j ->] by (destruct T as [->|[i [-> _]]]; [exists 0%nat; unfold tried; lia|exists i; reflexivity]).
    assert (D : forall i, P i \/ ~ P i).
    { intros i. unfold P. destruct (good_decides (tried nincrement n0 i) ltac:(unfold tried; lia)) as [Y|N]; [|right; intros [_ C]; contradiction].
      destruct i as [|i]; [left; split; [left; unfold tried; lia|exact Y]|]. destruct (Nat.le_gt_cases (tried nincrement n0 (S i)) nmax) as [L|L]; [left; split; [right; exists (S i); split; [reflexivity|exact L]|exact Y]|right].
      intros [[C|[k [C1 C2]]] _]; unfold tried in *; nia. }
    destruct (least_try P D j) as [k [_ [[K1 K2] K3]]]; [exists j; split; [lia|split; assumption]|].
    pose proof (good_enough _ _ _ _ K2) as [E1 E2]. destruct (some_attempt _ _ _ E2 E1) as [b Eb].
    assert (F : result = Found b); [|congruence]. apply result_found. exists (tried nincrement n0 k). apply (attempt_is e peaks spread_e peaks_ok) in Eb. split; [exact K1|]. split; [exact Eb|]. split; [apply (best_good e peaks maxacc _ b Eb), K2|].
    intros m Tm Hm C. assert (exists i, m = tried nincrement n0 i) as [i ->] by (destruct Tm as [->|[i [-> _]]]; [exists 0%nat; unfold tried; lia|exists i; reflexivity]). apply (K3 i); [unfold tried in Hm; nia|]. split; assumption.
  - intros H. pose proof finishes as F. destruct result as [a| |] eqn:E; [|reflexivity|contradiction]. apply result_found in E as [n [T [B [G _]]]]. exfalso. apply (H n T). apply (best_good e peaks maxacc n a B), G.
Qed.
End Search.

(* ---------- straight assignments ---------- *)

Lemma same_fraction e0 e1 e2 a0 a1 a2 : e0 <> e2 -> a0 <> a2 -> fraction e0 e1 e2 = fraction a0 a1 a2 -> (e1 - e0) * (a2 - a0) = (a1 - a0) * (e2 - e0).
Proof.
  intros E A H. unfold fraction in H. assert (Ne : e2 - e0 <> 0) by (intros C; apply (proj1 (sub_0 _ _)) in C; contradiction). assert (Na : a2 - a0 <> 0) by (intros C; apply (proj1 (sub_0 _ _)) in C; contradiction).
  assert ((e1 - e0) * (a2 - a0) = (e1 - e0) / (e2 - e0) * ((e2 - e0) * (a2 - a0))) as -> by (field; exact Ne). rewrite H. field. exact Na.
Qed.
Lemma square_0 d : d * d = 0 -> d = 0.
Proof. intros H. destruct (Qcmult_integral _ _ H); assumption. Qed.
Lemma fraction_affine s c x y z : s <> 0 -> x <> z -> fraction (s * x + c) (s * y + c) (s * z + c) = fraction x y z.
Proof.
  intros S N. unfold fraction. assert (z - x <> 0) by (intros C; apply (proj1 (sub_0 _ _)) in C; contradiction). field. split; [assumption|]. intros C. assert (D : s * (z - x) = 0) by (rewrite <- C; ring). apply Qcmult_integral in D as [D|D]; contradiction.
Qed.
Lemma strict_spread e : StronglySorted Qclt e -> spread e.
Proof.
  intros S. induction S as [|x t S IH F]; [exact I|]. destruct t as [|y [|z t]]; [exact I|exact I|]. split; [|exact IH]. rewrite Forall_forall in F. intros ->. exact (Qclt_not_eq _ _ (F z (or_intror (or_introl eq_refl))) eq_refl).
Qed.
Lemma misfit_straight : forall e a, length e = length a -> StronglySorted Qclt e -> qsorted a -> spread a -> (misfit e a = 0 <-> straight e a).
Proof.
  intros e a L S Sa Sp. split.
  - revert a L Sa Sp. induction S as [|e0 e S IH F]; intros a L Sa Sp H.
    + destruct a; [|discriminate]. exists 0, 0. split; [apply Qcle_refl|reflexivity].
    + destruct a as [|a0 a]; [discriminate|]. destruct e as [|e1 e].
      * destruct a; [|discriminate]. exists 0, a0. split; [apply Qcle_refl|]. cbn. f_equal. ring.
      * destruct a as [|a1 a]; [discriminate|]. inversion F as [|? ? F1 F2]; subst. pose proof (qsorted_nth _ Sa 0 1 ltac:(cbn; lia)) as A01. cbn [nth] in A01. destruct e as [|e2 e].
        -- destruct a; [|discriminate]. assert (N : e1 - e0 <> 0) by (intros C; apply (proj1 (sub_0 _ _)) in C; subst; exact (Qclt_not_eq _ _ F1 eq_refl)).
           exists ((a1 - a0) / (e1 - e0)), (a0 - (a1 - a0) / (e1 - e0) * e0). split; [|cbn; f_equal; [field; exact N|f_equal; field; exact N]].
           unfold Qcdiv. apply (Qcle_trans _ (0 * / (e1 - e0))); [qlra|]. apply Qcmult_le_compat_r; [qlra|]. apply Qclt_le_weak. assert (0 < e1 - e0) as P by qlra. revert P N. generalize (e1 - e0). intros d P N. apply Qcnot_le_lt. intros C. assert (G : d * / d = 1) by (field; exact N). set (i := / d) in *. clearbody i. qnra.
        -- destruct a as [|a2 a]; [discriminate|]. destruct Sp as [Sp0 Sp]. rewrite misfit_cons in H. pose proof (misfit_nonneg (e1 :: e2 :: e) (a1 :: a2 :: a)) as P. set (d := fraction e0 e1 e2 - fraction a0 a1 a2) in *. set (m := misfit (e1 :: e2 :: e) (a1 :: a2 :: a)) in *.
           assert (Hd : d * d = 0) by (clearbody d m; qnra). assert (Hm : m = 0) by (clearbody d m; qnra). apply square_0 in Hd. unfold d in Hd. apply (proj1 (sub_0 _ _)) in Hd. symmetry in Hd.
           destruct (IH (a1 :: a2 :: a) ltac:(cbn in L |- *; lia) (proj1 (proj2 (proj1 (qsorted_app [a0] (a1 :: a2 :: a)) Sa))) Sp Hm) as [s [c [S0 E]]]. cbn [map] in E. injection E as E1 E2 E3.
           exists s, c. split; [exact S0|]. cbn [map]. rewrite E1, E2, E3. f_equal. inversion F2 as [|? ? F3 _]; subst. inversion S as [|? ? _ F4]; subst. inversion F4 as [|? ? F5 _]; subst.
           assert (N02 : e0 <> e2) by (intros C; subst; exact (Qclt_not_eq _ _ F3 eq_refl)). pose proof (same_fraction _ _ _ _ _ _ N02 Sp0 Hd) as X.
           assert (N12 : e2 - e1 <> 0) by (intros C; apply (proj1 (sub_0 _ _)) in C; subst; exact (Qclt_not_eq _ _ F5 eq_refl)).
           assert (Z : (e2 - e1) * (a0 - (s * e0 + c)) = 0). { assert ((e2 - e1) * (a0 - (s * e0 + c)) = (e1 - e0) * (s * e2 + c - a0) - (s * e1 + c - a0) * (e2 - e0)) as -> by ring. rewrite X. ring. }
           apply Qcmult_integral in Z as [Z|Z]; [contradiction|]. apply (proj1 (sub_0 _ _)) in Z. symmetry. exact Z.
  - intros [s [c [S0 ->]]]. clear L Sa. revert Sp. induction S as [|e0 e S IH F]; intros Sp; [reflexivity|]. destruct e as [|e1 [|e2 e]]; [reflexivity|reflexivity|]. cbn [map] in Sp |- *. rewrite misfit_cons. destruct Sp as [Sp0 Sp]. change (misfit (e1 :: e2 :: e) (s * e1 + c :: s * e2 + c :: map (fun x => s * x + c) e)) with (misfit (e1 :: e2 :: e) (map (fun x => s * x + c) (e1 :: e2 :: e))). rewrite (IH Sp).
    rewrite fraction_affine; [ring| |].
    + intros ->. apply Sp0. ring.
    + intros ->. apply Sp0. reflexivity.
Qed.

(* ---------- fractions of sorted values ---------- *)

Lemma fraction_unit x y z : x <= y -> y <= z -> x <> z -> 0 <= fraction x y z <= 1.
Proof.
  intros A B N. unfold fraction. assert (Nz : z - x <> 0) by (intros C; apply (proj1 (sub_0 _ _)) in C; contradiction). assert (0 < z - x) as P. { apply Qcnot_le_lt. intros C. apply N. apply Qcle_antisym; qlra. }
  assert (E : (y - x) / (z - x) * (z - x) = y - x) by (field; exact Nz). set (f := (y - x) / (z - x)) in *. set (d := z - x) in *. assert (y - x <= d) by (unfold d; qlra). clearbody f. split; apply Qcnot_lt_le; intros C; assert (0 <= y - x) by qlra; set (u := y - x) in *; clearbody u d; qnra.
Qed.
Lemma qz_nat_S' n : qz (Z.of_nat (S n)) = qz (Z.of_nat n) + 1.
Proof. rewrite Nat2Z.inj_succ, <- Z.add_1_r, qz_add. reflexivity. Qed.
Lemma misfit_bound : forall e a, qsorted e -> qsorted a -> spread e -> spread a -> misfit e a <= qz (Z.of_nat (length e)).
Proof.
  induction e as [|e0 e IH]; intros a Se Sa Pe Pa; [apply Qcle_refl|]. assert (B : forall n, 0 <= qz (Z.of_nat n)) by (intros n; rewrite <- qz_0; apply qz_le; lia).
  destruct e as [|e1 [|e2 e]]; [apply B|destruct a; apply B|]. destruct a as [|a0 [|a1 [|a2 a]]]; try apply B.
  rewrite misfit_cons. destruct Pe as [Ne Pe], Pa as [Na Pa].
  pose proof (fraction_unit e0 e1 e2 (qsorted_nth _ Se 0 1 ltac:(cbn; lia)) (qsorted_nth _ Se 1 2 ltac:(cbn; lia)) Ne) as [F1 F2]. pose proof (fraction_unit a0 a1 a2 (qsorted_nth _ Sa 0 1 ltac:(cbn; lia)) (qsorted_nth _ Sa 1 2 ltac:(cbn; lia)) Na) as [G1 G2].
  specialize (IH (a1 :: a2 :: a) (proj1 (proj2 (proj1 (qsorted_app [e0] _) Se))) (proj1 (proj2 (proj1 (qsorted_app [a0] _) Sa))) Pe Pa).
  change (length (e0 :: e1 :: e2 :: e)) with (S (length (e1 :: e2 :: e))). rewrite qz_nat_S'. set (m := misfit _ _) in *. set (q := qz _) in *. set (f := fraction e0 e1 e2) in *. set (g := fraction a0 a1 a2) in *. clearbody m q f g. qnra.
Qed.

(* ---------- the first of equals ---------- *)

Lemma combos_first {A} (l : list A) k : (k <= length l)%nat -> exists t, combos k l = firstn k l :: t.
Proof.
  revert k. induction l as [|x t IH]; intros [|k] L; cbn [length] in L; try lia; cbn [combos firstn]; [exists []; reflexivity|exists []; reflexivity|]. destruct (IH k ltac:(lia)) as [u ->]. cbn [map app]. eexists. reflexivity.
Qed.
Lemma pick_same {A} (key : A -> option Qc) l : forall cur, (forall x, In x l -> less_nan (key x) (key cur) = false) -> pick key cur l = cur.
Proof. induction l as [|x t IH]; intros cur H; [reflexivity|]. cbn [pick]. rewrite (H x (or_introl eq_refl)). apply IH. intros y Hy. apply H. right. exact Hy. Qed.
Lemma combos_length {A} k (l s : list A) : In s (combos k l) -> length s = k.
Proof.
  revert k s. induction l as [|x t IH]; intros [|k] s H; cbn [combos] in H; [destruct H as [<-|[]]; reflexivity|destruct H|destruct H as [<-|[]]; reflexivity|]. apply in_app_iff in H as [H|H]; [|apply IH, H]. apply in_map_iff in H as [u [<- Hu]]. cbn. f_equal. apply IH, Hu.
Qed.
Lemma attempt_first e peaks n : (forall a b, length a = length e -> length b = length e -> less_nan (accuracy e a) (accuracy e b) = false) -> (length e <= n)%nat -> (length e <= length peaks)%nat -> attempt e peaks n = Some (qsort (firstn (length e) peaks)).
Proof.
  intros H Ln Lp. unfold attempt. destruct (combos_first (firstn n peaks) (length e)) as [t E]; [rewrite firstn_length; lia|]. rewrite E. cbn [map]. f_equal. rewrite firstn_firstn, Nat.min_l by lia. apply pick_same. intros x Hx. apply in_map_iff in Hx as [s [<- Hs]].
  apply H; rewrite qsort_length; [apply (combos_length _ (firstn n peaks)); rewrite E; right; exact Hs|rewrite firstn_length; lia].
Qed.
Lemma accuracy_short e a : (length e <= 2)%nat -> accuracy e a = Some 0.
Proof. intros L. destruct e as [|e0 [|e1 [|e2 e]]]; [reflexivity|reflexivity|reflexivity|cbn in L; lia]. Qed.

(* ---------- moving and scaling ---------- *)

Lemma qsort_map s c l : 0 < s -> qsort (map (fun x => s * x + c) l) = map (fun x => s * x + c) (qsort l).
Proof.
  intros S. assert (M : forall a b, a <= b -> s * a + c <= s * b + c) by (intros; qnra). apply sorted_unique; [apply qsort_sorted| |].
  - generalize (qsort_sorted l). generalize (qsort l). clear l. induction l as [|x t IH]; intros H; [exact I|]. apply (qsorted_app [x] t) in H as [_ [H1 H2]]. apply (proj2 (qsorted_app [s * x + c] _)). split; [split; [intros y []|exact I]|]. split; [exact (IH H1)|]. intros a b [<-|[]] Hb. apply in_map_iff in Hb as [y [<- Hy]]. apply M, (H2 x y (or_introl eq_refl) Hy).
  - apply (Permutation_trans (Permutation_sym (qsort_perm _))), Permutation_map, qsort_perm.
Qed.
Lemma deviation_affine s c e x y z : s <> 0 -> deviation e (s * x + c, s * y + c, s * z + c) = deviation e (x, y, z).
Proof.
  intros S. destruct e as [[e0 e1] e2]. unfold deviation. destruct (Qc_eq_dec (e2 - e0) 0) as [E|E]; [reflexivity|].
  assert (EZ : s * z + c - (s * x + c) = s * (z - x)) by ring. destruct (Qc_eq_dec (z - x) 0) as [N|N].
  - destruct (Qc_eq_dec (s * z + c - (s * x + c)) 0) as [C|C]; [reflexivity|]. exfalso. apply C. rewrite EZ, N. ring.
  - destruct (Qc_eq_dec (s * z + c - (s * x + c)) 0) as [C|C]; [exfalso; rewrite EZ in C; apply Qcmult_integral in C as [C|C]; contradiction|]. f_equal.
    set (f := (e1 - e0) / (e2 - e0)). assert (G : ((s * x + c) * (1 - f) + (s * z + c) * f - (s * y + c)) / (s * z + c - (s * x + c)) = (x * (1 - f) + z * f - y) / (z - x)); [|rewrite G; reflexivity]. rewrite EZ in C. rewrite EZ. field. split; assumption.
Qed.
Lemma accuracy_affine s c e a : s <> 0 -> accuracy e (map (fun x => s * x + c) a) = accuracy e a.
Proof.
  intros S. unfold accuracy. generalize (windows e). clear e. induction a as [|x t IH]; intros w; [reflexivity|]. destruct t as [|y [|z t]]; [reflexivity|reflexivity|]. cbn [map] in *. rewrite !windows_cons. destruct w as [|e w]; [reflexivity|]. cbn [combine fold_right fst snd]. rewrite (IH w), deviation_affine by exact S. reflexivity.
Qed.
Lemma deviation_energies s c x y z a : s <> 0 -> deviation (s * x + c, s * y + c, s * z + c) a = deviation (x, y, z) a.
Proof.
  intros S. destruct a as [[a0 a1] a2]. unfold deviation.
  assert (EZ : s * z + c - (s * x + c) = s * (z - x)) by ring. destruct (Qc_eq_dec (z - x) 0) as [N|N].
  - destruct (Qc_eq_dec (s * z + c - (s * x + c)) 0) as [C|C]; [reflexivity|]. exfalso. apply C. rewrite EZ, N. ring.
  - destruct (Qc_eq_dec (s * z + c - (s * x + c)) 0) as [C|C]; [exfalso; rewrite EZ in C; apply Qcmult_integral in C as [C|C]; contradiction|].
    assert ((s * y + c - (s * x + c)) / (s * z + c - (s * x + c)) = (y - x) / (z - x)) as ->; [|reflexivity]. rewrite EZ in C |- *. field. split; assumption.
Qed.
Lemma accuracy_energies s c e a : s <> 0 -> accuracy (map (fun x => s * x + c) e) a = accuracy e a.
Proof.
  intros S. unfold accuracy. generalize (windows a). clear a. induction e as [|x t IH]; intros w; [reflexivity|]. destruct t as [|y [|z t]]; [reflexivity|reflexivity|]. cbn [map] in *. rewrite !windows_cons. destruct w as [|a w]; [reflexivity|]. cbn [combine fold_right fst snd]. rewrite (IH w), deviation_energies by exact S. reflexivity.
Qed.
Lemma pick_map {A B} (key : A -> option Qc) (key' : B -> option Qc) (f : A -> B) l : (forall x, key' (f x) = key x) -> forall cur, pick key' (f cur) (map f l) = f (pick key cur l).
Proof. intros H. induction l as [|x t IH]; intros cur; [reflexivity|]. cbn [map pick]. rewrite !H. destruct (less_nan (key x) (key cur)); apply IH. Qed.
Lemma pick_ext {A} (key key' : A -> option Qc) l : (forall x, key' x = key x) -> forall cur, pick key' cur l = pick key cur l.
Proof. intros H. induction l as [|x t IH]; intros cur; [reflexivity|]. cbn [pick]. rewrite !H. apply IH. Qed.
Lemma attempt_affine s c e peaks n : 0 < s -> attempt e (map (fun x => s * x + c) peaks) n = option_map (map (fun x => s * x + c)) (attempt e peaks n).
Proof.
  intros S. assert (S0 : s <> 0) by (intros ->; exact (Qclt_not_eq _ _ S eq_refl)). unfold attempt. rewrite firstn_map, combos_map, map_map. rewrite (map_ext _ (fun x => map (fun x => s * x + c) (qsort x))) by (intros; apply qsort_map, S). rewrite <- (map_map qsort (map (fun x => s * x + c))).
  destruct (map qsort (combos (length e) (firstn n peaks))) as [|a t]; [reflexivity|]. cbn [map option_map]. f_equal. apply pick_map. intros x. apply accuracy_affine, S0.
Qed.
Definition move_outcome (f : Qc -> Qc) (o : outcome) : outcome := match o with Found a => Found (map f a) | Raises => Raises | Unfinished => Unfinished end.
Lemma search_affine s c e peaks maxacc ninc nmax fuel : 0 < s -> forall n, search e (map (fun x => s * x + c) peaks) maxacc ninc nmax fuel n = move_outcome (fun x => s * x + c) (search e peaks maxacc ninc nmax fuel n).
Proof.
  intros S. assert (S0 : s <> 0) by (intros ->; exact (Qclt_not_eq _ _ S eq_refl)). induction fuel as [|f IH]; intros n; [reflexivity|]. cbn [search]. rewrite attempt_affine by exact S. destruct (attempt e peaks n) as [a|]; [|reflexivity]. cbn [option_map]. rewrite accuracy_affine by exact S0. destruct (too_bad _ _ _); [|reflexivity]. destruct (Nat.ltb _ _); [reflexivity|apply IH].
Qed.
Lemma search_energies s c e peaks maxacc ninc nmax fuel : s <> 0 -> forall n, search (map (fun x => s * x + c) e) peaks maxacc ninc nmax fuel n = search e peaks maxacc ninc nmax fuel n.
Proof.
  intros S. induction fuel as [|f IH]; intros n; [reflexivity|]. cbn [search]. assert (attempt (map (fun x => s * x + c) e) peaks n = attempt e peaks n) as ->.
  { unfold attempt. rewrite map_length. destruct (map qsort _) as [|a t]; [reflexivity|]. f_equal. apply pick_ext. intros x. apply accuracy_energies, S. }
  destruct (attempt e peaks n) as [a|]; [|reflexivity]. rewrite accuracy_energies, map_length by exact S. destruct (too_bad _ _ _); [|reflexivity]. destruct (Nat.ltb _ _); [reflexivity|apply IH].
Qed.
Lemma sort_ext {A} (le le' : A -> A -> bool) l : (forall a b, le a b = le' a b) -> stable_sort le l = stable_sort le' l.
Proof.
  intros H. unfold stable_sort. induction l as [|x t IH]; [reflexivity|]. cbn [fold_right]. rewrite IH. generalize (fold_right (NameModel.insert le') [] t). intros u. induction u as [|y u IHu]; [reflexivity|]. cbn [NameModel.insert]. rewrite H, IHu. reflexivity.
Qed.

(* ---------- local maxima ---------- *)

Lemma qmin_smallest l : l <> [] -> smallest l (qmin_list l).
Proof.
  destruct l as [|a t]; [contradiction|]. intros _. cbn [qmin_list]. revert a. induction t as [|x t IH]; intros a.
  - split; [left; reflexivity|]. intros v [<-|[]]. apply Qcle_refl.
  - cbn [fold_left]. destruct (qltb x a) eqn:E.
    + apply qltb_lt in E. destruct (IH x) as [I B]. split; [right; exact I|]. intros v [<-|Hv]; [|apply B, Hv]. specialize (B x (or_introl eq_refl)). qlra.
    + apply qltb_ge in E. destruct (IH a) as [I B]. split; [destruct I as [I|I]; [left; exact I|right; right; exact I]|]. intros v [<-|[<-|Hv]]; [apply B; left; reflexivity| |apply B; right; exact Hv]. specialize (B a (or_introl eq_refl)). qlra.
Qed.
Lemma qmax_largest l : l <> [] -> largest l (qmax_list l).
Proof.
  destruct l as [|a t]; [contradiction|]. intros _. cbn [qmax_list]. revert a. induction t as [|x t IH]; intros a.
  - split; [left; reflexivity|]. intros v [<-|[]]. apply Qcle_refl.
  - cbn [fold_left]. destruct (qltb a x) eqn:E.
    + apply qltb_lt in E. destruct (IH x) as [I B]. split; [right; exact I|]. intros v [<-|Hv]; [|apply B, Hv]. specialize (B x (or_introl eq_refl)). qlra.
    + apply qltb_ge in E. destruct (IH a) as [I B]. split; [destruct I as [I|I]; [left; exact I|right; right; exact I]|]. intros v [<-|[<-|Hv]]; [apply B; left; reflexivity| |apply B; right; exact Hv]. specialize (B a (or_introl eq_refl)). qlra.
Qed.
Lemma smallest_unique l m m' : smallest l m -> smallest l m' -> m = m'.
Proof. intros [I B] [I' B']. apply Qcle_antisym; auto. Qed.
Lemma largest_unique l m m' : largest l m -> largest l m' -> m = m'.
Proof. intros [I B] [I' B']. apply Qcle_antisym; auto. Qed.
Lemma counted_filter (P : Qc -> Prop) f l : (forall v, In v l -> (f v = true <-> P v)) -> counted P l (length (filter f l)).
Proof.
  induction l as [|v t IH]; intros H; [constructor|]. cbn [filter]. pose proof (H v (or_introl eq_refl)) as V. specialize (IH (fun u Hu => H u (or_intror Hu))). destruct (f v); [constructor; [apply V; reflexivity|exact IH]|constructor; [intros C; apply V in C; discriminate|exact IH]].
Qed.

Section Bins.
Variables (lo hi : Qc) (n : nat).
Hypothesis bins : (0 < n)%nat.
Hypothesis range : lo < hi.
Lemma qz_pos k : (0 < k)%nat -> 0 < qz (Z.of_nat k).
Proof. intros H. rewrite <- qz_0. apply qz_lt. lia. Qed.
Lemma edge_form i : (edge lo hi n i - lo) * qz (Z.of_nat n) = (hi - lo) * qz (Z.of_nat i).
Proof. unfold edge. field. pose proof (qz_pos n bins) as P. intros C. rewrite C in P. exact (Qclt_not_eq _ _ P eq_refl). Qed.
Lemma edge_lt i j : (i < j)%nat -> edge lo hi n i < edge lo hi n j.
Proof.
  intros H. pose proof (edge_form i) as Ei. pose proof (edge_form j) as Ej. pose proof (qz_pos n bins) as P. assert (Q : qz (Z.of_nat i) < qz (Z.of_nat j)) by (apply qz_lt; lia).
  set (a := edge lo hi n i) in *. set (b := edge lo hi n j) in *. set (N := qz (Z.of_nat n)) in *. set (x := qz (Z.of_nat i)) in *. set (y := qz (Z.of_nat j)) in *. clearbody a b N x y.
  apply Qcnot_le_lt. intros C. assert (0 < hi - lo) as R by qlra. set (d := hi - lo) in *. clearbody d. assert (D : d * x < d * y) by qnra. rewrite <- Ei, <- Ej in D. qnra.
Qed.
Lemma edge_0 : edge lo hi n 0 = lo.
Proof. pose proof (edge_form 0) as E. change (qz (Z.of_nat 0)) with (qz 0) in E. rewrite qz_0 in E. pose proof (qz_pos n bins) as P. set (N := qz _) in *. clearbody N. assert (Z : (edge lo hi n 0 - lo) * N = 0) by (rewrite E; ring). apply Qcmult_integral in Z as [Z|Z]; [apply (proj1 (sub_0 _ _)) in Z; symmetry; exact Z|]. rewrite Z in P. destruct (Qclt_not_eq _ _ P eq_refl). Qed.
Lemma edge_n : edge lo hi n n = hi.
Proof. pose proof (edge_form n) as E. pose proof (qz_pos n bins) as P. set (N := qz _) in *. clearbody N. assert (Z : (edge lo hi n n - hi) * N = 0). { assert ((edge lo hi n n - hi) * N = (edge lo hi n n - lo) * N - (hi - lo) * N) as -> by ring. rewrite E. ring. } apply Qcmult_integral in Z as [Z|Z]; [apply (proj1 (sub_0 _ _)) in Z; symmetry; exact Z|]. rewrite Z in P. destruct (Qclt_not_eq _ _ P eq_refl). Qed.
Lemma one_bin v : lo <= v -> v < hi -> exists i, (i < n)%nat /\ in_bin lo hi n i v /\ forall j, in_bin lo hi n j v -> j = i.
Proof.
  intros A B. assert (X : exists i, (i < n)%nat /\ in_bin lo hi n i v).
  { rewrite <- edge_n in B. rewrite <- edge_0 in A.
    assert (G : forall m, v < edge lo hi n m -> exists i, (i < m)%nat /\ in_bin lo hi n i v).
    { induction m as [|m IH]; intros M; [exfalso; qlra|]. destruct (Qclt_le_dec v (edge lo hi n m)) as [G|G]; [destruct (IH G) as [i [I1 I2]]; exists i; split; [lia|exact I2]|]. exists m. split; [lia|]. split; [exact G|]. replace (m + 1)%nat with (S m) by lia. exact M. }
    exact (G n B). }
  destruct X as [i [L I]]. exists i. split; [exact L|]. split; [exact I|]. intros j J. destruct (Nat.lt_trichotomy j i) as [G|[G|G]]; [|exact G|].
  - exfalso. destruct I as [I _], J as [_ J]. change (edge lo hi n i <= v) in I. change (v < edge lo hi n (j + 1)) in J. destruct (Nat.eq_dec (j + 1) i) as [E|E]; [rewrite E in J; qlra|]. pose proof (edge_lt (j + 1) i ltac:(lia)). qlra.
  - exfalso. destruct I as [_ I], J as [J _]. change (edge lo hi n j <= v) in J. change (v < edge lo hi n (i + 1)) in I. destruct (Nat.eq_dec (i + 1) j) as [E|E]; [rewrite E in I; qlra|]. pose proof (edge_lt (i + 1) j ltac:(lia)). qlra.
Qed.
Lemma bin_flag i v : (i < n)%nat -> lo <= v -> v < hi -> (qleb (edge lo hi n i) v && (qltb v (edge lo hi n (i + 1)) || (Nat.eqb (i + 1) n && qleb v (edge lo hi n (i + 1)))))%bool = true <-> in_bin lo hi n i v.
Proof.
  intros L A B. unfold in_bin. fold (edge lo hi n i) (edge lo hi n (i + 1)). rewrite andb_true_iff, orb_true_iff, andb_true_iff, qleb_le, qltb_lt, Nat.eqb_eq. split.
  - intros [H1 [H2|[H2 _]]]; [auto|]. split; [exact H1|]. rewrite H2, edge_n. exact B.
  - intros [H1 H2]. auto.
Qed.
Lemma sum_split (f g h : nat -> nat) l : (forall i, In i l -> f i = (g i + h i)%nat) -> list_sum (map f l) = (list_sum (map g l) + list_sum (map h l))%nat.
Proof. induction l as [|x t IH]; intros H; [reflexivity|]. cbn [map list_sum fold_right]. rewrite (H x (or_introl eq_refl)). fold (list_sum (map f t)) (list_sum (map g t)) (list_sum (map h t)). rewrite (IH (fun i Hi => H i (or_intror Hi))). lia. Qed.
Lemma sum_one (b : nat -> bool) : forall k i0 i, (i0 <= i < i0 + k)%nat -> b i = true -> (forall j, (i0 <= j < i0 + k)%nat -> b j = true -> j = i) -> list_sum (map (fun j => if b j then 1 else 0)%nat (seq i0 k)) = 1%nat.
Proof.
  assert (Z0 : forall k i0, (forall j, (i0 <= j < i0 + k)%nat -> b j = false) -> list_sum (map (fun j => if b j then 1 else 0)%nat (seq i0 k)) = 0%nat).
  { induction k as [|k IH]; intros i0 H; [reflexivity|]. cbn [seq map]. change (list_sum (?x :: ?l)) with (x + list_sum l)%nat. rewrite (H i0) by lia. rewrite IH; [reflexivity|]. intros j Hj. apply H. lia. }
  induction k as [|k IH]; intros i0 i L B U; [lia|]. cbn [seq map]. change (list_sum (?x :: ?l)) with (x + list_sum l)%nat. destruct (Nat.eq_dec i0 i) as [<-|N].
  - rewrite B. rewrite Z0; [reflexivity|]. intros j Hj. destruct (b j) eqn:E; [|reflexivity]. apply U in E; lia.
  - assert (b i0 = false) as -> by (destruct (b i0) eqn:E; [apply U in E; lia|reflexivity]). apply (IH (S i0) i); [lia|exact B|]. intros j Hj. apply U. lia.
Qed.
Lemma all_counted p : (forall v, In v p -> lo <= v /\ v < hi) -> list_sum (map (bin_count p lo hi n) (seq 0 n)) = length p.
Proof.
  induction p as [|v t IH]; intros H.
  - rewrite (map_ext _ (fun _ => 0%nat)) by reflexivity. generalize (seq 0 n). induction l as [|x l IH]; [reflexivity|exact IH].
  - destruct (H v (or_introl eq_refl)) as [V1 V2]. destruct (one_bin v V1 V2) as [i [L [I U]]].
    set (b := fun j => (qleb (edge lo hi n j) v && (qltb v (edge lo hi n (j + 1)) || (Nat.eqb (j + 1) n && qleb v (edge lo hi n (j + 1)))))%bool).
    rewrite (sum_split (bin_count (v :: t) lo hi n) (fun j => if b j then 1 else 0)%nat (bin_count t lo hi n)).
    + rewrite (IH (fun u Hu => H u (or_intror Hu))). assert (S1 : list_sum (map (fun j => if b j then 1 else 0)%nat (seq 0 n)) = 1%nat); [|rewrite S1; reflexivity].
      apply (sum_one b n 0 i); [lia|exact (proj2 (bin_flag i v L V1 V2) I)|]. intros j Hj Bj. apply U. exact (proj1 (bin_flag j v ltac:(lia) V1 V2) Bj).
    + intros j _. unfold bin_count. cbn [filter]. fold (b j). destruct (b j); reflexivity.
Qed.
End Bins.

Lemma nth_map_in {A B} (f : A -> B) l i da db : (i < length l)%nat -> nth i (map f l) db = f (nth i l da).
Proof. intros H. rewrite (nth_indep _ db (f da)) by (rewrite map_length; exact H). apply map_nth. Qed.
Lemma map_nth_perm (l : list nat) is : Permutation is (seq 0 (length l)) -> Permutation (map (fun j => nth j l 0%nat) is) l.
Proof.
  intros P. apply (Permutation_trans (Permutation_map (fun j => nth j l 0%nat) P)). clear P. assert (map (fun j => nth j l 0%nat) (seq 0 (length l)) = l) as ->; [|apply Permutation_refl].
  induction l as [|x t IH]; [reflexivity|]. cbn [length seq map nth]. rewrite <- seq_shift, map_map. cbn [nth]. rewrite IH. reflexivity.
Qed.
Lemma neg_le a b : - a <= - b -> b <= a.
Proof. intros H. qlra. Qed.
