(* C89: nearest neighbours of a channel *)
From Coq Require Import ZArith Lia Bool FinFun String List.
From Verif Require Import NbrModel NbrSpec NbrProofs.
From Verif Require XtModel.
Import ListNotations.
Open Scope Z_scope.

Lemma require_ok : forall {A : Type} (z : A) n d, of_size n d -> exists l, require z n d = Some l.
Proof. intros A z n [l|] H; simpl in *; [|eauto]. rewrite H, Nat.eqb_refl. eauto. Qed.
Lemma zero_row_eq : forall r, zero_row r = true <-> r = (0, 0, 0).
Proof.
  intros [[c d] n]. simpl. rewrite !andb_true_iff, !Z.eqb_eq. split; [intros [[-> ->] ->]; reflexivity|].
  intros H. injection H as -> -> ->. auto.
Qed.
Lemma require_blank : forall n d l, blank d -> require (0, 0, 0) n d = Some l -> forallb zero_row l = true.
Proof.
  intros n d l B H. apply forallb_forall. intros r Hr. apply zero_row_eq. destruct d as [l0|]; simpl in *.
  - destruct (Nat.eqb _ _); [|discriminate]. injection H as ->. rewrite Forall_forall in B. auto.
  - injection H as <-. now apply repeat_spec in Hr.
Qed.

(* what is stored: one line for each line of the map, in its order *)
Theorem neighbors_set : forall c m k force s,
  rectangular m k -> In c (map fst m) -> of_size k (position s) -> of_size (List.length m) (neighbors s) ->
  force = true \/ blank (neighbors s) ->
  exists here l, set_nearest_neighbors_list c m "cartesian" force s = (mkStored (Some here) (Some l), Done) /\
    stands_at m c here /\ Forall2 (row_right m k here) m l.
Proof.
  intros c m k force s Hm Hc Hp Hn Hf. unfold set_nearest_neighbors_list.
  rewrite (rectangular_columns m k Hm) in *.
  assert (T : table m = true) by (apply table_rectangular; rewrite (rectangular_columns m k Hm); exact Hm).
  rewrite T. cbn [negb]. destruct (require_ok 0 k _ Hp) as [p Ep]. rewrite Ep.
  destruct (require_ok (0, 0, 0) (List.length m) _ Hn) as [l El]. rewrite El.
  replace (forallb zero_row l || force)%bool with true.
  2:{ destruct Hf as [-> | B]; [now rewrite orb_true_r|]. now rewrite (require_blank _ _ _ B El). }
  destruct (proj1 (position_of_some m c) Hc) as [here Eh]. rewrite Eh. cbn [String.eqb Ascii.eqb Bool.eqb].
  destruct (neighbor_list_spec k m c here Hm (position_of_in _ _ _ Eh)) as (l' & E' & F). simpl. rewrite E'.
  exists here, l'. repeat split; auto. now apply position_of_spec.
Qed.

(* nearer channels come first, and the same distance has the same place *)
Theorem neighbors_order : forall m k here r1 r2 c1 d1 n1 c2 d2 n2,
  rectangular m k -> (exists c, stands_at m c here) -> In r1 m -> In r2 m ->
  row_right m k here r1 (c1, d1, n1) -> row_right m k here r2 (c2, d2, n2) ->
  (n1 < n2 <-> d1 < d2) /\ (n1 = n2 <-> d1 = d2).
Proof.
  intros m k here r1 r2 c1 d1 n1 c2 d2 n2 Hm [c Hc] I1 I2 (p1 & e1 & i1 & E1 & S1 & -> & P1) (p2 & e2 & i2 & E2 & S2 & -> & P2).
  injection E1 as _ -> ->. injection E2 as _ -> ->.
  apply position_of_spec, position_of_in in Hc. apply position_of_spec, position_of_in in S1. apply position_of_spec, position_of_in in S2.
  pose proof (distance_possible k m _ _ Hm Hc S1) as Q1. pose proof (distance_possible k m _ _ Hm Hc S2) as Q2. simpl in Q1, Q2.
  pose proof (place_order m k _ _ _ _ Q1 P1 P2) as O1. pose proof (place_order m k _ _ _ _ Q2 P2 P1) as O2.
  assert (O3 : distance2 here p1 = distance2 here p2 -> i1 = i2) by (intros X; rewrite X in P1; eapply place_unique; eassumption).
  lia.
Qed.

(* place 0 is distance 0, which is the same position *)
Theorem neighbors_zero : forall m k here r c d n p,
  rectangular m k -> (exists c0, stands_at m c0 here) -> row_right m k here r (c, d, n) -> stands_at m c p ->
  0 <= n /\ (n = 0 <-> d = 0) /\ (d = 0 <-> p = here).
Proof.
  intros m k here r c d n p Hm [c0 Hc] (q & e & i & E & S1 & -> & P) Hp. injection E as -> -> ->.
  assert (q = p); [|subst].
  { apply position_of_spec in S1. apply position_of_spec in Hp. congruence. }
  apply position_of_spec, position_of_in in Hc. apply position_of_spec, position_of_in in S1.
  destruct P as (l & N & <- & H). split; [lia|]. pose proof (distance2_nonneg here p) as G. split.
  - split.
    + intros L. destruct l; [|cbn [List.length] in L; lia]. destruct (Z.eq_dec (distance2 here p) 0) as [|X]; [assumption|].
      exfalso. apply (H 0). split; [|lia].
      pose proof (distance_possible k m _ _ Hm Hc Hc) as Q. simpl in Q. now rewrite (proj2 (distance2_zero here here eq_refl) eq_refl) in Q.
    + intros L. destruct l as [|x l]; [reflexivity|]. exfalso. destruct (proj1 (H x) (or_introl eq_refl)) as [(ks & _ & ->) Hx].
      rewrite L in Hx. clear - Hx. induction ks as [|a ks IH]; [cbn in Hx; lia|]. apply IH. unfold total in *. cbn in Hx. pose proof (Z.square_nonneg a). lia.
  - destruct Hm as (_ & _ & C). rewrite distance2_zero; [split; auto|].
    rewrite (C _ Hc : List.length here = k), (C _ S1 : List.length p = k). reflexivity.
Qed.

(* what channel a holds about channel b is what b holds about a *)
Theorem neighbors_symmetric : forall m k a b pa pb ra rb da na db nb,
  stands_at m a pa -> stands_at m b pb ->
  row_right m k pa rb (b, da, na) -> row_right m k pb ra (a, db, nb) -> da = db /\ na = nb.
Proof.
  intros m k a b pa pb ra rb da na db nb Ha Hb (p & e & i & E & S1 & -> & P) (p' & e' & i' & E' & S1' & -> & P').
  injection E as Eb -> ->. injection E' as Ea -> ->. subst.
  apply position_of_spec in Ha. apply position_of_spec in Hb. apply position_of_spec in S1. apply position_of_spec in S1'.
  assert (p = pb) by congruence. assert (p' = pa) by congruence. subst.
  rewrite distance2_sym in P. split; [apply distance2_sym|]. eapply place_unique; eassumption.
Qed.

(* only differences of positions matter *)
Theorem neighbors_moved : forall c m k t force s,
  rectangular m k -> List.length t = k ->
  neighbors (fst (set_nearest_neighbors_list c (moved t m) "cartesian" force s)) =
  neighbors (fst (set_nearest_neighbors_list c m "cartesian" force s)) /\
  snd (set_nearest_neighbors_list c (moved t m) "cartesian" force s) = snd (set_nearest_neighbors_list c m "cartesian" force s).
Proof.
  intros c m k t force s Hm Ht. pose proof Hm as (A & B & C).
  assert (NE : m <> []) by (destruct m; [simpl in A; lia|discriminate]).
  assert (C' : forall r, In r m -> List.length (snd r) = List.length t) by (intros r Hr; rewrite (C r Hr); auto).
  assert (Hm' : rectangular (moved t m) k).
  { repeat split; [unfold moved; rewrite map_length; exact A|exact B|]. intros r Hr. apply in_map_iff in Hr.
    destruct Hr as (r0 & <- & H0). simpl. rewrite map_length, combine_length, (C' r0 H0). lia. }
  unfold set_nearest_neighbors_list. rewrite (rectangular_columns _ _ Hm), (rectangular_columns _ _ Hm').
  assert (T : table m = true) by (apply table_rectangular; rewrite (rectangular_columns m k Hm); exact Hm).
  assert (T' : table (moved t m) = true) by (apply table_rectangular; rewrite (rectangular_columns _ k Hm'); exact Hm').
  rewrite T, T'. replace (List.length (moved t m)) with (List.length m) by (unfold moved; now rewrite map_length). cbn [negb].
  destruct (require 0 k (position s)); [|now split]. destruct (require _ _ _); [|now split].
  destruct (_ || _)%bool; [|now split]. rewrite position_move. destruct (position_of m c) as [here|] eqn:Eh; [|now split].
  cbn [option_map]. unfold neighbor_list. rewrite max_distances_move by auto.
  rewrite rows_move by (auto; apply position_of_in in Eh; apply (C' _ Eh)).
  simpl. destruct (neighbor_rows _ _ _ _); now split.
Qed.

(* on a line the place is the distance *)
Lemma square_order : forall x y, 0 <= x -> 0 <= y -> (x * x < y * y <-> x < y).
Proof. intros. split; intros; nia. Qed.
Theorem neighbors_line : forall m here r c d n x y,
  rectangular m 1 -> (exists c0, stands_at m c0 here) -> row_right m 1 here r (c, d, n) -> here = [x] -> stands_at m c [y] ->
  n = Z.abs (x - y) /\ d = n * n.
Proof.
  intros m here r c d n x y Hm [c0 Hc] (p & e & i & E & S1 & -> & P) -> Hp. injection E as -> -> ->.
  assert (p = [y]); [|subst].
  { apply position_of_spec in S1. apply position_of_spec in Hp. congruence. }
  assert (D : distance2 [x] [y] = Z.abs (x - y) * Z.abs (x - y)) by (unfold distance2, total; simpl; lia).
  apply position_of_spec, position_of_in in Hc. apply position_of_spec, position_of_in in S1.
  assert (N : place m 1 (distance2 [x] [y]) (Z.abs (x - y))); [|rewrite (place_unique _ _ _ _ _ P N); now split].
  exists (map (fun j => Z.of_nat j * Z.of_nat j) (seq 0 (Z.to_nat (Z.abs (x - y))))).
  rewrite map_length, seq_length, Z2Nat.id by lia. split; [|split; [reflexivity|]].
  - apply FinFun.Injective_map_NoDup; [|apply seq_NoDup]. intros a b X. nia.
  - intros z. rewrite in_map_iff, D. split.
    + intros (j & <- & Hj). apply in_seq in Hj. split; [|apply square_order; lia].
      exists [Z.of_nat j]. split; [|unfold total; simpl; lia]. split; [reflexivity|]. intros q Hq. assert (q = 0%nat) by lia. subst. simpl.
      split; [lia|]. destruct (Z.le_ge_cases x y); [exists (fst r, [y]), (c0, [x])|exists (c0, [x]), (fst r, [y])]; repeat split; auto; simpl; lia.
    + intros [(ks & [Lk H] & ->) Hz]. destruct ks as [|a [|b ks]]; try discriminate. destruct (H 0%nat ltac:(lia)) as [Ha _].
      unfold total in *. simpl in *. exists (Z.to_nat a). rewrite Z2Nat.id by lia. split; [lia|]. apply in_seq.
      assert (a < Z.abs (x - y)) by (apply square_order; lia). lia.
Qed.

(* a list that is there is kept, whatever the new map, distance type and channel *)
Theorem neighbors_kept : forall c m k typ p l,
  rectangular m k -> List.length p = k -> List.length l = List.length m -> (exists r, In r l /\ r <> (0, 0, 0)) ->
  set_nearest_neighbors_list c m typ false (mkStored (Some p) (Some l)) = (mkStored (Some p) (Some l), Done).
Proof.
  intros c m k typ p l Hm Hp Hl (r & Ir & Nr). unfold set_nearest_neighbors_list. rewrite (rectangular_columns m k Hm).
  assert (T : table m = true) by (apply table_rectangular; rewrite (rectangular_columns m k Hm); exact Hm).
  rewrite T. simpl. rewrite Hp, Hl, !Nat.eqb_refl.
  replace (forallb zero_row l) with false; [reflexivity|]. symmetry. apply not_true_iff_false. intros X.
  rewrite forallb_forall in X. apply Nr, zero_row_eq, X, Ir.
Qed.

(* it raises exactly when the map is no table, a dataset has another size, the channel is missing or the distance is of another type *)
Theorem neighbors_raise : forall c m typ force s,
  snd (set_nearest_neighbors_list c m typ force s) = Raised <->
  ~ rectangular m (columns m) \/ ~ of_size (columns m) (position s) \/ ~ of_size (List.length m) (neighbors s) \/
  ((force = true \/ blank (neighbors s)) /\ (~ In c (map fst m) \/ typ <> "cartesian"%string)).
Proof.
  intros c m typ force s. unfold set_nearest_neighbors_list. pose proof (table_rectangular m) as T.
  destruct (table m) eqn:ET; simpl.
  2:{ split; [|reflexivity]. intros _. left. intros X. apply T in X. discriminate. }
  assert (Hm : rectangular m (columns m)) by now apply T.
  assert (RQ : forall (A : Type) (z : A) n d, require z n d = None <-> ~ of_size n d).
  { intros A z n [l|]; simpl; [|split; [discriminate|tauto]]. destruct (Nat.eqb_spec (List.length l) n); split; auto; try discriminate. tauto. }
  destruct (require 0 (columns m) (position s)) as [p|] eqn:EP.
  2:{ split; [|reflexivity]. intros _. right. left. now apply RQ in EP. }
  assert (HP : ~ ~ of_size (columns m) (position s)) by (intros X; apply RQ with (z := 0) in X; congruence).
  destruct (require (0, 0, 0) (List.length m) (neighbors s)) as [l|] eqn:EN.
  2:{ split; [|reflexivity]. intros _. right. right. left. now apply RQ in EN. }
  assert (HN : ~ ~ of_size (List.length m) (neighbors s)) by (intros X; apply RQ with (z := (0, 0, 0)) in X; congruence).
  assert (HB : forallb zero_row l = true <-> blank (neighbors s)).
  { split; [|intros B; eapply require_blank; eassumption]. intros F. destruct (neighbors s) as [l0|]; simpl in *; [|exact I].
    destruct (Nat.eqb _ _); [|discriminate]. injection EN as ->. apply Forall_forall. intros r Hr. apply zero_row_eq.
    rewrite forallb_forall in F. auto. }
  destruct (forallb zero_row l || force)%bool eqn:EF.
  - assert (HF : force = true \/ blank (neighbors s)).
    { apply orb_true_iff in EF. destruct EF; [right; now apply HB|now left]. }
    destruct (position_of m c) as [here|] eqn:EH.
    + assert (HC : In c (map fst m)) by (apply position_of_some; eauto).
      destruct (String.eqb_spec typ "cartesian").
      * destruct (neighbor_list_spec _ m c here Hm (position_of_in _ _ _ EH)) as (l' & E' & _). rewrite E'. simpl.
        split; [discriminate|]. intros X. exfalso. tauto.
      * simpl. split; [tauto|reflexivity].
    + simpl. split; [|reflexivity]. intros _. right. right. right. split; [exact HF|]. left. intros X.
      apply position_of_some in X. destruct X. congruence.
  - simpl. split; [discriminate|]. intros X. exfalso. apply orb_false_iff in EF. destruct EF as [F1 F2].
    assert (~ blank (neighbors s)) by (intros B; apply HB in B; congruence).
    destruct X as [X | [X | [X | [[X | X] _]]]]; try tauto. congruence.
Qed.

(* a failure leaves the list as it was; an unknown type of distance has by then replaced the position *)
Theorem neighbors_failed : forall c m typ force s,
  snd (set_nearest_neighbors_list c m typ force s) = Raised ->
  (forall l, neighbors s = Some l -> neighbors (fst (set_nearest_neighbors_list c m typ force s)) = Some l) /\
  (blank (neighbors s) -> blank (neighbors (fst (set_nearest_neighbors_list c m typ force s)))).
Proof.
  intros c m typ force s. unfold set_nearest_neighbors_list.
  destruct (table m); simpl; [|split; auto].
  destruct (require 0 (columns m) (position s)) as [p|]; simpl; [|split; auto].
  destruct (require (0, 0, 0) (List.length m) (neighbors s)) as [l|] eqn:EN; simpl; [|split; auto].
  assert (X : (forall l0, neighbors s = Some l0 -> Some l = Some l0) /\ (blank (neighbors s) -> blank (Some l))).
  { destruct (neighbors s) as [l0|]; simpl in EN.
    - destruct (Nat.eqb _ _); [|discriminate]. injection EN as ->. auto.
    - injection EN as <-. split; [discriminate|]. intros _. simpl. apply Forall_forall. intros r Hr. now apply repeat_spec in Hr. }
  destruct (forallb zero_row l || force)%bool; [|discriminate].
  destruct (position_of m c) as [here|]; [|intros _; exact X].
  destruct (String.eqb typ "cartesian"); [|intros _; exact X].
  destruct (neighbor_list m here); [discriminate|intros _; exact X].
Qed.

(* the list of a stored channel need not be that of the map given *)
Theorem list_of_the_map_refuted :
  exists c m k s l, rectangular m k /\ In c (map fst m) /\
    set_nearest_neighbors_list c m "cartesian" false s = (mkStored (Some [0]) (Some l), Done) /\
    ~ exists here, stands_at m c here /\ Forall2 (row_right m k here) m l.
Proof.
  exists 1, [(1, [0]); (3, [7])], 1%nat, (mkStored (Some [0]) (Some [(1, 0, 0); (3, 1, 1)])), [(1, 0, 0); (3, 1, 1)].
  assert (R : rectangular [(1, [0]); (3, [7])] 1).
  { repeat split; simpl; try lia. intros r [<- | [<- | []]]; reflexivity. }
  split; [exact R|]. split; [now left|]. split; [reflexivity|].
  intros (here & Hs & F). apply position_of_spec in Hs. simpl in Hs. injection Hs as <-.
  inversion F as [|? ? ? ? _ F1]; subst. inversion F1 as [|? ? ? ? Q _]; subst.
  destruct Q as (p & d & i & E & S1 & -> & _). apply position_of_spec in S1. simpl in S1. injection S1 as <-. discriminate.
Qed.

(* the place counts distances of the box, not of channels: the nearest channel need not be a first neighbour *)
Theorem nearest_is_first_refuted :
  exists c m k here l, rectangular m k /\ stands_at m c here /\
    set_nearest_neighbors_list c m "cartesian" false nothing = (mkStored (Some here) (Some l), Done) /\
    (List.length m > 1)%nat /\ forall r, In r l -> snd r <> 1.
Proof.
  exists 1, [(1, [0; 0]); (3, [2; 1]); (5, [0; 3])], 2%nat, [0; 0], [(1, 0, 0); (3, 5, 4); (5, 9, 6)].
  split; [repeat split; simpl; try lia; intros r [<- | [<- | [<- | []]]]; reflexivity|].
  split; [exists [], [(3, [2; 1]); (5, [0; 3])]; split; [reflexivity|intros []]|].
  split; [vm_compute; reflexivity|]. split; [simpl; lia|].
  intros r [<- | [<- | [<- | []]]]; simpl; lia.
Qed.

Lemma forall2_right : forall {A B : Type} (P : A -> B -> Prop) a b, Forall2 P a b -> forall y, In y b -> exists x, In x a /\ P x y.
Proof.
  induction 1; intros z Hz; [contradiction|]. destruct Hz as [<- | Hz]; [exists x; split; [now left|assumption]|].
  destruct (IHForall2 z Hz) as (w & I1 & I2). exists w. split; [now right|exact I2].
Qed.
Lemma forall2_left : forall {A B : Type} (P : A -> B -> Prop) a b, Forall2 P a b -> forall x, In x a -> exists y, In y b /\ P x y.
Proof.
  induction 1; intros z Hz; [contradiction|]. destruct Hz as [<- | Hz]; [exists y; split; [now left|assumption]|].
  destruct (IHForall2 z Hz) as (w & I1 & I2). exists w. split; [now right|exact I2].
Qed.
(* flag_crosstalking_pulses then looks at exactly the channels at the wanted places *)
Theorem neighbors_selected : forall m k here l distances c,
  Forall2 (row_right m k here) m l ->
  (In c (XtModel.select distances l) <-> exists p n, stands_at m c p /\ place m k (distance2 here p) n /\ In n distances).
Proof.
  intros m k here l distances c F. unfold XtModel.select. rewrite in_map_iff. split.
  - intros ([[c' d] n] & E & H). simpl in E. subst c'. apply filter_In in H. destruct H as [I1 I2].
    apply existsb_exists in I2. destruct I2 as (n' & I2 & E2). simpl in E2. apply Z.eqb_eq in E2. subst n'.
    assert (X : exists r, row_right m k here r (c, d, n)).
    { destruct (forall2_right _ _ _ F _ I1) as (r & _ & R). eauto. }
    destruct X as (r & p & d' & i & E & S1 & -> & P). injection E as -> -> ->. exists p, i. auto.
  - intros (p & n & S1 & P & Hn).
    assert (X : exists d n', In (c, d, n') l /\ row_right m k here (c, p) (c, d, n')).
    { apply position_of_spec, position_of_in in S1. destruct (forall2_left _ _ _ F _ S1) as ([[c' d] n'] & I1 & R).
      exists d, n'. destruct R as (q & d' & i & E & Hq). simpl in E. injection E as -> -> ->. split; [exact I1|]. exists q, d', i. auto. }
    destruct X as (d & n' & I1 & (q & d' & i & E & S2 & -> & P2)). simpl in *. injection E as -> ->.
    apply position_of_spec in S1. apply position_of_spec in S2. assert (q = p) by congruence. subst.
    rewrite (place_unique _ _ _ _ _ P2 P) in *.
    exists (c, distance2 here p, n). split; [reflexivity|]. apply filter_In. split; [exact I1|].
    apply existsb_exists. exists n. split; [exact Hn|]. apply Z.eqb_refl.
Qed.

Print Assumptions neighbors_set.
Print Assumptions neighbors_order.
Print Assumptions neighbors_zero.
Print Assumptions neighbors_symmetric.
Print Assumptions neighbors_moved.
Print Assumptions neighbors_line.
Print Assumptions neighbors_kept.
Print Assumptions neighbors_raise.
Print Assumptions neighbors_failed.
Print Assumptions list_of_the_map_refuted.
Print Assumptions nearest_is_first_refuted.
Print Assumptions neighbors_selected.

(* ---- examples ---- *)
Definition square4 : list map_row := [(1, [0; 0]); (3, [0; 1]); (5, [1; 0]); (7, [1; 1])].
Example square4_table : rectangular square4 2.
Proof. repeat split; simpl; try lia. intros r [<- | [<- | [<- | [<- | []]]]]; reflexivity. Qed.
Example neighbors_set_case :
  set_nearest_neighbors_list 3 square4 "cartesian" false nothing =
  (mkStored (Some [0; 1]) (Some [(1, 1, 1); (3, 0, 0); (5, 2, 2); (7, 1, 1)]), Done).
Proof. vm_compute. reflexivity. Qed.
Example neighbors_symmetric_case :
  set_nearest_neighbors_list 5 square4 "cartesian" true (mkStored (Some [9; 9]) (Some [(8, 8, 8); (0, 0, 0); (0, 0, 0); (0, 0, 0)])) =
  (mkStored (Some [1; 0]) (Some [(1, 1, 1); (3, 2, 2); (5, 0, 0); (7, 1, 1)]), Done).
Proof. vm_compute. reflexivity. Qed.
Example neighbors_moved_case :
  snd (set_nearest_neighbors_list 3 (moved [-5; 4] square4) "cartesian" false nothing) = Done /\
  moved [-5; 4] square4 = [(1, [-5; 4]); (3, [-5; 5]); (5, [-4; 4]); (7, [-4; 5])].
Proof. vm_compute. split; reflexivity. Qed.
Example neighbors_line_case :
  set_nearest_neighbors_list 3 [(1, [10]); (3, [12]); (5, [17])] "cartesian" false nothing =
  (mkStored (Some [12]) (Some [(1, 4, 2); (3, 0, 0); (5, 25, 5)]), Done).
Proof. vm_compute. reflexivity. Qed.
Example neighbors_raise_case :
  set_nearest_neighbors_list 9 square4 "cartesian" false nothing =
  (mkStored (Some [0; 0]) (Some [(0, 0, 0); (0, 0, 0); (0, 0, 0); (0, 0, 0)]), Raised) /\
  set_nearest_neighbors_list 7 square4 "manhattan" true (mkStored (Some [0; 1]) (Some [(1, 1, 1); (3, 0, 0); (5, 2, 2); (7, 1, 1)])) =
  (mkStored (Some [1; 1]) (Some [(1, 1, 1); (3, 0, 0); (5, 2, 2); (7, 1, 1)]), Raised).
Proof. split; vm_compute; reflexivity. Qed.
Example neighbors_selected_case :
  XtModel.select [1] [(1, 1, 1); (3, 0, 0); (5, 2, 2); (7, 1, 1)] = [1; 7].
Proof. reflexivity. Qed.
