(** Proofs about the values of conversions. *)
From Coq Require Import Reals ZArith Bool Ascii Lia Lra Permutation Sorted String List.
From Verif Require Import EntModel SplModel SplSpec SplEval SplMore SplProps DvModel DvSpec DvPower DvDomain DvProofs DvMore DvProps EcModel EcSpec EcProofs EcPoints EcHistory EcCurves EcConvert.
Import ListNotations.
Local Open Scope R_scope.
Local Open Scope list_scope.

Lemma proper_perm l m : Permutation l m -> proper l -> proper m.
Proof.
  intros P (N & H). split; [exact (Permutation_NoDup (Permutation_map p_ph P) N)|]. intros p I. apply H. exact (Permutation_in _ (Permutation_sym P) I).
Qed.
Lemma enough_perm k l m : Permutation l m -> enough k l -> enough k m.
Proof.
  intros P [H | (H & K)]; [left; rewrite <- (Permutation_length P); exact H | right]. split; [|exact K]. intros ->. apply Permutation_sym, Permutation_nil in P. contradiction.
Qed.
Lemma bracketed_perm l m : Permutation l m -> bracketed l -> bracketed m.
Proof.
  intros P B L g G p I M. rewrite <- (Permutation_length P) in L. apply (B L g); [| exact (Permutation_in _ (Permutation_sym P) I) |].
  - refine (natural_perm _ _ _ _ _ _ G). rewrite !combine_maps. apply Permutation_map, Permutation_sym, P.
  - intros q Q. apply M. exact (Permutation_in _ P Q).
Qed.
Lemma rmax_spec l : l <> [] -> In (rmax_list l) l /\ forall x, In x l -> x <= rmax_list l.
Proof.
  destruct l as [|y l]; [contradiction|]. intros _. unfold rmax_list. cbn [hd]. assert (G : forall w, (fold_right Rmax y w = y \/ In (fold_right Rmax y w) w) /\ forall x, In x w -> x <= fold_right Rmax y w).
  { induction w as [|z w (I1 & I2)]; cbn [fold_right]; [split; [left; reflexivity | intros x []]|]. split.
    - assert (RM : Rmax z (fold_right Rmax y w) = z \/ Rmax z (fold_right Rmax y w) = fold_right Rmax y w) by (generalize (fold_right Rmax y w); intro t; unfold Rmax; destruct (Rle_dec z t); auto). destruct RM as [E | E]; rewrite E; [right; left; reflexivity|]. destruct I1 as [I1 | I1]; [left; exact I1 | right; right; exact I1].
    - intros x [<- | X]; [apply Rmax_l|]. eapply Rle_trans; [apply I2, X | apply Rmax_r]. }
  destruct (G (y :: l)) as (G1 & G2). split; [|exact G2]. destruct G1 as [-> | G1]; [left; reflexivity | exact G1].
Qed.
Lemma gain_ok_spec k l : proper l -> (gain_ok k (map p_ph l) (map p_energy l) = true <-> (k = Gain -> bracketed l)).
Proof.
  intros (N & P). destruct (curvetype_eq_dec k Gain) as [-> | NG]; [|split; [intros _ E; contradiction | intros _; destruct k; try reflexivity; contradiction]].
  destruct l as [|p1 [|p2 l]]; [split; [intros _ _ L; cbn in L; lia | reflexivity] | split; [intros _ _ L; cbn in L; lia | reflexivity]|].
  set (l2 := p1 :: p2 :: l) in *. assert (L2 : (2 <= length l2)%nat) by (cbn; lia).
  destruct (spline_fn_made (map p_ph l2) (map (fun p => p_ph p / p_energy p) l2)) as (s & S1 & _); [rewrite !map_length; reflexivity | rewrite map_length; exact L2 | exact N|].
  assert (E : gain_ok Gain (map p_ph l2) (map p_energy l2) = (let t := spline_at s 0 (10 * rmax_list (map p_ph l2)) in rltb 0 t || rleb (spline_at s 0 0 * t) 0)).
  { unfold gain_ok. rewrite zip_with_map, S1. reflexivity. }
  rewrite E. cbv zeta. rewrite orb_true_iff, rltb_true, rleb_true. destruct (rmax_spec (map p_ph l2)) as (M1 & M2); [discriminate|]. apply in_map_iff in M1. destruct M1 as (pm & PM & IM). rewrite <- PM in *. split.
  - intros H _ _ g G p I M. assert (EP : p_ph p = p_ph pm) by (specialize (M pm IM); specialize (M2 (p_ph p) (in_map p_ph _ _ I)); lra). rewrite EP, !(natural_unique _ _ _ _ S1 N G). exact H.
  - intros B. apply (B eq_refl L2 _ (spline_natural _ _ s S1 N) pm IM). intros q Q. apply M2, in_map, Q.
Qed.
Lemma passes xs ys g : natural_spline xs ys g -> length ys = length xs -> NoDup xs -> forall i, (i < length xs)%nat -> g (nth i xs 0) = nth i ys 0.
Proof.
  intros G L N i I. destruct (spline_fn_made xs ys L (natural_length _ _ _ G) N) as (s & S & _). rewrite (natural_unique _ _ _ _ S N G). exact (given_knot xs ys None None s S N i I).
Qed.
Lemma passes_at (f h : point -> R) l g : natural_spline (map f l) (map h l) g -> NoDup (map f l) -> forall p, In p l -> g (f p) = h p.
Proof.
  intros G N p I. destruct (In_nth l p nopoint I) as (i & L & <-). pose proof (passes _ _ _ G ltac:(rewrite !map_length; reflexivity) N i ltac:(rewrite map_length; exact L)) as E.
  rewrite (nth_indep _ 0 (f nopoint)), map_nth in E by (rewrite map_length; exact L). rewrite E. rewrite (nth_indep _ 0 (h nopoint)), map_nth by (rewrite map_length; exact L). reflexivity.
Qed.
Lemma natural_exists xs ys : length ys = length xs -> (2 <= length xs)%nat -> NoDup xs -> exists g, natural_spline xs ys g.
Proof. intros L L2 N. destruct (spline_fn_made xs ys L L2 N) as (s & S & _). exists (spline_at s 0). exact (spline_natural _ _ s S N). Qed.

(** At the pulse height of a point the curve has its energy. *)
Lemma energy_at_point k n l p : proper l -> enough k l -> In p l -> (k = Loglog -> (2 <= length l)%nat -> / 1000000 <= p_ph p) -> energy_at k n l (p_ph p) (p_energy p).
Proof.
  intros PR EN I LG. pose proof PR as (N & P). destruct (P p I) as (PP & EP). destruct l as [|p1 [|p2 l]]; [destruct I | |].
  - destruct I as [-> | []]. assert (K : k = Loglog \/ k = Gain \/ k = Invgain) by (destruct EN as [X | (_ & X)]; [cbn in X; lia | exact X]). destruct K as [-> | K].
    + rewrite <- (Rmult_1_r (p_energy p)) at 1. apply one_loglog. replace (p_ph p / p_ph p) with 1 by (field; lra). assert (Q : power_is 1 n (exp (n * ln 1))) by (apply real_power; lra). rewrite ln_1, Rmult_0_r, exp_0 in Q. exact Q.
    + assert (Q : energy_at k n [p] (p_ph p) (p_energy p / p_ph p * p_ph p)) by (apply one_gain; exact K). replace (p_energy p / p_ph p * p_ph p) with (p_energy p) in Q by (field; lra). exact Q.
  - set (l2 := p1 :: p2 :: l) in *. assert (L2 : (2 <= length l2)%nat) by (cbn; lia). clearbody l2. destruct k.
    + destruct (natural_exists (map (fun p => ln (p_ph p)) l2) (map (fun p => ln (p_energy p)) l2)) as (g & G); [rewrite !map_length; reflexivity | rewrite map_length; exact L2 | rewrite <- (map_map p_ph ln); apply proper_ln, PR|].
      replace (p_energy p) with (exp (g (ln (p_ph p)))); [apply at_loglog; [exact G | auto]|]. rewrite (passes_at _ _ _ _ G) with (p := p); [apply exp_ln, EP | rewrite <- (map_map p_ph ln); apply proper_ln, PR | exact I].
    + destruct (natural_exists (map p_ph l2) (map p_energy l2)) as (g & G); [rewrite !map_length; reflexivity | rewrite map_length; exact L2 | exact N|]. rewrite <- (passes_at _ _ _ _ G N p I). apply at_linear; assumption.
    + assert (N0 : NoDup (0 :: map p_ph l2)) by (constructor; [|exact N]; intro X; apply in_map_iff in X; destruct X as (q & E & Q); specialize (P q Q); lra).
      destruct (natural_exists (0 :: map p_ph l2) (0 :: map p_energy l2)) as (g & G); [cbn [length]; rewrite !map_length; reflexivity | cbn [length]; rewrite map_length; lia | exact N0|].
      destruct (In_nth l2 p nopoint I) as (i & L & <-). pose proof (passes _ _ _ G ltac:(cbn [length]; rewrite !map_length; reflexivity) N0 (S i) ltac:(cbn [length]; rewrite map_length; lia)) as E. cbn [nth] in E.
      rewrite (nth_indep _ 0 (p_ph nopoint)), map_nth in E by (rewrite map_length; exact L). rewrite (nth_indep _ 0 (p_energy nopoint)), map_nth in E by (rewrite map_length; exact L). rewrite <- E. apply at_linear_0; assumption.
    + destruct (natural_exists (map p_ph l2) (map (fun p => p_ph p / p_energy p) l2)) as (g & G); [rewrite !map_length; reflexivity | rewrite map_length; exact L2 | exact N|]. pose proof (passes_at _ _ _ _ G N p I) as E.
      replace (p_energy p) with (p_ph p / g (p_ph p)) by (rewrite E; field; lra). apply at_gain; [exact G|]. rewrite E. apply Rgt_not_eq, Rdiv_lt_0_compat; assumption.
    + destruct (natural_exists (map p_ph l2) (map (fun p => p_energy p / p_ph p) l2)) as (g & G); [rewrite !map_length; reflexivity | rewrite map_length; exact L2 | exact N|]. pose proof (passes_at _ _ _ _ G N p I) as E.
      replace (p_energy p) with (p_ph p * g (p_ph p)) by (rewrite E; field; lra). apply at_invgain; exact G.
    + destruct (natural_exists (map p_ph l2) (map (fun p => ln (p_ph p / p_energy p)) l2)) as (g & G); [rewrite !map_length; reflexivity | rewrite map_length; exact L2 | exact N|]. pose proof (passes_at _ _ _ _ G N p I) as E.
      replace (p_energy p) with (p_ph p * exp (- g (p_ph p))); [apply at_loggain; exact G|]. assert (0 < p_ph p / p_energy p) by (apply Rdiv_lt_0_compat; assumption). rewrite E, exp_Ropp, exp_ln by assumption. field. lra.
Qed.
Lemma energy_unique k n l x u v : proper l -> l <> [] -> enough k l -> energy_at k n l x u -> energy_at k n l x v -> u = v.
Proof.
  intros PR NE EN U V. destruct (curve_expr k n l PR NE) as (f & e & _ & _ & M & _); [destruct EN as [EN | (_ & EN)]; auto|]. apply (means_unique e x); [apply M, U | apply M, V].
Qed.
Lemma enough_nonempty k l : enough k l -> l <> [].
Proof. intros [H | (H & _)]; [intros ->; cbn in H; lia | exact H]. Qed.

Lemma all_some_map (f : R -> option R) (g : R -> R) l : (forall x, In x l -> f x = Some (g x)) -> all_some (map f l) = Some (map g l).
Proof. induction l as [|x l IH]; intro H; cbn [map all_some]; [reflexivity|]. rewrite (H x (or_introl eq_refl)), IH by (intros y Y; apply H; right; exact Y). reflexivity. Qed.

Section World.
Variable argsort : list R -> list nat.
Hypothesis sorting : sorts argsort.
Variables parse features : string -> option R.
Variable smoothing : curvetype -> bool -> list R -> list R -> list R -> list R -> option curve.
Notation curves_of := (curves_of smoothing).
Notation current := (current smoothing).

Lemma plain_false c l : plain c l -> approximate c && (3 <=? length l)%nat = false.
Proof. intros [-> | H]; [reflexivity|]. replace (3 <=? length l)%nat with false by (symmetry; apply Nat.leb_gt; exact H). apply andb_false_r. Qed.

Lemma sorted_by l m : by_height l m -> proper l -> StronglySorted Rlt (map p_ph m).
Proof. intros (P & S) PR. apply strictly_sorted; [exact S|]. apply (proper_perm l m); [symmetry; exact P | exact PR]. Qed.
Lemma curves_exact c l m : by_height l m -> proper l -> enough (kind c) l -> plain c l -> exists f e pts,
  described_by (kind c) (nonlinearity c) l f e /\ StronglySorted Rlt pts /\ (forall x, In x pts -> in_range l x) /\ (forall p, In p l -> In (p_ph p) pts) /\ (2 <= length pts)%nat /\
  ((kind c = Gain -> bracketed l) -> curves_of c m = Some (call f, inverse_curve (call f) pts)) /\ (~ (kind c = Gain -> bracketed l) -> curves_of c m = None).
Proof.
  intros B PR EN PL. pose proof (sorted_by l m B PR) as SS. destruct B as (PM & _). pose proof (proper_perm l m (Permutation_sym PM) PR) as PRm. pose proof (enough_perm _ l m (Permutation_sym PM) EN) as ENm.
  pose proof (enough_nonempty _ _ ENm) as NE. destruct (curve_expr (kind c) (nonlinearity c) m PRm NE) as (f & e & EX & D); [destruct ENm as [X | (_ & X)]; auto|].
  destruct m as [|p1 m]; [contradiction|]. cbn [map] in SS. destruct (sample_ok (p_ph p1) (map p_ph m) SS) as (pts & SP & (C1 & C2) & C3 & C4 & C5); [apply PRm; left; reflexivity|]. exists f, e, pts.
  split; [|split; [exact C1|]; split; [|split; [|split; [exact C5|]]]].
  - destruct D as (D1 & D2 & D3 & D4). assert (Q : forall x v, energy_at (kind c) (nonlinearity c) l x v <-> energy_at (kind c) (nonlinearity c) (p1 :: m) x v).
    { intros x v. split; apply energy_at_perm; [symmetry; exact PM | exact PM]. }
    split; [exact D1|]. split; [intros x v E; apply D2, Q, E|]. split; [intros x v E; apply (D3 x v), Q, E | intros x v E; apply Q, D4, E].
  - intros x X. split; [exists p1; split; [apply (Permutation_in _ PM); left; reflexivity | apply C3, X]|]. destruct (C2 x X) as (_ & C). destruct (sorted_last _ _ SS) as (_ & _).
    assert (I : In (last (p_ph p1 :: map p_ph m) 0) (map p_ph (p1 :: m))).
    { change (p_ph p1 :: map p_ph m) with (map p_ph (p1 :: m)). destruct (exists_last (l := p1 :: m) ltac:(discriminate)) as (w & z & ->). rewrite map_app. cbn [map]. rewrite last_last. apply in_or_app. right. left. reflexivity. }
    apply in_map_iff in I. destruct I as (q & E & Q). exists q. split; [exact (Permutation_in _ PM Q) | rewrite E; exact C].
  - intros p I. apply C4. change (In (p_ph p) (map p_ph (p1 :: m))). apply in_map. exact (Permutation_in _ (Permutation_sym PM) I).
  - unfold EcConvert.curves_of, made_curves. cbn [map] in EX |- *. rewrite SP, EX. change (p_ph p1 :: map p_ph m) with (map p_ph (p1 :: m)). change (p_energy p1 :: map p_energy m) with (map p_energy (p1 :: m)). rewrite map_length, (Permutation_length PM), (plain_false c l PL).
    assert (G : gain_ok (kind c) (map p_ph (p1 :: m)) (map p_energy (p1 :: m)) = true <-> (kind c = Gain -> bracketed l)).
    { rewrite (gain_ok_spec _ _ PRm). split; intros H K; [apply (bracketed_perm (p1 :: m)); [exact PM | auto] | apply (bracketed_perm l); [symmetry; exact PM | auto]]. }
    split; [intros H; rewrite (proj2 G H); reflexivity|]. intros H. destruct (gain_ok _ _ _); [destruct H; apply G; reflexivity | reflexivity].
Qed.

Section One.
Variables (c : cal) (l : list point).
Hypotheses (H : holds c l) (CU : current c) (PR : proper l) (EN : enough (kind c) l) (PL : plain c l).
Notation k := (kind c).
Notation n := (nonlinearity c).

Lemma value_lemma x v : (k = Gain -> bracketed l) -> energy_at k n l x v -> snd (ph2energy argsort smoothing c x 0) = Some (Some v).
Proof.
  intros B E. destruct (convert_value argsort sorting smoothing c l H CU (proj1 PR) (enough_nonempty _ _ EN)) as (m & BH & V). destruct (curves_exact c l m BH PR EN PL) as (f & e & pts & D & _ & _ & _ & _ & C & _).
  destruct (V x 0%nat 0) as (-> & _). rewrite (C B). cbn [option_map fst]. destruct D as (-> & D2 & _). destruct (D2 x v E) as (M & S). rewrite (proj2 (expression_value e x v M S)). reflexivity.
Qed.
Lemma raises_lemma x der : k = Gain -> ~ bracketed l -> snd (ph2energy argsort smoothing c x der) = None.
Proof.
  intros KG B. destruct (convert_value argsort sorting smoothing c l H CU (proj1 PR) (enough_nonempty _ _ EN)) as (m & BH & V). destruct (curves_exact c l m BH PR EN PL) as (f & e & pts & D & _ & _ & _ & _ & _ & C).
  destruct (V x der 0) as (-> & _). rewrite C by tauto. reflexivity.
Qed.
Lemma derivative_lemma x v : (k = Gain -> bracketed l) -> energy_at k n l x v -> / 1000000 < x ->
  exists D, derivatives 2 D x /\ near x (fun y => energy_at k n l y (D 0%nat y) /\ forall i, (i <= 2)%nat -> snd (ph2energy argsort smoothing c y i) = Some (Some (D i y))).
Proof.
  intros B E X. destruct (convert_value argsort sorting smoothing c l H CU (proj1 PR) (enough_nonempty _ _ EN)) as (m & BH & V). destruct (curves_exact c l m BH PR EN PL) as (f & e & pts & (D1 & D2 & D3 & D4) & _ & _ & _ & _ & C & _).
  destruct (expression_derivatives 2 e x (D3 x v E X)) as (D & A & Q). exists D. split; [exact A|]. apply (near_mono x _ _) with (2 := Q). intros y (M & I). split; [apply D4, M|].
  intros i Hi. destruct (V y i 0) as (-> & _). rewrite (C B). cbn [option_map fst]. rewrite D1. rewrite (proj2 (I i Hi)). reflexivity.
Qed.
Lemma inverse_lemma p : (k = Gain -> bracketed l) -> (forall x, in_range l x -> exists v, energy_at k n l x v) ->
  (forall x y v, in_range l x -> in_range l y -> energy_at k n l x v -> energy_at k n l y v -> x = y) -> In p l -> snd (energy2ph argsort smoothing c (p_energy p)) = Some (Some (p_ph p)).
Proof.
  intros B DEF INJ I. destruct (convert_value argsort sorting smoothing c l H CU (proj1 PR) (enough_nonempty _ _ EN)) as (m & BH & V). destruct (curves_exact c l m BH PR EN PL) as (f & e & pts & (D1 & D2 & D3 & D4) & SS & IR & IN & L2 & C & _).
  destruct (V 0 0%nat (p_energy p)) as (_ & ->). rewrite (C B). cbn [option_map snd].
  set (g := fun x => match call f x 0 with Some v => v | None => 0 end).
  assert (G : forall x, in_range l x -> call f x 0 = Some (g x) /\ energy_at k n l x (g x)).
  { intros x X. destruct (DEF x X) as (v & E). destruct (D2 x v E) as (M & S). pose proof (proj2 (expression_value e x v M S)) as CV. rewrite <- D1 in CV. unfold g. rewrite CV. auto. }
  unfold inverse_curve. rewrite (all_some_map _ g) by (intros x X; apply G, IR, X).
  assert (NP : NoDup pts).
  { clear - SS. induction SS as [|x w SS IH F]; constructor; [|exact IH]. intro X. rewrite Forall_forall in F. specialize (F x X). lra. }
  assert (ND : NoDup (map g pts)).
  { apply nodup_map; [|exact NP]. intros x y X Y E. apply (INJ x y (g x)); [apply IR, X | apply IR, Y | apply G, IR, X | rewrite E; apply G, IR, Y]. }
  assert (HR : in_range l (p_ph p)) by (apply IR, IN, I).
  assert (EP : g (p_ph p) = p_energy p).
  { apply (energy_unique k n l (p_ph p)); [exact PR | apply (enough_nonempty k), EN | exact EN | apply G, HR|]. destruct (DEF (p_ph p) HR) as (v & E). apply energy_at_point; [exact PR | exact EN | exact I|].
    intros KL LL. rewrite KL in E. clear - E LL. inversion E; subst; [assumption | cbn in LL; lia | match goal with X : Loglog = _ \/ _ |- _ => destruct X; discriminate end]. }
  destruct (spline_interpolates (map g pts) pts None None) as (s & S1 & S2); [rewrite map_length; lia | rewrite map_length; exact L2 | exact ND|]. rewrite S1. f_equal. f_equal.
  destruct (In_nth pts (p_ph p) 0 (IN p I)) as (i & LI & NI). specialize (S2 i ltac:(rewrite map_length; exact LI)). rewrite (nth_indep _ 0 (g 0)), map_nth, NI, EP in S2 by (rewrite map_length; exact LI). exact S2.
Qed.
End One.

(** * Leaving one point out *)
Lemma part_proper l m : part_of m l -> proper l -> proper m.
Proof. intros P (N & H). split; [exact (part_nodup _ _ (part_map p_ph _ _ P) N)|]. intros p I. apply H. exact (part_in _ _ _ P I). Qed.
Lemma drop_one_value c a q b e : holds c (a ++ q :: b) -> proper (a ++ q :: b) -> enough (kind c) (a ++ b) -> plain c (a ++ b) -> (kind c = Gain -> bracketed (a ++ b)) ->
  energy_at (kind c) (nonlinearity c) (a ++ b) (p_ph q) e -> drop_one argsort smoothing c (length a) = Some (Some (e - p_energy q)).
Proof.
  intros H PR EN PL B E. unfold drop_one, copy. assert (HS : holds (stale c) (a ++ q :: b)) by exact H. destruct (remove_idx_in (stale c) a q b HS) as (c2 & -> & H2 & F & K1 & K2 & K3 & K4).
  assert (K : kind c2 = kind c) by (rewrite K1; reflexivity). assert (NL : nonlinearity c2 = nonlinearity c) by (rewrite K4; reflexivity). assert (AP : approximate c2 = approximate c) by (rewrite K2; reflexivity).
  destruct H as (_ & A2 & A3 & _). rewrite A2, A3, !map_mid. rewrite <- (map_length p_ph a) at 1. rewrite nth_middle. rewrite <- (map_length p_energy a). rewrite nth_middle.
  rewrite (value_lemma c2 (a ++ b) H2) with (v := e); [reflexivity | apply current_stale, F | | rewrite K; exact EN | unfold plain; rewrite AP; exact PL | rewrite K; exact B | rewrite K, NL; exact E].
  apply (part_proper (a ++ q :: b)); [|exact PR]. apply part_app; [apply part_refl | constructor; apply part_refl].
Qed.
Lemma all_done_some {A} (l : list nat) (f : nat -> option A) (g : nat -> A) : (forall i, In i l -> f i = Some (g i)) -> all_done (map f l) = Some (map g l).
Proof. induction l as [|x l IH]; intro H; cbn [map all_done]; [reflexivity|]. rewrite (H x (or_introl eq_refl)), IH by (intros y Y; apply H; right; exact Y). reflexivity. Qed.
Lemma drop_errors c l : holds c l -> proper l ->
  (forall a q b, l = a ++ q :: b -> enough (kind c) (a ++ b) /\ plain c (a ++ b) /\ (kind c = Gain -> bracketed (a ++ b)) /\ exists e, energy_at (kind c) (nonlinearity c) (a ++ b) (p_ph q) e) ->
  exists m ds, drop_one_errors argsort smoothing c = Some (map p_energy m, map Some ds) /\ Permutation m l /\ StronglySorted Rle (map p_energy m) /\
    Forall2 (fun q d => forall a b, l = a ++ q :: b -> energy_at (kind c) (nonlinearity c) (a ++ b) (p_ph q) (p_energy q + d)) m ds.
Proof.
  intros H PR A. pose proof H as (_ & _ & A3 & _ & _ & A6). set (D := fun i => match drop_one argsort smoothing c i with Some (Some d) => d | _ => 0 end).
  assert (G : forall i, (i < length l)%nat -> drop_one argsort smoothing c i = Some (Some (D i)) /\
     forall a b, l = a ++ nth i l nopoint :: b -> energy_at (kind c) (nonlinearity c) (a ++ b) (p_ph (nth i l nopoint)) (p_energy (nth i l nopoint) + D i)).
  { intros i I. destruct (nth_split l nopoint I) as (a & b & L & LA). set (q := nth i l nopoint) in *. destruct (A a q b L) as (EN & PL & B & e & E).
    assert (V : drop_one argsort smoothing c i = Some (Some (e - p_energy q))) by (rewrite <- LA; rewrite L in H, PR; exact (drop_one_value c a q b e H PR EN PL B E)).
    assert (DV : D i = e - p_energy q) by (unfold D; rewrite V; reflexivity). split; [rewrite DV; exact V|]. intros a' b' L'. rewrite DV. replace (p_energy q + (e - p_energy q)) with e by ring.
    assert (ab : a' = a /\ b' = b).
    { assert (ND : NoDup l) by (apply NoDup_map_inv with (f := p_ph); apply PR). rewrite L' in L. clearbody q. rewrite L' in ND. clear - L ND. revert a L. induction a' as [|x a' IH]; intros [|y a] L; cbn [app] in *.
      - inversion L. auto.
      - inversion L; subst. inversion ND as [|? ? X _]. destruct X. apply in_elt.
      - inversion L; subst. inversion ND as [|? ? X _]. destruct X. apply in_elt.
      - inversion L; subst. inversion ND; subst. destruct (IH ltac:(assumption) a ltac:(assumption)) as (-> & ->). auto. }
    destruct ab as (-> & ->). exact E. }
  unfold drop_one_errors. rewrite A6, (all_done_some _ _ (fun i => Some (D i))) by (intros i I; apply in_seq in I; apply G; lia).
  destruct (sorting (map p_energy l)) as (P & S). rewrite map_length in P. rewrite A3. pose proof (orders_sorted (map p_energy l) _ (sorting _)) as OS. set (o := argsort (map p_energy l)) in *. pose proof (order_in _ _ P) as OI.
  exists (picked nopoint l o), (map D o). rewrite (picked_map p_energy 0 nopoint) in OS |- * by exact OI. split; [|split; [apply picked_perm, P|split; [exact OS|]]].
  - f_equal. f_equal. unfold picked. rewrite map_map. apply map_ext_in. intros i I. specialize (OI i I). rewrite (nth_indep _ None (Some (D 0%nat))) by (rewrite map_length, seq_length; exact OI).
    rewrite (map_nth (fun i => Some (D i))). rewrite seq_nth by exact OI. reflexivity.
  - unfold picked. clear - OI G. induction o as [|i o IH]; cbn [map]; constructor; [apply G, OI; left; reflexivity | apply IH; intros j J; apply OI; right; exact J].
Qed.

(** * Calibrations with the same points convert alike *)
Lemma same_points_alike c c' l l' : holds c l -> holds c' l' -> current c -> current c' -> Permutation l l' -> NoDup (map p_ph l) -> l <> [] ->
  kind c' = kind c -> (plain c l \/ gpr c' = gpr c) -> approximate c' = approximate c -> (kind c = Loglog -> length l = 1%nat -> nonlinearity c' = nonlinearity c) ->
  forall x der e, snd (ph2energy argsort smoothing c' x der) = snd (ph2energy argsort smoothing c x der) /\ snd (energy2ph argsort smoothing c' e) = snd (energy2ph argsort smoothing c e).
Proof.
  intros H H' CU CU' P N NE K GP AP NL x der e. destruct (convert_value argsort sorting smoothing c l H CU N NE) as (m & BH & V).
  destruct (convert_value argsort sorting smoothing c' l' H' CU') as (m' & BH' & V'); [exact (Permutation_NoDup (Permutation_map p_ph P) N) | intros ->; apply Permutation_sym, Permutation_nil in P; contradiction|].
  assert (E : m' = m).
  { apply (by_height_unique l); [exact N | | exact BH]. split; [|apply BH']. transitivity l'; [apply BH' | symmetry; exact P]. }
  subst m'. destruct (V x der e) as (-> & ->). destruct (V' x der e) as (-> & ->). replace (curves_of c' m) with (curves_of c m); [split; reflexivity|].
  unfold EcConvert.curves_of, made_curves. rewrite K, AP. destruct BH as (PM & _). pose proof (Permutation_length PM) as LM. destruct (sample_points _); [|reflexivity]. rewrite map_length.
  destruct (approximate c && (3 <=? length m)%nat) eqn:AA.
  - destruct GP as [GP | ->]; [|reflexivity]. apply plain_false in GP. rewrite LM in AA. congruence.
  - replace (exact_curve (kind c) (nonlinearity c') (map p_ph m) (map p_energy m)) with (exact_curve (kind c) (nonlinearity c) (map p_ph m) (map p_energy m)); [reflexivity|].
    destruct (curvetype_eq_dec (kind c) Loglog) as [KL | KL].
    + destruct (Nat.eq_dec (length l) 1) as [L1 | L1]; [rewrite (NL KL L1); reflexivity|]. rewrite <- LM in L1. destruct m as [|p1 [|p2 m]]; [reflexivity | cbn in L1; lia | reflexivity].
    + destruct (kind c); try congruence; destruct m as [|p1 [|p2 m]]; reflexivity.
Qed.
End World.
