(** Claims C32, C33, C67 and C68, about EnergyCalibration (mass/calibration/energy_calibration.py). *)
From Coq Require Import Reals ZArith Bool Ascii Lia Lra Permutation Sorted String List.
From Verif Require Import EntModel SplModel SplSpec SplEval SplMore SplProps DvModel DvSpec DvPower DvDomain DvProofs DvMore DvProps EcModel EcSpec EcProofs EcPoints EcHistory EcCurves EcConvert EcValues.
Import ListNotations.
Local Open Scope R_scope.
Local Open Scope list_scope.

(** remove_cal_point_name raises exactly if there is no such point. *)
Theorem remove_name_raises c l s : holds c l -> (snd (remove_name c s) = true <-> has_name l s).
Proof.
  intro H. destruct (has_name_dec l s) as [Y | N].
  - destruct (remove_name_in c l s H Y) as (a & q & b & c' & _ & _ & _ & E & _). rewrite E. cbn. tauto.
  - rewrite (remove_name_out c l s H N). cbn. split; [discriminate | contradiction].
Qed.

(** The names of curves: capital letters are as good as small ones; numbers are positions in the list. *)
Definition no_capital (c : ascii) : Prop := ~ (65 <= nat_of_ascii c <= 90)%nat.
Lemma lower_spelled s : forall w, (forall i c, String.get i w = Some c -> no_capital c) -> (lower s = w <-> spelled s w).
Proof.
  induction s as [|c s IH]; intros w W; cbn [lower].
  - split; [intros <-; constructor|]. intros H. inversion H. reflexivity.
  - destruct w as [|d w]; [split; [discriminate|intros H; inversion H]|]. assert (W' : forall i c, String.get i w = Some c -> no_capital c) by (intros i; exact (W (S i))). specialize (IH w W'). unfold lower_ascii.
    destruct ((65 <=? nat_of_ascii c) && (nat_of_ascii c <=? 90))%nat eqn:E.
    + apply andb_true_iff in E as (E1 & E2). apply Nat.leb_le in E1, E2. split.
      * intros H. injection H as H1 H2. apply spelled_capital; [lia| |apply IH, H2]. rewrite <- H1. apply nat_ascii_embedding. lia.
      * intros H. inversion H; subst.
        -- exfalso. exact (W 0%nat d eq_refl (conj E1 E2)).
        -- f_equal; [|apply IH; assumption]. match goal with H : nat_of_ascii d = _ |- _ => rewrite <- H end. apply ascii_nat_embedding.
    + assert (N : no_capital c) by (intros (A & B); apply Nat.leb_le in A, B; rewrite A, B in E; discriminate). split.
      * intros H. injection H as <- H2. apply spelled_same, IH, H2.
      * intros H. inversion H; subst; [f_equal; apply IH; assumption|]. exfalso. apply N. assumption.
Qed.
Lemma names_small k w : In (k, w) curves -> w = curvename k /\ forall i c, String.get i w = Some c -> no_capital c.
Proof.
  assert (D : forall w0 : string, forallb (fun c => negb ((65 <=? nat_of_ascii c) && (nat_of_ascii c <=? 90))%nat) (list_ascii_of_string w0) = true -> forall i c, String.get i w0 = Some c -> no_capital c).
  { induction w0 as [|d w0 IH]; intros H [|i] c G; cbn in G; try discriminate.
    - apply some_inj in G. subst d. cbn [list_ascii_of_string forallb] in H. apply andb_true_iff in H as (H & _). intros (A & B). apply Nat.leb_le in A, B. rewrite A, B in H. discriminate.
    - cbn [list_ascii_of_string forallb] in H. apply andb_true_iff in H as (_ & H). exact (IH H i c G). }
  unfold curves. intros H. repeat (destruct H as [H | H]; [injection H as <- <-; split; [reflexivity | apply D; reflexivity]|]). destruct H.
Qed.
Lemma type_of_chosen a k : type_of a = Some k <-> chosen a k.
Proof.
  destruct a as [s|i]; cbn [type_of chosen].
  - split.
    + intros H. exists (curvename k). assert (I : In (k, curvename k) curves) by (destruct k; cbn; tauto). split; [exact I|]. destruct (names_small _ _ I) as (_ & W). apply find_some in H as (_ & H). apply String.eqb_eq in H. apply (lower_spelled s _ W). symmetry. exact H.
    + intros (w & I & S). destruct (names_small _ _ I) as (-> & W). apply (lower_spelled s _ W) in S. rewrite S. destruct k; reflexivity.
  - split.
    + destruct ((0 <=? i)%Z && (i <? 6)%Z) eqn:E; [|discriminate]. apply andb_true_iff in E as (E1 & _). apply Z.leb_le in E1. intros H. split; [exact E1|]. exists (curvename k). unfold all_types in H. unfold curves.
      remember (Z.to_nat i) as n. clear - H. do 6 (destruct n as [|n]; [cbn in H; apply some_inj in H; subst k; reflexivity|]). destruct n; discriminate H.
    + intros (P & w & H). assert (L : (Z.to_nat i < 6)%nat) by (apply (proj1 (nth_error_Some curves _)); rewrite H; discriminate). assert (E : ((0 <=? i)%Z && (i <? 6)%Z) = true) by (apply andb_true_iff; split; [apply Z.leb_le; exact P|apply Z.ltb_lt; lia]). rewrite E.
      remember (Z.to_nat i) as n. clear - H. do 6 (destruct n as [|n]; [cbn in H; apply some_inj in H; injection H as <- _; reflexivity|]). destruct n; discriminate H.
Qed.
Theorem curve_chosen a : (forall c k, (snd (set_curvetype c a) = true /\ kind (fst (set_curvetype c a)) = k <-> chosen a k) /\ (snd (set_curvetype c a) = false -> fst (set_curvetype c a) = c)) /\
  forall nonlin approx g k, (exists c, new nonlin a approx g = Some c /\ kind c = k) <-> chosen a k.
Proof.
  split.
  - intros c k. unfold set_curvetype. rewrite <- type_of_chosen. destruct (type_of a) as [k'|]; cbn [fst snd kind].
    + split; [|discriminate]. split; [intros (_ & <-); reflexivity|intros H; apply some_inj in H; subst k'; split; reflexivity].
    + split; [|reflexivity]. split; [intros (C & _); discriminate C|discriminate].
  - intros nonlin approx g k. unfold new. rewrite <- type_of_chosen. destruct (type_of a) as [k'|].
    + split; [intros (c & E & <-); apply some_inj in E; subst c; reflexivity|]. intros H. apply some_inj in H. subst k'. eexists. split; reflexivity.
    + split; [intros (c & C & _); discriminate C|discriminate].
Qed.
Example curve_chosen_case : chosen (ByName "LinEar+0") LinearZero /\ chosen (ByNumber 5) Loggain /\ ~ (exists k, chosen (ByNumber 6) k) /\ ~ (exists k, chosen (ByName "spline") k).
Proof.
  split; [apply type_of_chosen; reflexivity|]. split; [apply type_of_chosen; reflexivity|]. split; intros (k & C); apply type_of_chosen in C; discriminate C.
Qed.

Section World.
Variable argsort : list R -> list nat.
Hypothesis sorting : sorts argsort.
Variables parse features : string -> option R.
Variable smoothing : curvetype -> bool -> list R -> list R -> list R -> list R -> option curve.
Notation reachable := (reachable argsort parse features smoothing).
Notation step := (step argsort parse features smoothing).
Notation run := (run argsort parse features smoothing).
Notation add_point := (add_point argsort parse features).
Notation ph2energy := (ph2energy argsort smoothing).
Notation energy2ph := (energy2ph argsort smoothing).
Notation load := (load argsort parse features).

(** * C32: the points *)

Lemma reachable_facts c : reachable c -> exists l, holds c l /\ names_distinct l /\ current smoothing c /\ blank c.
Proof.
  intros (nonlin & a & ap & g & c0 & os & N & ->). pose proof (new_holds _ _ _ _ _ N) as H0. destruct (run_holds argsort sorting parse features smoothing c0 [] os H0) as (l & H & D).
  exists l. split; [exact H|]. split; [apply D; intros a' p b q c' E; destruct a'; discriminate|].
  split; [exact (run_current argsort sorting parse features smoothing os c0 [] H0 (new_current smoothing _ _ _ _ _ N)) | exact (run_blank argsort sorting parse features smoothing os c0 [] H0 (new_blank _ _ _ _ _ N))].
Qed.
(** In every state of every program the five lists are columns of one list of points, and names are not given twice. *)
Theorem points_in_step c : reachable c -> exists l, holds c l /\ names_distinct l.
Proof. intros R. destruct (reachable_facts c R) as (l & H & D & _). exists l. auto. Qed.
(** What each operation does to them. *)
Theorem operation_effect c l o : holds c l -> exists m, holds (step c o) m /\ effect parse features l o m.
Proof. exact (step_effect argsort sorting parse features smoothing c l o). Qed.
(** add_cal_point: an unknown line, or a place that is taken when overwriting is not wanted, raises and changes nothing. *)
Theorem add_refused c l pht energy name pe ee ow : holds c l ->
  (forall p, ~ described parse features pht energy name pe ee p) \/ (exists p, described parse features pht energy name pe ee p /\ ow = false /\ taken l p) ->
  exists c', add_point c pht energy name pe ee ow = (c', false) /\ holds c' l.
Proof.
  intros H [N | (p & D & O & T)].
  - pose proof (add_unknown argsort parse features c pht energy name pe ee ow N) as E. exists (stale c). split; [exact E | exact H].
  - destruct (add_known argsort parse features c l pht energy name pe ee ow p H D) as (c' & b & A & _ & _ & [(_ & _ & H' & ->) | ([O' | T'] & _)]); [exists c'; auto | congruence | contradiction].
Qed.
(** Otherwise the point is put in its place, even if that raises; if it does not raise, energies do not fall with pulse height, and with different pulse heights and
    energies it raises exactly if they are not in the same order. *)
Theorem add_accepted c l pht energy name pe ee ow p : holds c l -> described parse features pht energy name pe ee p -> ow = true \/ ~ taken l p ->
  exists c' ok m, add_point c pht energy name pe ee ow = (c', ok) /\ put l p m /\ holds c' m /\ settings_kept c c' /\ (ok = true -> not_decreasing m) /\
    (NoDup (map p_ph m) -> NoDup (map p_energy m) -> (ok = true <-> increasing m)).
Proof.
  intros H D O. destruct (add_known argsort parse features c l pht energy name pe ee ow p H D) as (c' & b & A & _ & K & [(O' & T & _) | (_ & (m & P & HM) & B)]); [destruct O; [congruence | contradiction]|].
  exists c', b, m. split; [exact A|]. split; [exact P|]. split; [exact HM|]. split; [exact K|]. subst b. split; [exact (agrees_not_decreasing argsort sorting c' m HM) | exact (agrees_increasing argsort sorting c' m HM)].
Qed.
(** There is one place. *)
Theorem one_place l p m m' : put l p m -> put l p m' -> m = m'.
Proof. exact (put_unique l p m m'). Qed.
(** For lines that are far enough apart, with names of their own, the points are those of a table keyed by energy. *)
Theorem points_are_a_table nonlin a ap g c os line title tol : new nonlin a ap g = Some c -> lines line title tol -> Forall (tidy parse features line title tol) os ->
  (exists t, table_after parse features os t) /\ forall t, table_after parse features os t ->
  exists l, holds (run c os) l /\ NoDup (map p_energy l) /\ forall e q, t e = Some q <-> In q l /\ p_energy q = e.
Proof.
  intros N LI F. split; [apply table_exists|]. intros t T. destruct (run_table argsort sorting parse features smoothing line title tol LI c os (new_holds _ _ _ _ _ N) F t T) as (l & H & S1 & _ & S2).
  exists l. auto.
Qed.

(** * C33: files *)

(** A reloaded calibration has the same points exactly if names are different, energies are in the order of pulse heights, and each point is further from the points before
    it than its uncertainty. *)
Theorem reload_same_points c l : holds c l -> NoDup (map p_ph l) -> NoDup (map p_energy l) ->
  ((exists c', load (save c) = Some c' /\ holds c' l) <-> names_distinct l /\ increasing l /\ spread l).
Proof.
  intros H N1 N2. destruct (load_eq argsort parse features c l H) as (c0 & _ & H0 & _ & _ & _ & _ & ->). split.
  - intros (c' & A & H'). destruct (add_all_inv argsort sorting parse features l c0 [] c' H0 A) as (w & HW & _ & EQ & ND). pose proof (holds_unique c' l w H' HW) as <-.
    destruct (EQ eq_refl) as (_ & Q). split; [|split].
    + intros a p b q d L E X. destruct (Q (a ++ p :: b) q d ltac:(rewrite L, <- app_assoc; reflexivity)) as (NA & _). destruct NA as [NA | NA]; [congruence|]. apply NA. exists p. split; [cbn; apply in_elt | exact X].
    + destruct l as [|p1 l']; [intros p q []|]. specialize (ND ltac:(discriminate)). set (l := p1 :: l') in *.
      assert (INJ : forall (f : point -> R), NoDup (map f l) -> forall p q, In p l -> In q l -> f p = f q -> p = q).
      { intros f NF p q P Q' E. destruct (in_split _ _ P) as (a & b & L). rewrite L in Q', NF. rewrite map_mid in NF. apply NoDup_remove_2 in NF. apply in_app_or in Q'. destruct Q' as [Q' | [Q' | Q']]; [|exact Q'|]; destruct NF; rewrite E; apply in_or_app; [left | right]; apply in_map, Q'. }
      intros p q P Q'. split; intro LT.
      * destruct (ND p q P Q' LT) as [X | X]; [exact X|]. rewrite (INJ p_energy N2 p q P Q' X) in LT. lra.
      * destruct (Rlt_le_dec (p_ph p) (p_ph q)) as [X | X]; [exact X|]. destruct X as [X | X]; [specialize (ND q p Q' P X); lra|]. rewrite (INJ p_ph N1 q p Q' P X) in LT. lra.
    + intros a q b p d L. destruct (Q (a ++ q :: b) p d ltac:(rewrite L, <- app_assoc; reflexivity)) as (_ & S). apply S. cbn. apply in_elt.
  - intros (D & I & S). destruct (add_all_new argsort sorting parse features l c0 [] H0 D I N1 N2 S) as (c' & A & H' & _). exists c'. auto.
Qed.
(** Its settings are those saved, but for the nonlinearity, which is always 1.15, and the choice of GPR splines, which are used. *)
Theorem reload_settings c l c' : holds c l -> load (save c) = Some c' -> kind c' = kind c /\ approximate c' = approximate c /\ gpr c' = true /\ nonlinearity c' = 115 / 100.
Proof.
  intros H L. destruct (load_eq argsort parse features c l H) as (c0 & _ & H0 & K1 & K2 & K3 & K4 & E). rewrite E in L. clear E.
  assert (G : forall r x, add_all argsort parse features x (rows r) = Some c' -> settings_kept x c').
  { induction r as [|p r IH]; intros x A; cbn [rows map add_all] in A; [apply some_inj in A; subst; repeat split|]. destruct (add_point x (p_ph p) (inl (p_energy p)) (p_name p) (Some (p_dph p)) (Some (p_de p)) true) as [y [|]] eqn:Y; [|discriminate].
    apply settings_trans with y; [|exact (IH y A)]. revert Y. unfold EcModel.add_point. cbv zeta. destruct (match _ with Some i => Some i | None => _ end); intro Y; inversion Y; repeat split. }
  destruct (G l c0 L) as (G1 & G2 & G3 & G4). rewrite G1, G2, G3, G4. auto.
Qed.
(** It converts alike, unless a power law or a smoothing spline not of the GPR kind is wanted. *)
Theorem reload_converts c l c' : reachable c -> holds c l -> NoDup (map p_ph l) -> l <> [] -> load (save c) = Some c' -> holds c' l ->
  (kind c = Loglog -> length l = 1%nat -> nonlinearity c = 115 / 100) -> (plain c l \/ gpr c = true) ->
  forall x der e, snd (ph2energy c' x der) = snd (ph2energy c x der) /\ snd (energy2ph c' e) = snd (energy2ph c e).
Proof.
  intros R H N NE L H' NL GP. destruct (reachable_facts c R) as (l' & _ & _ & CU & _). destruct (reload_settings c l c' H L) as (K1 & K2 & K3 & K4).
  apply (same_points_alike argsort sorting smoothing c c' l l H H' CU); [|reflexivity | exact N | exact NE | exact K1 | destruct GP as [GP | GP]; [left; exact GP | right; congruence] | exact K2 | intros A B; rewrite K4; symmetry; auto].
  destruct (load_eq argsort parse features c l H) as (c0 & _ & H0 & _ & _ & _ & _ & E). rewrite E in L. apply current_stale. destruct l as [|p l]; [contradiction|]. clear - L.
  assert (G : forall r x, fresh x = false -> add_all argsort parse features x (rows r) = Some c' -> fresh c' = false).
  { induction r as [|q r IH]; intros x F A; cbn [rows map add_all] in A; [apply some_inj in A; subst; exact F|].
    pose proof (add_stale argsort parse features x (p_ph q) (inl (p_energy q)) (p_name q) (Some (p_dph q)) (Some (p_de q)) true) as ST. destruct (add_point x _ _ _ _ _ _) as [y [|]]; [|discriminate]. exact (IH y ST A). }
  cbn [rows map add_all] in L. pose proof (add_stale argsort parse features c0 (p_ph p) (inl (p_energy p)) (p_name p) (Some (p_dph p)) (Some (p_de p)) true) as ST. destruct (add_point c0 _ _ _ _ _ _) as [y [|]]; [|discriminate]. exact (G l y ST L).
Qed.
(** A calibration made with lines far enough apart is reloaded as it was, if pulse heights are different and energies are in their order. *)
Theorem reload_tidy nonlin a ap g c os line title tol l : new nonlin a ap g = Some c -> lines line title tol -> Forall (tidy parse features line title tol) os ->
  holds (run c os) l -> NoDup (map p_ph l) -> increasing l -> exists c', load (save (run c os)) = Some c' /\ holds c' l.
Proof.
  intros N LI F H N1 IN. destruct (table_exists parse features os) as (t & T).
  destruct (run_table argsort sorting parse features smoothing line title tol LI c os (new_holds _ _ _ _ _ N) F t T) as (l' & H' & S1 & W & S2).
  pose proof (holds_unique _ _ _ H H') as <-. apply (reload_same_points (run c os) l H N1 S1). split; [|split; [exact IN|]].
  - destruct (reachable_facts (run c os)) as (l' & HL & D & _); [exists nonlin, a, ap, g, c, os; auto|]. rewrite (holds_unique _ _ _ H HL). exact D.
  - intros u q b p d L. assert (Q : In q l) by (rewrite L; apply in_elt). assert (P : In p l) by (rewrite L; apply in_or_app; right; right; apply in_elt).
    destruct (W q Q) as (LQ & _). destruct (W p P) as (LP & _ & _ & _ & DE). assert (NE : p_energy p <> p_energy q).
    { rewrite L in S1. intro X. change (u ++ q :: b ++ p :: d) with (u ++ q :: (b ++ p :: d)) in S1. rewrite map_mid in S1. apply NoDup_remove_2 in S1. apply S1. rewrite <- X. apply in_or_app. right. rewrite map_mid. apply in_elt. }
    destruct (LI _ _ LP LQ NE) as (X & _). unfold apart. lra.
Qed.

(** * C67: the curves *)
Section One.
Variables (c : cal) (l : list point).
Hypotheses (R : reachable c) (H : holds c l) (PR : proper l) (EN : enough (kind c) l) (PL : plain c l).
Lemma is_current : current smoothing c.
Proof using sorting R. destruct (reachable_facts c R) as (l' & _ & _ & CU & _). exact CU. Qed.
(** ph2energy gives the energy on the curve of the kind set, and with a gain curve that has no sign change where brentq looks for it, it raises. *)
Theorem conversion_value x v : (kind c = Gain -> bracketed l) -> energy_at (kind c) (nonlinearity c) l x v -> snd (ph2energy c x 0) = Some (Some v).
Proof using sorting R H PR EN PL. exact (value_lemma argsort sorting smoothing c l H is_current PR EN PL x v). Qed.
Theorem conversion_raises x der : kind c = Gain -> ~ bracketed l -> snd (ph2energy c x der) = None.
Proof using sorting R H PR EN PL. exact (raises_lemma argsort sorting smoothing c l H is_current PR EN PL x der). Qed.
(** The curve goes through the points. *)
Theorem conversion_of_points p : (kind c = Gain -> bracketed l) -> In p l -> (kind c = Loglog -> (2 <= length l)%nat -> / 1000000 <= p_ph p) ->
  snd (ph2energy c (p_ph p) 0) = Some (Some (p_energy p)).
Proof using sorting R H PR EN PL. intros B I L. apply conversion_value; [exact B|]. exact (energy_at_point _ _ l p PR EN I L). Qed.
(** der = 1 and der = 2 give its derivatives. *)
Theorem conversion_derivatives x v : (kind c = Gain -> bracketed l) -> energy_at (kind c) (nonlinearity c) l x v -> / 1000000 < x ->
  exists D, derivatives 2 D x /\ near x (fun y => energy_at (kind c) (nonlinearity c) l y (D 0%nat y) /\ forall i, (i <= 2)%nat -> snd (ph2energy c y i) = Some (Some (D i y))).
Proof using sorting R H PR EN PL. exact (derivative_lemma argsort sorting smoothing c l H is_current PR EN PL x v). Qed.
(** energy2ph gives back the pulse heights of the points, if the curve takes no value twice between a fiftieth of the smallest pulse height and twice the largest. *)
Theorem inverse_of_points p : (kind c = Gain -> bracketed l) -> (forall x, in_range l x -> exists v, energy_at (kind c) (nonlinearity c) l x v) ->
  (forall x y v, in_range l x -> in_range l y -> energy_at (kind c) (nonlinearity c) l x v -> energy_at (kind c) (nonlinearity c) l y v -> x = y) -> In p l ->
  snd (energy2ph c (p_energy p)) = Some (Some (p_ph p)).
Proof using sorting R H PR EN PL. exact (inverse_lemma argsort sorting smoothing c l H is_current PR EN PL p). Qed.
End One.
(** There is one such energy. *)
Theorem one_energy k n l x u v : proper l -> enough k l -> energy_at k n l x u -> energy_at k n l x v -> u = v.
Proof. intros P E. exact (energy_unique k n l x u v P (enough_nonempty _ _ E) E). Qed.
(** One point and a linear or log-gain curve: every conversion raises. *)
Theorem one_point_raises c p x der : reachable c -> holds c [p] -> 0 < p_ph p -> kind c = Linear \/ kind c = LinearZero \/ kind c = Loggain -> snd (ph2energy c x der) = None.
Proof.
  intros R H P K. destruct (reachable_facts c R) as (l' & _ & _ & CU & _). destruct (convert_value argsort sorting smoothing c [p] H CU) as (m & (B & _) & V); [repeat constructor; intros [] | discriminate|].
  destruct (V x der 0) as (-> & _). apply Permutation_sym, Permutation_length_1_inv in B. subst m. unfold curves_of, made_curves. cbn [map length]. rewrite andb_comm. cbn [Nat.leb andb].
  destruct (sample_points [p_ph p]); [|reflexivity]. destruct K as [-> | [-> | ->]]; reflexivity.
Qed.
(** No points: the identity (with derivative 0) as long as nothing has been changed, and otherwise an exception. *)
Theorem no_points c x der : reachable c -> holds c [] -> snd (ph2energy c x der) = None \/ snd (ph2energy c x der) = Some (Some (match der with O => x | S _ => 0 end)).
Proof.
  intros R H. destruct (reachable_facts c R) as (l' & _ & _ & _ & BL). unfold EcModel.ph2energy, refreshed. destruct (fresh c) eqn:F.
  - right. cbn. destruct H as (_ & P & _). destruct (BL F P) as (-> & _). destruct der; reflexivity.
  - left. destruct (update_made argsort sorting smoothing c [] H) as (m & (B & _) & X). apply Permutation_sym, Permutation_nil in B. subst m. cbn in X. destruct X as (X & _).
    destruct (update_converters argsort smoothing c) as [c' b]. cbn in X. subst b. reflexivity.
Qed.
(** drop_one_errors: for each point, in order of energy, the error of the curve through the others. *)
Theorem drop_one_errors_value c l : holds c l -> proper l ->
  (forall a q b, l = a ++ q :: b -> enough (kind c) (a ++ b) /\ plain c (a ++ b) /\ (kind c = Gain -> bracketed (a ++ b)) /\ exists e, energy_at (kind c) (nonlinearity c) (a ++ b) (p_ph q) e) ->
  exists m ds, drop_one_errors argsort smoothing c = Some (map p_energy m, map Some ds) /\ Permutation m l /\ StronglySorted Rle (map p_energy m) /\
    Forall2 (fun q d => forall a b, l = a ++ q :: b -> energy_at (kind c) (nonlinearity c) (a ++ b) (p_ph q) (p_energy q + d)) m ds.
Proof. exact (drop_errors argsort sorting smoothing c l). Qed.

(** * C68: conversions depend on the points and settings only *)
Theorem history_does_not_matter c c' l l' : reachable c -> reachable c' -> holds c l -> holds c' l' -> Permutation l l' -> NoDup (map p_ph l) -> l <> [] ->
  kind c' = kind c -> approximate c' = approximate c -> (plain c l \/ gpr c' = gpr c) -> (kind c = Loglog -> length l = 1%nat -> nonlinearity c' = nonlinearity c) ->
  forall x der e, snd (ph2energy c' x der) = snd (ph2energy c x der) /\ snd (energy2ph c' e) = snd (energy2ph c e).
Proof.
  intros R R' H H' P N NE K AP GP NL. destruct (reachable_facts c R) as (? & _ & _ & CU & _). destruct (reachable_facts c' R') as (? & _ & _ & CU' & _).
  exact (same_points_alike argsort sorting smoothing c c' l l' H H' CU CU' P N NE K GP AP NL).
Qed.
(** Arrays are converted element by element. *)
Theorem conversion_of_arrays c xs der ys : snd (ph2energy_array argsort smoothing c xs der) = Some ys -> (forall x, In x xs -> exists v, snd (ph2energy c x der) = Some (Some v)) ->
  Forall2 (fun x y => snd (ph2energy c x der) = Some (Some y)) xs ys.
Proof.
  unfold ph2energy_array, EcModel.ph2energy. destruct (refreshed argsort smoothing c) as [c' [|]]; cbn [snd]; [|discriminate]. intros E. apply some_inj in E. subst ys. intro A.
  induction xs as [|x xs IH]; cbn [map]; constructor; [|apply IH; intros y Y; apply A; right; exact Y]. destruct (A x (or_introl eq_refl)) as (v & V). injection V as V. rewrite V. reflexivity.
Qed.
End World.

(** * Claims that are false as they stand, and cases that meet the hypotheses *)

(** There is an argsort. *)
Fixpoint place (l : list R) (i : nat) (o : list nat) : list nat :=
  match o with [] => [i] | j :: t => if rleb (nth i l 0) (nth j l 0) then i :: j :: t else j :: place l i t end.
Definition some_argsort (l : list R) : list nat := fold_right (place l) [] (seq 0 (length l)).
Lemma place_perm l i o : Permutation (place l i o) (i :: o).
Proof. induction o as [|j o IH]; cbn [place]; [reflexivity|]. destruct (rleb _ _); [reflexivity|]. rewrite IH. apply perm_swap. Qed.
Lemma place_sorted l i o : StronglySorted (fun a b => nth a l 0 <= nth b l 0) o -> StronglySorted (fun a b => nth a l 0 <= nth b l 0) (place l i o).
Proof.
  induction 1 as [|j o S IH F]; cbn [place]; [repeat constructor|]. destruct (rleb (nth i l 0) (nth j l 0)) eqn:E.
  - apply rleb_true in E. constructor; [constructor; assumption|]. constructor; [exact E|]. revert F. apply Forall_impl. intros b B. lra.
  - assert (L : nth j l 0 <= nth i l 0) by (destruct (Rle_dec (nth i l 0) (nth j l 0)) as [X | X]; [apply rleb_true in X; congruence | lra]). constructor; [exact IH|].
    apply (Permutation_Forall (Permutation_sym (place_perm l i o))). constructor; assumption.
Qed.
Example some_argsort_sorts : sorts some_argsort.
Proof.
  intro l. unfold some_argsort. assert (P : forall w, Permutation (fold_right (place l) [] w) w) by (induction w as [|i w IH]; cbn [fold_right]; [reflexivity | rewrite place_perm, IH; reflexivity]).
  assert (S : forall w, StronglySorted (fun a b => nth a l 0 <= nth b l 0) (fold_right (place l) [] w)) by (induction w as [|i w IH]; cbn [fold_right]; [constructor | apply place_sorted, IH]).
  split; [apply P|]. intros i j I. specialize (S (seq 0 (length l))). assert (LO : length (fold_right (place l) [] (seq 0 (length l))) = length l) by (rewrite (Permutation_length (P _)); apply seq_length).
  rewrite <- LO in I. clear LO. revert i j I. induction S as [|x o S IH F]; intros i j I; [cbn in I; lia|]. destruct i as [|i], j as [|j]; cbn [nth]; [lra | | lia | apply IH; cbn in I; lia].
  rewrite Forall_forall in F. apply F, nth_In. cbn in I. lia.
Qed.

Section Cases.
Variable argsort : list R -> list nat.
Hypothesis sorting : sorts argsort.
Variables parse features : string -> option R.
Variable smoothing : curvetype -> bool -> list R -> list R -> list R -> list R -> option curve.
Notation reachable := (reachable argsort parse features smoothing).
Notation step := (step argsort parse features smoothing).
Notation run := (run argsort parse features smoothing).

Definition adding (p : point) : op := Add (p_ph p) (inl (p_energy p)) (p_name p) (Some (p_dph p)) (Some (p_de p)) true.
Lemma adding_puts c l p m : holds c l -> put l p m -> holds (step c (adding p)) m /\ settings_kept c (step c (adding p)).
Proof.
  intros H P. destruct (add_accepted argsort sorting parse features c l (p_ph p) (inl (p_energy p)) (p_name p) (Some (p_dph p)) (Some (p_de p)) true p H) as (c' & ok & m' & A & P' & H' & K & _); [repeat split | left; reflexivity|].
  unfold adding, EcModel.step. rewrite A. cbn [fst]. rewrite (one_place l p m m' P P'). auto.
Qed.
Definition first : point := mkPoint "a" 100 200 1 1.
Definition second : point := mkPoint "b" 300 600 1 1.
Lemma put_first : put [] first [first].
Proof. apply (put_new [] first); [right; intros (q & [] & _) | intros r []]. Qed.
Ltac away := unfold apart; cbn; unfold Rabs; destruct (Rcase_abs _); lra.
Lemma far_apart p q d : p_energy p + d < p_energy q -> 0 <= d -> d < apart q p /\ d < apart p q.
Proof. intros L D. unfold apart. rewrite (Rabs_right (p_energy q - p_energy p)), (Rabs_left (p_energy p - p_energy q)) by lra. lra. Qed.
Lemma put_second : put [first] second [first; second].
Proof.
  apply (put_new [first] second); [right; intros (q & [<- | []] & E); discriminate E|]. intros r [<- | []]. away.
Qed.
Definition start (k : curvetype) : cal := set_nonlinearity (mkCal [] [] [] [] [] 0 k false true true (115 / 100) default_ph2e (fun e => Some e)) (115 / 100).
Lemma start_new k : new (115 / 100) (ByName (curvename k)) false true = Some (start k).
Proof. unfold new. rewrite type_of_name. reflexivity. Qed.
Definition two (k : curvetype) : cal := run (start k) [adding first; adding second].
Lemma two_reachable k : reachable (two k).
Proof. exists (115 / 100), (ByName (curvename k)), false, true, (start k), [adding first; adding second]. split; [apply start_new | reflexivity]. Qed.
Lemma two_facts k : holds (two k) [first; second] /\ settings_kept (start k) (two k).
Proof.
  destruct (adding_puts (start k) [] first [first]) as (H1 & K1); [repeat split | exact put_first|]. destruct (adding_puts _ _ second _ H1 put_second) as (H2 & K2). split; [exact H2|]. exact (settings_trans _ _ _ K1 K2).
Qed.
Lemma two_kind k : kind (two k) = k /\ approximate (two k) = false /\ gpr (two k) = true /\ nonlinearity (two k) = 115 / 100.
Proof. destruct (two_facts k) as (_ & K1 & K2 & K3 & K4). rewrite K1, K2, K3, K4. repeat split. Qed.
Lemma two_proper : proper [first; second].
Proof. split; [cbn; repeat constructor; cbn; intros X; repeat destruct X as [X | X]; lra|]. intros p [<- | [<- | []]]; cbn; lra. Qed.

Example points_in_step_case : exists l, holds (two Linear) l /\ l = [first; second] /\ names_distinct l.
Proof.
  destruct (points_in_step argsort sorting parse features smoothing (two Linear) (two_reachable Linear)) as (l & H & D). exists l. split; [exact H|]. split; [|exact D].
  exact (holds_unique _ _ _ H (proj1 (two_facts Linear))).
Qed.
Example operation_effect_case : exists m, holds (step (two Linear) (RemoveName "a")) m /\ m = [second].
Proof.
  destruct (operation_effect argsort sorting parse features smoothing (two Linear) [first; second] (RemoveName "a") (proj1 (two_facts Linear))) as (m & H & [(N & _) | (a & q & b & L & Q & NA & ->)]).
  - destruct N. exists first. split; [left; reflexivity | reflexivity].
  - exists (a ++ b). split; [exact H|]. destruct a as [|x a]; cbn [app] in L |- *; inversion L; subst; [reflexivity|]. destruct NA. exists first. split; [left; reflexivity | reflexivity].
Qed.
Example remove_name_case : snd (remove_name (two Linear) "a") = true /\ snd (remove_name (two Linear) "c") = false.
Proof.
  split; [apply (remove_name_raises (two Linear) _ "a"%string (proj1 (two_facts Linear))); exists first; cbn; auto|]. apply not_true_is_false. intro X. apply (remove_name_raises (two Linear) _ "c"%string (proj1 (two_facts Linear))) in X.
  destruct X as (q & [<- | [<- | []]] & E); discriminate E.
Qed.
(** A point without a name takes the place of a near one. *)
Example add_case : exists c', add_point argsort parse features (two Linear) 110 (inl 200) "" None None true = (c', true) /\ holds c' [mkPoint "a" 110 200 (110 / 1000) (/ 100); second].
Proof.
  set (p := mkPoint "" 110 200 (110 / 1000) (/ 100)).
  destruct (add_accepted argsort sorting parse features (two Linear) [first; second] 110 (inl 200) ""%string None None true p (proj1 (two_facts Linear))) as (c' & ok & m & A & P & H & _ & _ & I); [repeat split | left; reflexivity|].
  assert (Q : put [first; second] p ([] ++ renamed p (p_name first) :: [second])).
  { apply put_near with (q := first); [reflexivity | left; reflexivity | | intros r [] |].
    - unfold apart, p, first. cbn. rewrite Rminus_diag_eq, Rabs_R0 by reflexivity. lra.
    - intros r [<- | []]. unfold apart, p, first, second. cbn. rewrite Rminus_diag_eq, Rabs_R0 by reflexivity. apply Rabs_pos. }
  rewrite (one_place _ _ _ _ P Q) in *. exists c'. split; [|exact H]. rewrite A. f_equal. apply I.
  - cbn. repeat constructor; cbn; intros X; repeat destruct X as [X | X]; lra.
  - cbn. repeat constructor; cbn; intros X; repeat destruct X as [X | X]; lra.
  - intros x y X Y. destruct X as [<- | [<- | []]], Y as [<- | [<- | []]]; cbn; lra.
Qed.
Example add_refused_case : exists c', add_point argsort parse features (two Linear) 110 (inl 200) "" None None false = (c', false) /\ holds c' [first; second].
Proof.
  apply (add_refused argsort parse features (two Linear) [first; second]); [apply two_facts|]. right. exists (mkPoint "" 110 200 (110 / 1000) (/ 100)). split; [repeat split|]. split; [reflexivity|].
  right. exists first. split; [left; reflexivity|]. unfold apart, first. cbn. rewrite Rminus_diag_eq, Rabs_R0 by reflexivity. lra.
Qed.
Definition two_lines (e : R) : Prop := e = 200 \/ e = 600.
Definition two_titles (e : R) : string := if Req_EM_T e 200 then "a" else "b".
Lemma two_lines_far : lines two_lines two_titles 10.
Proof.
  intros x y [-> | ->] [-> | ->] N; try contradiction; unfold two_titles; destruct (Req_EM_T 200 200) as [_ | X]; try contradiction; destruct (Req_EM_T 600 200) as [X | _]; try lra; (split; [unfold Rabs; destruct (Rcase_abs _); lra | discriminate]).
Qed.
Lemma two_tidy : Forall (tidy parse features two_lines two_titles 10) [adding first; adding second].
Proof.
  constructor; [|constructor; [|constructor]]; cbn [adding tidy first second p_ph p_energy p_name p_dph p_de]; intros p ((E & N) & A & B & C); rewrite E, N, B, C; unfold two_lines, two_titles.
  - split; [auto|]. split; [right; destruct (Req_EM_T 200 200); [reflexivity | contradiction] | lra].
  - split; [auto|]. split; [right; destruct (Req_EM_T 600 200); [lra | reflexivity] | lra].
Qed.
Example points_are_a_table_case : exists t, table_after parse features [adding first; adding second] t /\ t 200 = Some first /\ t 600 = Some second /\ t 300 = None.
Proof.
  destruct (points_are_a_table argsort sorting parse features smoothing _ _ _ _ (start Linear) [adding first; adding second] two_lines two_titles 10 (start_new Linear) two_lines_far two_tidy) as ((t & T) & A).
  exists t. split; [exact T|]. destruct (A t T) as (l & H & _ & S). rewrite (holds_unique _ _ _ H (proj1 (two_facts Linear))) in S.
  split; [apply S; cbn; auto|]. split; [apply S; cbn; auto|]. destruct (t 300) as [q|] eqn:Q; [|reflexivity]. apply S in Q. destruct Q as ([<- | [<- | []]] & E); cbn in E; lra.
Qed.
(** Two points at one energy: the point of a name is moved to the energy of another. *)
Theorem keyed_by_energy_refuted : exists os l p q, holds (run (start Linear) os) l /\ In p l /\ In q l /\ p <> q /\ p_energy p = p_energy q.
Proof.
  set (third := mkPoint "a" 300 600 1 1). exists [adding first; adding second; adding third], [third; second], third, second. split; [|repeat split; cbn; auto; discriminate].
  change (run (start Linear) [adding first; adding second; adding third]) with (step (two Linear) (adding third)). apply (adding_puts (two Linear) [first; second] third); [apply two_facts|].
  apply (put_named [first; second] third [] first [second]); [reflexivity | discriminate | reflexivity | intros (q & [] & _)].
Qed.
(** A point that is refused, because energies would fall with pulse height, stays. *)
Theorem refused_point_is_kept_refuted : exists c p m, reachable c /\ holds c [first; second] /\ add_point argsort parse features c (p_ph p) (inl (p_energy p)) (p_name p) (Some (p_dph p)) (Some (p_de p)) true = (m, false) /\
  holds m [first; second; p] /\ ~ not_decreasing [first; second; p].
Proof.
  set (p := mkPoint "c" 400 500 1 1). destruct (add_accepted argsort sorting parse features (two Linear) [first; second] (p_ph p) (inl (p_energy p)) (p_name p) (Some (p_dph p)) (Some (p_de p)) true p (proj1 (two_facts Linear))) as (c' & ok & m & A & P & H & _ & O & _);
    [repeat split | left; reflexivity|].
  assert (Q : put [first; second] p [first; second; p]).
  { apply (put_new [first; second] p); [right; intros (q & [<- | [<- | []]] & E); discriminate E|]. intros r [<- | [<- | []]]; away. }
  rewrite (one_place _ _ _ _ P Q) in *. assert (ND : ~ not_decreasing [first; second; p]).
  { intro X. specialize (X second p ltac:(cbn; auto) ltac:(cbn; auto)). cbn in X. lra. }
  exists (two Linear), p, c'. split; [apply two_reachable|]. split; [apply two_facts|]. split; [|auto]. rewrite A. destruct ok; [destruct (ND (O eq_refl)) | reflexivity].
Qed.
(** remove_cal_point_energy does not remove the second of two points in the window. *)
Theorem remove_energy_refuted : exists c l m q e de, reachable c /\ holds c l /\ holds (step c (RemoveEnergy e de)) m /\ In q m /\ Rabs (p_energy q - e) < de.
Proof.
  exists (two Linear), [first; second]. destruct (operation_effect argsort sorting parse features smoothing (two Linear) [first; second] (RemoveEnergy 400 500) (proj1 (two_facts Linear))) as (m & H & E).
  assert (W1 : Rabs (p_energy first - 400) < 500) by (cbn; unfold Rabs; destruct (Rcase_abs _); lra). assert (W2 : Rabs (p_energy second - 400) < 500) by (cbn; unfold Rabs; destruct (Rcase_abs _); lra).
  exists m, second, 400, 500. split; [apply two_reachable|]. split; [apply two_facts|]. split; [exact H|]. split; [|exact W2]. cbn [effect] in E. destruct E as [(N & _) | [(a & q & b & L & _ & N & _) | (a & q & b & q' & d & w & L & _ & _ & N & -> & _)]].
  - specialize (N first (or_introl eq_refl)). lra.
  - destruct a as [|x a]; cbn [app] in *; inversion L; subst; [specialize (N second (or_introl eq_refl)); lra | specialize (N first (or_introl eq_refl)); lra].
  - destruct a as [|x a]; cbn [app] in *; inversion L; subst.
    + destruct b as [|y b]; cbn [app] in *; [inversion L; subst; left; reflexivity|]. exfalso. match goal with X : _ = b ++ _ |- _ => destruct b; discriminate X | X : second :: [] = _ :: _ |- _ => inversion X; subst; destruct b; discriminate end.
    + exfalso. specialize (N first (or_introl eq_refl)). lra.
Qed.

Lemma two_order : names_distinct [first; second] /\ increasing [first; second] /\ spread [first; second].
Proof.
  split; [|split].
  - destruct points_in_step_case as (l & _ & -> & D). exact D.
  - intros x y X Y. destruct X as [<- | [<- | []]], Y as [<- | [<- | []]]; cbn; lra.
  - intros a q b p d L. destruct a as [|x a]; cbn [app] in L; inversion L; subst.
    + destruct b as [|y b]; cbn [app] in *; inversion L; subst; [away|]. match goal with X : [] = b ++ _ |- _ => destruct b; discriminate X end.
    + destruct a as [|y a]; cbn [app] in *; [|match goal with X : [] = a ++ _ |- _ => destruct a; discriminate X | _ => inversion L; subst; destruct a; discriminate end]. match goal with X : _ = q :: b ++ _ |- _ => inversion X; subst end. destruct b; discriminate.
Qed.
Example reload_case : exists c', load argsort parse features (save (two Linear)) = Some c' /\ holds c' [first; second] /\ kind c' = Linear /\
  snd (ph2energy argsort smoothing c' 150 0) = snd (ph2energy argsort smoothing (two Linear) 150 0).
Proof.
  assert (NE : NoDup (map p_energy [first; second])) by (cbn; repeat constructor; cbn; intros X; repeat destruct X as [X | X]; lra).
  destruct (proj2 (reload_same_points argsort sorting parse features (two Linear) _ (proj1 (two_facts Linear)) (proj1 two_proper) NE) two_order) as (c' & L & H).
  exists c'. split; [exact L|]. split; [exact H|]. destruct (reload_settings argsort parse features _ _ c' (proj1 (two_facts Linear)) L) as (K & _). destruct (two_kind Linear) as (K1 & K2 & K3 & K4). split; [congruence|].
  apply (reload_converts argsort sorting parse features smoothing (two Linear) _ c' (two_reachable Linear) (proj1 (two_facts Linear)) (proj1 two_proper)); [discriminate | exact L | exact H | intros; exact K4 | right; exact K3 | exact 0].
Qed.
Example reload_tidy_case : exists c', load argsort parse features (save (two Linear)) = Some c' /\ holds c' [first; second].
Proof.
  exact (reload_tidy argsort sorting parse features smoothing _ _ _ _ (start Linear) [adding first; adding second] two_lines two_titles 10 _ (start_new Linear) two_lines_far two_tidy (proj1 (two_facts Linear)) (proj1 two_proper) (proj1 (proj2 two_order))).
Qed.
(** A point may come back in the place of another: it was moved to where it is under its name, with an uncertainty that reaches another point. *)
Theorem reload_same_points_refuted : exists c l, reachable c /\ holds c l /\ forall c', load argsort parse features (save c) = Some c' -> ~ holds c' l.
Proof.
  set (third := mkPoint "b" 300 600 1 1000). exists (step (two Linear) (adding third)), [first; third].
  assert (H : holds (step (two Linear) (adding third)) [first; third]).
  { apply (adding_puts (two Linear) [first; second] third); [apply two_facts|]. apply (put_named [first; second] third [first] second []); [reflexivity | discriminate | reflexivity | intros (q & [<- | []] & E); discriminate E]. }
  split; [exists (115 / 100), (ByName (curvename Linear)), false, true, (start Linear), [adding first; adding second; adding third]; split; [apply start_new | reflexivity]|].
  split; [exact H|]. intros c' L H'. destruct (proj1 (reload_same_points argsort sorting parse features _ _ H ltac:(cbn; repeat constructor; cbn; intros X; repeat destruct X as [X | X]; lra) ltac:(cbn; repeat constructor; cbn; intros X; repeat destruct X as [X | X]; lra))) as (_ & _ & S); [exists c'; auto|].
  specialize (S [] first [] third [] eq_refl). unfold apart in S. cbn in S. revert S. unfold Rabs. destruct (Rcase_abs _); lra.
Qed.
(** The nonlinearity is lost. *)
Theorem reload_nonlinearity_refuted : exists c c', reachable c /\ load argsort parse features (save c) = Some c' /\ nonlinearity c' <> nonlinearity c.
Proof.
  exists (step (start Loglog) (SetNonlinearity 2)), (set_nonlinearity (mkCal [] [] [] [] [] 0 Loglog false true true 2 default_ph2e (fun e => Some e)) (115 / 100)).
  split; [exists (115 / 100), (ByName (curvename Loglog)), false, true, (start Loglog), [SetNonlinearity 2]; split; [apply start_new | reflexivity]|].
  split; [reflexivity | cbn; lra].
Qed.

(** The line through two points *)
Lemma two_line n x : energy_at Linear n [first; second] x (2 * x).
Proof.
  destruct (spline_fn_made (map p_ph [first; second]) (map p_energy [first; second])) as (s & S & _); [reflexivity | cbn; lia | apply two_proper|].
  replace (2 * x) with (spline_at s 0 x); [apply at_linear; [apply (spline_natural _ _ s S), two_proper | cbn; lia]|].
  rewrite (spline_line _ _ s 0 2 S (proj1 two_proper)); [ring|]. intros i I. destruct i as [|[|i]]; cbn in *; [lra | lra | lia].
Qed.
Lemma linear_enough : enough (kind (two Linear)) [first; second]. Proof. left. cbn. lia. Qed.
Lemma linear_plain : plain (two Linear) [first; second]. Proof. right. cbn. lia. Qed.
Lemma linear_bracketed : kind (two Linear) = Gain -> bracketed [first; second].
Proof. intro K. destruct (two_kind Linear) as (K' & _). congruence. Qed.
Example conversion_value_case : snd (ph2energy argsort smoothing (two Linear) 150 0) = Some (Some 300).
Proof.
  apply (conversion_value argsort sorting parse features smoothing (two Linear) _ (two_reachable Linear) (proj1 (two_facts Linear)) two_proper linear_enough linear_plain 150 300 linear_bracketed).
  destruct (two_kind Linear) as (-> & _). replace 300 with (2 * 150) by ring. apply two_line.
Qed.
Example conversion_of_points_case : snd (ph2energy argsort smoothing (two Linear) 100 0) = Some (Some 200).
Proof.
  apply (conversion_of_points argsort sorting parse features smoothing (two Linear) _ (two_reachable Linear) (proj1 (two_facts Linear)) two_proper linear_enough linear_plain first linear_bracketed); [left; reflexivity|].
  cbn. lra.
Qed.
Example conversion_derivatives_case : exists D, derivatives 2 D 150 /\ snd (ph2energy argsort smoothing (two Linear) 150 1) = Some (Some (D 1%nat 150)).
Proof.
  destruct (conversion_derivatives argsort sorting parse features smoothing (two Linear) _ (two_reachable Linear) (proj1 (two_facts Linear)) two_proper linear_enough linear_plain 150 (2 * 150) linear_bracketed) as (D & A & N);
    [destruct (two_kind Linear) as (-> & _); apply two_line | lra|]. exists D. split; [exact A|]. apply (near_here 150 _ N). lia.
Qed.
Example inverse_of_points_case : snd (energy2ph argsort smoothing (two Linear) 600) = Some (Some 300).
Proof.
  destruct (two_kind Linear) as (K & _).
  apply (inverse_of_points argsort sorting parse features smoothing (two Linear) _ (two_reachable Linear) (proj1 (two_facts Linear)) two_proper linear_enough linear_plain second linear_bracketed); [| | right; left; reflexivity]; rewrite K.
  - intros x _. exists (2 * x). apply two_line.
  - intros x y v _ _ A B. assert (A' := one_energy _ _ _ _ _ _ two_proper (or_introl (le_n 2)) A (two_line _ x)). assert (B' := one_energy _ _ _ _ _ _ two_proper (or_introl (le_n 2)) B (two_line _ y)). lra.
Qed.
Example one_point_case : snd (ph2energy argsort smoothing (step (two Linear) (RemoveName "a")) 150 0) = None.
Proof.
  destruct operation_effect_case as (m & H & ->). apply (one_point_raises argsort sorting parse features smoothing _ second); [|exact H | cbn; lra|].
  - exists (115 / 100), (ByName (curvename Linear)), false, true, (start Linear), [adding first; adding second; RemoveName "a"]. split; [apply start_new | reflexivity].
  - left. destruct (two_kind Linear) as (K & _). rewrite <- K at 2. pose proof (remove_name_in (two Linear) _ "a"%string (proj1 (two_facts Linear))) as Q. destruct Q as (a & q & b & c' & _ & _ & _ & E & _ & _ & K1 & _); [exists first; cbn; auto|]. cbn [EcModel.step]. rewrite E. exact K1.
Qed.
Example no_points_case : snd (ph2energy argsort smoothing (start Linear) 150 0) = Some (Some 150) /\ snd (ph2energy argsort smoothing (step (start Linear) (SetCurvetype (ByName "gain"))) 150 0) = None.
Proof. split; [reflexivity|]. cbn [EcModel.step]. destruct (sorting []) as (P & _). cbn in P. apply Permutation_sym, Permutation_nil in P. unfold ph2energy, refreshed.
  set (c := fst (set_curvetype (start Linear) (ByName "gain"))). replace (fresh c) with false by reflexivity. unfold update_converters, sorted_points. change (phs c) with (@nil R). rewrite P. reflexivity. Qed.
(** The same points, added the other way round, and a conversion in between *)
Definition other_way : cal := run (start Linear) [adding second; Convert 5 0; adding first].
Example history_case x : exists l, holds other_way l /\ Permutation [first; second] l /\ snd (ph2energy argsort smoothing other_way x 0) = snd (ph2energy argsort smoothing (two Linear) x 0).
Proof.
  destruct (adding_puts (start Linear) [] second [second]) as (H1 & K1); [repeat split | apply (put_new [] second); [right; intros (q & [] & _) | intros r []]|].
  destruct (operation_effect argsort sorting parse features smoothing _ _ (Convert 5 0) H1) as (m & H2 & E). cbn [effect] in E.
  assert (M : m = [second]).
  { destruct E as [-> | (s & (P & _) & F)]; [reflexivity|]. apply Permutation_sym, Permutation_length_1_inv in P. subst s. inversion F as [|? ? ? ? (_ & X) F2]; subst. inversion F2; subst. destruct X as [-> | (X & _)]; [reflexivity | cbn in X; lia]. }
  subst m. destruct (adding_puts _ _ first [second; first] H2) as (H3 & K3).
  { apply (put_new [second] first); [right; intros (q & [<- | []] & E'); discriminate E'|]. intros r [<- | []]. away. }
  exists [second; first]. split; [exact H3|]. split; [apply perm_swap|].
  assert (K2 : settings_kept (step (start Linear) (adding second)) (step (step (start Linear) (adding second)) (Convert 5 0))).
  { destruct (refreshed_holds argsort sorting smoothing _ _ H1) as (c' & b & w & RF & _ & K & _). cbn [EcModel.step]. unfold ph2energy. rewrite RF. destruct b; exact K. }
  destruct (settings_trans _ _ _ (settings_trans _ _ _ K1 K2) K3) as (Q1 & Q2 & Q3 & Q4). destruct (two_kind Linear) as (W1 & W2 & W3 & W4).
  apply (history_does_not_matter argsort sorting parse features smoothing (two Linear) other_way [first; second] [second; first] (two_reachable Linear));
    [exists (115 / 100), (ByName (curvename Linear)), false, true, (start Linear), [adding second; Convert 5 0; adding first]; split; [apply start_new | reflexivity]
    | apply two_facts | exact H3 | apply perm_swap | apply two_proper | discriminate | rewrite W1; exact Q1 | rewrite W2; exact Q2 | right; rewrite W3; exact Q3 | intros; rewrite W4; exact Q4 | exact 0].
Qed.
Example arrays_case : exists ys, snd (ph2energy_array argsort smoothing (two Linear) [150; 100] 0) = Some ys /\ ys = [300; 200].
Proof.
  pose proof conversion_value_case as A. pose proof conversion_of_points_case as B. unfold ph2energy_array, ph2energy in *. destruct (refreshed argsort smoothing (two Linear)) as [c' [|]]; [|discriminate]. cbn [snd map] in *.
  injection A as A. injection B as B. eexists. split; [reflexivity|]. rewrite A, B. reflexivity.
Qed.
Example drop_one_case : exists m ds, drop_one_errors argsort smoothing (two Gain) = Some (map p_energy m, map Some ds) /\ length ds = 2%nat.
Proof.
  destruct (two_kind Gain) as (K1 & K2 & _). destruct (drop_one_errors_value argsort sorting smoothing (two Gain) _ (proj1 (two_facts Gain)) two_proper) as (m & ds & E & P & _ & F).
  - intros a q b L. rewrite K1. assert (Q : exists p, a ++ b = [p]).
    { apply (f_equal (@length point)) in L. rewrite app_length in L. cbn in L. assert (X : length (a ++ b) = 1%nat) by (rewrite app_length; lia). destruct (a ++ b) as [|p [|]]; try discriminate. exists p. reflexivity. }
    destruct Q as (p & ->). split; [right; split; [discriminate | auto]|]. split; [right; cbn; lia|]. split; [intros _ X; cbn in X; lia|]. exists (p_energy p / p_ph p * p_ph q). apply one_gain. auto.
  - exists m, ds. split; [exact E|]. apply Permutation_length in P. assert (LF : length ds = length m) by (clear - F; induction F; cbn [length]; congruence). rewrite LF, P. reflexivity.
Qed.
(** A gain that is negative at both ends: the natural spline through (1, 1), (2, 10) and (3, 1). *)
Definition hill : list point := [mkPoint "a" 1 1 1 (1 / 100); mkPoint "b" 2 (2 / 10) 1 (1 / 100); mkPoint "c" 3 3 1 (1 / 100)].
Lemma hill_not_bracketed : ~ bracketed hill.
Proof.
  intro B. assert (ND : NoDup (map p_ph hill)) by (cbn; repeat constructor; cbn; intros X; repeat destruct X as [X | X]; lra).
  destruct (natural_exists (map p_ph hill) (map (fun p => p_ph p / p_energy p) hill)) as (g & G); [reflexivity | cbn; lia | exact ND|].
  specialize (B ltac:(cbn; lia) g G (mkPoint "c" 3 3 1 (1 / 100)) ltac:(cbn; auto)). cbn [p_ph] in B.
  assert (W : 0 < g (10 * 3) \/ g 0 * g (10 * 3) <= 0) by (apply B; intros q [<- | [<- | [<- | []]]]; cbn; lra). clear B.
  destruct G as ((l & a & b & c & d & (P & S) & _ & IS & OI & (mb & MB) & (ma & MA)) & DG).
  assert (EL : l = [(1, 1); (2, 10); (3, 1)]).
  { apply sorted_unique; [exact S | repeat first [apply SSorted_cons | apply SSorted_nil | apply Forall_cons | apply Forall_nil]; unfold below; cbn [fst]; lra|]. rewrite <- P. cbn. replace (1 / 1) with 1 by lra. replace (2 / (2 / 10)) with 10 by lra. replace (3 / 3) with 1 by lra. reflexivity. }
  subst l. cbn [length] in *. pose proof (sp_left _ _ _ _ _ _ _ IS 0%nat ltac:(cbn; lia)) as A0. pose proof (sp_left _ _ _ _ _ _ _ IS 1%nat ltac:(cbn; lia)) as A1.
  pose proof (sp_right _ _ _ _ _ _ _ IS 0%nat ltac:(cbn; lia)) as R0. pose proof (sp_right _ _ _ _ _ _ _ IS 1%nat ltac:(cbn; lia)) as R1.
  pose proof (sp_first _ _ _ _ _ _ _ IS 0%nat ltac:(cbn; lia)) as F0. pose proof (sp_second _ _ _ _ _ _ _ IS 0%nat ltac:(cbn; lia)) as S0. pose proof (sp_start _ _ _ _ _ _ _ IS) as T0. pose proof (sp_end _ _ _ _ _ _ _ IS) as E0.
  cbn [length Nat.sub] in E0, MA. unfold px, py in *. cbn [nth fst snd] in *. replace (2 - 1) with 1 in * by ring. replace (3 - 2) with 1 in * by ring.
  destruct (DG 1) as (d1 & D1). destruct (DG 3) as (d3 & D3).
  assert (X1 : d1 = b 0%nat).
  { transitivity (b 0%nat + 2 * c 0%nat * (1 - 1) + 3 * d 0%nat * (1 - 1) ^ 2); [|ring]. apply (same_slope g _ 1 _ _ 1 D1 (lim_cubic (a 0%nat) (b 0%nat) (c 0%nat) (d 0%nat) 1 1)); [auto|]. exists 1. split; [lra|]. intros t T. apply (OI 0%nat); [cbn; lia|]. cbn. lra. }
  assert (Y1 : d1 = mb) by (apply (same_slope g _ 1 _ _ (-1) D1 (line_slope 1 1 mb)); [auto|]; exists 1; split; [lra|]; intros t T; apply MB; lra).
  assert (X3 : d3 = b 1%nat + 2 * c 1%nat * (3 - 2) + 3 * d 1%nat * (3 - 2) ^ 2).
  { apply (same_slope g _ 3 _ _ (-1) D3 (lim_cubic (a 1%nat) (b 1%nat) (c 1%nat) (d 1%nat) 2 3)); [auto|]. exists 1. split; [lra|]. intros t T. apply (OI 1%nat); [cbn; lia|]. cbn. lra. }
  assert (Y3 : d3 = ma) by (apply (same_slope g _ 3 _ _ 1 D3 (line_slope 1 3 ma)); [auto|]; exists 1; split; [lra|]; intros t T; apply MA; lra).
  rewrite (MB 0), (MA (10 * 3)) in W by lra. assert (B0 : b 0%nat = 27 / 2) by lra. assert (B1 : ma = - (27 / 2)) by lra. rewrite <- Y1, X1, B0, B1 in W. lra.
Qed.
Example conversion_raises_case x : exists c, reachable c /\ holds c hill /\ snd (ph2energy argsort smoothing c x 0) = None.
Proof.
  set (pa := mkPoint "a" 1 1 1 (1 / 100)). set (pb := mkPoint "b" 2 (2 / 10) 1 (1 / 100)). set (pc := mkPoint "c" 3 3 1 (1 / 100)).
  assert (AW : forall p q, p_energy p + 1 / 100 < p_energy q -> 1 / 100 < apart q p /\ 1 / 100 < apart p q) by (intros p q L; apply far_apart; [exact L | lra]).
  destruct (adding_puts (start Gain) [] pa [pa]) as (H1 & K1); [repeat split | apply (put_new [] pa); [right; intros (q & [] & _) | intros r []]|].
  destruct (adding_puts _ _ pb [pa; pb] H1) as (H2 & K2); [apply (put_new [pa] pb); [right; intros (q & [<- | []] & E'); discriminate E' | intros r [<- | []]; apply (AW pb pa); cbn; lra]|].
  destruct (adding_puts _ _ pc [pa; pb; pc] H2) as (H3 & K3).
  { apply (put_new [pa; pb] pc); [right; intros (q & [<- | [<- | []]] & E'); discriminate E'|]. intros r [<- | [<- | []]]; [apply (AW pa pc) | apply (AW pb pc)]; cbn; lra. }
  destruct (settings_trans _ _ _ (settings_trans _ _ _ K1 K2) K3) as (Q1 & Q2 & _). set (c := step (step (step (start Gain) (adding pa)) (adding pb)) (adding pc)) in *.
  assert (RC : reachable c) by (exists (115 / 100), (ByName (curvename Gain)), false, true, (start Gain), [adding pa; adding pb; adding pc]; split; [apply start_new | reflexivity]).
  exists c. split; [exact RC|]. split; [exact H3|].
  apply (conversion_raises argsort sorting parse features smoothing c hill RC H3); [| left; cbn; lia | left; exact Q2 | exact Q1 | exact hill_not_bracketed].
  split; [cbn; repeat constructor; cbn; intros X; repeat destruct X as [X | X]; lra|]. intros p [<- | [<- | [<- | []]]]; cbn; lra.
Qed.
End Cases.

Print Assumptions curve_chosen.
Print Assumptions points_in_step.
Print Assumptions operation_effect.
Print Assumptions add_refused.
Print Assumptions add_accepted.
Print Assumptions one_place.
Print Assumptions remove_name_raises.
Print Assumptions points_are_a_table.
Print Assumptions keyed_by_energy_refuted.
Print Assumptions refused_point_is_kept_refuted.
Print Assumptions remove_energy_refuted.
Print Assumptions reload_same_points.
Print Assumptions reload_settings.
Print Assumptions reload_converts.
Print Assumptions reload_tidy.
Print Assumptions reload_same_points_refuted.
Print Assumptions reload_nonlinearity_refuted.
Print Assumptions conversion_value.
Print Assumptions conversion_raises.
Print Assumptions conversion_of_points.
Print Assumptions conversion_derivatives.
Print Assumptions inverse_of_points.
Print Assumptions one_energy.
Print Assumptions one_point_raises.
Print Assumptions no_points.
Print Assumptions drop_one_errors_value.
Print Assumptions history_does_not_matter.
Print Assumptions conversion_of_arrays.
