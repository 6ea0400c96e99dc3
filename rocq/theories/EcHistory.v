(** Proofs about histories of a calibration, and about files. *)
From Coq Require Import Reals ZArith Bool Ascii Lia Lra Permutation Sorted String List.
From Verif Require Import EntModel SplModel SplEval DvModel EcModel EcSpec EcProofs EcPoints.
Import ListNotations.
Local Open Scope R_scope.
Local Open Scope list_scope.

Lemma split_pred (f : point -> bool) l : (forall r, In r l -> f r = false) \/ exists a q b, l = a ++ q :: b /\ f q = true /\ forall r, In r a -> f r = false.
Proof.
  induction l as [|x l IH]; [left; intros r []|]. destruct (f x) eqn:F; [right; exists [], x, l; repeat split; [exact F | intros r []]|].
  destruct IH as [IH | (a & q & b & L & Q & N)]; [left; intros r [<- | R]; [exact F | apply IH, R]|]. right. exists (x :: a), q, b. repeat split; [rewrite L; reflexivity | exact Q |].
  intros r [<- | R]; [exact F | apply N, R].
Qed.
Lemma within_false e de q : within e de q = false -> de <= Rabs (p_energy q - e).
Proof. intro H. apply Rnot_lt_le. intro X. apply within_spec in X. congruence. Qed.

Lemma taken_dec l p : taken l p \/ ~ taken l p.
Proof.
  destruct (has_name_dec l (p_name p)) as [H | H].
  - destruct (string_dec (p_name p) "") as [E | E]; [|left; left; auto]. destruct (split_pred (fun q => rleb (apart p q) (p_de p)) l) as [N | (a & q & b & L & Q & _)].
    + right. intros [(X & _) | (q & Q1 & Q2)]; [contradiction|]. specialize (N q Q1). apply rleb_true in Q2. congruence.
    + left. right. exists q. split; [rewrite L; apply in_elt | apply rleb_true, Q].
  - destruct (split_pred (fun q => rleb (apart p q) (p_de p)) l) as [N | (a & q & b & L & Q & _)].
    + right. intros [(_ & X) | (q & Q1 & Q2)]; [contradiction|]. specialize (N q Q1). apply rleb_true in Q2. congruence.
    + left. right. exists q. split; [rewrite L; apply in_elt | apply rleb_true, Q].
Qed.

Lemma Forall2_weaken (P Q : point -> point -> Prop) l m : (forall p q, P p q -> Q p q) -> Forall2 P l m -> Forall2 Q l m.
Proof. intros H F. induction F; constructor; auto. Qed.
Lemma filter_perm {A} (f : A -> bool) l m : Permutation l m -> Permutation (filter f l) (filter f m).
Proof.
  induction 1 as [|x l m P IH | x y l | l m n P1 I1 P2 I2]; cbn [filter]; [constructor | destruct (f x); auto | | etransitivity; eassumption].
  destruct (f x), (f y); try reflexivity. apply perm_swap.
Qed.
Definition real_names (l : list point) : list string := filter (fun s => negb (String.eqb s "")) (map p_name l).
Lemma real_name s l : In s (real_names l) <-> s <> ""%string /\ has_name l s.
Proof.
  unfold real_names. rewrite filter_In, in_map_iff, negb_true_iff, String.eqb_neq. split; [intros ((q & <- & Q) & N); split; [exact N | exists q; auto] | intros (N & q & Q & <-); split; [exists q; auto | exact N]].
Qed.
Lemma names_distinct_iff l : names_distinct l <-> NoDup (real_names l).
Proof.
  split.
  - induction l as [|x l IH]; intro D; [constructor|]. assert (D' : names_distinct l) by (intros a p b q c ->; apply (D (x :: a) p b q c eq_refl)). specialize (IH D').
    unfold real_names. cbn [map filter]. destruct (String.eqb_spec (p_name x) "") as [E | E]; cbn [negb]; [exact IH|]. constructor; [|exact IH].
    intro I. apply real_name in I. destruct I as (_ & q & Q & N). destruct (in_split _ _ Q) as (a & b & ->). apply (D [] x a q b eq_refl E). symmetry. exact N.
  - intros N a p b q c -> E X. unfold real_names in N. rewrite map_mid, filter_app in N. cbn [filter] in N. rewrite (proj2 (String.eqb_neq _ _) E) in N. cbn [negb] in N.
    apply NoDup_remove_2 in N. apply N, in_or_app. right. apply real_name. split; [exact E|]. exists q. split; [apply in_elt | congruence].
Qed.

Lemma part_in {A} (l m : list A) x : part_of l m -> In x l -> In x m.
Proof. induction 1 as [|y l m P IH | y l m P IH]; intro I; [destruct I | destruct I as [<- | I]; [left; reflexivity | right; auto] | right; auto]. Qed.
Lemma part_filter {A} (f : A -> bool) l : part_of (filter f l) l.
Proof. induction l as [|x l IH]; cbn [filter]; [constructor|]. destruct (f x); constructor; exact IH. Qed.
Lemma part_nodup {A} (l m : list A) : part_of l m -> NoDup m -> NoDup l.
Proof. induction 1 as [|y l m P IH | y l m P IH]; intro N; [exact N | inversion N; subst; constructor; [intro I; apply (part_in _ _ _ P) in I; contradiction | auto] | inversion N; auto]. Qed.
Lemma part_map {A B} (f : A -> B) l m : part_of l m -> part_of (map f l) (map f m).
Proof. induction 1; cbn [map]; constructor; assumption. Qed.
Lemma part_filter2 {A} (f : A -> bool) l m : part_of l m -> part_of (filter f l) (filter f m).
Proof. induction 1 as [|y l m P IH | y l m P IH]; cbn [filter]; [constructor | destruct (f y); [constructor|]; exact IH | destruct (f y); [constructor|]; exact IH]. Qed.
Lemma part_names l m : part_of m l -> names_distinct l -> names_distinct m.
Proof. rewrite !names_distinct_iff. intros P. apply part_nodup, part_filter2, part_map, P. Qed.

Lemma put_names l p m : names_distinct l -> put l p m -> names_distinct m.
Proof.
  intros D P. rewrite names_distinct_iff in *. unfold real_names in *. destruct P as [a q b L _ N _ | a q b L _ _ _ _ | N _].
  - rewrite L, map_mid in D. rewrite map_mid, <- N. exact D.
  - rewrite L, map_mid in D. rewrite map_mid. exact D.
  - rewrite map_app, filter_app. cbn [map filter]. destruct (String.eqb_spec (p_name p) "") as [E | E]; cbn [negb]; [rewrite app_nil_r; exact D|].
    apply (Permutation_NoDup (Permutation_cons_append _ _)). constructor; [|exact D]. intro I. apply real_name in I. destruct N as [N | N]; [contradiction | destruct (N (proj2 I))].
Qed.

Section World.
Variable argsort : list R -> list nat.
Hypothesis sorting : sorts argsort.
Variables parse features : string -> option R.
Variable smoothing : curvetype -> bool -> list R -> list R -> list R -> list R -> option curve.
Notation step := (step argsort parse features smoothing).
Notation run := (run argsort parse features smoothing).

Lemma refreshed_holds c l : holds c l -> exists c' b m, refreshed argsort smoothing c = (c', b) /\ holds c' m /\ settings_kept c c' /\ (m = l \/ exists s, by_height l s /\
      Forall2 (fun p q => same_but_errors p q /\ (m = s \/ ((3 <= length l)%nat /\ mended p_dph s p q /\ mended p_de s p q))) s m).
Proof.
  intro H. unfold refreshed. destruct (fresh c); [exists c, true, l; repeat split; try apply H; left; reflexivity|].
  destruct (update_holds argsort sorting smoothing c l H) as (c' & b & s & m & U & K & B & HM & _ & F). exists c', b, m. split; [exact U|]. split; [exact HM|]. split; [exact K|]. right. exists s. split; [exact B|].
  refine (Forall2_weaken _ _ _ _ _ F). intros p q (S & [X | (_ & X & Y & Z)]); auto 10.
Qed.

Lemma step_effect c l o : holds c l -> exists m, holds (step c o) m /\ effect parse features l o m.
Proof.
  intro H. destruct o as [pht energy name pe ee ow | s | s | e de | n | b | b | a | x der | e]; cbn [EcModel.step effect].
  - destruct (described_dec parse features pht energy name pe ee) as [(p & D) | N].
    + destruct (add_known argsort parse features c l pht energy name pe ee ow p H D) as (c' & b & A & _ & _ & [(O & T & H' & _) | (O & (m & P & H') & _)]); rewrite A; cbn [fst].
      * exists l. split; [exact H'|]. split; [|reflexivity]. intros q Q. rewrite (described_unique _ _ _ _ _ _ _ _ _ Q D). split; [|reflexivity]. intros [X | X]; [congruence | contradiction].
      * exists m. split; [exact H'|]. split; [|intro N; destruct (N p D)]. intros q Q. rewrite (described_unique _ _ _ _ _ _ _ _ _ Q D). split; [intros _; exact P|].
        intros X T. destruct O as [O | O]; [congruence | contradiction].
    + rewrite (add_unknown argsort parse features) by exact N. exists l. split; [exact H|]. split; [|reflexivity]. intros p P. destruct (N p P).
  - destruct (has_name_dec l s) as [N | N].
    + destruct (remove_name_in c l s H N) as (a & q & b & c' & L & Q & NA & R & H' & _ & _). rewrite R. exists (a ++ b). split; [exact H'|]. right. exists a, q, b. auto.
    + rewrite (remove_name_out c l s H N). exists l. split; [exact H | left; auto].
  - destruct (remove_names_prefix s l c [] H) as (c' & R & H' & _); [intros q []|]. unfold remove_prefix. pose proof H as (A1 & _). rewrite A1, R. cbn [fst app] in *.
    eexists. split; [exact H'|]. eexists. split; [|reflexivity]. intro q. cbn beta. rewrite negb_true_iff, <- starts_with_spec. destruct (starts_with s (p_name q)); split; intro X; congruence.
  - destruct (split_pred (within e de) l) as [N | (a & q & b & L & Q & N)].
    + rewrite (remove_energy_none c l e de H) by (intros r R X; apply within_spec in X; specialize (N r R); congruence). exists l. split; [exact H|]. left. split; [|reflexivity].
      intros r R. apply within_false, N, R.
    + subst l. pose proof (proj1 (within_spec _ _ _) Q) as Q'. destruct (split_pred (within e de) b) as [N' | (b1 & q' & d & L' & Q2 & N')].
      * destruct (remove_energy_one c a q b e de H Q') as (c' & R & H' & _).
        { intros r R X. apply within_spec in X. apply in_app_or in R. destruct R as [R | R]; [specialize (N r R) | specialize (N' r R)]; congruence. }
        rewrite R. exists (a ++ b). split; [exact H'|]. right. left. exists a, q, b. repeat split; [exact Q'|]. intros r R'. apply within_false. apply in_app_or in R'. destruct R' as [R' | R']; [apply N, R' | apply N', R'].
      * subst b. pose proof (proj1 (within_spec _ _ _) Q2) as Q2'. assert (NN : forall r, In r (a ++ b1) -> within e de r = false) by (intros r R; apply in_app_or in R; destruct R; auto).
        destruct (remove_energy_two c a q b1 q' d e de H Q' Q2') as (c' & f & w & R & H' & _ & I).
        { intros r R X. apply within_spec in X. specialize (NN r R). congruence. }
        rewrite R. exists (a ++ b1 ++ q' :: w). split; [exact H'|]. right. right. exists a, q, b1, q', d, w. repeat split; [exact Q' | exact Q2' | | exact I]. intros r R'. apply within_false, NN, R'.
  - exists l. split; [exact H | reflexivity].
  - exists l. split; [exact H | reflexivity].
  - exists l. split; [exact H | reflexivity].
  - exists l. split; [|reflexivity]. unfold set_curvetype. destruct (type_of a); exact H.
  - destruct (refreshed_holds c l H) as (c' & b & m & R & H' & _ & M). unfold ph2energy. rewrite R. exists m. split; [destruct b; exact H' | exact M].
  - destruct (refreshed_holds c l H) as (c' & b & m & R & H' & _ & M). unfold energy2ph. rewrite R. exists m. split; [destruct b; exact H' | exact M].
Qed.

Lemma same_names l m (X : point -> point -> Prop) : Forall2 (fun p q => same_but_errors p q /\ X p q) l m -> map p_name m = map p_name l.
Proof. induction 1 as [|p q l m ((N & _) & _) _ IH]; cbn [map]; [reflexivity|]. rewrite IH, N. reflexivity. Qed.
Lemma removal_part l m : (exists a (q : point) b, l = a ++ q :: b /\ m = a ++ b) -> part_of m l.
Proof. intros (a & q & b & -> & ->). apply part_out. Qed.
Lemma effect_removes l o m : match o with RemoveName _ | RemovePrefix _ | RemoveEnergy _ _ => effect parse features l o m -> part_of m l | _ => True end.
Proof.
  destruct o as [pht energy name pe ee ow | s | s | e de | n | b | b | a | x der | e]; cbn [effect]; try exact I.
  - intros [(_ & ->) | (a & q & b & -> & _ & _ & ->)]; [apply part_refl | apply part_out].
  - intros (f & _ & ->). apply part_filter.
  - intros [(_ & ->) | [(a & q & b & -> & _ & _ & ->) | (a & q & b & q' & d & w & -> & _ & _ & _ & -> & W)]]; [apply part_refl | apply part_out|].
    apply part_app; [apply part_refl|]. constructor. apply part_app; [apply part_refl|]. constructor. exact W.
Qed.
Lemma effect_names l o m : names_distinct l -> effect parse features l o m -> names_distinct m.
Proof.
  intros D E. pose proof (effect_removes l o m) as RM.
  assert (CON : m = l \/ (exists s, by_height l s /\ Forall2 (fun p q => same_but_errors p q /\ (m = s \/ ((3 <= length l)%nat /\ mended p_dph s p q /\ mended p_de s p q))) s m) -> names_distinct m).
  { intros [-> | (s & (P & _) & F)]; [exact D|]. apply same_names in F. rewrite names_distinct_iff in *. unfold real_names in *. rewrite F.
    apply (Permutation_NoDup (l := filter (fun s0 => negb (String.eqb s0 "")) (map p_name l))); [|exact D]. apply filter_perm, Permutation_map, Permutation_sym, P. }
  destruct o as [pht energy name pe ee ow | s | s | e de | n | b | b | a | x der | e]; try (apply (part_names l); [apply RM, E | exact D]); cbn [effect] in E; try (subst m; exact D); try (apply CON, E).
  destruct E as (E1 & E2). destruct (described_dec parse features pht energy name pe ee) as [(p & P) | N]; [|rewrite (E2 N); exact D].
  destruct (E1 p P) as (F1 & F2). destruct (taken_dec l p) as [T | T]; [|exact (put_names l p m D (F1 (or_intror T)))]. destruct ow; [exact (put_names l p m D (F1 (or_introl eq_refl))) | rewrite (F2 eq_refl T); exact D].
Qed.

Lemma run_snoc c os o : run c (os ++ [o]) = step (run c os) o.
Proof. unfold EcModel.run. rewrite fold_left_app. reflexivity. Qed.
Lemma new_holds nonlin a approx g c : new nonlin a approx g = Some c -> holds c [].
Proof. unfold new. destruct (type_of a); [|discriminate]. intro H. apply some_inj in H. subst c. repeat split. Qed.
Lemma run_holds c l os : holds c l -> exists m, holds (run c os) m /\ (names_distinct l -> names_distinct m).
Proof.
  revert c l. induction os as [|o os IH]; intros c l H; [exists l; split; [exact H | auto]|]. destruct (step_effect c l o H) as (m & HM & E). destruct (IH (step c o) m HM) as (n & HN & D).
  exists n. split; [exact HN|]. intro X. apply D. exact (effect_names l o m X E).
Qed.

(** * The table *)
Section Table.
Variable line : R -> Prop.
Variable title : R -> string.
Variable tol : R.
Hypothesis far : lines line title tol.

Definition well (p : point) : Prop := line (p_energy p) /\ (p_name p = ""%string \/ p_name p = title (p_energy p)) /\ 0 < p_dph p /\ 0 < p_de p <= tol.
Definition shows (t : table) (l : list point) : Prop :=
  NoDup (map p_energy l) /\ (forall q, In q l -> well q) /\ forall e q, t e = Some q <-> In q l /\ p_energy q = e.

Lemma same_line x y : line x -> line y -> Rabs (x - y) <= tol -> x = y.
Proof. intros X Y L. destruct (Req_dec x y) as [E | E]; [exact E|]. destruct (far x y X Y E). lra. Qed.
Lemma same_title x y : line x -> line y -> title x = title y -> x = y.
Proof. intros X Y L. destruct (Req_dec x y) as [E | E]; [exact E|]. destruct (far x y X Y E). contradiction. Qed.

Lemma taken_table t l p : shows t l -> well p -> taken l p <-> exists q, t (p_energy p) = Some q.
Proof.
  intros (_ & W & T) (L & N & _ & D). split.
  - intros [(E & q & Q & NQ) | (q & Q & A)]; exists q; apply T; (split; [exact Q|]); destruct (W q Q) as (LQ & NN & _).
    + apply same_title; [exact LQ | exact L |]. destruct N as [N | N]; [contradiction|]. destruct NN as [NN | NN]; congruence.
    + symmetry. apply same_line; [exact L | exact LQ |]. unfold apart in A. lra.
  - intros (q & Q). apply T in Q. right. exists q. split; [apply Q|]. unfold apart. destruct Q as (_ & ->). rewrite Rminus_diag_eq, Rabs_R0 by reflexivity. lra.
Qed.

Lemma in_mid_other (a b : list point) q p : In p (a ++ b) -> In p (a ++ q :: b). Proof. rewrite !in_app_iff. cbn. tauto. Qed.
Lemma nodup_mid (a b : list point) q v : p_energy v = p_energy q -> NoDup (map p_energy (a ++ q :: b)) -> NoDup (map p_energy (a ++ v :: b)).
Proof. intros E. rewrite !map_mid, E. auto. Qed.
Lemma mid_energy (a b : list point) q r : NoDup (map p_energy (a ++ q :: b)) -> In r (a ++ b) -> p_energy r <> p_energy q.
Proof. intros N R E. rewrite map_mid in N. apply NoDup_remove_2 in N. apply N. rewrite <- map_app, <- E. apply in_map, R. Qed.

(** Replacing a point by one at the same energy, and adding one at a new energy *)
Lemma shows_replace t t' a q b v : shows t (a ++ q :: b) -> p_energy v = p_energy q -> well v -> t' (p_energy q) = Some v -> (forall e, e <> p_energy q -> t' e = t e) -> shows t' (a ++ v :: b).
Proof.
  intros (N & W & T) E WV T1 T2. split; [exact (nodup_mid a b q v E N)|]. split.
  - intros r R. apply in_app_or in R. destruct R as [R | [<- | R]]; [apply W, in_or_app; left; exact R | exact WV | apply W, in_or_app; right; right; exact R].
  - intros e r. destruct (Req_dec e (p_energy q)) as [X | X].
    + subst e. rewrite T1. split; [intro S; apply some_inj in S; subst r; split; [apply in_elt | exact E]|]. intros (R & ER). apply in_app_or in R. destruct R as [R | [R | R]]; [| subst; reflexivity|].
      * destruct (mid_energy a b q r N); [apply in_or_app; left; exact R | exact ER].
      * destruct (mid_energy a b q r N); [apply in_or_app; right; exact R | exact ER].
    + rewrite T2 by exact X. rewrite T. split; intros (R & ER); (split; [|exact ER]).
      * apply in_app_or in R. apply in_or_app. destruct R as [R | [R | R]]; [left; exact R | subst; contradiction | right; right; exact R].
      * apply in_app_or in R. apply in_or_app. destruct R as [R | [R | R]]; [left; exact R | subst; congruence | right; right; exact R].
Qed.
Lemma shows_add t t' l p : shows t l -> well p -> t (p_energy p) = None -> t' (p_energy p) = Some p -> (forall e, e <> p_energy p -> t' e = t e) -> shows t' (l ++ [p]).
Proof.
  intros (N & W & T) WP T0 T1 T2. assert (F : forall r, In r l -> p_energy r <> p_energy p) by (intros r R E; assert (X : t (p_energy p) = Some r) by (apply T; auto); congruence). split; [|split].
  - rewrite map_app. apply (Permutation_NoDup (Permutation_cons_append _ _)). constructor; [|exact N]. intro X. apply in_map_iff in X. destruct X as (r & E & R). exact (F r R E).
  - intros r R. apply in_app_or in R. destruct R as [R | [<- | []]]; [apply W, R | exact WP].
  - intros e r. rewrite in_app_iff. cbn [In]. destruct (Req_dec e (p_energy p)) as [X | X].
    + subst e. rewrite T1. split; [intro S; apply some_inj in S; subst r; auto|]. intros ([R | [-> | []]] & E); [destruct (F r R E) | reflexivity].
    + rewrite T2, T by exact X. split; [tauto|]. intros ([R | [-> | []]] & E); [auto | congruence].
Qed.
(** Keeping the points that satisfy a predicate *)
Lemma shows_part t t' l m (keep : point -> Prop) : shows t l -> part_of m l -> (forall q, In q m <-> In q l /\ keep q) ->
  (forall e, match t e with Some q => (keep q -> t' e = Some q) /\ (~ keep q -> t' e = None) | None => t' e = None end) -> (forall q, In q l -> keep q \/ ~ keep q) -> shows t' m.
Proof.
  intros (N & W & T) P K U DEC. split; [exact (part_nodup _ _ (part_map p_energy _ _ P) N)|]. split; [intros q Q; apply W, K, Q|].
  intros e q. specialize (U e). destruct (t e) as [r|] eqn:TE.
  - destruct (proj1 (T e r) TE) as (R & ER). destruct U as (U1 & U2). destruct (DEC r R) as [KR | KR].
    + rewrite (U1 KR). split; [intro S; apply some_inj in S; subst q; split; [apply K; auto | exact ER]|]. intros (Q & EQ). apply K in Q. rewrite <- TE. apply T. split; [apply Q | exact EQ].
    + rewrite (U2 KR). split; [discriminate|]. intros (Q & EQ). apply K in Q. assert (X : t e = Some q) by (apply T; split; [apply Q | exact EQ]). rewrite TE in X. apply some_inj in X. subst r. destruct (KR (proj2 Q)).
  - rewrite U. split; [discriminate|]. intros (Q & EQ). apply K in Q. assert (X : t e = Some q) by (apply T; split; [apply Q | exact EQ]). congruence.
Qed.
Lemma shows_same t t' l m : shows t l -> Permutation l m -> same_table t t' -> shows t' m.
Proof.
  intros (N & W & T) P E. split; [exact (Permutation_NoDup (Permutation_map p_energy P) N)|]. split; [intros q Q; apply W, (Permutation_in _ (Permutation_sym P)), Q|].
  intros e q. rewrite (E e), T. split; intros (Q & X); (split; [|exact X]); [exact (Permutation_in _ P Q) | exact (Permutation_in _ (Permutation_sym P) Q)].
Qed.
Lemma mended_same (s m l : list point) : Forall2 (fun p q => same_but_errors p q /\ (m = s \/ ((3 <= length l)%nat /\ mended p_dph s p q /\ mended p_de s p q))) s m -> (forall p, In p s -> 0 < p_dph p /\ 0 < p_de p) -> m = s.
Proof.
  intros F W. assert (G : forall u v, Forall2 (fun p q => same_but_errors p q /\ (m = s \/ ((3 <= length l)%nat /\ mended p_dph s p q /\ mended p_de s p q))) u v -> (forall p, In p u -> 0 < p_dph p /\ 0 < p_de p) -> m = s \/ v = u).
  { induction 1 as [|p q u v ((S1 & S2 & S3) & X) F' IH]; intro W'; [right; reflexivity|]. destruct X as [X | (_ & (M1 & _) & (M2 & _))]; [left; exact X|].
    destruct IH as [IH | IH]; [intros r R; apply W'; right; exact R | left; exact IH | right]. destruct (W' p (or_introl eq_refl)) as (W1 & W2). f_equal; [|exact IH]. symmetry. apply point_eq; auto; symmetry; auto. }
  destruct (G s m F W); assumption.
Qed.

Lemma begins_dec s x : begins s x \/ ~ begins s x.
Proof. destruct (starts_with s x) eqn:E; [left; apply starts_with_spec, E | right; intro B; apply starts_with_spec in B; congruence]. Qed.

Lemma effect_table t t' l o m : shows t l -> tidy parse features line title tol o -> effect parse features l o m -> updates parse features t o t' -> shows t' m.
Proof.
  intros SH TI E U. pose proof SH as (N & W & T). pose proof (effect_removes l o m) as RM.
  destruct o as [pht energy name pe ee ow | s | s | e de | n | b | b | a | x der | e]; cbn [tidy effect updates] in *;
    try (subst m; exact (shows_same t t' l l SH (Permutation_refl l) U)).
  - destruct E as (E1 & E2), U as (U1 & U2). destruct (described_dec parse features pht energy name pe ee) as [(p & P) | NN].
    2:{ rewrite (E2 NN). exact (shows_same t t' l l SH (Permutation_refl l) (U2 NN)). }
    pose proof (TI p P : well p) as WP. destruct (E1 p P) as (F1 & F2). destruct (U1 p P) as (G1 & G2). pose proof (taken_table t l p SH WP) as TT.
    destruct (taken_dec l p) as [TK | TK].
    + destruct (proj1 TT TK) as (q0 & Q0). rewrite Q0 in G1. destruct ow.
      * specialize (F1 (or_introl eq_refl)). destruct F1 as [a q b L NE NQ NA | a q b L NE AP _ _ | NE AP].
        -- assert (Q : In q l) by (rewrite L; apply in_elt). destruct (W q Q) as (LQ & NN & _). destruct WP as (LP & NP & WP).
           assert (EQ : p_energy p = p_energy q) by (apply same_title; [exact LP | exact LQ |]; destruct NP as [NP | NP]; [contradiction|]; destruct NN as [NN | NN]; congruence).
           assert (X : t (p_energy p) = Some q) by (apply T; auto). rewrite Q0 in X. apply some_inj in X. subst q0. subst l. apply (shows_replace t t' a q b p SH EQ).
           ++ repeat split; try apply WP; [exact LP | right; destruct NP; [contradiction | assumption]].
           ++ rewrite <- EQ, G1, NQ. f_equal. destruct p; reflexivity.
           ++ rewrite <- EQ. exact G2.
        -- assert (Q : In q l) by (rewrite L; apply in_elt). destruct (W q Q) as (LQ & NN & _). destruct WP as (LP & NP & WP1 & WP2).
           assert (EQ : p_energy p = p_energy q) by (apply same_line; [exact LP | exact LQ |]; unfold apart in AP; lra).
           assert (X : t (p_energy p) = Some q) by (apply T; auto). rewrite Q0 in X. apply some_inj in X. subst q0. subst l. apply (shows_replace t t' a q b (renamed p (p_name q)) SH).
           ++ exact EQ.
           ++ unfold well, renamed. cbn [p_energy p_name p_dph p_de]. rewrite EQ. repeat split; auto; apply WP2.
           ++ rewrite <- EQ. exact G1.
           ++ rewrite <- EQ. exact G2.
        -- exfalso. destruct TK as [(X & Y) | (q & Q & AQ)]; [destruct NE; contradiction | specialize (AP q Q); lra].
      * rewrite (F2 eq_refl TK). apply (shows_same t t' l l SH (Permutation_refl l)). intro e. destruct (Req_dec e (p_energy p)) as [X | X]; [subst e; congruence | apply G2, X].
    + assert (T0 : t (p_energy p) = None) by (destruct (t (p_energy p)) as [q|] eqn:X; [destruct (TK (proj2 TT (ex_intro _ q eq_refl))) | reflexivity]). rewrite T0 in G1.
      specialize (F1 (or_intror TK)). destruct F1 as [a q b L NE NQ NA | a q b L NE AP _ _ | NE AP].
      * destruct TK. left. split; [exact NE|]. exists q. split; [rewrite L; apply in_elt | exact NQ].
      * destruct TK. right. exists q. split; [rewrite L; apply in_elt | exact AP].
      * exact (shows_add t t' l p SH WP T0 G1 G2).
  - apply (shows_part t t' l m (fun q => p_name q <> s) SH).
    + apply RM, E.
    + destruct E as [(NS & ->) | (a & q & b & L & Q & NA & ->)].
      * intro q. split; [intro Q; split; [exact Q | intro X; apply NS; exists q; auto] | tauto].
      * assert (Q' : In q l) by (rewrite L; apply in_elt). assert (UN : forall r, In r l -> p_name r = s -> p_energy r = p_energy q).
        { intros r R NR. destruct (W r R) as (LR & NNR & _), (W q Q') as (LQ & NNQ & _). apply same_title; [exact LR | exact LQ|]. destruct NNR as [X | X]; [congruence|]. destruct NNQ as [Y | Y]; congruence. }
        intro r. split.
        -- intro R. split; [rewrite L; apply in_mid_other, R|]. intro X. rewrite L in N. destruct (mid_energy a b q r N R). apply UN; [rewrite L; apply in_mid_other, R | exact X].
        -- intros (R & X). rewrite L in R. apply in_app_or in R. apply in_or_app. destruct R as [R | [R | R]]; [left; exact R | subst r; contradiction | right; exact R].
    + intro e. specialize (U e). destruct (t e) as [q|]; [|exact U]. destruct U as (U1 & U2). split; [exact U2|]. intro X. apply U1. destruct (string_dec (p_name q) s); [assumption | contradiction].
    + intros q _. destruct (string_dec (p_name q) s); [right; intro X; contradiction | left; assumption].
  - apply (shows_part t t' l m (fun q => ~ begins s (p_name q)) SH).
    + apply RM, E.
    + destruct E as (f & F & ->). intro q. rewrite filter_In, F. reflexivity.
    + intro e. specialize (U e). destruct (t e) as [q|]; [|exact U]. destruct U as (U1 & U2). split; [exact U2|]. intro X. apply U1. destruct (begins_dec s (p_name q)); [assumption | contradiction].
    + intros q _. destruct (begins_dec s (p_name q)); [right; intro X; contradiction | left; assumption].
  - assert (ONE : forall q r, In q l -> In r l -> Rabs (p_energy q - e) < de -> Rabs (p_energy r - e) < de -> p_energy q = p_energy r).
    { intros q r Q R A B. apply same_line; [apply W, Q | apply W, R |]. replace (p_energy q - p_energy r) with ((p_energy q - e) - (p_energy r - e)) by ring.
      eapply Rle_trans; [apply Rabs_triang|]. rewrite Rabs_Ropp. lra. }
    apply (shows_part t t' l m (fun q => de <= Rabs (p_energy q - e)) SH).
    + apply RM, E.
    + destruct E as [(F & ->) | [(a & q & b & L & Q & F & ->) | (a & q & b & q' & d & w & L & Q & Q' & F & _)]].
      * intro q. split; [intro Q; split; [exact Q | apply F, Q] | tauto].
      * intro r. split; [intro R; split; [rewrite L; apply in_mid_other, R | apply F, R]|]. intros (R & X). rewrite L in R. apply in_app_or in R. apply in_or_app. destruct R as [R | [R | R]]; [left; exact R | subst r; lra | right; exact R].
      * exfalso. rewrite L in N. apply (mid_energy a (b ++ q' :: d) q q' N); [apply in_or_app; right; apply in_elt|]. apply ONE; [rewrite L; apply in_or_app; right; right; apply in_elt | rewrite L; apply in_elt | exact Q' | exact Q].
    + intro x. destruct (U x) as (U1 & U2). destruct (t x) as [q|] eqn:TX.
      * destruct (proj1 (T x q) TX) as (_ & EX). rewrite EX. split; [exact U2 | intro X; apply U1; lra].
      * destruct (Rlt_dec (Rabs (x - e)) de) as [X | X]; [apply U1, X | apply U2; lra].
    + intros q _. destruct (Rle_dec de (Rabs (p_energy q - e))); auto.
  - destruct E as [-> | (s & (B & _) & F)]; [exact (shows_same t t' l l SH (Permutation_refl l) U)|]. rewrite (mended_same s m l F) by (intros p P; apply (Permutation_in _ B) in P; destruct (W p P) as (_ & _ & X & Y & _); auto).
    exact (shows_same t t' l s SH (Permutation_sym B) U).
  - destruct E as [-> | (s & (B & _) & F)]; [exact (shows_same t t' l l SH (Permutation_refl l) U)|]. rewrite (mended_same s m l F) by (intros p P; apply (Permutation_in _ B) in P; destruct (W p P) as (_ & _ & X & Y & _); auto).
    exact (shows_same t t' l s SH (Permutation_sym B) U).
Qed.

Lemma run_table c os : holds c [] -> Forall (tidy parse features line title tol) os -> forall t, table_after parse features os t -> exists l, holds (run c os) l /\ shows t l.
Proof.
  intros H F t TA. revert F. induction TA as [t T | os o t t' TA IH U]; intro F.
  - exists []. split; [exact H|]. split; [constructor|]. split; [intros q []|]. intros e q. rewrite T. split; [discriminate | intros ([] & _)].
  - apply Forall_app in F. destruct F as (F1 & F2). inversion F2; subst. destruct (IH F1) as (l & HL & SH). rewrite run_snoc. destruct (step_effect (run c os) l o HL) as (m & HM & E).
    exists m. split; [exact HM|]. exact (effect_table t t' l o m SH H2 E U).
Qed.
End Table.

(** There is always a table after the operations. *)
Lemma updates_exists t o : exists t', updates parse features t o t'.
Proof.
  destruct o as [pht energy name pe ee ow | s | s | e de | n | b | b | a | x der | e]; cbn [updates]; try (exists t; intro e'; reflexivity).
  - destruct (described_dec parse features pht energy name pe ee) as [(p & P) | N].
    + exists (fun e => if Req_EM_T e (p_energy p) then match t (p_energy p) with Some q => if ow then Some (renamed p (p_name q)) else Some q | None => Some p end else t e). split; [|intro N; destruct (N p P)].
      intros q Q. rewrite (described_unique _ _ _ _ _ _ _ _ _ Q P). split.
      * destruct (Req_EM_T (p_energy p) (p_energy p)) as [_|X]; [|contradiction]. destruct (t (p_energy p)); [destruct ow|]; reflexivity.
      * intros e NE. destruct (Req_EM_T e (p_energy p)); [contradiction | reflexivity].
    + exists t. split; [intros p P; destruct (N p P) | intros _ e; reflexivity].
  - exists (fun e => match t e with Some q => if string_dec (p_name q) s then None else Some q | None => None end). intro e. destruct (t e) as [q|]; [|reflexivity]. destruct (string_dec (p_name q) s); split; intro; try reflexivity; contradiction.
  - exists (fun e => match t e with Some q => if starts_with s (p_name q) then None else Some q | None => None end). intro e. destruct (t e) as [q|]; [|reflexivity].
    destruct (starts_with s (p_name q)) eqn:S; split; intro X; try reflexivity; [apply starts_with_spec in S; contradiction | apply starts_with_spec in X; congruence].
  - exists (fun x => if Rlt_dec (Rabs (x - e)) de then None else t x). intro x. destruct (Rlt_dec (Rabs (x - e)) de); split; intro X; try reflexivity; lra.
Qed.
Lemma table_exists os : exists t, table_after parse features os t.
Proof.
  induction os as [|o os IH] using rev_ind; [exists (fun _ => None); constructor; reflexivity|]. destruct IH as (t & T). destruct (updates_exists t o) as (t' & U). exists t'. exact (one_more _ _ os o t t' T U).
Qed.

(** * Files *)
Lemma type_of_name k : type_of (ByName (curvename k)) = Some k. Proof. destruct k; reflexivity. Qed.
Lemma zip5_map l : zip5 (map p_name l) (map p_ph l) (map p_energy l) (map p_dph l) (map p_de l) = map (fun p => (p_name p, p_ph p, p_energy p, p_dph p, p_de p)) l.
Proof. induction l as [|p l IH]; cbn [map zip5]; [reflexivity | rewrite IH; reflexivity]. Qed.
Lemma described_self p : described parse features (p_ph p) (inl (p_energy p)) (p_name p) (Some (p_dph p)) (Some (p_de p)) p.
Proof. repeat split. Qed.

Definition rows (l : list point) := map (fun p => (p_name p, p_ph p, p_energy p, p_dph p, p_de p)) l.
Lemma part_increasing l m : part_of m l -> increasing l -> increasing m.
Proof. intros P I p q A B. apply I; apply (part_in _ _ _ P); assumption. Qed.
Lemma part_prefix {A} (a b : list A) : part_of a (a ++ b).
Proof. induction a as [|x a IH]; cbn; [induction b; constructor; assumption | constructor; exact IH]. Qed.
Lemma add_all_new l : forall c u, holds c u -> names_distinct (u ++ l) -> increasing (u ++ l) -> NoDup (map p_ph (u ++ l)) -> NoDup (map p_energy (u ++ l)) -> spread (u ++ l) ->
  exists c', add_all argsort parse features c (rows l) = Some c' /\ holds c' (u ++ l) /\ settings_kept c c' /\ (l <> [] -> fresh c' = false).
Proof.
  induction l as [|p l IH]; intros c u H D I N1 N2 S; cbn [rows map add_all].
  - exists c. rewrite app_nil_r. split; [reflexivity|]. split; [exact H|]. split; [apply settings_refl | intro X; contradiction].
  - destruct (add_known argsort parse features c u _ _ _ _ _ true p H (described_self p)) as (c' & b & A & F & K & [(X & _) | (_ & (m & P & HM) & B)]); [discriminate|]. rewrite A.
    assert (PN : put u p (u ++ [p])).
    { apply put_new.
      - destruct (string_dec (p_name p) "") as [E | E]; [left; exact E | right]. intros (q & Q & NQ). destruct (in_split _ _ Q) as (a & b' & UE).
        apply (D a q b' p l); [rewrite UE, <- app_assoc; reflexivity | congruence | exact NQ].
      - intros r R. destruct (in_split _ _ R) as (a & b' & UE). apply (S a r b' p l). rewrite UE, <- app_assoc. reflexivity. }
    rewrite (put_unique u p m (u ++ [p]) P PN) in HM. assert (LE : u ++ p :: l = (u ++ [p]) ++ l) by (rewrite <- app_assoc; reflexivity).
    assert (AG : agrees argsort c' = true).
    { apply (agrees_increasing argsort sorting c' (u ++ [p]) HM).
      - apply (part_nodup _ _ (part_map p_ph _ _ (part_prefix (u ++ [p]) l))). rewrite <- LE. exact N1.
      - apply (part_nodup _ _ (part_map p_energy _ _ (part_prefix (u ++ [p]) l))). rewrite <- LE. exact N2.
      - apply (part_increasing _ _ (part_prefix (u ++ [p]) l)). rewrite <- LE. exact I. }
    rewrite AG in B. subst b. destruct (IH c' (u ++ [p]) HM) as (d & D1 & D2 & D3 & D4); try (rewrite <- LE; assumption). exists d. rewrite LE. split; [exact D1|]. split; [exact D2|]. split; [exact (settings_trans _ _ _ K D3)|].
    intros _. destruct l as [|p' l']; [cbn [rows map add_all] in D1; apply some_inj in D1; subst d; exact F | apply D4; discriminate].
Qed.
Lemma put_length l p m : put l p m -> (length m = length l \/ (length m = S (length l) /\ m = l ++ [p] /\ (p_name p = ""%string \/ ~ has_name l (p_name p)) /\ forall r, In r l -> p_de p < apart p r)).
Proof.
  intros [a q b -> _ _ _ | a q b -> _ _ _ _ | N A]; [left; rewrite !app_length; reflexivity | left; rewrite !app_length; reflexivity | right].
  split; [rewrite app_length; simpl; lia|]. auto.
Qed.
Lemma add_all_inv l : forall c u c', holds c u -> add_all argsort parse features c (rows l) = Some c' ->
  exists w, holds c' w /\ (length w <= length u + length l)%nat /\
   (length w = (length u + length l)%nat -> w = u ++ l /\
      forall a p b, l = a ++ p :: b -> (p_name p = ""%string \/ ~ has_name (u ++ a) (p_name p)) /\ forall r, In r (u ++ a) -> p_de p < apart p r) /\
   (l <> [] -> not_decreasing w).
Proof.
  induction l as [|p l IH]; intros c u c' H A; cbn [rows map add_all] in A.
  - apply some_inj in A. subst c'. exists u. split; [exact H|]. split; [simpl; lia|]. split; [|intro X; contradiction]. intros _. rewrite app_nil_r. split; [reflexivity|]. intros a p b X. destruct a; discriminate.
  - destruct (add_known argsort parse features c u _ _ _ _ _ true p H (described_self p)) as (c1 & b & A1 & F & K & [(X & _) | (_ & (m & P & HM) & B)]); [discriminate|]. rewrite A1 in A.
    destruct b; [|discriminate]. symmetry in B. pose proof (agrees_not_decreasing argsort sorting c1 m HM B) as ND. destruct (IH c1 m c' HM A) as (w & W1 & W2 & W3 & W4). exists w. split; [exact W1|].
    destruct (put_length u p m P) as [L | (L & M & C1 & C2)].
    + split; [simpl; lia|]. split; [intro X; simpl in X; lia|]. intros _. destruct l as [|p' l']; [|apply W4; discriminate]. cbn [rows map add_all] in A. apply some_inj in A. subst c'. rewrite (holds_unique c1 w m W1 HM). exact ND.
    + split; [simpl; lia|]. split.
      * intro X. cbn [length] in X. destruct W3 as (W5 & W6); [lia|]. subst m. rewrite W5, <- app_assoc. split; [reflexivity|]. intros a q b' LE. destruct a as [|x a]; cbn [app] in LE; inversion LE; subst.
        -- rewrite app_nil_r. auto.
        -- specialize (W6 a q b' eq_refl). rewrite <- app_assoc in W6. exact W6.
      * intros _. destruct l as [|p' l']; [|apply W4; discriminate]. cbn [rows map add_all] in A. apply some_inj in A. subst c'. rewrite (holds_unique c1 w m W1 HM). exact ND.
Qed.
Lemma load_eq c l : holds c l -> exists c0, new (nonlinearity c) (ByName (curvename (kind c))) (approximate c) true = Some c0 /\ holds c0 [] /\
  kind c0 = kind c /\ approximate c0 = approximate c /\ gpr c0 = true /\ nonlinearity c0 = 115 / 100 /\
  load argsort parse features (save c) = add_all argsort parse features c0 (rows l).
Proof.
  intros (A1 & A2 & A3 & A4 & A5 & A6). unfold load, save. cbn [g_nonlinearity g_curvetype g_approximate g_names g_ph g_energy g_dph g_de]. unfold new. rewrite type_of_name.
  eexists. split; [reflexivity|]. split; [repeat split|]. repeat split. rewrite A1, A2, A3, A4, A5, zip5_map. reflexivity.
Qed.
End World.
