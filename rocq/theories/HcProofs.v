From Coq Require Import QArith Qcanon Ascii String Bool Lia List.
From Verif Require Import QcPre HcModel HcSpec.
Import ListNotations.
Local Open Scope Qc_scope.
Arguments t : simpl never.
Arguments t /.

Lemma teqb_spec a b : teqb a b = true <-> a = b.
Proof. unfold teqb. destruct (list_eq_dec ascii_dec a b); split; intros; congruence. Qed.
Lemma distinct_nodup l : distinct l = true <-> NoDup l.
Proof.
  induction l as [|p r IH]; cbn [distinct]; [split; [constructor|reflexivity]|]. rewrite andb_true_iff, negb_true_iff, IH. split.
  - intros [N D]. constructor; [|exact D]. intros I. assert (X : existsb (teqb p) r = true) by (apply existsb_exists; exists p; split; [exact I|now apply teqb_spec]). congruence.
  - intros D. inversion D; subst. split; [|assumption]. destruct (existsb (teqb p) r) eqn:X; [|reflexivity]. apply existsb_exists in X as (q & I & E). apply teqb_spec in E. now subst.
Qed.
Definition kind (k : text) : Prop := k = t "fwhm" \/ k = t "dph_de" \/ k = t "peak_ph".
Lemma key_eq (p q k k' : text) : kind k -> kind k' -> (p ++ k)%list = (q ++ k')%list -> p = q /\ k = k'.
Proof.
  intros K K' E. assert (R := f_equal (@rev ascii) E). rewrite !rev_app_distr in R.
  destruct K as [-> | [-> | ->]], K' as [-> | [-> | ->]]; cbn in R; try discriminate; (split; [|reflexivity]); exact (app_inv_tail _ _ _ E).
Qed.
Lemma tie_keys pp pe c k e : In (k, e) (tie pp pe c) -> exists s, kind s /\ k = (cprefix c ++ s)%list.
Proof.
  unfold tie, kind. intros [E|[E|[E|[]]]]; injection E as <- <-; eexists; (split; [|reflexivity]); tauto.
Qed.
Lemma ties_keys pp pe l k e : In (k, e) (flat_map (tie pp pe) l) -> exists c s, In c l /\ kind s /\ k = (cprefix c ++ s)%list.
Proof. intros I. apply in_flat_map in I as (c & C & I). destruct (tie_keys _ _ _ _ _ I) as (s & K & ->). now exists c, s. Qed.
(** the hints of a component that is tied are the last ones for its parameters *)
Lemma tied pp pe l env h0 cs : NoDup (map cprefix l) -> obeys env (mkModel cs (h0 ++ flat_map (tie pp pe) l)) -> forall c, In c l ->
  env (cprefix c ++ t "fwhm")%list = env (pp ++ t "fwhm")%list /\ env (cprefix c ++ t "dph_de")%list = env (pp ++ t "dph_de")%list /\
  env (cprefix c ++ t "peak_ph")%list = (energy_of c - pe) * env (pp ++ t "dph_de")%list + env (pp ++ t "peak_ph")%list.
Proof.
  intros ND OB c I. apply in_split in I as (a & b & ->). unfold obeys in OB. cbn [hints] in OB. rewrite flat_map_app in OB. cbn [flat_map tie app] in OB.
  assert (NB : forall s e, kind s -> ~ In ((cprefix c ++ s)%list, e) (flat_map (tie pp pe) b)).
  { intros s e K I. destruct (ties_keys _ _ _ _ _ I) as (c' & s' & C & K' & E). destruct (key_eq _ _ _ _ K K' E) as [P _].
    rewrite map_app in ND. cbn [map] in ND. apply NoDup_remove_2 in ND. apply ND, in_or_app. right. rewrite P. now apply in_map. }
  assert (KF : kind (t "fwhm")) by (unfold kind; tauto). assert (KD : kind (t "dph_de")) by (unfold kind; tauto). assert (KP : kind (t "peak_ph")) by (unfold kind; tauto).
  set (F := flat_map (tie pp pe) b) in *. set (kf := (cprefix c ++ t "fwhm")%list) in *. set (kd := (cprefix c ++ t "dph_de")%list) in *. set (kp := (cprefix c ++ t "peak_ph")%list) in *.
  assert (FD : kf <> kd) by (intros E; destruct (key_eq _ _ _ _ KF KD E); discriminate).
  assert (FP : kf <> kp) by (intros E; destruct (key_eq _ _ _ _ KF KP E); discriminate).
  assert (DP : kd <> kp) by (intros E; destruct (key_eq _ _ _ _ KD KP E); discriminate).
  split; [|split].
  - refine (OB (h0 ++ flat_map (tie pp pe) a)%list kf (Same _) _ _ _); [now rewrite <- app_assoc|].
    intros e' [E|[E|E]]; [congruence|congruence|exact (NB _ _ KF E)].
  - refine (OB (h0 ++ flat_map (tie pp pe) a ++ [(kf, _)])%list kd (Same _) _ _ _); [now rewrite <- !app_assoc|].
    intros e' [E|E]; [congruence|exact (NB _ _ KD E)].
  - refine (OB (h0 ++ flat_map (tie pp pe) a ++ [(kf, _); (kd, _)])%list kp (Shifted _ _ _) _ _ _); [now rewrite <- !app_assoc|].
    intros e' E. exact (NB _ _ KP E).
Qed.

Lemma index_spec n l k : index_of n l = Some k -> exists pk, nth_error l k = Some pk /\ cname pk = n /\ forall j c, (j < k)%nat -> nth_error l j = Some c -> cname c <> n.
Proof.
  revert k. induction l as [|c r IH]; intros k H; [discriminate|]. cbn [index_of] in H. destruct (teqb (cname c) n) eqn:E.
  - injection H as <-. exists c. apply teqb_spec in E. repeat split; trivial. intros j c' J. lia.
  - destruct (index_of n r) as [k'|] eqn:I; [|discriminate]. injection H as <-. destruct (IH k' eq_refl) as (pk & A & B & C). exists pk. repeat split; trivial.
    intros [|j] c' J H; cbn in H; [injection H as <-; intros X; apply teqb_spec in X; congruence|]. apply (C j c'); [lia|exact H].
Qed.
Lemma index_none n l : index_of n l = None <-> ~ In n (map cname l).
Proof.
  induction l as [|c r IH]; cbn [index_of map In]; [tauto|]. destruct (teqb (cname c) n) eqn:E.
  - apply teqb_spec in E. split; [discriminate|tauto].
  - assert (N : cname c <> n) by (intros X; apply teqb_spec in X; congruence). destruct (index_of n r); cbn; [|tauto]. split; [discriminate|]. intros H.
    exfalso. assert (X : ~ In n (map cname r)) by tauto. apply IH in X. discriminate.
Qed.
Lemma split_at {A} (l : list A) k a : nth_error l k = Some a -> l = (firstn k l ++ a :: skipn (k + 1) l)%list.
Proof.
  revert k. induction l as [|b r IH]; intros [|k] H; try discriminate; cbn in H |- *; [injection H as ->; reflexivity|]. f_equal. now apply IH.
Qed.
Lemma nodup_filter_map {A} (f : A -> text) g (l : list A) : NoDup (map f l) -> NoDup (map f (filter g l)).
Proof.
  induction l as [|a r IH]; cbn [map filter]; [trivial|]. intros H. inversion H; subst. destruct (g a); [|auto]. cbn [map]. constructor; [|auto].
  intros I. apply H2. apply in_map_iff in I as (b & E & I). apply filter_In in I as [I _]. rewrite <- E. now apply in_map.
Qed.
(** what a composite is *)
Lemma composite_inv ms bg pn c : composite_model ms bg pn = Some c -> bg = false /\ NoDup (map cprefix (flat_map comps ms)) /\ comps (body c) = flat_map comps ms /\
  exists pk k, let ls := filter is_line (flat_map comps ms) in nth_error ls k = Some pk /\ peak_prefix c = cprefix pk /\ peak_energy c = energy_of pk /\
    hints (body c) = (flat_map hints ms ++ flat_map (tie (cprefix pk) (energy_of pk)) (firstn k ls ++ skipn (k + 1) ls))%list /\
    match pn with Some n => cname pk = n /\ (forall j c, (j < k)%nat -> nth_error ls j = Some c -> cname c <> n) | None => k = O end.
Proof.
  unfold composite_model, sum_models. destruct (distinct _) eqn:D; [|discriminate]. apply distinct_nodup in D. destruct bg; [discriminate|]. cbn [comps hints].
  set (ls := filter is_line _) in *. destruct pn as [n|].
  - destruct (index_of n ls) as [k|] eqn:I; [|discriminate]. destruct (index_spec _ _ _ I) as (pk & A & B & C). rewrite A. intros H. injection H as <-. cbn [body comps hints peak_prefix peak_energy].
    repeat split; trivial. exists pk, k. repeat split; trivial.
  - destruct ls as [|c0 r] eqn:L; [discriminate|]. cbn [nth_error option_map index_of]. replace (teqb (cname c0) (cname c0)) with true by (symmetry; now apply teqb_spec).
    cbn [nth_error]. intros H. injection H as <-. cbn [body comps hints peak_prefix peak_energy]. repeat split; trivial. exists c0, O. repeat split; trivial.
Qed.
(** ** Prefixes *)
Lemma drop_J_sub s c : In c (drop_J s) -> In c s.
Proof.
  assert (G : forall n s, (length s <= n)%nat -> In c (drop_J s) -> In c s).
  { clear s. induction n as [|n IH]; intros [|a [|b r]] L; cbn [length] in L; try lia; cbn [drop_J]; try tauto.
    destruct (Ascii.eqb a "J" && Ascii.eqb b "="); intros I.
    - right. right. apply IH; [cbn in *; lia|exact I].
    - destruct I as [I|I]; [now left|]. right. apply IH; [cbn in *; lia|exact I]. }
  apply (G (length s)). lia.
Qed.
Lemma drop_J_app c b : c <> "J"%char -> c <> "="%char -> forall a, drop_J (a ++ c :: b) = (drop_J a ++ c :: drop_J b)%list.
Proof.
  intros NJ NE a. assert (HJ : Ascii.eqb c "J" = false) by (destruct (Ascii.eqb_spec c "J"); congruence). assert (HE : Ascii.eqb c "=" = false) by (destruct (Ascii.eqb_spec c "="); congruence).
  assert (G : forall n a, (length a <= n)%nat -> drop_J (a ++ c :: b) = (drop_J a ++ c :: drop_J b)%list).
  { clear a. induction n as [|n IH]; intros [|x [|y r]] L; cbn [length] in L; try lia.
    - cbn [app drop_J]. rewrite HJ. destruct b; reflexivity.
    - cbn [app drop_J]. rewrite HJ. destruct b; reflexivity.
    - cbn [app]. change (drop_J (x :: c :: b)) with (if Ascii.eqb x "J" && Ascii.eqb c "=" then drop_J b else x :: drop_J (c :: b)). rewrite HE, andb_false_r.
      f_equal. cbn [drop_J]. rewrite HJ. destruct b; reflexivity.
    - cbn [app]. change (drop_J (x :: y :: r ++ c :: b)) with (if Ascii.eqb x "J" && Ascii.eqb y "=" then drop_J (r ++ c :: b) else x :: drop_J ((y :: r) ++ c :: b)).
      change (drop_J (x :: y :: r)) with (if Ascii.eqb x "J" && Ascii.eqb y "=" then drop_J r else x :: drop_J (y :: r)).
      destruct (Ascii.eqb x "J" && Ascii.eqb y "="); [apply IH; cbn in *; lia|]. rewrite IH by (cbn in *; lia). reflexivity. }
  now apply (G (length a)).
Qed.
Lemma prefix_chars name c : In c (prefix_of name) -> c <> " "%char /\ c <> "/"%char /\ c <> "*"%char /\ c <> "."%char /\ (c = "_"%char \/ In c name).
Proof.
  unfold prefix_of, drop_char. intros I. apply filter_In in I as [I D]. apply filter_In in I as [I S]. unfold sub_char at 1 in I. apply in_map_iff in I as (d & E & I).
  apply drop_J_sub in I. unfold sub_char in I. apply in_map_iff in I as (e & E' & I).
  assert (ND : c <> "."%char) by (intros ->; discriminate). assert (NS : c <> "*"%char) by (intros ->; discriminate).
  destruct (Ascii.eqb e " ") eqn:N1.
  - subst d. cbn in E. subst c. repeat split; try discriminate. now left.
  - subst d. destruct (Ascii.eqb e "/") eqn:N2; subst c; [repeat split; try discriminate; now left|].
    apply Ascii.eqb_neq in N1, N2. repeat split; trivial. apply in_app_or in I as [I|[I|[]]]; [now right|left; now symmetry].
Qed.
(** the prefixes of two names with the same beginning, a space, and ends that differ *)
Definition clean (s : text) : text := drop_char "." (drop_char "*" (sub_char "/" "_" (drop_J (sub_char " " "_" s)))).
Lemma clean_app a b : clean (a ++ " "%char :: b) = (clean a ++ "_"%char :: clean b)%list.
Proof.
  unfold clean, sub_char, drop_char. rewrite map_app. cbn [map Ascii.eqb]. rewrite drop_J_app by discriminate. rewrite map_app. cbn [map]. rewrite !filter_app. reflexivity.
Qed.
Lemma prefix_clean name : prefix_of name = clean (name ++ t "_").
Proof. reflexivity. Qed.
