From Coq Require Import Ascii String Bool ZArith QArith Qcanon Lia List.
From Verif Require Import HxModel HxSpec.
Import ListNotations.
Local Open Scope string_scope.
Local Open Scope list_scope.
Local Infix "^^" := String.append (right associativity, at level 60).
Local Notation length := List.length.

Lemma same_eq : forall p q, same p q = true <-> p = q.
Proof.
  induction p as [|a p IH]; intros [|b q]; cbn; try (split; [discriminate|intros; discriminate]); [tauto|].
  rewrite andb_true_iff, String.eqb_eq, IH. split; [intros [-> ->]; reflexivity|intros E; injection E; auto].
Qed.
Lemma path_dec : forall p q : path, {p = q} + {p <> q}.
Proof. apply list_eq_dec, string_dec. Qed.

(** * Names *)
Lemma append_nil : forall s, s ^^ "" = s.
Proof. induction s as [|c s IH]; cbn; [reflexivity|now rewrite IH]. Qed.
Lemma append_assoc : forall a b c, (a ^^ b) ^^ c = a ^^ b ^^ c.
Proof. induction a as [|x a IH]; intros; cbn; [reflexivity|now rewrite IH]. Qed.
Lemma split_plain : forall s cur, no_slash s -> split cur s = [cur ^^ s].
Proof.
  induction s as [|c s IH]; intros cur H; cbn [split]; [now rewrite append_nil|]. destruct H as [C H].
  destruct (Ascii.eqb_spec c "/"); [contradiction|]. rewrite IH by exact H. now rewrite append_assoc.
Qed.
Lemma split_two : forall s n cur, no_slash s -> no_slash n -> split cur (s ^^ "/" ^^ n) = [cur ^^ s; n].
Proof.
  induction s as [|c s IH]; intros n cur H N.
  - cbn [String.append split Ascii.eqb]. change (Ascii.eqb "/" "/") with true. cbn [eqb]. rewrite append_nil, split_plain by exact N. reflexivity.
  - destruct H as [C H]. cbn [String.append split]. destruct (Ascii.eqb_spec c "/"); [contradiction|]. change (String "/" n) with ("/" ^^ n). rewrite IH by assumption. now rewrite append_assoc.
Qed.
Lemma keep_plain : forall s, plain s -> negb (String.eqb s "" || String.eqb s ".") = true.
Proof.
  intros s (A & B & _). apply negb_true_iff, orb_false_iff. split; now apply String.eqb_neq.
Qed.
Lemma parts_plain : forall s, plain s -> parts s = [s].
Proof. intros s P. unfold parts. rewrite split_plain by apply P. cbn [filter String.append]. now rewrite keep_plain. Qed.
Lemma parts_two : forall s n, plain s -> plain n -> parts (s ^^ "/" ^^ n) = [s; n].
Proof. intros s n P N. unfold parts. rewrite split_two by (apply P || apply N). cbn [filter String.append]. rewrite !keep_plain by assumption. reflexivity. Qed.
Lemma prefix_plain : forall s t, plain s -> String.prefix "/" (s ^^ t) = false.
Proof.
  intros [|c s] t (A & _ & N); [contradiction|]. cbn [String.append String.prefix]. destruct (ascii_dec "/" c) as [E|E]; [|reflexivity]. subst. destruct N as [N _]. contradiction.
Qed.
Lemma resolve_plain : forall base s, plain s -> resolve base s = base ++ [s].
Proof. intros base s P. unfold resolve. rewrite <- (append_nil s) at 1. rewrite prefix_plain by exact P. now rewrite parts_plain. Qed.
Lemma resolve_two : forall base s n, plain s -> plain n -> resolve base (s ^^ "/" ^^ n) = base ++ [s; n].
Proof. intros base s n P N. unfold resolve. rewrite prefix_plain by exact P. now rewrite parts_two. Qed.

(** * Files *)
Section File.
Context {V : Type}.
Implicit Types f : file V.
Lemma lookup_has : forall f p x, lookup f p = Some x <-> has f p x.
Proof.
  intros f p x. unfold lookup. split.
  - induction f as [|[q y] f IH]; cbn [find option_map fst]; [discriminate|]. destruct (same q p) eqn:E.
    + apply same_eq in E. subst. cbn. intros H. injection H as ->. exists [], f. split; [reflexivity|]. intros e [].
    + intros H. destruct (IH H) as (a & b & -> & N). exists ((q, y) :: a), b. split; [reflexivity|]. intros e [<-|I]; [|now apply N].
      cbn. intros ->. assert (same p p = true) by now apply same_eq. congruence.
  - intros (a & b & -> & N). induction a as [|[q y] a IH]; cbn [find app fst].
    + replace (same p p) with true by (symmetry; now apply same_eq). reflexivity.
    + destruct (same q p) eqn:E; [apply same_eq in E; exfalso; now apply (N (q, y)); [left|]|]. apply IH. intros e I. apply N. now right.
Qed.
Lemma lookup_none : forall f p, lookup f p = None <-> forall e, In e f -> fst e <> p.
Proof.
  intros f p. unfold lookup. induction f as [|[q y] f IH]; cbn [find option_map fst].
  - split; [intros _ e []|reflexivity].
  - destruct (same q p) eqn:E.
    + apply same_eq in E. subst. split; [discriminate|]. intros H. exfalso. now apply (H (p, y)); [left|].
    + rewrite IH. split; [|intros H e I; apply H; now right]. intros H e [<-|I]; [|now apply H]. cbn. intros ->. assert (same p p = true) by now apply same_eq. congruence.
Qed.
Lemma lookup_app : forall f g p, lookup (f ++ g) p = match lookup f p with Some x => Some x | None => lookup g p end.
Proof.
  intros f g p. unfold lookup. induction f as [|[q y] f IH]; cbn [find app option_map fst]; [reflexivity|]. destruct (same q p); [reflexivity|exact IH].
Qed.
Lemma lookup_one : forall (p q : path) (x : option V), lookup [(p, x)] q = if same p q then Some x else None.
Proof. intros p q x. unfold lookup. cbn. now destruct (same p q). Qed.
Lemma same_refl : forall p, same p p = true.
Proof. intros p. now apply same_eq. Qed.
Lemma same_neq : forall p q, p <> q -> same p q = false.
Proof. intros p q N. destruct (same p q) eqn:E; [apply same_eq in E; contradiction|reflexivity]. Qed.

Lemma add_group_keep : forall f p q x, lookup f q = Some x -> lookup (add_group f p) q = Some x.
Proof. intros f p q x H. unfold add_group. destruct (lookup f p); [exact H|]. now rewrite lookup_app, H. Qed.
Lemma add_group_other : forall f p q, q <> p -> lookup (add_group f p) q = lookup f q.
Proof.
  intros f p q N. unfold add_group. destruct (lookup f p) eqn:E; [reflexivity|]. rewrite lookup_app, lookup_one, same_neq by auto. now destruct (lookup f q).
Qed.
Lemma add_group_new : forall f p, lookup f p = None -> lookup (add_group f p) p = Some None.
Proof. intros f p H. unfold add_group. rewrite H. rewrite lookup_app, H, lookup_one, same_refl. reflexivity. Qed.
Lemma groups_keep : forall ps f q x, lookup f q = Some x -> lookup (fold_left add_group ps f) q = Some x.
Proof. induction ps as [|p ps IH]; intros f q x H; [exact H|]. cbn. apply IH. now apply add_group_keep. Qed.
Lemma groups_other : forall ps f q, ~ In q ps -> lookup (fold_left add_group ps f) q = lookup f q.
Proof.
  induction ps as [|p ps IH]; intros f q N; [reflexivity|]. cbn. rewrite IH by (intros I; apply N; now right). apply add_group_other. intros ->. apply N. now left.
Qed.
Lemma groups_new : forall ps f q, In q ps -> lookup f q = None -> lookup (fold_left add_group ps f) q = Some None.
Proof.
  induction ps as [|p ps IH]; intros f q I H; [contradiction|]. cbn. destruct (path_dec p q) as [->|N].
  - apply groups_keep. now apply add_group_new.
  - apply IH; [destruct I; [contradiction|assumption]|]. rewrite add_group_other; auto.
Qed.
Lemma groups_data : forall ps f q v, lookup (fold_left add_group ps f) q = Some (Some v) -> lookup f q = Some (Some v).
Proof.
  intros ps f q v H. destruct (lookup f q) as [x|] eqn:E.
  - rewrite (groups_keep ps f q x E) in H. exact H.
  - destruct (in_dec path_dec q ps) as [I|I]; [rewrite (groups_new ps f q I E) in H; discriminate|]. rewrite groups_other in H by exact I. congruence.
Qed.

Lemma above_iff : forall p base q, In q (above base p) <-> exists a b, a <> [] /\ b <> [] /\ p = a ++ b /\ q = base ++ a.
Proof.
  induction p as [|x p IH]; intros base q.
  - cbn. split; [tauto|]. intros (a & b & A & B & E & _). destruct a; [contradiction|discriminate].
  - destruct p as [|y p].
    + cbn. split; [tauto|]. intros (a & b & A & B & E & _). destruct a as [|z a]; [contradiction|]. destruct a, b; try discriminate. contradiction.
    + change (above base (x :: y :: p)) with ((base ++ [x]) :: above (base ++ [x]) (y :: p)). cbn [In]. rewrite IH. split.
      * intros [<-|(a & b & A & B & E & ->)].
        -- exists [x], (y :: p). repeat split; discriminate.
        -- exists (x :: a), b. repeat split; [discriminate|exact B|cbn; now rewrite E|now rewrite <- app_assoc].
      * intros (a & b & A & B & E & ->). destruct a as [|z a]; [contradiction|]. cbn in E. injection E as <- E. destruct a as [|z a].
        -- now left.
        -- right. exists (z :: a), b. repeat split; [discriminate|exact B|exact E|now rewrite <- app_assoc].
Qed.
Lemma above_self : forall p, ~ In p (above [] p).
Proof.
  intros p H. apply above_iff in H as (a & b & A & B & E & E2). cbn in E2. subst a. apply B. apply (app_inv_head p). now rewrite app_nil_r.
Qed.
Lemma is_data_iff : forall f p, is_data f p = true <-> exists v, lookup f p = Some (Some v).
Proof.
  intros f p. unfold is_data. destruct (lookup f p) as [[v|]|].
  - split; eauto.
  - split; [discriminate|]. intros (v & H). discriminate.
  - split; [discriminate|]. intros (v & H). discriminate.
Qed.
Lemma no_data : forall f ps, (forall p v, In p ps -> lookup f p <> Some (Some v)) -> existsb (is_data f) ps = false.
Proof.
  intros f ps H. destruct (existsb (is_data f) ps) eqn:E; [|reflexivity]. apply existsb_exists in E as (p & I & D). apply is_data_iff in D as (v & D). exfalso. eapply H; eassumption.
Qed.

Lemma put_ok : forall f p v, p <> [] -> lookup f p = None -> (forall q w, In q (above [] p) -> lookup f q <> Some (Some w)) ->
  exists f', put f p v = Some f' /\ lookup f' p = Some (Some v) /\ (forall q x, lookup f q = Some x -> lookup f' q = Some x) /\
  (forall q, q <> p -> ~ In q (above [] p) -> lookup f' q = lookup f q) /\
  (forall q, In q (above [] p) -> lookup f q = None -> lookup f' q = Some None).
Proof.
  intros f p v P L D. unfold put. destruct p as [|a p]; [contradiction|]. rewrite (no_data f _ D), L.
  eexists. split; [reflexivity|]. set (p' := a :: p) in *. split; [|split; [|split]].
  - rewrite lookup_app, groups_other, L, lookup_one, same_refl by apply above_self. reflexivity.
  - intros q x H. rewrite lookup_app. now rewrite (groups_keep _ _ _ _ H).
  - intros q N I. rewrite lookup_app, groups_other, lookup_one, same_neq by auto. now destruct (lookup f q).
  - intros q I N. rewrite lookup_app. now rewrite (groups_new _ _ _ I N).
Qed.
Lemma put_inv : forall f p v f', put f p v = Some f' -> f' = fold_left add_group (above [] p) f ++ [(p, Some v)] /\ lookup f p = None.
Proof.
  intros f p v f' H. unfold put in H. destruct p as [|a p]; [discriminate|]. set (q := a :: p) in *. destruct (existsb _ _); [discriminate|]. destruct (lookup f q) eqn:L; [discriminate|].
  split; [congruence|reflexivity].
Qed.
Lemma put_keeps : forall f p v f' q x, put f p v = Some f' -> lookup f q = Some x -> lookup f' q = Some x.
Proof. intros f p v f' q x H L. apply put_inv in H as [-> _]. rewrite lookup_app. now rewrite (groups_keep _ _ _ _ L). Qed.
Lemma put_exists : forall f p v x, lookup f p = Some x -> put f p v = None.
Proof. intros f p v x H. unfold put. destruct p; [reflexivity|]. destruct (existsb _ _); [reflexivity|]. now rewrite H. Qed.
Lemma put_makes_above : forall f p v f' q, put f p v = Some f' -> In q (above [] p) -> exists x, lookup f' q = Some x.
Proof.
  intros f p v f' q H I. apply put_inv in H as [-> _]. destruct (lookup f q) as [x|] eqn:E.
  - exists x. rewrite lookup_app. now rewrite (groups_keep _ _ _ _ E).
  - exists None. rewrite lookup_app. now rewrite (groups_new _ _ _ I E).
Qed.
Lemma put_makes : forall f p v f', put f p v = Some f' -> lookup f' p = Some (Some v).
Proof.
  intros f p v f' H. apply put_inv in H as [-> L]. rewrite lookup_app, groups_other, L, lookup_one, same_refl by apply above_self. reflexivity.
Qed.

Lemma run_keeps : forall ops base f q x, lookup f q = Some x -> lookup (fst (run base ops f)) q = Some x.
Proof.
  induction ops as [|[n [v|]] ops IH]; intros base f q x H; cbn [run]; try exact H. destruct (put f (resolve base n) v) as [f'|] eqn:P; [|exact H].
  apply IH. eapply put_keeps; eassumption.
Qed.
(** An assignment to a path that exists raises. *)
Lemma run_exists : forall ops base f n o x, In (n, o) ops -> lookup f (resolve base n) = Some x -> snd (run base ops f) = true.
Proof.
  induction ops as [|[m [v|]] ops IH]; intros base f n o x I L; cbn [run]; [contradiction| |reflexivity].
  destruct I as [E|I].
  - injection E as -> <-. rewrite (put_exists _ _ _ _ L). reflexivity.
  - destruct (put f (resolve base m) v) as [f'|] eqn:P; [|reflexivity]. eapply IH; [exact I|]. eapply put_keeps; eassumption.
Qed.
Lemma run_app : forall a b base f, run base (a ++ b) f = (let '(f', r) := run base a f in if r then (f', true) else run base b f').
Proof.
  induction a as [|[n [v|]] a IH]; intros b base f; cbn [run app]; [reflexivity| |reflexivity]. destruct (put f (resolve base n) v); [apply IH|reflexivity].
Qed.
(** An assignment below a group, then one to the group. *)
Lemma run_below : forall a b base f n o m o', In (n, o) a -> In (m, o') b -> In (resolve base m) (above [] (resolve base n)) -> snd (run base (a ++ b) f) = true.
Proof.
  intros a b base f n o m o' A B U. rewrite run_app. destruct (run base a f) as [f' [|]] eqn:R; [reflexivity|].
  assert (E : exists x, lookup f' (resolve base m) = Some x).
  { revert f R A. induction a as [|[k [v|]] a IH]; intros f R A; cbn [run] in R; [contradiction| |discriminate].
    destruct (put f (resolve base k) v) as [g|] eqn:P; [|discriminate]. destruct A as [E|A].
    - injection E as -> <-. destruct (put_makes_above _ _ _ _ _ P U) as (x & X). exists x. pose proof (run_keeps a base g _ _ X) as K. now rewrite R in K.
    - eapply IH; eassumption. }
  destruct E as (x & X). eapply run_exists; eassumption.
Qed.
(** Assignments to paths that do not get into each other's way. *)
Lemma run_ok : forall ops base f, NoDup (map (fun o => resolve base (fst o)) ops) ->
  (forall o, In o ops -> snd o <> None) ->
  (forall o, In o ops -> resolve base (fst o) <> [] /\ lookup f (resolve base (fst o)) = None /\
     forall q w, In q (above [] (resolve base (fst o))) -> lookup f q <> Some (Some w)) ->
  (forall o o', In o ops -> In o' ops -> ~ In (resolve base (fst o)) (above [] (resolve base (fst o')))) ->
  exists f', run base ops f = (f', false) /\
  (forall n v, In (n, Some v) ops -> lookup f' (resolve base n) = Some (Some v)) /\
  (forall q, (forall o, In o ops -> q <> resolve base (fst o) /\ ~ In q (above [] (resolve base (fst o)))) -> lookup f' q = lookup f q).
Proof.
  induction ops as [|[n [v|]] ops IH]; intros base f ND V0 F A.
  - exists f. repeat split. intros n v [].
  - destruct (F (n, Some v) (or_introl eq_refl)) as (P & L & D). cbn [fst] in P, L, D. cbn [run].
    destruct (put_ok f (resolve base n) v P L D) as (g & E & G1 & G2 & G3 & G4). rewrite E. cbn [map fst] in ND. inversion ND as [|? ? N1 N2]. subst.
    destruct (IH base g N2) as (f' & R & H1 & H2).
    + intros o O. apply V0. now right.
    + intros o O. destruct (F o (or_intror O)) as (P' & L' & D'). split; [exact P'|].
      assert (NE : resolve base (fst o) <> resolve base n) by (intros Q; apply N1; rewrite <- Q; exact (in_map (fun o => resolve base (fst o)) _ _ O)).
      assert (NA : ~ In (resolve base (fst o)) (above [] (resolve base n))) by (exact (A o (n, Some v) (or_intror O) (or_introl eq_refl))).
      split; [rewrite G3 by assumption; exact L'|].
      intros q w I. destruct (path_dec q (resolve base n)) as [->|NQ].
      * exfalso. exact (A (n, Some v) o (or_introl eq_refl) (or_intror O) I).
      * destruct (in_dec path_dec q (above [] (resolve base n))) as [IA|IA].
        -- destruct (lookup f q) as [x|] eqn:LQ; [rewrite (G2 q x LQ); rewrite <- LQ; now apply D'|]. rewrite (G4 q IA LQ). discriminate.
        -- rewrite G3 by assumption. now apply D'.
    + intros o o' O O'. apply A; now right.
    + exists f'. split; [exact R|]. split.
      * intros m w [Q|I]; [|now apply H1]. injection Q as <- <-.
        rewrite H2; [exact G1|]. intros o O. split.
        -- intros Q. apply N1. rewrite Q. exact (in_map (fun o => resolve base (fst o)) _ _ O).
        -- exact (A (n, Some v) o (or_introl eq_refl) (or_intror O)).
      * intros q Q. rewrite H2 by (intros o O; apply Q; now right). destruct (Q (n, Some v) (or_introl eq_refl)) as [Q1 Q2]. now apply G3.
  - exfalso. now apply (V0 (n, None)); [left|].
Qed.

Lemma require_one : forall f c, (forall v, lookup f [c] <> Some (Some v)) -> exists f', require_group f [c] = Some f' /\
  lookup f' [c] = Some None /\ (forall q, q <> [c] -> lookup f' q = lookup f q) /\ (forall q x, lookup f q = Some x -> lookup f' q = Some x).
Proof.
  intros f c H. unfold require_group. cbn [above app existsb fold_left].
  assert (D : is_data f [c] = false) by (destruct (is_data f [c]) eqn:E; [apply is_data_iff in E as (v & E); exfalso; now apply (H v)|reflexivity]).
  rewrite D. cbn. eexists. split; [reflexivity|]. split; [|split].
  - unfold add_group. destruct (lookup f [c]) as [[v|]|] eqn:E; [exfalso; now apply (H v)|exact E|]. rewrite lookup_app, E, lookup_one, same_refl. reflexivity.
  - intros q N. now apply add_group_other.
  - intros q x. apply add_group_keep.
Qed.
Lemma require_same : forall f c, lookup f [c] = Some None -> require_group f [c] = Some f.
Proof.
  intros f c H. unfold require_group. cbn [above app existsb fold_left]. unfold is_data. rewrite H. cbn. unfold add_group. now rewrite H.
Qed.
Lemma fresh_lookup : forall f c, fresh f c <-> forall p, hd_error p = Some c -> lookup f p = None.
Proof.
  intros f c. split.
  - intros F p H. apply lookup_none. intros e I E. apply (F e I). now rewrite E.
  - intros F e I H. pose proof (proj1 (lookup_none f (fst e)) (F _ H)) as N. now apply (N e).
Qed.
Lemma untouched_lookup : forall c f f', (forall p, hd_error p <> Some c -> lookup f' p = lookup f p) -> untouched c f f'.
Proof. intros c f f' H p x N. rewrite <- !lookup_has, H by exact N. tauto. Qed.
(** Assignments in a fresh group. *)
Lemma run_in_fresh : forall c ops f, plain c -> fresh f c -> (forall o, In o ops -> snd o <> None) ->
  NoDup (map (fun o => resolve [c] (fst o)) ops) ->
  (forall o, In o ops -> exists t, t <> [] /\ resolve [c] (fst o) = c :: t) ->
  (forall o o', In o ops -> In o' ops -> ~ In (resolve [c] (fst o)) (above [] (resolve [c] (fst o')))) ->
  exists f', run_in c ops f = (f', false) /\ (forall n v, In (n, Some v) ops -> lookup f' (resolve [c] n) = Some (Some v)) /\
  (forall q, hd_error q <> Some c -> lookup f' q = lookup f q) /\ lookup f' [c] = Some None.
Proof.
  intros c ops f P F V0 ND T A. unfold run_in. rewrite parts_plain by exact P. rewrite fresh_lookup in F.
  destruct (require_one f c) as (g & E & G1 & G2 & G3); [intros v; rewrite F by reflexivity; discriminate|]. rewrite E.
  destruct (run_ok ops [c] g ND V0) as (f' & R & H1 & H2).
  - intros o O. destruct (T o O) as (t & T1 & T2). rewrite T2. split; [discriminate|].
    assert (TN : c :: t <> [c]) by (intros Q; injection Q; exact T1). split; [rewrite G2 by exact TN; now apply F|].
    intros q w I. destruct (path_dec q [c]) as [->|NQ]; [rewrite G1; discriminate|]. rewrite G2 by exact NQ. rewrite F; [discriminate|].
    apply above_iff in I as (a & b & A1 & A2 & A3 & ->). destruct a; [contradiction|]. cbn in A3 |- *. now injection A3 as -> _.
  - exact A.
  - exists f'. split; [exact R|]. split; [exact H1|].
    assert (K : forall q, hd_error q <> Some c -> forall o, In o ops -> q <> resolve [c] (fst o) /\ ~ In q (above [] (resolve [c] (fst o)))).
    { intros q N o O. destruct (T o O) as (t & T1 & T2). rewrite T2. split; [intros ->; now apply N|]. intros I. apply above_iff in I as (a & b & A1 & A2 & A3 & ->).
      destruct a; [contradiction|]. cbn in A3. injection A3 as <- _. now apply N. }
    split.
    + intros q N. rewrite H2 by (apply K; exact N). apply G2. intros ->. now apply N.
    + pose proof (run_keeps ops [c] g [c] None G1) as Q. now rewrite R in Q.
Qed.
End File.

Section Data.
Context {V : Type}.
Implicit Types f : file V.
Lemma run_data : forall ops base f q v, lookup (fst (run base ops f)) q = Some (Some v) -> lookup f q = Some (Some v) \/ exists n, In (n, Some v) ops /\ q = resolve base n.
Proof.
  induction ops as [|[n [w|]] ops IH]; intros base f q v H; cbn [run] in H; [now left| |now left].
  destruct (put f (resolve base n) w) as [g|] eqn:P; [|now left]. apply IH in H as [H|(m & I & E)].
  - apply put_inv in P as [-> L]. rewrite lookup_app in H. destruct (lookup (fold_left _ _ _) q) as [x|] eqn:G.
    + left. injection H as ->. now apply groups_data in G.
    + rewrite lookup_one in H. destruct (same (resolve base n) q) eqn:S; [|discriminate]. apply same_eq in S. injection H as ->. right. exists n. split; [now left|auto].
  - right. exists m. split; [now right|exact E].
Qed.
Lemma run_done : forall ops base f f' n o, run base ops f = (f', false) -> In (n, o) ops -> exists v, o = Some v /\ lookup f' (resolve base n) = Some (Some v).
Proof.
  induction ops as [|[m [w|]] ops IH]; intros base f f' n o R I; cbn [run] in R; [contradiction| |discriminate].
  destruct (put f (resolve base m) w) as [g|] eqn:P; [|discriminate]. destruct I as [E|I].
  - injection E as -> <-. exists w. split; [reflexivity|]. apply put_makes in P. pose proof (run_keeps ops base g _ _ P) as K. now rewrite R in K.
  - eapply IH; eassumption.
Qed.
End Data.

Local Opaque String.append.
(** * Blocks of names below labels, and names beside the labels *)
Notation block := (string * list (string * value))%type.
Definition block_ops (b : block) : list (string * option value) := map (fun e => (fst b ^^ "/" ^^ fst e, Some (snd e))) (snd b).
Definition tail_ops (t : list (string * value)) : list (string * option value) := map (fun e => (fst e, Some (snd e))) t.

Lemma NoDup_app2 : forall {A} (a b : list A), NoDup a -> NoDup b -> (forall x, In x a -> ~ In x b) -> NoDup (a ++ b).
Proof.
  induction a as [|x a IH]; intros b A1 B D; [exact B|]. cbn. inversion A1 as [|? ? N1 N2]. subst. constructor.
  - intros I. apply in_app_iff in I as [I|I]; [contradiction|]. apply (D x); [now left|exact I].
  - apply IH; [exact N2|exact B|]. intros y Y. apply D. now right.
Qed.
Lemma NoDup_map_inj : forall {A B} (f : A -> B) l, (forall x y, In x l -> In y l -> f x = f y -> x = y) -> NoDup l -> NoDup (map f l).
Proof.
  induction l as [|x l IH]; intros I N; [constructor|]. inversion N as [|? ? N1 N2]. subst. cbn. constructor.
  - intros H. apply in_map_iff in H as (y & E & Y). apply N1. rewrite (I x y); [exact Y|now left|now right|auto].
  - apply IH; [|exact N2]. intros a b A1 B1. apply I; now right.
Qed.

Lemma tree_ok : forall c blocks tail f, plain c -> fresh f c ->
  NoDup (map fst blocks) -> Forall plain (map fst blocks) -> (forall b, In b blocks -> NoDup (map fst (snd b)) /\ Forall plain (map fst (snd b))) ->
  NoDup (map fst tail) -> Forall plain (map fst tail) -> (forall s, In s (map fst blocks) -> ~ In s (map fst tail)) ->
  exists f', run_in c (flat_map block_ops blocks ++ tail_ops tail) f = (f', false) /\
  (forall s es n v, In (s, es) blocks -> In (n, v) es -> lookup f' [c; s; n] = Some (Some v)) /\
  (forall n v, In (n, v) tail -> lookup f' [c; n] = Some (Some v)) /\
  (forall q, hd_error q <> Some c -> lookup f' q = lookup f q) /\
  (forall q v, hd_error q = Some c -> lookup f' q = Some (Some v) ->
     (exists s es n, In (s, es) blocks /\ In (n, v) es /\ q = [c; s; n]) \/ exists n, In (n, v) tail /\ q = [c; n]).
Proof.
  intros c blocks tail f P F NB PB BB NT PT BT. set (ops := flat_map block_ops blocks ++ tail_ops tail).
  assert (C : forall n o, In (n, o) ops -> (exists s es m v, In (s, es) blocks /\ In (m, v) es /\ n = s ^^ "/" ^^ m /\ o = Some v /\ resolve [c] n = [c; s; m]) \/
                                          (exists v, In (n, v) tail /\ o = Some v /\ resolve [c] n = [c; n])).
  { intros n o I. unfold ops in I. apply in_app_iff in I as [I|I].
    - apply in_flat_map in I as ([s es] & B & I). apply in_map_iff in I as ([m v] & E & I). cbn [fst snd] in *. injection E as <- <-. left. exists s, es, m, v. repeat split; auto.
      apply (resolve_two [c]).
      + rewrite Forall_forall in PB. apply PB. exact (in_map fst _ _ B).
      + destruct (BB _ B) as [_ Q]. rewrite Forall_forall in Q. apply Q. exact (in_map fst _ _ I).
    - apply in_map_iff in I as ([m v] & E & I). cbn [fst snd] in E. injection E as <- <-. right. exists v. repeat split; auto. apply (resolve_plain [c]).
      rewrite Forall_forall in PT. apply PT. exact (in_map fst _ _ I). }
  destruct (run_in_fresh c ops f P F) as (f' & R & H1 & H2 & H3).
  - intros [n o] I. destruct (C n o I) as [(s & es & m & v & _ & _ & _ & -> & _)|(v & _ & -> & _)]; discriminate.
  - unfold ops. rewrite map_app. apply NoDup_app2.
    + clear C ops BT. induction blocks as [|[s es] blocks IH]; [constructor|]. cbn [flat_map]. rewrite map_app. cbn [map fst] in NB, PB. inversion NB as [|? ? N1 N2]. inversion PB as [|? ? P1 P2]. subst.
      destruct (BB (s, es) (or_introl eq_refl)) as [B1 B2]. cbn [snd] in B1, B2. rewrite Forall_forall in B2.
      apply NoDup_app2.
      * unfold block_ops. cbn [fst snd]. rewrite map_map. cbn [fst].
        rewrite (map_ext_in _ (fun e => [c; s; fst e])); [|intros [m v] I; apply (resolve_two [c]); [exact P1|apply B2; exact (in_map fst _ _ I)]].
        rewrite <- (map_map fst (fun m => [c; s; m])). apply NoDup_map_inj; [intros x y _ _ E; now injection E|exact B1].
      * apply IH; auto. intros b B. apply BB. now right.
      * intros x I J. apply in_map_iff in I as ([n o] & <- & I). apply in_map_iff in I as ([m v] & E & I). cbn [fst snd] in *. injection E as <- <-.
        rewrite (resolve_two [c]) in J by (exact P1 || (apply B2; exact (in_map fst _ _ I))). cbn [app] in J.
        apply in_map_iff in J as ([n' o'] & E & J). cbn [fst] in E. apply in_flat_map in J as ([s' es'] & B' & J). apply in_map_iff in J as ([m' v'] & E' & J). cbn [fst snd] in *. injection E' as <- <-.
        destruct (BB (s', es') (or_intror B')) as [_ B4]. cbn [snd] in B4. rewrite Forall_forall in B4. rewrite Forall_forall in P2.
        rewrite (resolve_two [c]) in E by ((apply P2; exact (in_map fst _ _ B')) || (apply B4; exact (in_map fst _ _ J))).
        cbn in E. injection E as -> _. apply N1. exact (in_map fst _ _ B').
    + unfold tail_ops. rewrite map_map. cbn [fst]. rewrite Forall_forall in PT.
      rewrite (map_ext_in _ (fun e => [c; fst e])); [|intros [m v] I; apply (resolve_plain [c]), PT; exact (in_map fst _ _ I)].
      rewrite <- (map_map fst (fun m => [c; m])). apply NoDup_map_inj; [intros x y _ _ E; now injection E|exact NT].
    + intros x I J. apply in_map_iff in I as ([n o] & <- & I). apply in_map_iff in J as ([n' o'] & E & J).
      cbn [fst] in *. destruct (C n o) as [(s & es & m & v & _ & _ & _ & _ & E1)|(v & IT & -> & E1)]; [apply in_app_iff; now left| |].
      * destruct (C n' o') as [(s' & es' & m' & v' & _ & _ & EN & _ & _)|(v' & _ & _ & E2)]; [apply in_app_iff; now right| |congruence].
        apply in_map_iff in J as ([k w] & EK & K). injection EK as <- <-. cbn [fst] in *. rewrite Forall_forall in PT.
        assert (PK : plain k) by (apply PT; exact (in_map fst _ _ K)). rewrite (resolve_plain [c]) in E by exact PK. rewrite E1 in E. discriminate.
      * apply in_flat_map in I as ([s es] & B & I). apply in_map_iff in I as ([m w] & E2 & I). cbn [fst snd] in *. injection E2 as <- _.
        rewrite (resolve_two [c]) in E1; [discriminate| |].
        -- rewrite Forall_forall in PB. apply PB. exact (in_map fst _ _ B).
        -- destruct (BB _ B) as [_ Q]. rewrite Forall_forall in Q. apply Q. exact (in_map fst _ _ I).
  - intros [n o] I. cbn [fst]. destruct (C n o I) as [(s & es & m & v & _ & _ & _ & _ & ->)|(v & _ & _ & ->)]; [exists [s; m]|exists [n]]; (split; [discriminate|reflexivity]).
  - intros [n o] [n' o'] I I' A. cbn [fst] in A. apply above_iff in A as (a & b & A1 & A2 & A3 & A4). cbn [app] in A4. subst a.
    destruct (C n' o' I') as [(s' & es' & m' & v' & B' & J' & -> & -> & E')|(v' & T' & -> & E')]; rewrite E' in A3;
    destruct (C n o I) as [(s & es & m & v & B & J & -> & -> & E)|(v & T & -> & E)]; rewrite E in A3; cbn in A3.
    + injection A3 as _ _ A3. destruct b; [contradiction|discriminate].
    + injection A3 as -> _. apply (BT n); [exact (in_map fst _ _ B')|exact (in_map fst _ _ T)].
    + discriminate.
    + injection A3 as _ A3. destruct b; [contradiction|discriminate].
  - exists f'. split; [exact R|]. split; [|split; [|split]].
    + intros s es n v B I. assert (O : In (s ^^ "/" ^^ n, Some v) ops) by (apply in_app_iff; left; apply in_flat_map; exists (s, es); split; [exact B|]; apply in_map_iff; exists (n, v); auto).
      pose proof (H1 _ _ O) as L. rewrite (resolve_two [c]) in L; [exact L| |].
      * rewrite Forall_forall in PB. apply PB. exact (in_map fst _ _ B).
      * destruct (BB _ B) as [_ Q]. rewrite Forall_forall in Q. apply Q. exact (in_map fst _ _ I).
    + intros n v I. assert (O : In (n, Some v) ops) by (apply in_app_iff; right; apply in_map_iff; exists (n, v); auto).
      pose proof (H1 _ _ O) as L. rewrite (resolve_plain [c]) in L; [exact L|]. rewrite Forall_forall in PT. apply PT. exact (in_map fst _ _ I).
    + exact H2.
    + intros q v Q L. unfold run_in in R. rewrite parts_plain in R by exact P. pose proof (proj1 (fresh_lookup f c) F) as F'.
      destruct (require_one f c) as (g & E & G1 & G2 & _); [intros w; rewrite F' by reflexivity; discriminate|]. rewrite E in R.
      assert (L' : lookup (fst (run [c] ops g)) q = Some (Some v)) by (rewrite R; exact L).
      apply run_data in L' as [L'|(n & I & ->)].
      * exfalso. destruct (path_dec q [c]) as [->|N]; [rewrite G1 in L'; discriminate|]. rewrite G2, F' in L' by assumption. discriminate.
      * destruct (C n (Some v) I) as [(s & es & m & w & B & J & _ & E2 & ->)|(w & T & E2 & ->)]; injection E2 as <-.
        -- left. exists s, es, m. auto.
        -- right. exists n. auto.
Qed.

(** * The histograms *)
Definition hist_block (h : hist) (s : string) : block :=
  (s, match h (Some s) with Some (c, n) => [("bin_centers", Numbers c); ("counts", Counts n)] | None => [] end).
Lemma state_blocks : forall h labels, (forall s, In s labels -> h (Some s) <> None) -> flat_map (state_ops h) labels = flat_map block_ops (map (hist_block h) labels).
Proof.
  intros h labels H. induction labels as [|s labels IH]; [reflexivity|]. cbn [flat_map map]. rewrite IH by (intros; apply H; now right). f_equal.
  unfold state_ops, hist_block, block_ops. cbn [fst snd]. destruct (h (Some s)) as [[c n]|] eqn:E; [|exfalso; now apply (H s); [left|]]. reflexivity.
Qed.
Lemma blocks_fst : forall h labels, map fst (map (hist_block h) labels) = labels.
Proof. intros h labels. rewrite map_map. cbn. apply map_id. Qed.
Lemma plain_check : forall s, negb (String.eqb s "" || String.eqb s ".") = true -> (fix g t := match t with EmptyString => true | String c u => negb (Ascii.eqb c "/") && g u end)%bool s = true -> plain s.
Proof.
  intros s A B. apply negb_true_iff, orb_false_iff in A as [A1 A2]. apply String.eqb_neq in A1, A2. repeat split; auto. clear A1 A2. induction s as [|c s IH]; [exact I|].
  apply andb_true_iff in B as [B1 B2]. split; [|auto]. apply negb_true_iff in B1. now apply Ascii.eqb_neq in B1.
Qed.
Ltac plain_names := repeat (apply Forall_cons; [apply plain_check; vm_compute; reflexivity|]); apply Forall_nil.
Ltac distinct_names := repeat (apply NoDup_cons; [cbn [In]; let Q := fresh in intros Q; repeat (destruct Q as [Q|Q]; [discriminate Q|]); exact Q|]); apply NoDup_nil.
Lemma hist_block_names : forall h labels b, In b (map (hist_block h) labels) -> NoDup (map fst (snd b)) /\ Forall plain (map fst (snd b)).
Proof.
  intros h labels b B. apply in_map_iff in B as (s & <- & _). unfold hist_block. cbn [snd]. destruct (h (Some s)) as [[c n]|]; cbn [map fst].
  - split; [distinct_names|plain_names].
  - split; constructor.
Qed.
(** A histogram output in a fresh group, with further names. *)
Lemma hists_tree : forall chan labels h tail f, plain chan -> fresh f chan -> labels_beside (map fst tail) labels ->
  (forall s, In s labels -> h (Some s) <> None) -> NoDup (map fst tail) -> Forall plain (map fst tail) ->
  exists f', run_in chan (flat_map (state_ops h) labels ++ tail_ops tail) f = (f', false) /\
  (forall s c n, In s labels -> h (Some s) = Some (c, n) -> lookup f' [chan; s; "bin_centers"] = Some (Some (Numbers c)) /\ lookup f' [chan; s; "counts"] = Some (Some (Counts n))) /\
  (forall n v, In (n, v) tail -> lookup f' [chan; n] = Some (Some v)) /\
  (forall q, hd_error q <> Some chan -> lookup f' q = lookup f q) /\
  (forall q v, hd_error q = Some chan -> lookup f' q = Some (Some v) ->
     (exists s, In s labels /\ (q = [chan; s; "bin_centers"] \/ q = [chan; s; "counts"])) \/ exists n, In n (map fst tail) /\ q = [chan; n]).
Proof.
  intros chan labels h tail f P F (L1 & L2 & L3) H NT PT. rewrite (state_blocks h labels H).
  destruct (tree_ok chan (map (hist_block h) labels) tail f P F) as (f' & R & H1 & H2 & H3 & H4); rewrite ?blocks_fst; auto.
  - apply hist_block_names.
  - exists f'. split; [exact R|]. split; [|split; [exact H2|split; [exact H3|]]].
    + intros s c n I E. assert (B : In (s, [("bin_centers", Numbers c); ("counts", Counts n)]) (map (hist_block h) labels)) by (apply in_map_iff; exists s; split; [unfold hist_block; now rewrite E|exact I]).
      split; eapply H1; try exact B; cbn; auto.
    + intros q v Q L. destruct (H4 q v Q L) as [(s & es & n & B & I & ->)|(n & I & ->)].
      * left. apply in_map_iff in B as (s' & E & B). unfold hist_block in E. injection E as -> <-. exists s. split; [exact B|].
        destruct (h (Some s)) as [[c m]|]; [|contradiction]. cbn in I. destruct I as [E|[E|[]]]; injection E as <- _; auto.
      * right. exists n. split; [exact (in_map fst _ _ I)|reflexivity].
Qed.

Lemma fresh_other : forall {V} (f f' : file V) c d, c <> d -> fresh f d -> (forall q, hd_error q <> Some c -> lookup f' q = lookup f q) -> fresh f' d.
Proof.
  intros V f f' c d N F H. apply fresh_lookup. intros p E. rewrite H by (rewrite E; intros Q; injection Q; auto). rewrite fresh_lookup in F. now apply F.
Qed.
Lemma add_counts_nth : forall a b i, List.length a = List.length b -> nth i (add_counts a b) 0%nat = (nth i a 0 + nth i b 0)%nat.
Proof.
  induction a as [|x a IH]; intros [|y b] i L; try discriminate; [destruct i; reflexivity|]. destruct i as [|i]; [reflexivity|]. cbn. apply IH. now injection L.
Qed.
Lemma add_counts_length : forall a b, List.length a = List.length b -> List.length (add_counts a b) = List.length a.
Proof. induction a as [|x a IH]; intros [|y b] L; try discriminate; [reflexivity|]. cbn. f_equal. apply IH. now injection L. Qed.
Lemma sum_hists_ok : forall centers chans s, (forall c h, In (c, h) chans -> exists x n, h s = Some (x, n) /\ List.length n = List.length centers) ->
  exists m ns, sum_hists centers chans s = Some m /\ List.length m = List.length centers /\ Forall2 (fun ch n => exists x, snd ch s = Some (x, n)) chans ns /\
  forall i, nth i m 0%nat = total_at ns i.
Proof.
  intros centers chans s. induction chans as [|[c h] chans IH]; intros H.
  - exists (map (fun _ => 0%nat) centers), []. repeat split; [now rewrite map_length|constructor|]. intros i. unfold total_at. cbn [map fold_right].
    clear. revert i. induction centers as [|x l IH]; intros [|i]; cbn; auto.
  - destruct (H c h (or_introl eq_refl)) as (x & n & E & L). destruct IH as (m & ns & S & LM & F & T); [intros; eapply H; right; eassumption|].
    exists (add_counts n m), (n :: ns). cbn [sum_hists]. rewrite E, S. repeat split; auto.
    + rewrite add_counts_length; congruence.
    + constructor; [exists x; exact E|exact F].
    + intros i. rewrite add_counts_nth by congruence. rewrite T. reflexivity.
Qed.

(** * Records of a state *)
Lemma cut_slice_map : forall {A} (l : list A) d a b, (b <= List.length l)%nat -> cut_slice l (a, b) = map (fun i => nth i l d) (seq a (b - a)).
Proof.
  intros A l d a b H. unfold cut_slice. cbn [fst snd]. revert l b H. induction a as [|a IH]; intros l b H.
  - rewrite skipn_O, Nat.sub_0_r. revert l H. induction b as [|b IH]; intros l H; [reflexivity|]. destruct l as [|x l]; [cbn in H; lia|]. cbn [firstn seq map nth]. f_equal.
    rewrite IH by (cbn in H; lia). rewrite <- seq_shift, map_map. reflexivity.
  - destruct l as [|x l].
    + cbn in H. assert (b = 0%nat) by lia. subst. cbn. reflexivity.
    + cbn [skipn]. destruct b as [|b].
      * reflexivity.
      * replace (S b - S a)%nat with (b - a)%nat by lia. rewrite IH by (cbn in H; lia). rewrite <- seq_shift, map_map. reflexivity.
Qed.
Lemma select_map : forall {A} (f : nat -> A) (g : nat -> bool) l, select (map f l) (map g l) = Some (map f (filter g l)).
Proof. intros A f g l. induction l as [|i l IH]; [reflexivity|]. cbn [map select filter]. rewrite IH. now destruct (g i). Qed.
Lemma get_attr_chosen : forall {A} (l : list A) d g ss, List.length l = List.length g -> (forall s, In s ss -> (snd s <= List.length g)%nat) ->
  get_attr l g ss = Some (map (fun i => nth i l d) (chosen g ss)).
Proof.
  intros A l d g ss L H. induction ss as [|[a b] ss IH]; [reflexivity|]. pose proof (H (a, b) (or_introl eq_refl)) as B. cbn [snd] in B.
  cbn [get_attr]. rewrite (cut_slice_map l d) by lia. rewrite (cut_slice_map g false) by lia. rewrite select_map, IH by (intros; apply H; now right).
  unfold chosen. cbn [flat_map fst snd]. now rewrite map_app.
Qed.
Lemma index_chosen : forall l d g a b, List.length l = List.length g -> (b <= List.length g)%nat ->
  index_seconds l [(a, b)] (flat_map (cut_slice g) [(a, b)]) = Some (map (fun i => nth i l d) (chosen g [(a, b)])).
Proof.
  intros l d g a b L B. cbn [index_seconds flat_map]. rewrite app_nil_r, (cut_slice_map l d), (cut_slice_map g false) by lia. rewrite select_map.
  unfold chosen. cbn [flat_map fst snd]. now rewrite app_nil_r.
Qed.
Lemma flat_map_map_ext : forall {A B C} (f : A -> list C) (g : B -> list C) (h : A -> B) l, (forall x, In x l -> f x = g (h x)) -> flat_map f l = flat_map g (map h l).
Proof. intros A B C f g h l H. induction l as [|x l IH]; [reflexivity|]. cbn. rewrite H by now left. f_equal. apply IH. intros; apply H; now right. Qed.
Lemma Forall2_impl_in : forall {A B} (P Q : A -> B -> Prop) l l', (forall a b, In a l -> P a b -> Q a b) -> Forall2 P l l' -> Forall2 Q l l'.
Proof. intros A B P Q l l' H F. induction F as [|a b l l' p F IH]; constructor; [apply H; [now left|exact p]|]. apply IH. intros x y I. apply H. now right. Qed.
