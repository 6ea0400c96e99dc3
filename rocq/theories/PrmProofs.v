From Coq Require Import String Bool List Lia.
From Verif Require Import PrmModel PrmSpec.
Import ListNotations.

Lemma nodup_right {A} (l l' : list A) : NoDup (l ++ l') -> NoDup l'.
Proof. induction l as [|a r IH]; [trivial|]. intros H. apply IH. now inversion H. Qed.
Lemma nodup_left {A} (l l' : list A) : NoDup (l ++ l') -> NoDup l.
Proof. induction l as [|a r IH]; [constructor|]. intros H. inversion H; subst. constructor; [|now apply IH]. intros I. apply H2, in_or_app. now left. Qed.
Section Dicts.
Context {V : Type}.
Implicit Types (d ns : dict V) (ds : list (dict V)) (k : string) (v : V).
Lemma get_put d k v k' : get (put d k v) k' = if String.eqb k' k then Some v else get d k'.
Proof.
  induction d as [|[a b] t IH]; cbn [put get]; [destruct (String.eqb k' k); reflexivity|].
  destruct (String.eqb_spec k a) as [-> | N]; cbn [get].
  - destruct (String.eqb k' a); reflexivity.
  - rewrite IH. destruct (String.eqb_spec k' a) as [-> | _]; [|reflexivity]. destruct (String.eqb_spec a k); [subst; contradiction|reflexivity].
Qed.
Lemma get_none d k : get d k = None <-> ~ In k (map fst d).
Proof.
  induction d as [|[a b] t IH]; cbn [get map fst In]; [tauto|]. destruct (String.eqb_spec k a) as [-> | N].
  - split; [discriminate|]. intros H. exfalso. apply H. now left.
  - rewrite IH. split; intros H; [intros [E|I]; [now subst|contradiction]|]. intros I. apply H. now right.
Qed.
Lemma has_in d k : has d k = true <-> In k (map fst d).
Proof.
  unfold has. pose proof (get_none d k) as G. destruct (get d k); split; intros H; try discriminate; try reflexivity.
  - destruct (in_dec String.string_dec k (map fst d)) as [I|N]; [exact I|]. apply G in N. discriminate.
  - exfalso. now apply (proj1 G eq_refl).
Qed.
Lemma put_names d k v : In k (map fst d) -> map fst (put d k v) = map fst d.
Proof.
  induction d as [|[a b] t IH]; cbn [put map fst In]; [tauto|]. intros H. destruct (String.eqb_spec k a) as [-> | N]; cbn [map fst]; [reflexivity|].
  f_equal. apply IH. destruct H; [now subst|assumption].
Qed.
Lemma get_del d k k' : get (del d k) k' = if String.eqb k' k then None else get d k'.
Proof.
  unfold del. induction d as [|[a b] t IH]; cbn [filter get fst]; [now destruct (String.eqb k' k)|].
  destruct (String.eqb_spec k a) as [-> | N]; cbn [negb]; cbn [get].
  - rewrite IH. destruct (String.eqb k' a); reflexivity.
  - rewrite IH. destruct (String.eqb_spec k' a) as [-> | _]; [|reflexivity]. destruct (String.eqb_spec a k); [subst; contradiction|reflexivity].
Qed.
Lemma param_in (l : list (dict V)) k : param l k = None <-> ~ In k (concat (names l)).
Proof.
  unfold names. induction l as [|d t IH]; cbn [param map concat]; [tauto|]. pose proof (get_none d k) as G. rewrite in_app_iff.
  destruct (get d k); [|rewrite IH; tauto]. split; [discriminate|]. intros N. destruct (in_dec String.string_dec k (map fst d)) as [I|I]; [exfalso; tauto|].
  apply G in I. discriminate.
Qed.
End Dicts.

Section Prm.
Context {V T : Type}.
Variable typeof : V -> T.
Variable sub : T -> T -> bool.
Notation sid := (set_in_dict V T typeof sub).
Notation sf := (set_first V T typeof sub).
Notation s1 := (set_one V T typeof sub).
Notation sall := (set_all V T typeof sub).

Lemma sid_put tc k v d d' : sid tc k v d = Put V d' -> d' = put d k v /\ exists old, get d k = Some old /\ passes typeof sub (get tc k) old v.
Proof.
  unfold set_in_dict. destruct (get d k) as [old|] eqn:G; [|discriminate]. destruct (get tc k) as [[[|]|l| |]|]; intros H; try discriminate.
  - destruct (sub (typeof v) (typeof old)) eqn:S; [|discriminate]. injection H as <-. split; [reflexivity|]. exists old. now split.
  - destruct (existsb _ l) eqn:S; [|discriminate]. injection H as <-. split; [reflexivity|]. exists old. split; [reflexivity|]. cbn. now apply existsb_exists.
  - injection H as <-. split; [reflexivity|]. exists old. now split.
Qed.
Lemma sf_names tc k v l l' : sf tc k v l = Found V l' -> names l' = names l.
Proof.
  revert l'. induction l as [|d t IH]; intros l' H; cbn [set_first] in H; [discriminate|]. destruct d as [|e d0]; [discriminate|].
  destruct (sid tc k v (e :: d0)) as [d'| |] eqn:S; [| |discriminate].
  - injection H as <-. unfold names. cbn [map]. f_equal. destruct (sid_put _ _ _ _ _ S) as [-> (old & G & _)].
    apply (put_names (e :: d0)). apply has_in. unfold has. now rewrite G.
  - destruct (sf tc k v t) as [t'| |] eqn:F; try discriminate. injection H as <-. unfold names in *. cbn [map]. f_equal. now apply IH.
Qed.
Lemma s1_names p k v : names (prms V T (fst (s1 p k v))) = names (prms V T p) /\ checks V T (fst (s1 p k v)) = checks V T p /\ (user V T p = None -> user V T (fst (s1 p k v)) = None).
Proof.
  unfold set_one. destruct (sf _ k v (prms V T p)) as [l| |e] eqn:F; cbn.
  - split; [exact (sf_names _ _ _ _ _ F)|]. split; [reflexivity|trivial].
  - destruct (user V T p) as [u|] eqn:U; cbn; repeat split; trivial; intros; congruence.
  - now repeat split.
Qed.
Lemma sall_names kw : forall p, names (prms V T (fst (sall p kw))) = names (prms V T p) /\ checks V T (fst (sall p kw)) = checks V T p /\ (user V T p = None -> user V T (fst (sall p kw)) = None).
Proof.
  induction kw as [|[k v] t IH]; intros p; cbn [set_all]; [now repeat split|]. pose proof (s1_names p k v) as (A & B & C).
  destruct (s1 p k v) as [p' [e|]]; cbn [fst] in *; [now repeat split|]. destruct (IH p') as (A' & B' & C'). repeat split; [congruence|congruence|auto].
Qed.

(** one name, in separate dictionaries that are not empty *)
Lemma sf_found tc k v l l' : separate l -> sf tc k v l = Found V l' -> (forall k', param l' k' = if String.eqb k' k then Some v else param l k') /\
  exists old, param l k = Some old /\ passes typeof sub (get tc k) old v.
Proof.
  revert l'. induction l as [|d t IH]; intros l' SEP H; cbn [set_first] in H; [discriminate|]. destruct d as [|e d0]; [discriminate|]. set (d := e :: d0) in *.
  assert (SEPt : separate t) by (unfold separate, names in *; cbn [map concat] in SEP; clear - SEP; induction (map fst d) as [|a r IHr]; [exact SEP|apply IHr; now inversion SEP]).
  destruct (sid tc k v d) as [d'| |] eqn:S; [| |discriminate].
  - injection H as <-. destruct (sid_put _ _ _ _ _ S) as [-> (old & G & P)]. split.
    + intros k'. cbn [param]. rewrite get_put. destruct (String.eqb k' k); reflexivity.
    + exists old. cbn [param]. now rewrite G.
  - destruct (sf tc k v t) as [t'| |] eqn:F; try discriminate. injection H as <-. destruct (IH t' SEPt eq_refl) as [E (old & G & P)].
    assert (N : get d k = None).
    { apply get_none. intros I. assert (J : In k (concat (names t))).
      { destruct (in_dec String.string_dec k (concat (names t))) as [J|J]; [exact J|]. apply param_in in J. congruence. }
      unfold separate, names in SEP. cbn [map concat] in SEP. revert SEP I J. clear. unfold names. induction (map fst d) as [|a r IHr]; cbn [app In]; [tauto|].
      intros SEP [-> | I] J; inversion SEP; subst; [apply H1; apply in_or_app; now right|now apply IHr]. }
    split; [|exists old; cbn [param]; now rewrite N]. intros k'. cbn [param]. rewrite E.
    destruct (String.eqb_spec k' k) as [-> | _]; [now rewrite N|reflexivity].
Qed.

(** The outcome of one name *)
Lemma sf_outcome tc k v l : separate l -> (forall d, In d l -> d <> []) ->
  match param l k with
  | None => sf tc k v l = NotFound V
  | Some old => match get tc k with
                | Some (Flag _ false) => sf tc k v l = NotFound V
                | c => (passes typeof sub c old v -> exists l', sf tc k v l = Found V l') /\ (~ passes typeof sub c old v -> sf tc k v l = Fail V Exit)
                end
  end.
Proof.
  induction l as [|d t IH]; intros SEP NE; [reflexivity|].
  assert (SEPt : separate t) by (unfold separate, names in *; cbn [map concat] in SEP; clear - SEP; induction (map fst d) as [|a r IHr]; [exact SEP|apply IHr; now inversion SEP]).
  specialize (IH SEPt (fun d' I => NE d' (or_intror I))). assert (D := NE d (or_introl eq_refl)). cbn [param set_first].
  assert (AP : forall o, match d with [] => Fail V ValueError | _ :: _ => o end = o) by (destruct d; [contradiction|reflexivity]). rewrite AP. clear AP.
  unfold set_in_dict. destruct (get d k) as [old|] eqn:G.
  - assert (N : sf tc k v t = NotFound V).
    { assert (P : param t k = None); [|now rewrite P in IH]. apply param_in. intros J.
      assert (I : In k (map fst d)) by (apply has_in; unfold has; now rewrite G).
      unfold separate, names in SEP. cbn [map concat] in SEP. revert SEP I J. clear. unfold names. induction (map fst d) as [|a r IHr]; cbn [app In]; [tauto|].
      intros SEP [-> | I] J; inversion SEP; subst; [apply H1; apply in_or_app; now right|now apply IHr]. }
    destruct (get tc k) as [[[|]|ts| |]|]; cbn [passes].
    + destruct (sub (typeof v) (typeof old)); split; intros H; try discriminate; try (now eexists); try reflexivity. now contradiction H.
    + now rewrite N.
    + split; intros H.
      * apply existsb_exists in H. rewrite H. now eexists.
      * destruct (existsb _ ts) eqn:X; [|reflexivity]. now apply existsb_exists in X.
    + split; [tauto|reflexivity].
    + split; [tauto|reflexivity].
    + split; [now eexists|tauto].
  - destruct (param t k) as [old|]; [|now rewrite IH]. destruct (get tc k) as [[[|]|ts| |]|]; try (now rewrite IH); destruct IH as [A B]; split; intros H;
      try (destruct (A H) as [l' ->]; exists (d :: l'); reflexivity); now rewrite (B H).
Qed.
Lemma sall_split kw : forall p e, snd (sall p kw) = Some e -> exists kw1 k v kw2, kw = (kw1 ++ (k, v) :: kw2)%list /\ snd (sall p kw1) = None /\
  s1 (fst (sall p kw1)) k v = (fst (sall p kw), Some e).
Proof.
  induction kw as [|[k v] t IH]; intros p e H; cbn [set_all] in *; [discriminate|]. destruct (s1 p k v) as [p' [e'|]] eqn:S.
  - cbn [snd] in H. injection H as <-. exists [], k, v, t. cbn. now rewrite S.
  - destruct (IH p' e H) as (kw1 & k1 & v1 & kw2 & -> & O & E). exists ((k, v) :: kw1), k1, v1, kw2. split; [reflexivity|]. cbn [set_all]. rewrite S. now split.
Qed.
Lemma s1_raise_state p k v e : snd (s1 p k v) = Some e -> fst (s1 p k v) = p.
Proof. unfold set_one. destruct (sf _ k v _); [discriminate| |reflexivity]. destruct (user V T p); [discriminate|reflexivity]. Qed.
Lemma s1_ok p k v : separate (prms V T p) -> user V T p = None -> snd (s1 p k v) = None ->
  (forall k', param (prms V T (fst (s1 p k v))) k' = if String.eqb k' k then Some v else param (prms V T p) k') /\
  exists old, param (prms V T p) k = Some old /\ passes typeof sub (get (checks V T p) k) old v.
Proof.
  intros SEP U H. unfold set_one in *. destruct (sf _ k v _) as [l| |e] eqn:F; [|rewrite U in H; discriminate|discriminate].
  cbn [fst prms]. exact (sf_found _ _ _ _ _ SEP F).
Qed.
Lemma sall_ok kw : forall p, separate (prms V T p) -> user V T p = None -> snd (sall p kw) = None ->
  forall k, param (prms V T (fst (sall p kw))) k = match last_given kw k with Some v => Some v | None => param (prms V T p) k end.
Proof.
  induction kw as [|[k0 v] t IH]; intros p SEP U H k; cbn [set_all last_given] in *; [reflexivity|].
  destruct (s1_names p k0 v) as (N & _ & UU). pose proof (s1_ok p k0 v SEP U) as OK.
  destruct (s1 p k0 v) as [p' [e|]]; [discriminate|]. cbn [fst snd] in *. destruct (OK eq_refl) as [E _].
  rewrite (IH p'); [|unfold separate in *; now rewrite N|auto|exact H]. destruct (last_given t k); [reflexivity|]. rewrite E. now destruct (String.eqb k k0).
Qed.
Lemma sall_registered kw : forall p, separate (prms V T p) -> user V T p = None -> snd (sall p kw) = None -> forall k v, In (k, v) kw -> In k (concat (names (prms V T p))).
Proof.
  induction kw as [|[k0 v0] t IH]; intros p SEP U H k v I; [contradiction|]. cbn [set_all] in H.
  destruct (s1_names p k0 v0) as (N & _ & UU). pose proof (s1_ok p k0 v0 SEP U) as OK.
  destruct (s1 p k0 v0) as [p' [e|]]; [discriminate|]. cbn [fst snd] in *. destruct (OK eq_refl) as [_ (old & G & _)]. destruct I as [E|I].
  - injection E as -> ->. destruct (in_dec String.string_dec k (concat (names (prms V T p)))) as [J|J]; [exact J|]. apply param_in in J. congruence.
  - rewrite <- N. apply (IH p' ltac:(unfold separate in *; now rewrite N) (UU U) H k v I).
Qed.

(** ** Namespaces *)
Implicit Types (d ns : dict V) (ds : list (dict V)).
Lemma get_update d : forall ns k, NoDup (map fst d) -> get (update V ns d) k = match get d k with Some v => Some v | None => get ns k end.
Proof.
  unfold update. induction d as [|[a b] t IH]; intros ns k ND; [reflexivity|]. cbn [fold_left fst snd get map] in *. inversion ND; subst.
  rewrite IH by assumption. rewrite get_put. destruct (String.eqb_spec k a) as [-> | _]; [|reflexivity].
  now rewrite (proj2 (get_none t a)).
Qed.
Lemma get_update_new d : forall ns k, get (update_new V ns d) k = match get ns k with Some v => Some v | None => get d k end.
Proof.
  unfold update_new. induction d as [|[a b] t IH]; intros ns k; [cbn; now destruct (get ns k)|]. cbn [fold_left fst snd get]. rewrite IH. unfold has.
  destruct (get ns a) as [w|] eqn:G.
  - destruct (get ns k) eqn:G'; [reflexivity|]. destruct (String.eqb_spec k a); [congruence|reflexivity].
  - rewrite get_put. destruct (String.eqb_spec k a) as [-> | _]; [now rewrite G|reflexivity].
Qed.
Lemma d2n_over ds : forall ns k, (forall d, In d ds -> NoDup (map fst d)) -> get (dicts2namespace V true ns ds) k = match param (rev ds) k with Some v => Some v | None => get ns k end.
Proof.
  unfold dicts2namespace. induction ds as [|d t IH] using rev_ind; intros ns k ND; [reflexivity|]. rewrite fold_left_app, rev_app_distr. cbn [fold_left rev app param].
  rewrite get_update by (apply ND, in_or_app; right; now left). destruct (get d k); [reflexivity|]. apply IH. intros d' I. apply ND, in_or_app. now left.
Qed.
Lemma d2n_keep ds : forall ns k, get (dicts2namespace V false ns ds) k = match get ns k with Some v => Some v | None => param ds k end.
Proof.
  unfold dicts2namespace. induction ds as [|d t IH]; intros ns k; [cbn; now destruct (get ns k)|]. cbn [fold_left param]. rewrite IH, get_update_new.
  now destruct (get ns k).
Qed.
Lemma put_where_fold ns : forall d, NoDup (map fst ns) -> let d' := fold_left (fun a e => put_where V a (fst e) (snd e)) ns d in
  map fst d' = map fst d /\ forall k, get d' k = match get d k with None => None | Some old => match get ns k with Some v => Some v | None => Some old end end.
Proof.
  induction ns as [|[a b] t IH]; intros d ND; cbn [fold_left fst snd] in *; [split; [reflexivity|]; intros k; cbn; now destruct (get d k)|]. cbn [map fst] in ND. inversion ND; subst.
  destruct (IH (put_where V d a b) H2) as [A B]. cbn zeta in A, B.
  assert (N : map fst (put_where V d a b) = map fst d) by (unfold put_where; destruct (has d a) eqn:E; [apply put_names; now apply has_in|reflexivity]).
  split; [congruence|]. intros k. rewrite B. unfold put_where, has. cbn [get]. destruct (get d a) as [w|] eqn:G.
  - rewrite get_put. destruct (String.eqb_spec k a) as [-> | _]; [|reflexivity]. rewrite G. now rewrite (proj2 (get_none t a)).
  - destruct (String.eqb_spec k a) as [-> | _]; [now rewrite G|reflexivity].
Qed.
Lemma marks_one ds k : separate ds -> flat_map (fun d => if has d k then [k] else []) ds = if in_dec String.string_dec k (concat (names ds)) then [k] else [].
Proof.
  unfold separate, names. induction ds as [|d t IH]; intros SEP; [reflexivity|]. cbn [map concat flat_map] in *.
  assert (SEPt : NoDup (concat (map (map fst) t))) by (clear - SEP; induction (map fst d) as [|a r IHr]; [exact SEP|apply IHr; now inversion SEP]).
  rewrite (IH SEPt). destruct (has d k) eqn:Hd.
  - apply has_in in Hd. destruct (in_dec String.string_dec k (concat (map (map fst) t))) as [J|J].
    + exfalso. revert SEP Hd J. clear. induction (map fst d) as [|a r IHr]; cbn [app In]; [tauto|].
      intros SEP [-> | I] J; inversion SEP; subst; [apply H1; apply in_or_app; now right|now apply IHr].
    + destruct (in_dec String.string_dec k _) as [_ | NI]; [reflexivity|]. exfalso. apply NI, in_or_app. now left.
  - assert (Nd : ~ In k (map fst d)) by (intros I; apply has_in in I; congruence).
    destruct (in_dec String.string_dec k (concat (map (map fst) t))) as [J|J]; destruct (in_dec String.string_dec k _) as [J'|J'] at 1; trivial; exfalso.
    + apply J', in_or_app. now right.
    + apply in_app_or in J'. tauto.
Qed.
Lemma marked_filter ns ds : separate ds -> marked V ns ds = filter (fun k => if in_dec String.string_dec k (concat (names ds)) then true else false) (map fst ns).
Proof.
  intros SEP. unfold marked. induction ns as [|[a b] t IH]; [reflexivity|]. cbn [flat_map map filter fst]. rewrite (marks_one ds a SEP), IH.
  now destruct (in_dec String.string_dec a (concat (names ds))).
Qed.
Lemma del_all_ok l : forall ns, NoDup l -> (forall k, In k l -> In k (map fst ns)) ->
  snd (del_all V ns l) = true /\ forall k, get (fst (del_all V ns l)) k = if in_dec String.string_dec k l then None else get ns k.
Proof.
  induction l as [|a l IH]; intros ns ND I; [now split|]. cbn [del_all]. rewrite (proj2 (has_in ns a) (I a (or_introl eq_refl))). inversion ND; subst.
  destruct (IH (del ns a) H2) as [A B].
  { intros k K. destruct (in_dec String.string_dec k (map fst (del ns a))) as [J|J]; [exact J|]. exfalso. apply get_none in J. rewrite get_del in J.
    destruct (String.eqb_spec k a) as [-> | _]; [contradiction|]. apply get_none in J. apply J, I. now right. }
  split; [exact A|]. intros k. rewrite B, get_del. destruct (in_dec String.string_dec k l) as [J|J]; destruct (in_dec String.string_dec k (a :: l)) as [J'|J']; trivial.
  - exfalso. apply J'. now right.
  - destruct J' as [-> | J']; [now rewrite String.eqb_refl|contradiction].
  - destruct (String.eqb_spec k a) as [-> | _]; [|reflexivity]. exfalso. apply J'. now left.
Qed.
Lemma del_all_nodup l : forall ns, snd (del_all V ns l) = true -> NoDup l /\ forall k, In k l -> In k (map fst ns).
Proof.
  induction l as [|a l IH]; intros ns H; [split; [constructor|intros ? []]|]. cbn [del_all] in H. destruct (has ns a) eqn:Ha; [|discriminate].
  destruct (IH _ H) as [ND I]. split.
  - constructor; [|exact ND]. intros J. specialize (I a J). assert (X : get (del ns a) a = None) by (rewrite get_del; now rewrite String.eqb_refl).
    apply get_none in X. contradiction.
  - intros k [<- | J]; [now apply has_in|]. specialize (I k J). unfold del in I. apply in_map_iff in I as (e & <- & E). apply filter_In in E as [E _]. now apply in_map.
Qed.
Lemma marked_twice ns l1 d1 l2 d2 l3 k : In k (map fst ns) -> In k (map fst d1) -> In k (map fst d2) -> ~ NoDup (marked V ns (l1 ++ d1 :: l2 ++ d2 :: l3)).
Proof.
  intros I I1 I2. unfold marked. apply in_map_iff in I as ([k' b] & E & I). cbn in E. subst k'. apply in_split in I as (n1 & n2 & ->).
  rewrite flat_map_app. cbn [flat_map fst]. intros ND. apply nodup_right in ND. apply nodup_left in ND. revert ND.
  rewrite !flat_map_app. cbn [flat_map]. rewrite flat_map_app. cbn [flat_map]. rewrite (proj2 (has_in d1 k) I1), (proj2 (has_in d2 k) I2).
  intros ND. apply nodup_right in ND. cbn [app] in ND. inversion ND; subst. apply H1. apply in_or_app. right. now left.
Qed.
End Prm.
