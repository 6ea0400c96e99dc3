From Coq Require Import Arith String Bool List Lia.
From Verif Require Import PrmModel PrmSpec PrmProofs.
Import ListNotations.
Open Scope string_scope.

Section Props.
Context {V T : Type}.
Variable typeof : V -> T.
Variable sub : T -> T -> bool.
Notation set_one := (set_one V T typeof sub).
Notation set_all := (set_all V T typeof sub).
Implicit Types (p : params V T) (kw : list (string * V)).

(** * C120: setting parameters *)
(** No name is ever added to or removed from the dictionaries, whether or not an exception is raised. *)
Theorem names_fixed p kw : names (prms V T (fst (set_all p kw))) = names (prms V T p) /\ checks V T (fst (set_all p kw)) = checks V T p.
Proof. destruct (sall_names typeof sub kw p) as (A & B & _). now split. Qed.
(** Without an exception, every name was registered, has the last value given, and other parameters keep theirs. *)
Theorem set_values p kw : separate (prms V T p) -> user V T p = None -> snd (set_all p kw) = None ->
  (forall k v, In (k, v) kw -> In k (concat (names (prms V T p)))) /\
  forall k, param (prms V T (fst (set_all p kw))) k = match last_given kw k with Some v => Some v | None => param (prms V T p) k end.
Proof. intros S U H. split; [exact (sall_registered typeof sub kw p S U H)|exact (sall_ok typeof sub kw p S U H)]. Qed.
(** With one, the names before the one that raised are set and nothing else. *)
Theorem raise_keeps_earlier p kw e : snd (set_all p kw) = Some e ->
  exists kw1 k v kw2, kw = (kw1 ++ (k, v) :: kw2)%list /\ snd (set_all p kw1) = None /\ fst (set_all p kw) = fst (set_all p kw1) /\ snd (set_one (fst (set_all p kw1)) k v) = Some e.
Proof.
  intros H. destruct (sall_split typeof sub kw p e H) as (kw1 & k & v & kw2 & E & O & S). exists kw1, k, v, kw2. split; [exact E|]. split; [exact O|].
  assert (R : snd (set_one (fst (set_all p kw1)) k v) = Some e) by now rewrite S. split; [|exact R].
  pose proof (s1_raise_state typeof sub _ _ _ _ R) as F. rewrite S in F. exact F.
Qed.
(** What happens with one name *)
Theorem one_name p k v : separate (prms V T p) -> (forall d, In d (prms V T p) -> d <> []) ->
  match param (prms V T p) k, get (checks V T p) k, user V T p with
  | None, _, None | Some _, Some (Flag _ false), None => snd (set_one p k v) = Some NameError
  | None, _, Some u | Some _, Some (Flag _ false), Some u => set_one p k v = (mkParams V T (prms V T p) (Some (put u k v)) (checks V T p), None)
  | Some old, c, _ => (passes typeof sub c old v -> snd (set_one p k v) = None /\ user V T (fst (set_one p k v)) = user V T p /\
                        forall k', param (prms V T (fst (set_one p k v))) k' = if String.eqb k' k then Some v else param (prms V T p) k') /\
                      (~ passes typeof sub c old v -> set_one p k v = (p, Some Exit))
  end.
Proof.
  intros SEP NE. pose proof (sf_outcome typeof sub (checks V T p) k v (prms V T p) SEP NE) as O. unfold PrmModel.set_one.
  destruct (param (prms V T p) k) as [old|] eqn:P.
  - destruct (get (checks V T p) k) as [[[|]|ts| |]|] eqn:C; try (destruct (user V T p) as [u|]; now rewrite O); destruct O as [A B]; split; intros H;
      try (rewrite (B H); reflexivity); destruct (A H) as [l' F]; pose proof (sf_found typeof sub _ _ _ _ _ SEP F) as [E _]; rewrite F; cbn; (split; [reflexivity|]; split; [reflexivity|exact E]).
  - destruct (user V T p) as [u|]; now rewrite O.
Qed.
(** A registered name whose dictionary follows an empty one cannot be set. *)
Theorem empty_dictionary_raises p k v l : prms V T p = [] :: l -> set_one p k v = (p, Some ValueError).
Proof. intros E. unfold PrmModel.set_one. now rewrite E. Qed.
(** A list of types accepts nothing. *)
Theorem list_of_types_exits p k v d : prms V T p = [d] -> has d k = true -> get (checks V T p) k = Some (ListOfTypes T) -> set_one p k v = (p, Some Exit).
Proof.
  intros E H C. unfold PrmModel.set_one. rewrite E. cbn [set_first]. unfold set_in_dict. rewrite C. unfold has in H. destruct d as [|e d]; [discriminate|].
  now destruct (get (e :: d) k).
Qed.

(** AnalysisControl takes the names in its two lists and no others. *)
Theorem control_names none kw : (snd (control V T typeof sub none kw) = None <-> forall k v, In (k, v) kw -> In k (cut_names ++ analysis_names)) /\
  (snd (control V T typeof sub none kw) = None \/ snd (control V T typeof sub none kw) = Some NameError).
Proof.
  unfold control. assert (SEP : separate (prms V T (fresh V T none))).
  { cbn. repeat (constructor; [cbn; intros I; repeat (destruct I as [I|I]; [discriminate|]); exact I|]). constructor. }
  assert (G : forall kw p, names (prms V T p) = names (prms V T (fresh V T none)) -> user V T p = None -> checks V T p = [] ->
    ((forall k v, In (k, v) kw -> In k (cut_names ++ analysis_names)) -> snd (set_all p kw) = None) /\
    (snd (set_all p kw) = None \/ snd (set_all p kw) = Some NameError)).
  { clear kw. induction kw as [|[k v] t IH]; intros p N U C; [cbn; tauto|]. cbn [PrmModel.set_all].
    assert (SEPp : separate (prms V T p)) by (unfold separate; now rewrite N).
    assert (NE : forall d, In d (prms V T p) -> d <> []).
    { destruct (prms V T p) as [|d1 [|d2 [|]]]; try discriminate. cbn in N. injection N as N1 N2. intros d [<- | [<- | []]] ->; discriminate. }
    pose proof (one_name p k v SEPp NE) as O. rewrite C, U in O. destruct (s1_names typeof sub p k v) as (N' & C' & U').
    destruct (param (prms V T p) k) as [old|] eqn:P.
    - cbn [get] in O. destruct O as [O _]. destruct (O I) as [O1 _]. destruct (set_one p k v) as [p' o]. cbn [fst snd] in *. subst o.
      destruct (IH p') as [A B]; [congruence|auto|congruence|]. split; [|exact B]. intros R. apply A. intros k' v' J. apply (R k' v'). now right.
    - destruct (set_one p k v) as [p' o]. cbn [snd] in *. subst o. cbn. split; [|now right]. intros R. exfalso. apply (proj1 (param_in (prms V T p) k) P).
      rewrite N. exact (R k v (or_introl eq_refl)). }
  destruct (G kw (fresh V T none) eq_refl eq_refl eq_refl) as [A B]. split; [|exact B]. split; [|exact A].
  intros H k v I. exact (proj1 (set_values (fresh V T none) kw SEP eq_refl H) k v I).
Qed.

(** ** Namespaces *)
Implicit Types (ns : dict V) (ds : list (dict V)).
(** With overwrite the last dictionary with a name gives its value; without, the namespace or else the first one. *)
Theorem namespace_values ns ds k : ((forall d, In d ds -> NoDup (map fst d)) ->
    get (dicts2namespace V true ns ds) k = match param (rev ds) k with Some v => Some v | None => get ns k end) /\
  get (dicts2namespace V false ns ds) k = match get ns k with Some v => Some v | None => param ds k end.
Proof. split; [intros ND; now apply d2n_over|apply d2n_keep]. Qed.
(** Back: every dictionary keeps its names and takes the values of the namespace; the names of the dictionaries leave the namespace. *)
Theorem back_to_dicts ns ds : separate ds -> NoDup (map fst ns) ->
  names (fst (namespace2dicts V ns ds)) = names ds /\
  (forall i k, get (nth i (fst (namespace2dicts V ns ds)) []) k = match get (nth i ds []) k with None => None | Some old => match get ns k with Some v => Some v | None => Some old end end) /\
  snd (snd (namespace2dicts V ns ds)) = true /\
  forall k, get (fst (snd (namespace2dicts V ns ds))) k = if in_dec String.string_dec k (concat (names ds)) then None else get ns k.
Proof.
  intros SEP ND. unfold namespace2dicts. cbn [fst snd]. split; [|split].
  - unfold names. rewrite map_map. apply map_ext. intros d. exact (proj1 (put_where_fold ns d ND)).
  - intros i k. pose proof (proj2 (put_where_fold ns (nth i ds []) ND) k) as E. cbn zeta in E. rewrite <- E. f_equal.
    destruct (Nat.lt_ge_cases i (length ds)) as [L|L].
    + rewrite (nth_indep _ [] (fold_left (fun a e => put_where V a (fst e) (snd e)) ns [])) by now rewrite map_length.
      exact (map_nth (fun d => fold_left (fun a e => put_where V a (fst e) (snd e)) ns d) ds [] i).
    + rewrite !nth_overflow by (rewrite ?map_length; lia). clear. induction ns as [|e t IH]; [reflexivity|exact IH].
  - rewrite (marked_filter ns ds SEP). set (f := fun k => if in_dec String.string_dec k (concat (names ds)) then true else false).
    destruct (del_all_ok (filter f (map fst ns)) ns) as [A B].
    + now apply NoDup_filter.
    + intros k I. now apply filter_In in I as [I _].
    + split; [exact A|]. intros k. rewrite B. destruct (in_dec String.string_dec k (filter f (map fst ns))) as [J|J].
      * apply filter_In in J as [_ J]. unfold f in J. now destruct (in_dec String.string_dec k (concat (names ds))).
      * destruct (in_dec String.string_dec k (concat (names ds))) as [K|K]; [|reflexivity]. apply get_none. intros I. apply J. apply filter_In. split; [exact I|].
        unfold f. now destruct (in_dec String.string_dec k (concat (names ds))).
Qed.
(** A name of the namespace in two dictionaries raises KeyError. *)
Theorem shared_name_raises ns l1 d1 l2 d2 l3 k : In k (map fst ns) -> In k (map fst d1) -> In k (map fst d2) ->
  snd (snd (namespace2dicts V ns (l1 ++ d1 :: l2 ++ d2 :: l3))) = false.
Proof.
  intros I I1 I2. destruct (snd (snd _)) eqn:E; [|reflexivity]. exfalso. apply (marked_twice ns l1 d1 l2 d2 l3 k I I1 I2).
  exact (proj1 (del_all_nodup _ ns E)).
Qed.
(** There and back: separate dictionaries and a namespace without their names stay as they were. *)
Theorem there_and_back ns ds : separate ds -> NoDup (map fst (dicts2namespace V true ns ds)) -> (forall k, In k (concat (names ds)) -> ~ In k (map fst ns)) ->
  let r := namespace2dicts V (dicts2namespace V true ns ds) ds in
  names (fst r) = names ds /\ (forall k, param (fst r) k = param ds k) /\ snd (snd r) = true /\ forall k, get (fst (snd r)) k = get ns k.
Proof.
  intros SEP ND DIS r. assert (NDd : forall d, In d ds -> NoDup (map fst d)).
  { intros d I. apply in_split in I as (a & b & ->). unfold separate, names in SEP. rewrite map_app, concat_app in SEP. cbn [map concat] in SEP.
    apply nodup_right in SEP. now apply nodup_left in SEP. }
  destruct (back_to_dicts (dicts2namespace V true ns ds) ds SEP ND) as (A & B & C & D). fold r in A, B, C, D. split; [exact A|]. split; [|split; [exact C|]].
  - intros k. assert (PR : param (rev ds) k = param ds k).
    { clear - SEP. revert SEP. induction ds as [|d t IH]; intros SEP; [reflexivity|].
      assert (SEPt : separate t) by (unfold separate, names in *; cbn [map concat] in SEP; now apply nodup_right in SEP). cbn [rev param].
      assert (APP : forall l, param (l ++ [d]) k = match param l k with Some v => Some v | None => get d k end).
      { induction l as [|a l IHl]; cbn [app param]; [now destruct (get d k)|]. rewrite IHl. now destruct (get a k). }
      rewrite APP, (IH SEPt). destruct (param t k) as [w|] eqn:P; destruct (get d k) as [u|] eqn:G; trivial. exfalso.
      assert (J : In k (concat (names t))) by (destruct (in_dec String.string_dec k (concat (names t))) as [J|J]; [exact J|]; apply param_in in J; congruence).
      assert (I : In k (map fst d)) by (apply has_in; unfold has; now rewrite G).
      unfold separate, names in SEP. cbn [map concat] in SEP. revert SEP I J. clear. unfold names. induction (map fst d) as [|a r IHr]; cbn [app In]; [tauto|].
      intros SEP [-> | I] J; inversion SEP; subst; [apply H1; apply in_or_app; now right|now apply IHr]. }
    unfold r, namespace2dicts. cbn [fst]. set (N := dicts2namespace V true ns ds) in *.
    assert (GN : get N k = match param ds k with Some v => Some v | None => get ns k end) by (unfold N; rewrite d2n_over by exact NDd; now rewrite PR).
    assert (X : forall l, (forall v w, param ds k = Some v -> param l k = Some w -> v = w) -> (param l k <> None -> param ds k <> None) -> param (map (fun d => fold_left (fun a e => put_where V a (fst e) (snd e)) N d) l) k = param l k).
    { induction l as [|d l IHl]; intros Q Z; [reflexivity|]. cbn [map param] in *. pose proof (proj2 (put_where_fold N d ND) k) as E. cbn zeta in E. rewrite E.
      destruct (get d k) as [old|] eqn:G.
      - destruct (param ds k) as [v|]; [|exfalso; apply Z; [discriminate|reflexivity]]. rewrite GN. f_equal. now apply Q.
      - apply IHl; assumption. }
    apply X; [congruence|trivial].
  - intros k. rewrite D. rewrite d2n_over by exact NDd. destruct (in_dec String.string_dec k (concat (names ds))) as [J|J].
    + symmetry. apply get_none. now apply DIS.
    + assert (P : param (rev ds) k = None); [|now rewrite P]. apply param_in. intros I. apply J. unfold names in *. apply in_concat in I as (m & M & I).
      apply in_concat. exists m. split; [|exact I]. apply in_map_iff in M as (d & <- & M). apply in_map. now apply in_rev.
Qed.
End Props.
Print Assumptions names_fixed.
Print Assumptions set_values.
Print Assumptions raise_keeps_earlier.
Print Assumptions one_name.
Print Assumptions empty_dictionary_raises.
Print Assumptions list_of_types_exits.
Print Assumptions control_names.
Print Assumptions namespace_values.
Print Assumptions back_to_dicts.
Print Assumptions shared_name_raises.
Print Assumptions there_and_back.

(** The documentation: a checked parameter may be set to None, and to any number if it was one.  Both end the program. *)
Inductive val := VNone | VInt (n : nat) | VFloat (n : nat) | VPair (a b : val).
Inductive typ := TNone | TInt | TFloat | TTuple.
Definition ty (v : val) : typ := match v with VNone => TNone | VInt _ => TInt | VFloat _ => TFloat | VPair _ _ => TTuple end.
Definition same (a b : typ) : bool := match a, b with TNone, TNone | TInt, TInt | TFloat, TFloat | TTuple, TTuple => true | _, _ => false end.
Theorem none_and_numbers_refuted : exists p : params val typ, get (checks val typ p) "x" = Some (Flag typ true) /\ param (prms val typ p) "x" = Some (VFloat 1) /\
  set_one val typ ty same p "x" VNone = (p, Some Exit) /\ set_one val typ ty same p "x" (VInt 2) = (p, Some Exit) /\ snd (set_one val typ ty same p "x" (VFloat 2)) = None.
Proof. exists (mkParams val typ [[("x", VFloat 1)]] None [("x", Flag typ true)]). now repeat split. Qed.
Print Assumptions none_and_numbers_refuted.

Definition example_params : params val typ := mkParams val typ [[("a", VNone); ("b", VInt 1)]; [("c", VFloat 3)]] None [("b", Types typ [TInt; TFloat]); ("c", Flag typ false)].
Example set_instance : separate (prms val typ example_params) /\ (forall d, In d (prms val typ example_params) -> d <> []) /\
  set_all val typ ty same example_params [("b", VFloat 7); ("a", VInt 2)] =
    (mkParams val typ [[("a", VInt 2); ("b", VFloat 7)]; [("c", VFloat 3)]] None [("b", Types typ [TInt; TFloat]); ("c", Flag typ false)], None) /\
  snd (set_all val typ ty same example_params [("a", VInt 2); ("c", VFloat 1); ("b", VInt 9)]) = Some NameError /\
  snd (set_all val typ ty same example_params [("b", VNone)]) = Some Exit.
Proof.
  split; [|split; [|now repeat split]].
  - unfold separate. cbn. repeat (constructor; [cbn; intros I; repeat (destruct I as [I|I]; [discriminate|]); exact I|]). constructor.
  - intros d [<- | [<- | []]]; discriminate.
Qed.
(** standardControl, 59-75 (numbers as above) *)
Example standard_control : snd (control val typ ty same VNone [("peak_time_ms", VPair (VFloat 0) (VFloat 1)); ("pulse_average", VPair (VInt 0) VNone)]) = None /\
  snd (control val typ ty same VNone [("peak_time", VNone)]) = Some NameError.
Proof. now split. Qed.
Example namespace_instance : separate [[("a", VInt 1)]; [("b", VInt 2); ("c", VNone)]] /\
  namespace2dicts val (dicts2namespace val true [("z", VInt 0)] [[("a", VInt 1)]; [("b", VInt 2); ("c", VNone)]]) [[("a", VInt 1)]; [("b", VInt 2); ("c", VNone)]] =
    ([[("a", VInt 1)]; [("b", VInt 2); ("c", VNone)]], ([("z", VInt 0)], true)) /\
  snd (snd (namespace2dicts val [("a", VInt 5)] [[("a", VInt 1)]; [("a", VInt 2)]])) = false.
Proof.
  split; [|now split]. unfold separate. cbn. repeat (constructor; [cbn; intros I; repeat (destruct I as [I|I]; [discriminate|]); exact I|]). constructor.
Qed.
