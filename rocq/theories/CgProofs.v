From Coq Require Import String ZArith Bool Lia List.
From Verif Require Import GrpModel GrpSpec GrpProofs CgModel CgSpec.
Import ListNotations.
Open Scope Z_scope.

Section Books.
Context {recipe model : Type}.
Notation och := (chan (off_chan recipe model)).
Notation ogr := (ogroup recipe model).

Lemma has_knows n (b : list (string * recipe)) : has_recipe n b = true <-> knows n b.
Proof.
  unfold has_recipe, knows. rewrite existsb_exists. split.
  - intros ((m & r) & I & E). apply String.eqb_eq in E. cbn in E. subst. eauto.
  - intros (r & I). exists (n, r). split; [exact I|apply String.eqb_refl].
Qed.
Lemma items_visited (g : ogr) k c : In (k, c) (items g) <-> visited g k c.
Proof.
  unfold items, visited. destruct (incl g).
  - tauto.
  - rewrite filter_In. cbn. rewrite negb_true_iff. intuition congruence.
Qed.
Lemma find_leading (l : dict och) c : option_map snd (find (fun p => negb (bad (snd p))) l) = Some c <->
  exists l1 k l2, l = l1 ++ (k, c) :: l2 /\ bad c = false /\ forall k' c', In (k', c') l1 -> bad c' = true.
Proof.
  induction l as [|[x w] l IH]; cbn [find snd].
  - split; [discriminate|]. intros ([|] & k & l2 & E & _); discriminate.
  - destruct (bad w) eqn:B; cbn [negb].
    + rewrite IH. split.
      * intros (l1 & k & l2 & E & G & H). exists ((x, w) :: l1), k, l2. subst. split; [reflexivity|]. split; [exact G|]. intros k' c' [I|I]; [injection I as _ <-; exact B|eauto].
      * intros ([|[y u] l1] & k & l2 & E & G & H); cbn in E; [injection E as -> -> ->; congruence|]. injection E as -> -> ->. exists l1, k, l2. split; [reflexivity|]. split; [exact G|]. intros k' c' I. apply (H k'). now right.
    + cbn. split.
      * intros E. injection E as ->. exists [], x, l. repeat split; [exact B|intros k' c' []].
      * intros ([|[y u] l1] & k & l2 & E & G & H); cbn in E; [now injection E as _ -> _|]. injection E as -> -> ->. rewrite (H y u) in B; [discriminate|now left].
Qed.
Lemma first_leading (g : ogr) c : first_good g = Some c <-> leading g c.
Proof.
  unfold leading. rewrite <- find_leading. unfold first_good, items. destruct (incl g); [tauto|].
  replace (find (fun p => negb (bad (snd p))) (filter (fun p => negb (bad (snd p))) (chans g))) with (find (fun p => negb (bad (snd p))) (chans g)); [tauto|].
  generalize (chans g). induction d as [|[x w] l IH]; [reflexivity|]. cbn [find filter snd]. destruct (bad w) eqn:B; cbn [negb]; [exact IH|]. cbn [find snd]. now rewrite B.
Qed.

(** * Default cuts *)
Lemma default_cut_spec (g : ogr) n m : handle_default_cut g n = Some m <->
  exists c, leading g c /\ m = match n with Some x => x | None => default_cut (data c) end /\ forall k c', visited g k c' -> knows m (recipes (data c')).
Proof.
  unfold handle_default_cut. destruct (first_good g) as [c|] eqn:F.
  - assert (U : forall c', leading g c' -> c' = c) by (intros c' L; apply first_leading in L; congruence). apply first_leading in F. unfold channel_cut.
    destruct (forallb _ (items g)) eqn:A.
    + rewrite forallb_forall in A. split.
      * intros E. injection E as <-. exists c. split; [exact F|]. split; [now destruct n|]. intros k c' V. apply items_visited in V. apply has_knows. now apply (A (k, c')).
      * intros (c' & L & -> & _). rewrite (U c' L). now destruct n.
    + split; [discriminate|]. intros (c' & L & E & V). rewrite (U c' L) in E. apply not_true_iff_false in A. destruct A. apply forallb_forall. intros [k d] I. cbn [snd]. apply has_knows. apply items_visited in I. specialize (V k d I). destruct n; congruence.
  - split; [discriminate|]. intros (c & L & _). apply first_leading in L. congruence.
Qed.

(** * Bin sizes *)
Lemma bins_set (b : option Z) (s : session recipe model) :
  chans (grp (group_set_bin b s)) = map (fun p => (fst p, on_data (set_bin b) (snd p))) (chans (grp s)).
Proof. reflexivity. Qed.

(** * Books *)
Lemma saved_books (g : ogr) : named g -> save_books g = map (fun p => (fst p, recipes (data (snd p)))) (items g).
Proof.
  intros (ND & NM). assert (NI : NoDup (map fst (items g)) /\ forall k c, In (k, c) (items g) -> number (data c) = k).
  { split.
    - unfold items. destruct (incl g); [exact ND|]. revert ND. clear. generalize (chans g). induction d as [|[x w] l IH]; intros ND; [constructor|]. inversion ND; subst. cbn [filter snd]. destruct (negb (bad w)); [|now apply IH]. cbn [map fst].
      constructor; [|now apply IH]. intros I. apply in_map_iff in I as ([y u] & E & I). cbn in E. subst. apply filter_In in I as [I _]. apply H1. apply in_map_iff. exists (x, u). auto.
    - intros k c I. apply items_visited in I as [I _]. now apply NM. }
  clear ND NM. destruct NI as [ND NM]. unfold save_books.
  assert (G : forall l (d : dict (book recipe)), NoDup (map fst l) -> (forall k c, In (k, c) l -> number (data c) = k) -> (forall k, In k (map fst l) -> dget d k = None) ->
     fold_left (fun d p => dset d (number (data (snd p))) (recipes (data (snd p)))) l d = d ++ map (fun p : Z * och => (fst p, recipes (data (snd p)))) l).
  { induction l as [|[x w] l IH]; intros d ND' NM' F; [now rewrite app_nil_r|]. cbn [fold_left snd]. inversion ND'; subst. rewrite (NM' x w (or_introl eq_refl)). rewrite IH.
    - rewrite dset_new by (apply F; now left). now rewrite <- app_assoc.
    - assumption.
    - intros k c I. apply NM'. now right.
    - intros k I. rewrite dget_dset. destruct (Z.eqb_spec x k); [subst; contradiction|]. apply F. now right. }
  rewrite G; [reflexivity|assumption|assumption|reflexivity].
Qed.
Definition given (d : dict (book recipe)) (p : Z * och) : Z * och := match dget d (fst p) with Some b => (fst p, on_data (set_book b) (snd p)) | None => p end.
Lemma given_keys d cs : map fst (map (given d) cs) = map fst cs.
Proof. rewrite map_map. apply map_ext. intros [k c]. unfold given. cbn. now destruct (dget d k). Qed.
Lemma loaded_books d : forall cs, NoDup (map fst d) -> NoDup (map fst cs) -> (forall k, In k (map fst d) -> In k (map fst cs)) -> load_books d cs = (map (given d) cs, true).
Proof.
  induction d as [|[k b] d IH]; intros cs ND NC I; cbn [load_books].
  - f_equal. symmetry. rewrite <- (map_id cs) at 2. apply map_ext. intros [k c]. reflexivity.
  - inversion ND; subst. destruct (dget cs k) as [c|] eqn:G; [|apply dget_none in G; destruct G; apply I; now left].
    rewrite (dset_map cs k c (on_data (set_book b)) NC G). rewrite IH.
    + f_equal. rewrite map_map. apply map_ext. intros [x w]. unfold given. cbn [fst snd dget]. rewrite (Z.eqb_sym k x). destruct (Z.eqb_spec x k) as [->|N]; cbn [fst snd]; [|reflexivity].
      replace (dget d k) with (@None (book recipe)); [reflexivity|]. symmetry. now apply dget_none.
    + assumption.
    + replace (map fst _) with (map fst cs); [exact NC|]. rewrite map_map. apply map_ext. intros [x w]. cbn. now destruct (x =? k).
    + intros x X. replace (map fst _) with (map fst cs); [apply I; now right|]. rewrite map_map. apply map_ext. intros [y w]. cbn. now destruct (y =? k).
Qed.
Lemma load_books_app (d1 d2 : dict (book recipe)) : forall cs : dict och, load_books (d1 ++ d2) cs = let '(cs', ok) := load_books d1 cs in if ok then load_books d2 cs' else (cs', false).
Proof.
  induction d1 as [|[k b] d1 IH]; intros cs; [cbn; now destruct (load_books d2 cs)|]. cbn [app load_books]. destruct (dget cs k); [apply IH|reflexivity].
Qed.
Lemma load_stops (d1 : dict (book recipe)) k b d2 (cs : dict och) : NoDup (map fst d1) -> NoDup (map fst cs) -> (forall x, In x (map fst d1) -> In x (map fst cs)) -> ~ In k (map fst cs) ->
  load_books (d1 ++ (k, b) :: d2) cs = (map (given d1) cs, false).
Proof.
  intros N1 N2 I NK. rewrite load_books_app, loaded_books by assumption. cbn [load_books].
  replace (dget (map (given d1) cs) k) with (@None och); [reflexivity|]. symmetry. apply dget_none. now rewrite given_keys.
Qed.

(** * Models *)
Lemma models_added models addlag : forall ks (cs : dict och), NoDup ks -> NoDup (map fst cs) ->
  (forall k, In k ks -> exists c m o, dget cs k = Some c /\ dget models (number (data c)) = Some m /\ addlag m (with_model m (data c)) = Some o) ->
  exists cs', add_models models addlag ks cs = (cs', true) /\ map fst cs' = map fst cs /\
  (forall k, ~ In k ks -> dget cs' k = dget cs k) /\
  (forall k c m, In k ks -> dget cs k = Some c -> dget models (number (data c)) = Some m -> exists o, addlag m (with_model m (data c)) = Some o /\ dget cs' k = Some (on_data (fun _ => o) c)).
Proof.
  induction ks as [|k ks IH]; intros cs NK NC H; cbn [add_models].
  - exists cs. split; [reflexivity|]. split; [reflexivity|]. split; [reflexivity|intros k c m []].
  - inversion NK; subst. destruct (H k (or_introl eq_refl)) as (c & m & o & E1 & E2 & E3). rewrite E1, E2, E3.
    assert (K : map fst (dset cs k (on_data (fun _ => o) c)) = map fst cs) by (apply dset_keys, dget_in; congruence).
    destruct (IH (dset cs k (on_data (fun _ => o) c))) as (cs' & A & B & C & D).
    + assumption.
    + now rewrite K.
    + intros x X. destruct (H x (or_intror X)) as (c' & m' & o' & F1 & F2 & F3). exists c', m', o'. rewrite dget_dset. destruct (Z.eqb_spec k x); [subst; contradiction|]. auto.
    + exists cs'. split; [exact A|]. split; [congruence|]. split.
      * intros x X. rewrite C by (intros Y; apply X; now right). rewrite dget_dset. destruct (Z.eqb_spec k x); [subst; destruct X; now left|reflexivity].
      * intros x c' m' [<-|X] G1 G2.
        -- exists o. assert (c' = c) by congruence. subst c'. assert (m' = m) by congruence. subst m'. split; [exact E3|]. rewrite C by assumption. rewrite dget_dset, Z.eqb_refl. reflexivity.
        -- apply (D x c' m' X); [|exact G2]. rewrite dget_dset. destruct (Z.eqb_spec k x); [subst; contradiction|exact G1].
Qed.
Lemma models_stop models addlag k ks2 : forall ks1 (cs : dict och) c, ~ In k ks1 -> dget cs k = Some c -> dget models (number (data c)) = None ->
  exists cs', add_models models addlag (ks1 ++ k :: ks2) cs = (cs', false) /\ forall x, ~ In x ks1 -> dget cs' x = dget cs x.
Proof.
  induction ks1 as [|y ks1 IH]; intros cs c N G M; cbn [app add_models].
  - rewrite G, M. exists cs. auto.
  - destruct (dget cs y) as [cy|] eqn:Gy; [|exists cs; auto]. destruct (dget models (number (data cy))) as [m|]; [|exists cs; auto].
    destruct (addlag m (with_model m (data cy))) as [o|].
    + destruct (IH (dset cs y (on_data (fun _ => o) cy)) c) as (cs' & A & B).
      * intros I. apply N. now right.
      * rewrite dget_dset. destruct (Z.eqb_spec y k); [subst; destruct N; now left|exact G].
      * exact M.
      * exists cs'. split; [exact A|]. intros x X. rewrite B by (intros I; apply X; now right). rewrite dget_dset. destruct (Z.eqb_spec y x); [subst; destruct X; now left|reflexivity].
    + eexists. split; [reflexivity|]. intros x X. rewrite dget_dset. destruct (Z.eqb_spec y x); [subst; destruct X; now left|reflexivity].
Qed.
End Books.
