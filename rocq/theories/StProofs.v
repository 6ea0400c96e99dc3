(** Proofs about the experiment states. *)
From Coq Require Import ZArith Ascii String Bool Lia Sorting.Sorted List.
From Verif Require Import Kept LjhModel LjhSpec LjhProofs StModel StSpec.
Import ListNotations.
Open Scope Z_scope.

(** * Reading *)

Lemma mem_spec x l : mem x l = true <-> In x l.
Proof.
  unfold mem. rewrite existsb_exists. split.
  - intros (y & Hy & E). destruct (beq_spec x y); [subst; exact Hy | discriminate E].
  - intros H. exists x. split; [exact H |]. destruct (beq_spec x x); congruence.
Qed.
Lemma mem_false x l : mem x l = false <-> ~ In x l.
Proof. rewrite <- mem_spec. destruct (mem x l); split; congruence. Qed.

Lemma apply_excludes_in ex : forall labels r x,
  In x (apply_excludes ex r labels) <-> In x r \/ (In x labels /\ ~ In x ex).
Proof.
  induction labels as [| y t IH]; intros r x; cbn [apply_excludes].
  - cbn. tauto.
  - destruct (mem y ex) eqn:M1; cbn [orb].
    + rewrite IH. apply mem_spec in M1. cbn [In]. split; [tauto |].
      intros [H | [[<- | H] N]]; [tauto | contradiction | tauto].
    + apply mem_false in M1. destruct (mem y r) eqn:M2.
      * rewrite IH. apply mem_spec in M2. cbn [In]. split; [tauto |].
        intros [H | [[<- | H] N]]; tauto.
      * rewrite IH, in_app_iff. cbn [In]. split.
        -- intros [[H | [<- | []]] | [H N]]; tauto.
        -- intros [H | [[<- | H] N]]; tauto.
Qed.

Lemma auto_excludes_spec labels x : In x (auto_excludes labels) <-> is_excluded Auto labels x.
Proof.
  unfold auto_excludes, is_excluded. fold normally_ignore.
  destruct (forallb (fun x => mem x normally_ignore) labels) eqn:F.
  - rewrite forallb_forall in F. split.
    + intros [<- | []]. right. split; [| reflexivity]. intros y Hy C. apply C. apply mem_spec, F, Hy.
    + intros [[(y & Hy & O) _] | [_ ->]]; [| now left]. exfalso. apply O. apply mem_spec, F, Hy.
  - split.
    + intros H. left. split.
      * clear H. induction labels as [| y t IH]; [discriminate F |].
        cbn [forallb] in F. destruct (mem y normally_ignore) eqn:M.
        -- destruct (IH F) as (z & Hz & O). exists z. split; [now right | exact O].
        -- exists y. split; [now left |]. apply mem_false in M. exact M.
      * intros C. apply C. exact H.
    + intros [[_ N] | [A _]].
      * destruct (mem x normally_ignore) eqn:M; [now apply mem_spec |]. apply mem_false in M. contradiction.
      * exfalso. assert (G : forallb (fun x => mem x normally_ignore) labels = true); [| congruence].
        apply forallb_forall. intros y Hy. destruct (mem y normally_ignore) eqn:M; [reflexivity |].
        apply mem_false in M. exfalso. exact (A y Hy M).
Qed.

Definition resolve (ex : excludes) (labels : list bytes) : list bytes :=
  match ex with Auto => auto_excludes labels | Excluded l => l end.
Lemma resolve_spec ex labels x : In x (resolve ex labels) <-> is_excluded ex labels x.
Proof. destruct ex; cbn [resolve]; [apply auto_excludes_spec | reflexivity]. Qed.

Lemma resolve_stable ex labels labels' : stable ex labels labels' -> resolve ex labels = resolve ex labels'.
Proof.
  intros S. destruct ex as [| l]; [| reflexivity]. cbn [resolve].
  assert (T := S (bs "START")). rewrite <- !auto_excludes_spec in T. unfold auto_excludes in *.
  destruct (forallb _ labels), (forallb _ labels'); try reflexivity; exfalso.
  - assert (C : In (bs "START") [bs "IGNORE"]) by (apply T; now left). destruct C as [C | []]. discriminate C.
  - assert (C : In (bs "START") [bs "IGNORE"]) by (apply T; now left). destruct C as [C | []]. discriminate C.
Qed.

Lemma readlines_app a b : forall cur, readlines cur (a ++ [10] ++ b) = readlines cur (a ++ [10]) ++ readlines [] b.
Proof.
  induction a as [| c a IH]; intros cur; cbn [app readlines]; [reflexivity |].
  destruct (c =? 10); cbn [app]; [f_equal |]; apply IH.
Qed.
Lemma readlines_line a : ~ In 10 a -> forall cur, readlines cur (a ++ [10]) = [rev cur ++ a ++ [10]].
Proof.
  induction a as [| c a IH]; intros N cur; cbn [app readlines].
  - rewrite Z.eqb_refl. reflexivity.
  - destruct (Z.eqb_spec c 10) as [-> |]; [exfalso; apply N; now left |].
    rewrite IH by (intros C; apply N; now right). cbn [rev]. now rewrite <- app_assoc.
Qed.

Lemma state_line_parts line t x : state_line line t x -> exists a, line = a ++ [10] /\ ~ In 10 a.
Proof.
  intros (a & b & -> & [Ha Na] & [Hb Nb] & _). exists (a ++ [44] ++ b). split; [now rewrite <- !app_assoc |].
  rewrite !in_app_iff. intros [C | [[C | []] | C]]; [tauto | discriminate C | tauto].
Qed.

Lemma split_comma_ok a b : ~ In 44 a -> ~ In 44 b -> split_comma (a ++ 44 :: b) = Some (a, b).
Proof.
  intros Na Nb. induction a as [| c a IH]; cbn [app split_comma].
  - rewrite Z.eqb_refl. destruct (existsb (Z.eqb 44) b) eqn:E; [| reflexivity].
    apply existsb_exists in E. destruct E as (y & Hy & E). apply Z.eqb_eq in E. subst. contradiction.
  - destruct (Z.eqb_spec c 44) as [-> |]; [exfalso; apply Na; now left |].
    rewrite IH by (intros C; apply Na; now right). reflexivity.
Qed.

Lemma parse_line_ok line t x : state_line line t x -> parse_line line = Some (t, x).
Proof.
  intros (a & b & -> & [Ha _] & [Hb _] & Ht & Hx). unfold parse_line. cbn [app].
  rewrite split_comma_ok; [| exact Ha |].
  - cbn [fst snd]. rewrite Ht, Hx. reflexivity.
  - rewrite in_app_iff. intros [C | [C | []]]; [contradiction | discriminate C].
Qed.

Lemma all_some_app {A : Type} (a b : list (option A)) :
  all_some (a ++ b) = match all_some a with
                      | Some x => match all_some b with Some y => Some (x ++ y) | None => None end
                      | None => None end.
Proof.
  induction a as [| [x |] a IH]; cbn [app all_some]; [now destruct (all_some b) | | reflexivity].
  rewrite IH. destruct (all_some a), (all_some b); reflexivity.
Qed.

Lemma parse_lines_ok : forall (ls : list bytes) (ts : list Z) (xs : list bytes), length ts = length ls -> length xs = length ls ->
  (forall i, (i < length ls)%nat -> state_line (nth i ls []) (nth i ts 0) (nth i xs [])) ->
  readlines [] (concat ls) = ls /\ all_some (map parse_line ls) = Some (combine ts xs).
Proof.
  induction ls as [| l ls IH]; intros [| t ts] [| x xs] L1 L2 H; try discriminate; [split; reflexivity |].
  destruct (IH ts xs ltac:(cbn in *; lia) ltac:(cbn in *; lia)) as [R1 R2].
  { intros i Hi. apply (H (S i)). cbn. lia. }
  assert (H0 := H 0%nat ltac:(cbn; lia)). cbn [nth] in H0.
  split.
  - cbn [concat]. destruct (state_line_parts _ _ _ H0) as (a & -> & Na).
    rewrite <- app_assoc, readlines_app, readlines_line by exact Na. rewrite R1. reflexivity.
  - cbn [map all_some combine]. rewrite (parse_line_ok _ _ _ H0), R2. reflexivity.
Qed.

Lemma map_fst_combine {A B : Type} (a : list A) : forall (b : list B), length a = length b -> map fst (combine a b) = a.
Proof. induction a; intros [| y b] H; try discriminate; [reflexivity |]. cbn. f_equal. apply IHa. cbn in H. lia. Qed.
Lemma map_snd_combine {A B : Type} (a : list A) : forall (b : list B), length a = length b -> map snd (combine a b) = b.
Proof. induction a; intros [| y b] H; try discriminate; [reflexivity |]. cbn. f_equal. apply IHa. cbn in H. lia. Qed.

Definition parsed (rnd : Z -> Z) (ex : excludes) (n : nat) (ts : list Z) (xs : list bytes) : esf :=
  mkEsf n xs (map rnd ts) (apply_excludes (resolve ex xs) [] xs) (Excluded (resolve ex xs)).

Lemma parse_file rnd ex f ts xs : state_file f ts xs ->
  esf_parse rnd f (esf_init ex) = Some (parsed rnd ex (length f) ts xs).
Proof.
  intros (h & ls & -> & Nh & NE & L1 & L2 & H).
  destruct (parse_lines_ok ls ts xs L1 L2 H) as [R1 R2].
  unfold esf_parse, esf_init. cbn [parse_start Nat.eqb skipn allLabels nanos excl].
  rewrite readlines_app, readlines_line by (intros [C | C]; [discriminate C | contradiction]).
  rewrite R1. cbn [rev app].
  destruct ls as [| l ls]; [congruence |]. cbn [starts tl].
  rewrite Z.eqb_refl. cbn [andb]. rewrite R2. cbn [app].
  rewrite (map_snd_combine ts xs) by lia.
  rewrite <- (map_map fst rnd), (map_fst_combine ts xs) by lia. reflexivity.
Qed.

Lemma state_file_lengths f ts xs : state_file f ts xs -> length ts = length xs /\ xs <> [] /\ f <> [].
Proof.
  intros (h & ls & -> & _ & NE & L1 & L2 & _). split; [lia |]. split; [| discriminate].
  intros ->. destruct ls; [congruence | discriminate L2].
Qed.

(** The file ends with a newline. *)
Lemma state_file_newline f ts xs : state_file f ts xs -> exists a, f = a ++ [10].
Proof.
  intros (h & ls & -> & _ & NE & L1 & L2 & H).
  destruct (exists_last NE) as (ls' & l & ->).
  assert (Hl := H (length ls')). rewrite app_length in Hl. cbn [length] in Hl. specialize (Hl ltac:(lia)).
  rewrite app_nth2, Nat.sub_diag in Hl by lia. cbn [nth] in Hl.
  destruct (state_line_parts _ _ _ Hl) as (a & -> & _).
  exists ((35 :: h) ++ [10] ++ concat ls' ++ a). rewrite concat_app. cbn [concat]. rewrite app_nil_r, <- !app_assoc. reflexivity.
Qed.

(** Reading a file that has grown by whole lines, after having read it before, is reading it
    once; whatever was added. *)
Lemma parse_grown rnd ex f g ts xs : state_file f ts xs ->
  (forall ps, all_some (map parse_line (readlines [] g)) = Some ps -> stable ex xs (xs ++ map snd ps)) ->
  esf_parse rnd (f ++ g) (parsed rnd ex (length f) ts xs) =
  match esf_parse rnd (f ++ g) (esf_init ex) with
  | Some e => Some (mkEsf (match readlines [] g with [] => length f | _ => length (f ++ g) end)
                          (allLabels e) (nanos e) (unaliased e) (excl e))
  | None => None
  end.
Proof.
  intros SF St.
  destruct (state_file_newline f ts xs SF) as (fa & Fa).
  destruct SF as (h & ls & Ef & Nh & NE & L1 & L2 & H).
  destruct (parse_lines_ok ls ts xs L1 L2 H) as [R1 R2].
  assert (Lf : length f <> 0%nat) by (rewrite Ef; discriminate).
  assert (RL : readlines [] (f ++ g) = ((35 :: h) ++ [10]) :: ls ++ readlines [] g).
  { rewrite Fa at 1. rewrite <- app_assoc, readlines_app, <- Fa. rewrite Ef at 1. rewrite readlines_app, R1.
    rewrite readlines_line by (intros [C | C]; [discriminate C | contradiction]). reflexivity. }
  unfold esf_parse, parsed, esf_init. cbn [parse_start allLabels nanos unaliased excl].
  destruct (Nat.eqb_spec (length f) 0) as [C |]; [contradiction |]. cbn [Nat.eqb].
  replace (skipn (length f) (f ++ g)) with g by (rewrite skipn_app, skipn_all, Nat.sub_diag; reflexivity).
  change (skipn 0 (f ++ g)) with (f ++ g). rewrite RL.
  destruct ls as [| l0 ls']; [congruence |].
  cbn [app tl starts]. rewrite Z.eqb_refl. cbn [andb].
  change (l0 :: ls' ++ readlines [] g) with ((l0 :: ls') ++ readlines [] g).
  rewrite map_app, all_some_app, R2.
  destruct (readlines [] g) as [| g0 gs] eqn:Eg.
  - cbn [map all_some app]. rewrite app_nil_r.
    cbn [allLabels nanos unaliased excl].
    rewrite (map_snd_combine ts xs) by lia.
    rewrite <- (map_map fst rnd), (map_fst_combine ts xs) by lia. reflexivity.
  - destruct (all_some (map parse_line (g0 :: gs))) as [ps |] eqn:Ep; [| reflexivity].
    cbn [app allLabels nanos unaliased excl].
    rewrite !map_app, (map_snd_combine ts xs) by lia.
    rewrite <- (map_map fst rnd (combine ts xs)), (map_fst_combine ts xs) by lia.
    fold (resolve ex (xs ++ map snd ps)). rewrite <- (resolve_stable ex _ _ (St ps eq_refl)). reflexivity.
Qed.

(** * The dictionary *)

Lemma beq_refl x : beq x x = true.
Proof. destruct (beq_spec x x); congruence. Qed.
Lemma beq_neq x y : x <> y -> beq x y = false.
Proof. intros H. destruct (beq_spec x y); congruence. Qed.

Lemma beq_true x y : beq x y = true -> x = y.
Proof. intros H. destruct (beq_spec x y); congruence. Qed.

Lemma sget_sset d k v a : sget (sset d k v) a = if beq k a then Some v else sget d a.
Proof.
  induction d as [| [k' v'] d IH]; cbn [sset sget]; [reflexivity |].
  destruct (beq_spec k' k) as [-> | N]; cbn [sget].
  - destruct (beq k a); reflexivity.
  - rewrite IH. destruct (beq_spec k' a) as [-> |]; [| reflexivity].
    destruct (beq_spec k a); [congruence | reflexivity].
Qed.

Lemma slices_add d a s b : slices (add_slice d a s) b = slices d b ++ (if beq a b then [s] else []).
Proof.
  unfold slices, add_slice. destruct (sget d a) as [[v | l] |] eqn:E; rewrite sget_sset;
    destruct (beq_spec a b) as [<- | N]; rewrite ?E, ?app_nil_r; reflexivity.
Qed.

(** The slices added for the state [a]. *)
Fixpoint added (ok : bytes -> bool) (alias : bytes -> bytes) (a : bytes) (labels : list bytes) (inds : list nat) (n : nat) : list slice :=
  match labels, inds with
  | x :: ls, i :: js =>
      let stop := match js with j :: _ => j | [] => n end in
      (if ok x && beq (alias x) a then [(i, stop)] else []) ++ added ok alias a ls js n
  | _, _ => []
  end.

Lemma slices_all ok alias a n : forall labels inds d,
  slices (add_all ok alias d labels inds n) a = slices d a ++ added ok alias a labels inds n.
Proof.
  induction labels as [| x ls IH]; intros [| i js] d; cbn [add_all added]; rewrite ?app_nil_r; try reflexivity.
  rewrite IH. destruct (ok x); cbn [andb]; [| reflexivity].
  rewrite slices_add, <- app_assoc. reflexivity.
Qed.

Lemma nat_sorted_cons a (l : list nat) : StronglySorted le (a :: l) <-> (Forall (le a) l /\ StronglySorted le l).
Proof. split; [intros H; inversion H; tauto | intros [H K]; now constructor]. Qed.

(** Concatenated pieces: [inds] cuts the numbers from the first to [n]. *)
Lemma kept_pieces ok alias a n (P : nat -> Prop) : forall labels inds,
  length labels = length inds -> StronglySorted le inds -> Forall (fun i => (i <= n)%nat) inds ->
  (forall m j, (m < length inds)%nat -> (nth m inds 0 <= j)%nat -> (j < nth (S m) inds n)%nat ->
     (P j <-> ok (nth m labels []) && beq (alias (nth m labels [])) a = true)) ->
  kept P (match inds with [] => [] | i :: _ => seq i (n - i) end)
    (flat_map (fun s => seq (fst s) (snd s - fst s)) (added ok alias a labels inds n)).
Proof.
  induction labels as [| x ls IH]; intros [| i js] L S F H; try discriminate L; [constructor |].
  cbn [added]. rewrite flat_map_app. apply nat_sorted_cons in S. destruct S as [S1 S2].
  inversion F as [| ? ? Fi Fj]; subst.
  set (stop := match js with j :: _ => j | [] => n end).
  assert (St : (i <= stop)%nat /\ (stop <= n)%nat).
  { unfold stop. destruct js; [lia |]. inversion S1; inversion Fj; subst; lia. }
  replace (seq i (n - i)) with (seq i (stop - i) ++ match js with [] => [] | j :: _ => seq j (n - j) end).
  2:{ unfold stop in *. destruct js as [| j js].
      - apply app_nil_r.
      - replace (n - i)%nat with ((j - i) + (n - j))%nat by lia. rewrite seq_app. do 2 f_equal. lia. }
  apply kept_app.
  - assert (H0 : forall j, (i <= j)%nat -> (j < stop)%nat -> (P j <-> ok x && beq (alias x) a = true)).
    { intros j Hj1 Hj2. specialize (H 0%nat j ltac:(cbn; lia)). cbn [nth] in H.
      apply H; [exact Hj1 |]. unfold stop in Hj2. destruct js; exact Hj2. }
    destruct (ok x && beq (alias x) a) eqn:E.
    + cbn [flat_map fst snd]. rewrite app_nil_r.
      assert (G : kept P (seq i (stop - i)) (filter (fun _ => true) (seq i (stop - i)))).
      { apply kept_filter. intros j Hj. apply in_seq in Hj. apply H0; lia. }
      replace (filter (fun _ : nat => true) (seq i (stop - i))) with (seq i (stop - i)) in G; [exact G |].
      clear. induction (seq i (stop - i)) as [| y t IHt]; [reflexivity |]. cbn. now rewrite <- IHt.
    + cbn [flat_map].
      assert (G : kept P (seq i (stop - i)) (filter (fun _ => false) (seq i (stop - i)))).
      { apply kept_filter. intros j Hj. apply in_seq in Hj. apply H0; lia. }
      replace (filter (fun _ : nat => false) (seq i (stop - i))) with (@nil nat) in G; [exact G |].
      clear. induction (seq i (stop - i)) as [| y t IHt]; [reflexivity | exact IHt].
  - apply IH; [cbn in L; lia | exact S2 | exact Fj |].
    intros m j Hm H1 H2. apply (H (S m) j); cbn [length nth]; [lia | exact H1 | exact H2].
Qed.

(** * Searching *)

Lemma filter_sorted_split rnd us v : nondecreasing (map rnd us) ->
  forall j, (j < length us)%nat -> ((j < searchsorted rnd us v)%nat <-> rnd (nth j us 0) < v).
Proof.
  unfold searchsorted, nondecreasing.
  induction us as [| u us IH]; intros S j Hj; [cbn in Hj; lia |].
  cbn [map] in S. apply StronglySorted_inv in S. destruct S as [S1 S2]. rewrite Forall_map in S2.
  cbn [filter]. destruct (Z.ltb_spec (rnd u) v) as [Hu | Hu].
  - cbn [length]. destruct j as [| j]; cbn [nth]; [split; [intros _; exact Hu | intros _; lia] |].
    rewrite <- IH by (try exact S1; cbn in Hj; lia). lia.
  - assert (E : filter (fun u => rnd u <? v) us = []).
    { clear - S2 Hu. induction us as [| w us IHu]; [reflexivity |]. inversion S2; subst. cbn [filter].
      destruct (Z.ltb_spec (rnd w) v); [lia |]. now apply IHu. }
    rewrite E. cbn [length]. split; [lia |]. intros H. exfalso.
    destruct j as [| j]; cbn [nth] in H; [lia |].
    rewrite Forall_forall in S2. assert (In (nth j us 0) us) by (apply nth_In; cbn in Hj; lia).
    specialize (S2 _ H0). lia.
Qed.

Lemma searchsorted_le rnd us v : (searchsorted rnd us v <= length us)%nat.
Proof. unfold searchsorted. induction us as [| u us IH]; cbn [filter length]; [lia |]. destruct (rnd u <? v); cbn [length]; lia. Qed.

Lemma searchsorted_mono rnd us v w : v <= w -> (searchsorted rnd us v <= searchsorted rnd us w)%nat.
Proof.
  intros H. unfold searchsorted. induction us as [| u us IH]; cbn [filter]; [lia |].
  destruct (Z.ltb_spec (rnd u) v), (Z.ltb_spec (rnd u) w); cbn [length]; lia.
Qed.

Lemma nth_sorted l i j : nondecreasing l -> (i <= j < length l)%nat -> nth i l 0 <= nth j l 0.
Proof.
  unfold nondecreasing. revert i j. induction l as [| x l IH]; intros i j S H; [cbn in H; lia |].
  apply StronglySorted_inv in S. destruct S as [S1 S2].
  destruct i as [| i], j as [| j]; cbn [nth]; try lia.
  - rewrite Forall_forall in S2. apply S2, nth_In. cbn in H; lia.
  - apply IH; [exact S1 | cbn in H; lia].
Qed.

Definition inds_of (rnd : Z -> Z) (us : list Z) (ts : list Z) : list nat := map (fun t => searchsorted rnd us t) ts.

Lemma inds_sorted rnd us ts : nondecreasing ts -> StronglySorted le (inds_of rnd us ts).
Proof.
  induction 1 as [| t ts S IH F]; [constructor |]. cbn. constructor; [exact IH |].
  unfold inds_of. rewrite Forall_map. eapply Forall_impl; [| exact F]. intros w Hw. now apply searchsorted_mono.
Qed.

Lemma nth_inds rnd us ts m n : (m < length ts)%nat -> nth m (inds_of rnd us ts) n = searchsorted rnd us (nth m ts 0).
Proof.
  intros H. unfold inds_of. rewrite nth_indep with (d' := searchsorted rnd us 0) by (rewrite map_length; exact H).
  apply (map_nth (searchsorted rnd us)).
Qed.

(** All the records in the state [a], in order. *)
Lemma states_of rnd alias ok us ts xs a : nondecreasing ts -> nondecreasing (map rnd us) -> length ts = length xs ->
  kept (fun j => exists i, in_force ts (rnd (nth j us 0)) i /\ ok (nth i xs []) && beq (alias (nth i xs [])) a = true)
       (seq 0 (length us))
       (indices (add_all ok alias [] xs (inds_of rnd us ts) (length us)) a).
Proof.
  intros ST SU L. unfold indices. rewrite slices_all. change (slices [] a) with (@nil slice). cbn [app].
  set (n := length us). set (inds := inds_of rnd us ts).
  assert (Li : length inds = length ts) by (unfold inds, inds_of; apply map_length).
  assert (LE : Forall (fun i => (i <= n)%nat) inds).
  { unfold inds, inds_of. rewrite Forall_map. apply Forall_forall. intros t _. apply searchsorted_le. }
  assert (InF : forall m j, (m < length ts)%nat -> (j < n)%nat -> (nth m inds 0 <= j)%nat -> (j < nth (S m) inds n)%nat ->
                            in_force ts (rnd (nth j us 0)) m).
  { intros m j Hm Hj H1 H2. split; [exact Hm |]. split.
    - unfold inds in H1. rewrite (nth_inds _ _ _ _ _ Hm) in H1.
      destruct (Z_le_gt_dec (nth m ts 0) (rnd (nth j us 0))); [assumption | exfalso].
      assert (j < searchsorted rnd us (nth m ts 0%Z))%nat by (apply filter_sorted_split; [exact SU | exact Hj | lia]). lia.
    - intros k Hk. assert (Hs : (S m < length ts)%nat) by lia. unfold inds in H2. rewrite (nth_inds _ _ _ _ _ Hs) in H2.
      apply (filter_sorted_split rnd us _ SU j Hj) in H2.
      apply Z.lt_le_trans with (nth (S m) ts 0); [exact H2 |]. apply nth_sorted; [exact ST | lia]. }
  assert (Uniq : forall u i k, in_force ts u i -> in_force ts u k -> i = k).
  { intros u i k (I1 & I2 & I3) (K1 & K2 & K3).
    destruct (Nat.lt_trichotomy i k) as [C | [C | C]]; [| exact C |].
    - specialize (I3 k ltac:(lia)). lia.
    - specialize (K3 i ltac:(lia)). lia. }
  destruct inds as [| i0 js] eqn:Ei.
  - assert (ts = []) by (destruct ts; [reflexivity | discriminate Li]). subst ts.
    destruct xs; [| discriminate L].
    cbn [added flat_map].
    replace (@nil nat) with (filter (fun _ : nat => false) (seq 0 n)).
    2:{ clear. induction (seq 0 n) as [| y t IHt]; [reflexivity | exact IHt]. }
    apply kept_filter. intros j Hj. split; [| discriminate]. intros (i & (I & _) & _). cbn in I. lia.
  - assert (Hi0 : (i0 <= n)%nat) by (inversion LE; assumption).
    replace (seq 0 n) with (seq 0 i0 ++ seq i0 (n - i0)).
    2:{ replace n with (i0 + (n - i0))%nat at 2 by lia. now rewrite seq_app. }
    change (flat_map (fun s => seq (fst s) (snd s - fst s)) (added ok alias a xs (i0 :: js) n))
      with ([] ++ flat_map (fun s => seq (fst s) (snd s - fst s)) (added ok alias a xs (i0 :: js) n)).
    apply kept_app.
    + replace (@nil nat) with (filter (fun _ : nat => false) (seq 0 i0)).
      2:{ clear. induction (seq 0 i0) as [| y t IHt]; [reflexivity | exact IHt]. }
      apply kept_filter. intros j Hj. apply in_seq in Hj. split; [| discriminate].
      intros (i & (I1 & I2 & _) & _). exfalso.
      assert (E0 : i0 = searchsorted rnd us (nth 0 ts 0)).
      { rewrite <- (nth_inds rnd us ts 0 0) by lia. fold inds. rewrite Ei. reflexivity. }
      assert (Hlt : rnd (nth j us 0) < nth 0 ts 0).
      { apply (filter_sorted_split rnd us _ SU j); [unfold n in *; lia | lia]. }
      assert (nth 0 ts 0 <= nth i ts 0) by (apply nth_sorted; [exact ST | lia]). lia.
    + apply (kept_pieces ok alias a n _ xs (i0 :: js)).
      * lia.
      * rewrite <- Ei. apply inds_sorted, ST.
      * exact LE.
      * intros m j Hm H1 H2.
        assert (Hj : (j < n)%nat).
        { apply Nat.lt_le_trans with (nth (S m) (i0 :: js) n); [exact H2 |].
          destruct (Nat.lt_ge_cases (S m) (length (i0 :: js))) as [C | C].
          - rewrite Forall_forall in LE. apply LE, nth_In, C.
          - rewrite nth_overflow by exact C. lia. }
        assert (Fm : in_force ts (rnd (nth j us 0)) m) by (apply InF; [lia | exact Hj | exact H1 | exact H2]).
        split.
        -- intros (i & Fi & E). rewrite (Uniq _ _ _ Fm Fi). exact E.
        -- intros E. exists m. split; [exact Fm | exact E].
Qed.

Lemma unaliased_ok ex xs x : In x xs ->
  (mem x (apply_excludes (resolve ex xs) [] xs) = true <-> ~ is_excluded ex xs x).
Proof.
  intros H. rewrite mem_spec, apply_excludes_in, resolve_spec. cbn [In]. tauto.
Qed.

Lemma calc_fresh rnd alias e us : length (nanos e) = length (allLabels e) ->
  calc_states rnd alias e us [] 0 0
  = Some (add_all (fun x => mem x (unaliased e)) alias [] (allLabels e) (inds_of rnd us (nanos e)) (length us)).
Proof.
  intros _. unfold calc_states. cbn [last_entry skipn Nat.add]. do 2 f_equal. unfold inds_of.
  apply map_ext. intros t. apply Nat.add_0_r.
Qed.

Lemma partition rnd alias f ts xs ex us : state_file f ts xs ->
  nondecreasing (map rnd ts) -> nondecreasing (map rnd us) ->
  exists e d, esf_parse rnd f (esf_init ex) = Some e /\ calc_states rnd alias e us [] 0 0 = Some d /\
    forall a, kept (fun j => in_state alias (is_excluded ex xs) (map rnd ts) xs (rnd (nth j us 0)) a)
                   (seq 0 (length us)) (indices d a).
Proof.
  intros SF ST SU. rewrite (parse_file rnd ex f ts xs SF).
  eexists. eexists. split; [reflexivity |].
  destruct (state_file_lengths _ _ _ SF) as (L & _).
  split; [apply calc_fresh; cbn [parsed nanos allLabels]; now rewrite map_length |].
  intros a. cbn [parsed nanos allLabels unaliased].
  eapply kept_ext; [| apply states_of; [exact ST | exact SU | now rewrite map_length]].
  intros j _. cbn beta. unfold in_state. split.
  - intros (i & Fi & E). exists i. split; [exact Fi |].
    apply andb_true_iff in E. destruct E as [E1 E2].
    assert (Hi : In (nth i xs []) xs) by (apply nth_In; destruct Fi as (Fi & _); rewrite map_length in Fi; lia).
    split; [apply (unaliased_ok ex xs _ Hi), E1 |]. exact (beq_true _ _ E2).
  - intros (i & Fi & E1 & E2). exists i. split; [exact Fi |].
    assert (Hi : In (nth i xs []) xs) by (apply nth_In; destruct Fi as (Fi & _); rewrite map_length in Fi; lia).
    apply andb_true_iff. split; [apply (unaliased_ok ex xs _ Hi), E1 |]. rewrite <- E2. apply beq_refl.
Qed.

(** * Refreshing *)

Lemma add_all_ext ok ok' alias n : forall labels inds d, (forall x, In x labels -> ok x = ok' x) ->
  add_all ok alias d labels inds n = add_all ok' alias d labels inds n.
Proof.
  induction labels as [| x ls IH]; intros [| i js] d H; try reflexivity.
  cbn [add_all]. rewrite (H x) by (now left). apply IH. intros y Hy. apply H. now right.
Qed.

Lemma add_all_app ok alias n : forall l0 i0 l1 i1 d, length l0 = length i0 ->
  add_all ok alias d (l0 ++ l1) (i0 ++ i1) n
  = add_all ok alias (add_all ok alias d l0 i0 (hd n i1)) l1 i1 n.
Proof.
  induction l0 as [| x l0 IH]; intros [| i i0] l1 i1 d H; try discriminate H; [reflexivity |].
  cbn [app add_all]. rewrite IH by (cbn in H; lia). do 2 f_equal.
  destruct i0 as [| j i0]; [destruct i1; reflexivity | reflexivity].
Qed.

Lemma keys_sset d k v x : In x (map fst (sset d k v)) <-> In x (map fst d) \/ x = k.
Proof.
  induction d as [| [k' v'] d IH]; cbn [sset map fst In].
  - split; [intros [<- | []]; now right | intros [[] | ->]; now left].
  - destruct (beq_spec k' k) as [-> | N]; cbn [map fst In].
    + split; [tauto | intros [H | ->]; [exact H | now left]].
    + rewrite IH. tauto.
Qed.
Lemma keys_add d a s x : In x (map fst (add_slice d a s)) <-> In x (map fst d) \/ x = a.
Proof. unfold add_slice. destruct (sget d a) as [[] |]; apply keys_sset. Qed.
Lemma keys_all ok alias n : forall labels inds d x, In x (map fst (add_all ok alias d labels inds n)) ->
  In x (map fst d) \/ exists y, In y labels /\ ok y = true /\ alias y = x.
Proof.
  induction labels as [| y ls IH]; intros [| i js] d x H; cbn [add_all] in H; try (left; exact H).
  apply IH in H. destruct H as [H | (z & Hz & O & E)].
  - destruct (ok y) eqn:Oy; [| left; exact H]. apply keys_add in H.
    destruct H as [H | ->]; [left; exact H |]. right. exists y. split; [now left | tauto].
  - right. exists z. split; [now right | tauto].
Qed.

Lemma sget_none d k : ~ In k (map fst d) -> sget d k = None.
Proof.
  induction d as [| [k' v'] d IH]; intros N; [reflexivity |]. cbn [map fst In] in N. cbn [sget].
  destruct (beq_spec k' k) as [-> | _]; [tauto | apply IH; tauto].
Qed.
Lemma sset_new d k v : ~ In k (map fst d) -> sset d k v = d ++ [(k, v)].
Proof.
  induction d as [| [k' v'] d IH]; intros N; [reflexivity |]. cbn [map fst In] in N. cbn [sset app].
  destruct (beq_spec k' k) as [-> | _]; [tauto | rewrite IH by tauto; reflexivity].
Qed.
Lemma sset_last d k v w : ~ In k (map fst d) -> sset (d ++ [(k, v)]) k w = d ++ [(k, w)].
Proof.
  induction d as [| [k' v'] d IH]; intros N; cbn [app sset].
  - now rewrite beq_refl.
  - cbn [map fst In] in N. destruct (beq_spec k' k) as [-> | _]; [tauto | rewrite IH by tauto; reflexivity].
Qed.
Lemma last_entry_snoc d x : last_entry (d ++ [x]) = Some x.
Proof. induction d as [| y d IH]; [reflexivity |]. cbn [app last_entry]. now rewrite IH. Qed.

(** The dictionary when the last label is new and not excluded. *)
Lemma add_all_last ok alias n pre x ip i : length pre = length ip -> ok x = true ->
  (forall y, In y pre -> ok y = true -> alias y <> alias x) ->
  add_all ok alias [] (pre ++ [x]) (ip ++ [i]) n = add_all ok alias [] pre ip i ++ [(alias x, One (i, n))] /\
  ~ In (alias x) (map fst (add_all ok alias [] pre ip i)).
Proof.
  intros L O N.
  assert (K : ~ In (alias x) (map fst (add_all ok alias [] pre ip i))).
  { intros C. apply keys_all in C. destruct C as [[] | (y & Hy & Oy & E)]. exact (N y Hy Oy E). }
  split; [| exact K].
  rewrite add_all_app by exact L. cbn [hd add_all]. rewrite O. unfold add_slice.
  rewrite (sget_none _ _ K). apply sset_new, K.
Qed.

Lemma searchsorted_app rnd a b v : searchsorted rnd (a ++ b) v = (searchsorted rnd a v + searchsorted rnd b v)%nat.
Proof. unfold searchsorted. now rewrite filter_app, app_length. Qed.
Lemma searchsorted_all rnd us v : (forall u, In u us -> rnd u < v) -> searchsorted rnd us v = length us.
Proof.
  unfold searchsorted. induction us as [| u us IH]; intros H; [reflexivity |]. cbn [filter].
  destruct (Z.ltb_spec (rnd u) v) as [_ | C]; [cbn [length]; rewrite IH; [reflexivity | intros w Hw; apply H; now right] |].
  specialize (H u (or_introl eq_refl)). lia.
Qed.
Lemma searchsorted_none rnd us v : (forall u, In u us -> v <= rnd u) -> searchsorted rnd us v = 0%nat.
Proof.
  unfold searchsorted. induction us as [| u us IH]; intros H; [reflexivity |]. cbn [filter].
  destruct (Z.ltb_spec (rnd u) v) as [C | _]; [specialize (H u (or_introl eq_refl)); lia |].
  apply IH. intros w Hw. apply H. now right.
Qed.

Lemma update rnd alias e e' us us1 ls ts pre x :
  length (nanos e) = length (allLabels e) ->
  allLabels e' = allLabels e ++ ls -> nanos e' = nanos e ++ ts -> length ls = length ts ->
  (forall y, In y (allLabels e) -> mem y (unaliased e) = mem y (unaliased e')) ->
  (forall u t, In u us -> In t ts -> rnd u < t) ->
  (forall t u, In t (nanos e) -> In u us1 -> t <= rnd u) ->
  allLabels e = pre ++ [x] -> mem x (unaliased e') = true ->
  (forall y, In y pre -> mem y (unaliased e') = true -> alias y <> alias x) ->
  forall d, calc_states rnd alias e us [] 0 0 = Some d ->
  calc_states rnd alias e' us1 d (length (allLabels e)) (length us) = calc_states rnd alias e' (us ++ us1) [] 0 0.
Proof.
  intros L EL EN Lt Ok B1 B2 Ep Ox Np d Hd.
  rewrite (calc_fresh rnd alias e us L) in Hd. injection Hd as <-.
  assert (L' : length (nanos e') = length (allLabels e')) by (rewrite EL, EN, !app_length; lia).
  rewrite (calc_fresh rnd alias e' (us ++ us1) L').
  set (ok := fun y => mem y (unaliased e')).
  rewrite (add_all_ext (fun y => mem y (unaliased e)) ok) by (intros y Hy; apply Ok, Hy).
  (* the indices of the old labels do not change, those of the new follow all the old records *)
  assert (I0 : inds_of rnd (us ++ us1) (nanos e) = inds_of rnd us (nanos e)).
  { unfold inds_of. apply map_ext_in. intros t Ht. rewrite searchsorted_app.
    rewrite (searchsorted_none rnd us1) by (intros u Hu; exact (B2 t u Ht Hu)). lia. }
  assert (I1 : inds_of rnd (us ++ us1) ts = map (fun t => searchsorted rnd us1 t + length us)%nat ts).
  { unfold inds_of. apply map_ext_in. intros t Ht. rewrite searchsorted_app.
    rewrite (searchsorted_all rnd us) by (intros u Hu; exact (B1 u t Hu Ht)). lia. }
  assert (LN : length (nanos e) = S (length pre)) by (rewrite L, Ep, app_length; cbn; lia).
  destruct (exists_last (l := nanos e)) as (np & tx & En); [intros C; rewrite C in LN; discriminate LN |].
  assert (Lp : length pre = length (inds_of rnd us np)).
  { unfold inds_of. rewrite map_length. rewrite En, app_length in LN. cbn in LN. lia. }
  assert (EI : inds_of rnd us (nanos e) = inds_of rnd us np ++ [searchsorted rnd us tx]).
  { rewrite En. unfold inds_of. apply map_app. }
  set (i := searchsorted rnd us tx) in *.
  assert (Len : forall n, add_all ok alias [] (allLabels e) (inds_of rnd us (nanos e)) n
                          = add_all ok alias [] pre (inds_of rnd us np) i ++ [(alias x, One (i, n))]).
  { intros n. rewrite EI, Ep. apply add_all_last; [exact Lp | exact Ox | exact Np]. }
  assert (K : ~ In (alias x) (map fst (add_all ok alias [] pre (inds_of rnd us np) i))).
  { apply (add_all_last ok alias 0 pre x (inds_of rnd us np) i Lp Ox Np). }
  rewrite Len. unfold calc_states. rewrite last_entry_snoc.
  replace (Nat.eqb (length (allLabels e)) 0) with false by (symmetry; apply Nat.eqb_neq; lia).
  rewrite EL, EN. rewrite skipn_app, skipn_all, Nat.sub_diag.
  rewrite <- L, skipn_app, skipn_all, Nat.sub_diag. cbn [app skipn].
  rewrite sset_last by exact K. cbn [extend fst].
  assert (Full : inds_of rnd (us ++ us1) (nanos e ++ ts)
                 = inds_of rnd us (nanos e) ++ map (fun t => searchsorted rnd us1 t + length us)%nat ts).
  { rewrite <- I0, <- I1. unfold inds_of. apply map_app. }
  rewrite Full, app_length.
  rewrite add_all_app by (unfold inds_of; rewrite map_length; lia).
  rewrite Len. destruct ls as [| l ls].
  - destruct ts; [| discriminate Lt]. cbn [map hd add_all]. reflexivity.
  - destruct ts as [| t ts]; [discriminate Lt |]. rewrite ?sset_last by exact K. cbn [map hd]. reflexivity.
Qed.

Lemma stable_unaliased ex xs xs' x : stable ex xs (xs ++ xs') -> In x xs ->
  mem x (apply_excludes (resolve ex xs) [] xs) = mem x (apply_excludes (resolve ex (xs ++ xs')) [] (xs ++ xs')).
Proof.
  intros S H. apply eq_true_iff_eq. rewrite (unaliased_ok ex xs x H).
  rewrite (unaliased_ok ex (xs ++ xs') x) by (apply in_or_app; now left). rewrite (S x). reflexivity.
Qed.

Lemma state_file_unique f ts xs ts' xs' : state_file f ts xs -> state_file f ts' xs' -> ts = ts' /\ xs = xs'.
Proof.
  intros H K. assert (E := parse_file (fun z => z) (Excluded []) f ts xs H).
  rewrite (parse_file (fun z => z) (Excluded []) f ts' xs' K) in E. injection E as E1 E2.
  rewrite !map_id in E2. auto.
Qed.

(** One refresh. *)
(** Reading the rest of a file that has grown by whole lines. *)
Lemma parse_rest rnd ex f g ts xs ts' xs' : state_file f ts xs -> state_file (f ++ g) ts' xs' -> stable ex xs xs' ->
  esf_parse rnd (f ++ g) (parsed rnd ex (length f) ts xs) = Some (parsed rnd ex (length (f ++ g)) ts' xs').
Proof.
  intros SF SF' St. assert (P' := parse_file rnd ex (f ++ g) ts' xs' SF').
  assert (G := parse_grown rnd ex f g ts xs SF).
  rewrite P' in G. cbn [parsed allLabels nanos unaliased excl] in G.
  assert (Emp : match readlines [] g with [] => length f | _ :: _ => length (f ++ g) end = length (f ++ g)).
  { destruct (readlines [] g) eqn:Eg; [| reflexivity]. destruct g as [| c g]; [now rewrite app_nil_r |].
    exfalso. clear - Eg.
    assert (Q : forall l cur, cur <> [] \/ l <> [] -> readlines cur l <> []).
    { induction l as [| a l IH]; intros cur [H | H]; cbn [readlines]; try (destruct cur; congruence).
      - destruct (a =? 10); [discriminate |]. apply IH. left. discriminate.
      - destruct (a =? 10); [discriminate |]. apply IH. left. discriminate. }
    apply (Q (c :: g) []); [right; discriminate | exact Eg]. }
  rewrite Emp in G. change (mkEsf (length (f ++ g)) xs' (map rnd ts') (apply_excludes (resolve ex xs') [] xs')
                              (Excluded (resolve ex xs'))) with (parsed rnd ex (length (f ++ g)) ts' xs') in G.
  apply G. intros ps Eps.
    (* the labels read from the whole file are those of the first part and of the rest *)
    assert (X : xs' = xs ++ map snd ps); [| rewrite <- X; exact St].
    destruct (state_file_newline f ts xs SF) as (fa & Fa).
    destruct SF as (h & l0 & Ef & Nh & NE & L1 & L2 & H).
    destruct (parse_lines_ok l0 ts xs L1 L2 H) as [R1 R2].
    unfold esf_parse, esf_init in P'. cbn [parse_start allLabels nanos excl Nat.eqb skipn] in P'.
    assert (RL : readlines [] (f ++ g) = ((35 :: h) ++ [10]) :: l0 ++ readlines [] g).
    { rewrite Fa at 1. rewrite <- app_assoc, readlines_app, <- Fa. rewrite Ef at 1. rewrite readlines_app, R1.
      rewrite readlines_line by (intros [C | C]; [discriminate C | contradiction]). reflexivity. }
    rewrite RL in P'. destruct l0 as [| l00 l0]; [congruence |].
    cbn [app tl starts] in P'. rewrite Z.eqb_refl in P'. cbn [andb] in P'.
    change (l00 :: l0 ++ readlines [] g) with ((l00 :: l0) ++ readlines [] g) in P'.
    rewrite map_app, all_some_app, R2, Eps in P'. cbn [app] in P'. injection P' as P1 P2 P3 P4.
    rewrite <- P1, map_app, (map_snd_combine ts xs) by lia. reflexivity.
Qed.

Lemma refresh_ok rnd alias ex f us f' us' e d :
  esf_parse rnd f (esf_init ex) = Some e -> calc_states rnd alias e us [] 0 0 = Some d ->
  grown rnd alias ex f us f' us' ->
  exists e' d', refresh rnd alias f' e us' (length us) (Some d) = Some (e', d') /\
    esf_parse rnd f' (esf_init ex) = Some e' /\ calc_states rnd alias e' us' [] 0 0 = Some d'.
Proof.
  intros He Hd (g & ts & xs & ts' & xs' & -> & SF & SF' & St & Pre & R).
  destruct R as (ls & dts & dus & pre & x & EL & ET & EU & Ll & B1 & B2 & Ep & Ox & Np).
  cbn [k_labels k_times k_records] in *.
  rewrite (parse_file rnd ex f ts xs SF) in He. injection He as <-.
  assert (P' := parse_file rnd ex (f ++ g) ts' xs' SF').
  set (us1 := skipn (length us) us').
  assert (Eus : us' = us ++ us1) by (unfold us1; rewrite <- Pre at 1; symmetry; apply firstn_skipn).
  assert (Edus : map rnd us1 = dus).
  { rewrite Eus, map_app in EU. now apply app_inv_head in EU. }
  assert (G' := parse_rest rnd ex f g ts xs ts' xs' SF SF' St).
  destruct (state_file_lengths _ _ _ SF) as (Lx & _ & _).
  destruct (state_file_lengths _ _ _ SF') as (Lx' & _ & _).
  assert (U := update rnd alias (parsed rnd ex (length f) ts xs) (parsed rnd ex (length (f ++ g)) ts' xs')
                 us us1 ls dts pre x).
  cbn [parsed allLabels nanos unaliased] in U.
  rewrite map_length in U. specialize (U Lx EL ET Ll).
  assert (Hx : In x xs') by (rewrite EL, Ep; apply in_or_app; left; apply in_or_app; right; now left).
  specialize (U ltac:(intros y Hy; rewrite EL; apply stable_unaliased; [rewrite <- EL; exact St | exact Hy])).
  specialize (U ltac:(intros u t Hu Ht; apply B1; [now apply in_map | exact Ht])).
  specialize (U ltac:(intros t u Ht Hu; apply B2; [exact Ht | rewrite <- Edus; now apply in_map])).
  specialize (U Ep ltac:(apply (unaliased_ok ex xs' x Hx), Ox)).
  specialize (U ltac:(intros y Hy Oy; apply Np; [exact Hy |];
                      apply (unaliased_ok ex xs' y); [rewrite EL, Ep; apply in_or_app; left; apply in_or_app; now left | exact Oy])).
  specialize (U d Hd).
  set (e' := parsed rnd ex (length (f ++ g)) ts' xs') in *.
  assert (Fr : exists d', calc_states rnd alias e' us' [] 0 0 = Some d').
  { eexists. apply calc_fresh. unfold e', parsed. cbn [nanos allLabels]. now rewrite map_length. }
  destruct Fr as (d' & Fr). exists e', d'. split; [| split; [exact P' | exact Fr]].
  unfold refresh. rewrite G'. cbn [states_dict]. fold us1. cbn [parsed allLabels].
  fold e'. rewrite U, <- Eus, Fr. reflexivity.
Qed.

Lemma refreshed_fresh rnd alias ex f us e d : refreshed rnd alias ex f us e d ->
  esf_parse rnd f (esf_init ex) = Some e /\ calc_states rnd alias e us [] 0 0 = Some d.
Proof.
  induction 1 as [f us e d He Hd | f us e d f' us' e' d' _ [He Hd] G R]; [split; assumption |].
  destruct (refresh_ok rnd alias ex f us f' us' e d He Hd G) as (e1 & d1 & R1 & H1 & H2).
  rewrite R in R1. injection R1 as -> ->. split; assumption.
Qed.
