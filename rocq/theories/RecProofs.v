(** Proofs about recipes and selection. *)
From Coq Require Import ZArith Ascii String Bool Lia Sorting.Sorted List.
From Verif Require Import Kept LjhModel StModel StSpec StProofs RecModel RecSpec.
Import ListNotations.

Lemma eqb_sym' (a b : string) : String.eqb a b = String.eqb b a.
Proof. destruct (String.eqb_spec a b), (String.eqb_spec b a); congruence. Qed.

Lemma has_spec l n : has l n = true <-> In n l.
Proof.
  unfold has. rewrite existsb_exists. split.
  - intros (x & H & E). apply String.eqb_eq in E. now subst.
  - intros H. exists n. split; [exact H | apply String.eqb_refl].
Qed.

Lemma bget_bset {V : Type} (b : book V) n r k : bget (bset b n r) k = if String.eqb n k then Some r else bget b k.
Proof.
  induction b as [| [x s] b IH]; cbn [bset bget]; [reflexivity |].
  destruct (String.eqb_spec x n) as [-> | N]; cbn [bget].
  - destruct (String.eqb_spec n k); reflexivity.
  - rewrite IH. destruct (String.eqb_spec x k) as [-> | M]; [| reflexivity].
    destruct (String.eqb_spec n k); [congruence | reflexivity].
Qed.

Lemma keys_of_nodup l : forall acc, NoDup (acc ++ l) -> keys_of acc l = acc ++ l.
Proof.
  induction l as [| x l IH]; intros acc H; cbn [keys_of]; [now rewrite app_nil_r |].
  destruct (has acc x) eqn:E.
  - exfalso. apply has_spec in E. apply NoDup_remove_2 in H. apply H, in_or_app. now left.
  - rewrite IH; [now rewrite <- app_assoc | now rewrite <- app_assoc].
Qed.

Lemma remove1_filter n l : NoDup l -> remove1 n l = filter (fun p => negb (String.eqb p n)) l.
Proof.
  induction 1 as [| x l N D IH]; [reflexivity |]. cbn [remove1 filter].
  destruct (String.eqb_spec x n) as [-> | M]; cbn [negb]; [| now rewrite IH].
  clear - N. induction l as [| y l IH]; [reflexivity |]. cbn [filter].
  destruct (String.eqb_spec y n) as [-> | M]; cbn [negb]; [exfalso; apply N; now left |].
  rewrite <- IH; [reflexivity |]. intros C. apply N. now right.
Qed.

Lemma arg_names_spec {V : Type} (f : fn V) : NoDup (params f) ->
  arg_names f = filter (fun p => negb (String.eqb p "self"%string)) (params f).
Proof.
  intros H. unfold arg_names. destruct (has (params f) "self"%string) eqn:E; [now apply remove1_filter |].
  assert (N : ~ In "self"%string (params f)) by (rewrite <- has_spec; congruence). clear - N.
  induction (params f) as [| y l IH]; [reflexivity |]. cbn [filter].
  destruct (String.eqb_spec y "self"%string) as [-> | M]; cbn [negb]; [exfalso; apply N; now left |].
  rewrite <- IH; [reflexivity |]. intros C. apply N. now right.
Qed.

Lemma asked_spec {V : Type} (d : def V) : NoDup (params (d_fn d)) -> ingredient_names (d_fn d) (d_ings d) = asked d.
Proof. intros H. unfold ingredient_names, asked. destruct (d_ings d); [reflexivity | now apply arg_names_spec]. Qed.

Definition known {V : Type} (bases : list name) (b : book V) (i : name) : Prop := In i bases \/ bget b i <> None.

Lemma knownb {V : Type} bases (b : book V) i :
  has bases i || (match bget b i with Some _ => true | None => false end) = true <-> known bases b i.
Proof.
  unfold known. rewrite orb_true_iff, has_spec. destruct (bget b i); split; intros [H | H]; try tauto; try (right; discriminate).
Qed.

Lemma add_temp {V : Type} bases (b : book V) f ings ov : NoDup (params f) ->
  NoDup (ingredient_names f ings) ->
  match ings with Some l => (length l <= length (arg_names f))%nat | None => True end ->
  (forall i, In i (ingredient_names f ings) -> known bases b i) ->
  add bases b "__temp__"%string f ings ov = Some (b, Recipe f (map (fun i => (i, bget b i)) (ingredient_names f ings))).
Proof.
  intros D D2 L K. unfold add.
  replace (match ings with None => true | Some l => Nat.leb (length l) (length (arg_names f)) end) with true
    by (destruct ings; [symmetry; now apply Nat.leb_le | reflexivity]).
  cbn [andb]. replace (forallb _ _) with true
    by (symmetry; apply forallb_forall; intros i Hi; apply knownb, K, Hi).
  rewrite (keys_of_nodup _ []) by exact D2. reflexivity.
Qed.

(** What a successful call of add has checked and done. *)
Lemma add_inv {V : Type} bases (b : book V) d b' r : proper d ->
  add bases b (d_name d) (d_fn d) (d_ings d) (d_over d) = Some (b', r) ->
  r = Recipe (d_fn d) (map (fun i => (i, bget b i)) (asked d)) /\ b' = bset b (d_name d) r /\
  (forall i, In i (asked d) -> known bases b i) /\
  (d_over d = true \/ bget b (d_name d) = None) /\ String.prefix "!" (d_name d) = false /\
  match d_ings d with Some l => (length l <= length (filter (fun p => negb (String.eqb p "self"%string)) (params (d_fn d))))%nat | None => True end.
Proof.
  intros (D1 & D2 & NT) H. unfold add in H. rewrite (asked_spec d D1) in H.
  destruct (_ && _) eqn:E in H; [| discriminate H].
  apply andb_prop in E. destruct E as [E1 E2]. rewrite forallb_forall in E2.
  rewrite (keys_of_nodup _ []) in H by exact D2. cbn [app] in H.
  destruct (String.eqb_spec (d_name d) "__temp__"%string); [contradiction |].
  destruct (match bget b (d_name d) with Some _ => d_over d | None => true end) eqn:O; [| discriminate H].
  destruct (String.prefix "!" (d_name d)) eqn:P; [discriminate H |]. injection H as <- <-.
  split; [reflexivity |]. split; [reflexivity |]. split; [intros i Hi; apply knownb, E2, Hi |].
  split; [destruct (bget b (d_name d)); tauto |]. split; [reflexivity |].
  destruct (d_ings d); [| exact I]. apply Nat.leb_le in E1. now rewrite <- arg_names_spec.
Qed.

Lemma add_conv {V : Type} bases (b : book V) d : proper d ->
  (forall i, In i (asked d) -> known bases b i) ->
  (d_over d = true \/ bget b (d_name d) = None) -> String.prefix "!" (d_name d) = false ->
  match d_ings d with Some l => (length l <= length (filter (fun p => negb (String.eqb p "self"%string)) (params (d_fn d))))%nat | None => True end ->
  add bases b (d_name d) (d_fn d) (d_ings d) (d_over d) =
  Some (bset b (d_name d) (Recipe (d_fn d) (map (fun i => (i, bget b i)) (asked d))),
        Recipe (d_fn d) (map (fun i => (i, bget b i)) (asked d))).
Proof.
  intros (D1 & D2 & NT) K O P L. unfold add. rewrite (asked_spec d D1).
  replace (match d_ings d with None => true | Some l => Nat.leb (length l) (length (arg_names (d_fn d))) end) with true
    by (destruct (d_ings d); [symmetry; apply Nat.leb_le; now rewrite arg_names_spec | reflexivity]).
  cbn [andb]. replace (forallb _ _) with true
    by (symmetry; apply forallb_forall; intros i Hi; apply knownb, K, Hi).
  rewrite (keys_of_nodup _ []) by exact D2.
  destruct (String.eqb_spec (d_name d) "__temp__"%string); [contradiction |].
  replace (match bget b (d_name d) with Some _ => d_over d | None => true end) with true
    by (destruct O as [-> | ->]; [destruct (bget b (d_name d)) |]; reflexivity).
  rewrite P. reflexivity.
Qed.

(** The invariant: every name has its meaning. *)
Definition agrees {V : Type} (b : book V) (h : list (entry V)) : Prop :=
  (forall look n, match bget b n with Some r => run look r = meaning look h n | None => meaning look h n = look n end) /\
  (forall n, bget b n <> None <-> In n (map (fun e => fst (fst e)) h)) /\
  (forall n, bget b n <> None -> String.prefix "!" n = false).

Lemma agrees_add {V : Type} bases (b : book V) h d b' r : proper d -> agrees b h ->
  add bases b (d_name d) (d_fn d) (d_ings d) (d_over d) = Some (b', r) -> agrees b' (entry_of d :: h).
Proof.
  intros P (A1 & A2 & A3) H. destruct (add_inv _ _ _ _ _ P H) as (Er & -> & K & _ & B & _). split; [| split].
  - intros look n. rewrite bget_bset. cbn [meaning entry_of]. rewrite (eqb_sym' n).
    destruct (String.eqb_spec (d_name d) n) as [<- | N]; [| apply A1].
    rewrite Er. cbn [run]. rewrite map_map. cbn [fst snd].
    replace (map (fun i => match bget b i with Some r' => run look r' | None => look i end) (asked d))
      with (map (meaning look h) (asked d)); [reflexivity |].
    apply map_ext. intros i. specialize (A1 look i). destruct (bget b i); congruence.
  - intros n. rewrite bget_bset. cbn [map entry_of fst In].
    destruct (String.eqb_spec (d_name d) n) as [E | N].
    + split; [intros _; now left | intros _; discriminate].
    + rewrite A2. tauto.
  - intros n. rewrite bget_bset. destruct (String.eqb_spec (d_name d) n) as [<- | N]; [intros _; exact B | apply A3].
Qed.

Lemma agrees_adds {V : Type} bases : forall (ds : list (def V)) b h b', Forall proper ds -> agrees b h ->
  adds bases b ds = Some b' -> agrees b' (rev (map entry_of ds) ++ h).
Proof.
  induction ds as [| d ds IH]; intros b h b' P A H; cbn [adds] in H.
  - injection H as <-. exact A.
  - inversion P as [| ? ? P1 P2]; subst.
    destruct (add bases b (d_name d) (d_fn d) (d_ings d) (d_over d)) as [[b1 r] |] eqn:E; [| discriminate H].
    cbn [map rev]. rewrite <- app_assoc. apply (IH b1); [exact P2 | | exact H].
    now apply (agrees_add bases b h d b1 r).
Qed.

Lemma agrees_nil {V : Type} : agrees (V := V) [] [].
Proof. split; [intros look n; reflexivity | split; [intros n; cbn; tauto | intros n H; now destruct H]]. Qed.

(** ** Exclamation marks *)

Lemma prefix_bang n : String.prefix "!" n = true <-> exists t, n = ("!" ++ t)%string.
Proof.
  destruct n as [| c n]; cbn [String.prefix].
  - split; [discriminate | intros [t C]; discriminate C].
  - destruct (ascii_dec "!" c) as [<- | N].
    + split; [intros _; now exists n | intros _]. now destruct n.
    + split; [discriminate | intros [t C]; injection C; congruence].
Qed.

Lemma lstrip_plain n : String.prefix "!" n = false -> lstrip_bang n = n.
Proof.
  intros H. destruct n as [| c n]; [reflexivity |]. cbn [lstrip_bang].
  destruct (Ascii.eqb_spec c "!") as [-> | N]; [| reflexivity].
  exfalso. assert (C : String.prefix "!" (String "!" n) = true) by (apply prefix_bang; now exists n). congruence.
Qed.

Lemma lstrip_banged k n : String.prefix "!" n = false ->
  lstrip_bang (banged k n) = n /\ String.length (banged k n) = (k + String.length n)%nat.
Proof.
  intros H. induction k as [| k [IH1 IH2]]; cbn [banged]; [split; [now apply lstrip_plain | reflexivity] |].
  cbn [append lstrip_bang String.length]. rewrite Ascii.eqb_refl. split; [exact IH1 | lia].
Qed.

Lemma contains_banged k n : contains "cut" (banged k n) = contains "cut" n.
Proof. induction k as [| k IH]; [reflexivity |]. cbn [banged append contains]. rewrite IH. reflexivity. Qed.

Lemma prefix_spec a : forall s, String.prefix a s = true <-> exists q, s = (a ++ q)%string.
Proof.
  induction a as [| c a IH]; intros s; [split; [intros _; now exists s | intros _; now destruct s] |].
  destruct s as [| c' s]; cbn [String.prefix].
  - split; [discriminate | intros [q C]; discriminate C].
  - destruct (ascii_dec c c') as [<- | N].
    + rewrite IH. split; intros [q E]; exists q; cbn [append] in *; congruence.
    + split; [discriminate | intros [q E]; cbn [append] in E; congruence].
Qed.

Lemma contains_spec a s : contains a s = true <-> is_substring a s.
Proof.
  unfold is_substring. induction s as [| c s IH]; cbn [contains].
  - rewrite orb_false_r, prefix_spec. split.
    + intros [q E]. now exists EmptyString, q.
    + intros (p & q & E). destruct p; [now exists q | discriminate E].
  - rewrite orb_true_iff, prefix_spec, IH. split.
    + intros [[q E] | (p & q & E)]; [now exists EmptyString, q | exists (String c p), q; cbn [append]; congruence].
    + intros (p & q & E). destruct p as [| c' p]; [left; now exists q | right].
      injection E as <- E. now exists p, q.
Qed.

Lemma craft_ok {V : Type} neg (b : book V) h look n : agrees b h -> bget b n <> None ->
  craft neg b look n = meaning look h n.
Proof.
  intros (A1 & A2 & A3) H. unfold craft. specialize (A1 look n). specialize (A3 n H).
  destruct (bget b n) as [r |] eqn:E; [| congruence].
  destruct (contains "cut" n); [| exact A1]. unfold craft_cut. rewrite lstrip_plain by exact A3.
  rewrite E, Nat.sub_diag. exact A1.
Qed.

Lemma get_attr_ok {V : Type} neg (b : book V) h look n : agrees b h -> get_attr neg b look n = meaning look h n.
Proof.
  intros A. unfold get_attr. destruct (bget b n) eqn:E; [apply craft_ok; [exact A | congruence] |].
  destruct A as (A1 & _). specialize (A1 look n). now rewrite E in A1.
Qed.

Lemma craft_banged {V : Type} neg (b : book V) h look n k : agrees b h -> bget b n <> None -> is_substring "cut" n ->
  craft neg b look (banged k n) = if Nat.even k then meaning look h n else option_map neg (meaning look h n).
Proof.
  intros (A1 & A2 & A3) H C. unfold craft. rewrite contains_banged.
  rewrite (proj2 (contains_spec _ _) C). unfold craft_cut.
  destruct (lstrip_banged k n (A3 n H)) as [-> ->]. replace (k + String.length n - String.length n)%nat with k by lia.
  specialize (A1 look n). destruct (bget b n) as [r |] eqn:E; [| congruence]. now rewrite A1.
Qed.

Lemma craft_banged_other {V : Type} neg (b : book V) h look n k : agrees b h -> ~ is_substring "cut" n -> (0 < k)%nat ->
  craft neg b look (banged k n) = None.
Proof.
  intros (A1 & A2 & A3) C K. unfold craft. rewrite contains_banged.
  destruct (contains "cut" n) eqn:E; [exfalso; now apply C, contains_spec |].
  destruct (bget b (banged k n)) eqn:B; [| reflexivity]. exfalso.
  assert (P : bget b (banged k n) <> None) by congruence. apply A3 in P.
  destruct k; [lia |]. cbn [banged] in P.
  assert (P' : String.prefix "!" ("!" ++ banged k n) = true) by (apply prefix_bang; now exists (banged k n)). congruence.
Qed.

(** ** Definitions none of which hides another *)

Lemma meaning_later {V : Type} look (h h' : list (entry V)) n : ~ In n (map (fun e => fst (fst e)) h') ->
  meaning look (h' ++ h) n = meaning look h n.
Proof.
  induction h' as [| [[k f] l] h' IH]; intros N; [reflexivity |]. cbn [app meaning].
  cbn [map fst In] in N. destruct (String.eqb_spec n k) as [-> | M]; [exfalso; apply N; now left |].
  apply IH. tauto.
Qed.

Lemma adds_app {V : Type} bases : forall (ds es : list (def V)) b,
  adds bases b (ds ++ es) = match adds bases b ds with Some b' => adds bases b' es | None => None end.
Proof.
  induction ds as [| d ds IH]; intros es b; [reflexivity |]. cbn [app adds].
  destruct (add bases b (d_name d) (d_fn d) (d_ings d) (d_over d)) as [[b1 r] |]; [apply IH | reflexivity].
Qed.

Lemma names_of {V : Type} (ds : list (def V)) : map (fun e => fst (fst e)) (rev (map entry_of ds)) = rev (map d_name ds).
Proof. rewrite map_rev, map_map. reflexivity. Qed.

Lemma late {V : Type} bases (ds : list (def V)) b look d : Forall proper ds -> adds bases [] ds = Some b ->
  NoDup (map d_name ds) -> (forall n, In n (map d_name ds) -> ~ In n bases) -> In d ds ->
  meaning look (rev (map entry_of ds)) (d_name d) =
  match sequence (map (meaning look (rev (map entry_of ds))) (asked d)) with
  | Some args => call (d_fn d) args
  | None => None
  end.
Proof.
  intros P H ND NB Hd. apply in_split in Hd. destruct Hd as (l1 & l2 & ->).
  rewrite adds_app in H. destruct (adds bases [] l1) as [b1 |] eqn:H1; [| discriminate H].
  cbn [adds] in H. destruct (add bases b1 (d_name d) (d_fn d) (d_ings d) (d_over d)) as [[b2 r] |] eqn:H2; [| discriminate H].
  apply Forall_app in P. destruct P as [P1 P2]. inversion P2 as [| ? ? Pd P3]; subst.
  assert (A := agrees_adds bases l1 [] [] b1 P1 agrees_nil H1). rewrite app_nil_r in A.
  destruct (add_inv _ _ _ _ _ Pd H2) as (_ & _ & K & _).
  set (h1 := rev (map entry_of l1)) in *.
  assert (E : rev (map entry_of (l1 ++ d :: l2)) = rev (map entry_of l2) ++ entry_of d :: h1).
  { rewrite map_app, rev_app_distr. cbn [map rev]. rewrite <- app_assoc. reflexivity. }
  rewrite E. rewrite map_app in ND, NB. cbn [map] in ND, NB.
  assert (N2 : ~ In (d_name d) (map d_name l2)).
  { apply NoDup_remove_2 in ND. intros C. apply ND, in_or_app. now right. }
  rewrite meaning_later by (rewrite names_of, <- in_rev; exact N2).
  cbn [meaning entry_of]. rewrite String.eqb_refl.
  replace (map (meaning look (rev (map entry_of l2) ++ entry_of d :: h1)) (asked d))
    with (map (meaning look h1) (asked d)); [reflexivity |].
  apply map_ext_in. intros i Hi. symmetry. destruct (K i Hi) as [KB | KD].
  - (* a base ingredient is never defined *)
    assert (NI : ~ In i (map d_name l1 ++ d_name d :: map d_name l2)) by (intros C; exact (NB i C KB)).
    rewrite meaning_later; [cbn [meaning entry_of]; destruct (String.eqb_spec i (d_name d)) as [-> | _]; [| reflexivity] |].
    + exfalso. apply NI, in_or_app. right. now left.
    + rewrite names_of, <- in_rev. intros C. apply NI, in_or_app. right. now right.
  - destruct A as (_ & A2 & _). apply A2 in KD. unfold h1 in KD. rewrite names_of, <- in_rev in KD.
    assert (N3 : ~ In i (d_name d :: map d_name l2)).
    { intros C. clear - ND KD C. induction (map d_name l1) as [| x l IH]; [contradiction |].
      cbn [app] in ND. inversion ND as [| ? ? N1 N2]; subst. destruct KD as [<- | KD]; [apply N1, in_or_app; now right |].
      exact (IH N2 KD). }
    rewrite meaning_later; [cbn [meaning entry_of]; destruct (String.eqb_spec i (d_name d)) as [-> | _]; [| reflexivity] |].
    + exfalso. apply N3. now left.
    + rewrite names_of, <- in_rev. intros C. apply N3. now right.
Qed.

(** ** Selection *)

Lemma bool_index_length {A : Type} : forall (r : list A) g t, bool_index r g = Some t -> (length t <= length r)%nat.
Proof.
  induction r as [| x r IH]; intros [| c g] t H; cbn [bool_index] in H; try discriminate H.
  - injection H as <-. reflexivity.
  - destruct (bool_index r g) as [t' |] eqn:E; [| discriminate H]. injection H as <-. apply IH in E.
    destruct c; cbn [length]; lia.
Qed.

Lemma index_slice_length {A : Type} cut (off : list A) s t : index_slice cut off s = Some t -> (length t <= snd s - fst s)%nat.
Proof.
  unfold index_slice. destruct (cut (take_slice off s)) as [g |]; [| discriminate]. intros H.
  apply bool_index_length in H. unfold take_slice in H. rewrite firstn_length in H. lia.
Qed.

Definition total (inds : list (nat * nat)) : nat := list_sum (map (fun s => snd s - fst s)%nat inds).

Lemma fill_ok {A : Type} cut (off : list A) : forall inds (arr : list A) hi,
  (hi + total inds <= length arr)%nat ->
  fill cut off inds arr hi =
  option_map (fun l => firstn hi arr ++ concat l) (sequence (map (index_slice cut off) inds)).
Proof.
  induction inds as [| s inds IH]; intros arr hi H; cbn [fill map sequence].
  - cbn. now rewrite app_nil_r.
  - destruct (index_slice cut off s) as [tmp |] eqn:E; [| reflexivity].
    assert (L := index_slice_length _ _ _ _ E).
    unfold total in H. cbn [map list_sum fold_right] in H. fold (list_sum (map (fun s => (snd s - fst s)%nat) inds)) in H. fold (total inds) in H.
    unfold assign. replace (Nat.min (hi + length tmp) (length arr) - hi)%nat with (length tmp) by lia.
    rewrite Nat.eqb_refl. rewrite IH.
    + destruct (sequence (map (index_slice cut off) inds)) as [l |]; [| reflexivity]. cbn [option_map concat]. f_equal.
      rewrite firstn_app, firstn_length. replace (Nat.min hi (length arr)) with hi by lia.
      replace (hi + length tmp - hi)%nat with (length tmp) by lia.
      rewrite (firstn_all2 (firstn hi arr)) by (rewrite firstn_length; lia).
      rewrite firstn_app, firstn_all, Nat.sub_diag. cbn [firstn]. rewrite app_nil_r, <- app_assoc. reflexivity.
    + rewrite !app_length, firstn_length, skipn_length. lia.
Qed.

Lemma sum_ok inds : Forall (fun s => (fst s <= snd s)%nat) inds ->
  fold_right (fun s acc => (Z.of_nat (snd s) - Z.of_nat (fst s) + acc)%Z) 0%Z inds = Z.of_nat (total inds).
Proof.
  induction 1 as [| s inds H F IH]; [reflexivity |]. unfold total in *. cbn [fold_right map list_sum].
  fold (list_sum (map (fun s => (snd s - fst s)%nat) inds)). rewrite IH. lia.
Qed.

Lemma index_list_ok {A : Type} zero cut (off : list A) inds : inds <> [] -> Forall (fun s => (fst s <= snd s)%nat) inds ->
  index_list zero cut off inds = option_map (@concat A) (sequence (map (index_slice cut off) inds)).
Proof.
  intros NE F. unfold index_list. rewrite (sum_ok inds F). destruct inds as [| s inds]; [congruence |].
  replace (Z.of_nat (total (s :: inds)) <? 0)%Z with false by (symmetry; apply Z.ltb_ge; lia).
  rewrite Nat2Z.id, fill_ok by (rewrite repeat_length; lia). reflexivity.
Qed.

Lemma bool_index_map {A : Type} (p : A -> bool) r : bool_index r (map p r) = Some (filter p r).
Proof. induction r as [| x r IH]; [reflexivity |]. cbn [map bool_index filter]. rewrite IH. now destruct (p x). Qed.

Lemma sequence_some {A B : Type} (f : A -> B) l : sequence (map (fun x => Some (f x)) l) = Some (map f l).
Proof. induction l as [| x l IH]; [reflexivity |]. cbn [map sequence]. now rewrite IH. Qed.

Lemma take_slice_spec {A : Type} (zero : A) off s : take_slice off s = in_slice zero off s.
Proof.
  unfold take_slice, in_slice. destruct s as [a b]. cbn [fst snd].
  apply nth_ext with (d := zero) (d' := zero).
  - rewrite firstn_length, skipn_length, map_length, seq_length. lia.
  - intros i Hi. rewrite firstn_length, skipn_length in Hi.
    rewrite nth_indep with (l := map _ _) (d' := nth 0 off zero) by (rewrite map_length, seq_length; lia).
    rewrite (map_nth (fun j => nth j off zero)), seq_nth by lia.
    assert (F : nth i (firstn (b - a) (skipn a off)) zero = nth i (skipn a off) zero).
    { rewrite <- (firstn_skipn (b - a) (skipn a off)) at 2. rewrite app_nth1; [reflexivity |].
      rewrite firstn_length, skipn_length. lia. }
    rewrite F.
    rewrite <- (firstn_skipn a off) at 2. rewrite app_nth2; rewrite firstn_length; [| lia]. f_equal. lia.
Qed.

Lemma index_slice_pointwise {A : Type} (zero : A) p off s :
  index_slice (fun r => Some (map p r)) off s = Some (filter p (in_slice zero off s)).
Proof. unfold index_slice. now rewrite bool_index_map, (take_slice_spec zero). Qed.

Lemma index_list_pointwise {A : Type} (zero : A) p off inds : inds <> [] -> Forall (fun s => (fst s <= snd s)%nat) inds ->
  index_list zero (fun r => Some (map p r)) off inds = Some (filter p (flat_map (in_slice zero off) inds)).
Proof.
  intros NE F. rewrite index_list_ok by assumption.
  rewrite (map_ext _ _ (index_slice_pointwise zero p off)).
  rewrite (sequence_some (fun s => filter p (in_slice zero off s))). cbn [option_map]. f_equal.
  clear. induction inds as [| s inds IH]; [reflexivity |]. cbn [map concat flat_map]. rewrite filter_app. now f_equal.
Qed.

(** ** Records of states *)

Lemma added_ok ok alias a n : forall labels inds, StronglySorted le inds -> Forall (fun i => (i <= n)%nat) inds ->
  Forall (fun s => (fst s <= snd s <= n)%nat) (added ok alias a labels inds n).
Proof.
  induction labels as [| x ls IH]; intros [| i js] S F; cbn [added]; try constructor.
  apply nat_sorted_cons in S. destruct S as [S1 S2]. inversion F as [| ? ? F1 F2]; subst.
  apply Forall_app. split; [| now apply IH].
  destruct (ok x && beq (alias x) a); [| constructor]. constructor; [| constructor]. cbn [fst snd].
  destruct js as [| j js]; [lia |]. inversion S1; inversion F2; subst. lia.
Qed.

Lemma added_some ok alias a n : forall labels inds y, length labels = length inds -> In y labels -> ok y = true -> alias y = a ->
  added ok alias a labels inds n <> [].
Proof.
  induction labels as [| x ls IH]; intros [| i js] y L H O E; cbn [added]; try discriminate L; [destruct H |].
  destruct H as [<- | H].
  - rewrite O, E, beq_refl. discriminate.
  - intros C. apply app_eq_nil in C. destruct C as [_ C]. revert C. now apply (IH js y); [cbn in L; lia | | |].
Qed.

Lemma slices_sget d a : slices d a <> [] -> sget d a <> None.
Proof. unfold slices. now destruct (sget d a). Qed.

Lemma states_indices_ok d : forall states, (forall a, In a states -> sget d a <> None) ->
  states_indices d states = Some (flat_map (slices d) states).
Proof.
  induction states as [| a t IH]; intros H; [reflexivity |]. cbn [states_indices flat_map].
  rewrite IH by (intros b Hb; apply H; now right). assert (E := H a (or_introl eq_refl)).
  unfold slices at 2. destruct (sget d a) as [[s | l] |]; [reflexivity | reflexivity | congruence].
Qed.

Lemma in_slice_indices {A : Type} (zero : A) (off : list A) l : Forall (fun s => (fst s <= snd s <= length off)%nat) l ->
  flat_map (in_slice zero off) l = map (fun j => nth j off zero) (flat_map (fun s => seq (fst s) (snd s - fst s)) l).
Proof.
  induction 1 as [| s l H F IH]; [reflexivity |]. cbn [flat_map]. rewrite map_app, <- IH. f_equal.
  unfold in_slice. repeat f_equal. lia.
Qed.

Lemma records_of_states {A : Type} (zero : A) p (off : list A) rnd alias f ts xs ex us states : state_file f ts xs ->
  nondecreasing (map rnd ts) -> nondecreasing (map rnd us) -> length off = length us ->
  states <> [] -> (forall a, In a states -> exists x, In x xs /\ ~ is_excluded ex xs x /\ alias x = a) ->
  exists e d js, esf_parse rnd f (esf_init ex) = Some e /\ calc_states rnd alias e us [] 0 0 = Some d /\
    (forall a, kept (fun j => in_state alias (is_excluded ex xs) (map rnd ts) xs (rnd (nth j us 0%Z)) a)
                    (seq 0 (length us)) (js a)) /\
    records_of zero (fun r => Some (map p r)) off d states
    = Some (filter p (map (fun j => nth j off zero) (flat_map js states))).
Proof.
  intros SF Nt Nu Lo NE HS. destruct (partition rnd alias f ts xs ex us SF Nt Nu) as (e & d & He & Hd & K).
  exists e, d, (indices d). split; [exact He |]. split; [exact Hd |]. split; [exact K |].
  rewrite (parse_file rnd ex f ts xs SF) in He. injection He as <-.
  destruct (state_file_lengths _ _ _ SF) as (Lx & NX & _).
  rewrite calc_fresh in Hd by (cbn [parsed nanos allLabels]; now rewrite map_length).
  cbn [parsed nanos allLabels unaliased] in Hd. injection Hd as Hd.
  set (ok := fun x => mem x (apply_excludes (resolve ex xs) [] xs)) in Hd.
  assert (SL : forall a, slices d a = added ok alias a xs (inds_of rnd us (map rnd ts)) (length us)).
  { intros a. rewrite <- Hd, slices_all. reflexivity. }
  assert (W : forall a, Forall (fun s => (fst s <= snd s <= length off)%nat) (slices d a)).
  { intros a. rewrite SL, Lo. apply added_ok; [now apply inds_sorted |].
    apply Forall_forall. intros i Hi. unfold inds_of in Hi. apply in_map_iff in Hi. destruct Hi as (t & <- & _).
    apply searchsorted_le. }
  assert (G : forall a, In a states -> slices d a <> []).
  { intros a Ha. destruct (HS a Ha) as (x & Hx & Ox & Ex). rewrite SL.
    apply (added_some ok alias a (length us) xs _ x); [unfold inds_of; rewrite !map_length; lia | exact Hx | | exact Ex].
    apply (unaliased_ok ex xs x Hx), Ox. }
  unfold records_of. destruct states as [| a0 st]; [congruence |].
  rewrite states_indices_ok by (intros a Ha; apply slices_sget, G, Ha).
  assert (FW : Forall (fun s => (fst s <= snd s <= length off)%nat) (flat_map (slices d) (a0 :: st))).
  { apply Forall_forall. intros s Hs. apply in_flat_map in Hs. destruct Hs as (a & _ & Hs).
    exact (proj1 (Forall_forall _ _) (W a) s Hs). }
  rewrite (index_list_pointwise zero).
  - rewrite in_slice_indices by exact FW. do 3 f_equal. unfold indices.
    clear. induction (a0 :: st) as [| a l IH]; [reflexivity |]. cbn [flat_map]. rewrite flat_map_app. now f_equal.
  - cbn [flat_map]. intros C. apply app_eq_nil in C. exact (G a0 (or_introl eq_refl) (proj1 C)).
  - eapply Forall_impl; [| exact FW]. cbn. lia.
Qed.
