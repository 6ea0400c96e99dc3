From Coq Require Import ZArith Ascii String Bool Lia Sorted Permutation List.
From Verif Require Import LjhModel LjhSpec LjhProofs LjhEdit NameModel NameSpec Kept.
Import ListNotations.
Open Scope Z_scope.

Ltac ands := repeat match goal with |- _ /\ _ => split end.

Lemma is_digit_spec c : is_digit c = true <-> 48 <= c <= 57.
Proof. unfold is_digit. rewrite andb_true_iff, !Z.leb_le. lia. Qed.

Lemma starts_spec p : forall l, starts p l = true <-> exists r, l = p ++ r.
Proof.
  induction p as [|x p IH]; intros l; cbn [starts].
  - split; [exists l; reflexivity | reflexivity].
  - destruct l as [|y l].
    + split; [discriminate | intros [r R]; discriminate R].
    + rewrite andb_true_iff, Z.eqb_eq, IH. cbn [app]. split.
      * intros [-> [r ->]]. exists r. reflexivity.
      * intros [r R]. injection R as -> ->. split; [reflexivity | exists r; reflexivity].
Qed.

Lemma span_spec l : exists r, l = span_digits l ++ r /\ all_digits (span_digits l) /\
  (forall d s, r = d :: s -> ~ 48 <= d <= 57).
Proof.
  induction l as [|c t [r (E & A & N)]]; cbn [span_digits].
  - exists []. repeat split; try (intros d s H; discriminate H); contradiction.
  - destruct (is_digit c) eqn:D.
    + exists r. split; [cbn [app]; now rewrite <- E|]. split; [|exact N].
      intros x [<- | H]; [now apply is_digit_spec | now apply A].
    + exists (c :: t). split; [reflexivity|]. split; [intros x []|].
      intros d s H. injection H as <- <-. rewrite <- is_digit_spec, D. discriminate.
Qed.

Lemma span_app ds rest : all_digits ds -> (forall d s, rest = d :: s -> ~ 48 <= d <= 57) ->
  span_digits (ds ++ rest) = ds.
Proof.
  intros A N. induction ds as [|d ds IH]; cbn [app span_digits].
  - destruct rest as [|c r]; [reflexivity|]. cbn [span_digits].
    specialize (N c r eq_refl). rewrite <- is_digit_spec in N.
    destruct (is_digit c); [exfalso; now apply N | reflexivity].
  - assert (D : is_digit d = true) by (apply is_digit_spec, A; now left).
    rewrite D, IH; [reflexivity|]. intros x H. apply A. now right.
Qed.

Lemma match_some l ds : match_here l = Some ds <->
  exists rest, l = bs "_chan" ++ ds ++ rest /\ ds <> [] /\ all_digits ds /\
    (forall d s, rest = d :: s -> ~ 48 <= d <= 57).
Proof.
  unfold match_here. destruct (starts chan_word l) eqn:S.
  - apply starts_spec in S. destruct S as [r ->].
    change (skipn 5 (chan_word ++ r)) with r.
    destruct (span_spec r) as [rest (E & A & N)].
    split.
    + destruct (span_digits r) as [|d t] eqn:G; [discriminate|].
      intros H. injection H as <-. exists rest. split; [now rewrite <- E|]. split; [discriminate|]. split; assumption.
    + intros [rest' (E' & NE & A' & N')].
      apply app_inv_head in E'. rewrite E'. rewrite span_app by assumption.
      destruct ds; [contradiction | reflexivity].
  - split; [discriminate|]. intros [rest (E & _)].
    assert (starts chan_word l = true) by (apply starts_spec; exists (ds ++ rest); exact E). congruence.
Qed.

Lemma match_none_head c t : c <> 95 -> match_here (c :: t) = None.
Proof.
  intros N. unfold match_here.
  destruct (starts chan_word (c :: t)) eqn:S; [|reflexivity].
  apply starts_spec in S. destruct S as [r S]. cbn in S. injection S as E _. contradiction.
Qed.

Fixpoint last_match (pos : nat) (l : bytes) : option (nat * bytes) :=
  match l with
  | [] => None
  | _ :: t => match last_match (S pos) t with
              | Some m => Some m
              | None => match match_here l with Some ds => Some (pos, ds) | None => None end
              end
  end.

Lemma hd_rev {A : Type} (x : A) l :
  hd_error (rev (x :: l)) = match hd_error (rev l) with Some m => Some m | None => Some x end.
Proof. cbn [rev]. destruct (rev l) as [|y r]; reflexivity. Qed.

Lemma finditer_last l : forall skip pos,
  (forall i, (i < skip)%nat -> match_here (skipn i l) = None) ->
  hd_error (rev (finditer skip pos l)) = last_match pos l.
Proof.
  induction l as [|c t IH]; intros skip pos H; [reflexivity|].
  cbn [finditer last_match]. destruct skip as [|k].
  - destruct (match_here (c :: t)) as [ds|] eqn:M.
    + rewrite hd_rev. rewrite IH; [destruct (last_match (S pos) t); reflexivity|].
      intros i I. apply match_some in M. destruct M as [rest (E & NE & A & N)].
      cbn in E. injection E as -> ->.
      assert (W : exists x r, skipn i (99 :: 104 :: 97 :: 110 :: ds ++ rest) = x :: r /\ x <> 95).
      { destruct i as [|[|[|[|i]]]]; cbn [skipn]; try (do 2 eexists; split; [reflexivity | discriminate]).
        assert (I' : (i < length ds)%nat) by (cbn in I; lia). 
        rewrite skipn_app. replace (i - length ds)%nat with 0%nat by lia.
        rewrite (skipn_cons_nth 0) by exact I'. cbn [app]. do 2 eexists. split; [reflexivity|].
        specialize (A (nth i ds 0) (nth_In _ _ I')). lia. }
      destruct W as [x [r (-> & X)]]. now apply match_none_head.
    + rewrite IH; [destruct (last_match (S pos) t); reflexivity|]. intros i I. lia.
  - rewrite IH.
    + assert (M : match_here (c :: t) = None) by (apply (H 0%nat); lia). rewrite M.
      destruct (last_match (S pos) t); reflexivity.
    + intros i I. apply (H (S i)). lia.
Qed.

Lemma mentions_cons c l : mentions_channel (c :: l) <->
  mentions_channel l \/ match_here (c :: l) <> None.
Proof.
  split.
  - intros [a [d [b (E & D)]]]. destruct a as [|x a].
    + right. destruct (span_spec b) as [r (B & A & N)].
      assert (M : match_here (c :: l) = Some (d :: span_digits b)).
      { apply match_some. exists r. split; [|split; [discriminate | split; [|exact N]]].
        - rewrite E. cbn [app]. now rewrite <- B.
        - intros x [<- | X]; [exact D | now apply A]. }
      rewrite M. discriminate.
    + left. injection E as -> ->. exists a, d, b. split; [reflexivity | exact D].
  - intros [[a [d [b (-> & D)]]] | M].
    + exists (c :: a), d, b. split; [reflexivity | exact D].
    + destruct (match_here (c :: l)) as [ds|] eqn:E; [|contradiction].
      apply match_some in E. destruct E as [rest (E & NE & A & N)].
      destruct ds as [|d ds]; [contradiction|].
      exists [], d, (ds ++ rest). split; [exact E | apply A; now left].
Qed.

Lemma mentions_nil : ~ mentions_channel [].
Proof. intros [a [d [b (E & _)]]]. destruct a; discriminate E. Qed.

(** A match in [ds ++ rest] lies in [rest]. *)
Lemma mentions_after ds rest : (forall x, In x ds -> x <> 95) ->
  (mentions_channel (ds ++ rest) <-> mentions_channel rest).
Proof.
  intros A. induction ds as [|d ds IH]; [reflexivity|]. cbn [app].
  rewrite mentions_cons, IH by (intros x X; apply A; now right).
  rewrite match_none_head by (apply A; now left). tauto.
Qed.

Lemma tail_chan_digits ds : all_digits ds -> forall x, In x (99 :: 104 :: 97 :: 110 :: ds) -> x <> 95.
Proof.
  intros A x X. repeat destruct X as [<- | X]; try discriminate. specialize (A _ X). lia.
Qed.

Lemma last_match_some l : forall pos s ds, last_match pos l = Some (s, ds) ->
  exists a rest, l = a ++ bs "_chan" ++ ds ++ rest /\ s = (pos + length a)%nat /\ ds <> [] /\ all_digits ds /\
    (forall d r, rest = d :: r -> ~ 48 <= d <= 57) /\ ~ mentions_channel rest.
Proof.
  assert (N : forall t pos, last_match pos t = None -> ~ mentions_channel t).
  { induction t as [|c t IH]; intros pos H; [exact mentions_nil|]. cbn [last_match] in H.
    destruct (last_match (S pos) t) eqn:L; [discriminate|]. 
    destruct (match_here (c :: t)) eqn:M; [discriminate|].
    rewrite mentions_cons, M. intros [X | X]; [exact (IH _ L X) | now apply X]. }
  induction l as [|c t IH]; intros pos s ds H; [discriminate H|]. cbn [last_match] in H.
  destruct (last_match (S pos) t) as [[s' ds']|] eqn:L.
  - injection H as -> ->. destruct (IH _ _ _ L) as [a [rest (-> & -> & R)]].
    exists (c :: a), rest. split; [reflexivity|]. split; [cbn [length]; lia | exact R].
  - destruct (match_here (c :: t)) as [ds'|] eqn:M; [|discriminate]. injection H as <- <-.
    apply match_some in M. destruct M as [rest (E & NE & A & R)].
    exists [], rest. split; [exact E|]. split; [cbn [length]; lia|]. do 3 (split; [assumption|]).
    apply N in L. cbn in E. injection E as -> ->.
    intros X. apply L. apply (mentions_after (99 :: 104 :: 97 :: 110 :: ds') rest); [now apply tail_chan_digits | exact X].
Qed.

Lemma last_match_none l : forall pos, last_match pos l = None <-> ~ mentions_channel l.
Proof.
  induction l as [|c t IH]; intros pos; cbn [last_match].
  - split; [intros _; exact mentions_nil | reflexivity].
  - rewrite mentions_cons. specialize (IH (S pos)).
    destruct (last_match (S pos) t) as [[s ds]|] eqn:L.
    + split; [discriminate|]. intros H. exfalso. apply H. left.
      apply last_match_some in L. destruct L as [a [rest (-> & _ & NE & A & _)]].
      destruct ds as [|d ds]; [contradiction|]. exists a, d, (ds ++ rest).
      split; [reflexivity | apply A; now left].
    + destruct (match_here (c :: t)) as [ds|] eqn:M.
      * split; [discriminate|]. intros H. exfalso. apply H. right. discriminate.
      * split; [|reflexivity]. intros _ [X | X]; [now apply IH | now apply X].
Qed.

Lemma last_match_complete a ds rest : forall pos, ds <> [] -> all_digits ds ->
  (forall d r, rest = d :: r -> ~ 48 <= d <= 57) -> ~ mentions_channel rest ->
  last_match pos (a ++ bs "_chan" ++ ds ++ rest) = Some ((pos + length a)%nat, ds).
Proof.
  intros pos NE A N R. revert pos. induction a as [|c a IH]; intros pos.
  - assert (M : match_here (bs "_chan" ++ ds ++ rest) = Some ds).
    { apply match_some. exists rest. ands; assumption || reflexivity. }
    cbn [app] in M |- *. cbn [last_match]. 
    change (match last_match (S pos) ((99 :: 104 :: 97 :: 110 :: ds) ++ rest) with
            | Some m => Some m
            | None => match match_here (bs "_chan" ++ ds ++ rest) with Some d => Some (pos, d) | None => None end
            end = Some ((pos + length (@nil Z))%nat, ds)).
    assert (L : last_match (S pos) ((99 :: 104 :: 97 :: 110 :: ds) ++ rest) = None).
    { apply last_match_none. rewrite mentions_after by now apply tail_chan_digits. exact R. }
    rewrite L. change (bs "_chan" ++ ds ++ rest) with (bs "_chan" ++ ds ++ rest) in M.
    rewrite M. cbn [length]. now rewrite Nat.add_0_r.
  - cbn [app last_match]. rewrite IH. cbn [length]. do 2 f_equal. lia.
Qed.

Lemma digits_decimal l : forall acc, all_digits l ->
  digits acc l = Some (acc * 10 ^ Z.of_nat (length l) + decimal l).
Proof.
  induction l as [|d t IH]; intros acc A; cbn [digits decimal length].
  - f_equal. cbn. lia.
  - assert (D : is_digit d = true) by (apply is_digit_spec, A; now left).
    rewrite D, IH by (intros x X; apply A; now right). f_equal.
    rewrite Nat2Z.inj_succ, Z.pow_succ_r by lia. ring.
Qed.

Lemma basename_eq f : basename_channum f =
  match last_match 0 f with
  | None => (fst (splitext f), None)
  | Some (s, ds) => (firstn s f, digits 0 ds)
  end.
Proof.
  unfold basename_channum. rewrite <- (finditer_last f 0 0) by (intros i I; lia).
  destruct (rev (finditer 0 0 f)) as [|[s ds] r]; reflexivity.
Qed.

Lemma firstn_here {A : Type} (a b : list A) : firstn (length a) (a ++ b) = a.
Proof. rewrite firstn_app, firstn_all, Nat.sub_diag. apply app_nil_r. Qed.

Lemma channum_named f base c : basename_channum f = (base, Some c) <-> named f base c.
Proof.
  rewrite basename_eq. split.
  - destruct (last_match 0 f) as [[s ds]|] eqn:L; [|intros H; discriminate H].
    apply last_match_some in L. destruct L as [a [rest (E & S & NE & A & N & R)]].
    rewrite digits_decimal by exact A. intros H. injection H as <- <-.
    exists ds, rest. split; [|ands; try assumption; cbn; lia].
    rewrite E at 1. rewrite S, E. cbn [Nat.add]. now rewrite firstn_here.
  - intros [ds [rest (-> & NE & A & D & N & R)]].
    rewrite last_match_complete by assumption. cbn [Nat.add]. rewrite firstn_here.
    rewrite digits_decimal by exact A. rewrite <- D. now rewrite Z.mul_0_l, Z.add_0_l.
Qed.

Lemma channum_none f : channum f = None <-> ~ mentions_channel f.
Proof.
  unfold channum. rewrite basename_eq, <- (last_match_none f 0).
  destruct (last_match 0 f) as [[s ds]|] eqn:L; [|cbn; split; reflexivity].
  apply last_match_some in L. destruct L as [a [rest (_ & _ & _ & A & _)]].
  rewrite digits_decimal by exact A. split; discriminate.
Qed.

(** * Generated names *)

Lemma last_index_spec x l : forall pos i, last_index x pos l = Some i ->
  exists k, i = (pos + k)%nat /\ (k < length l)%nat /\ nth k l 0 = x /\
    forall j, (k < j < length l)%nat -> nth j l 0 <> x.
Proof.
  induction l as [|c t IH]; intros pos i H; [discriminate H|]. cbn [last_index] in H.
  destruct (last_index x (S pos) t) as [i'|] eqn:L.
  - injection H as ->. destruct (IH _ _ L) as [k (-> & K & X & Z)].
    exists (S k). cbn [length nth]. ands; try lia; try assumption.
    intros [|j] J; [lia|]. apply Z. cbn [length] in J. lia.
  - destruct (c =? x) eqn:C; [|discriminate]. injection H as <-. apply Z.eqb_eq in C.
    exists 0%nat. cbn [length nth]. ands; try lia; try assumption.
    intros [|j] J; [lia|]. clear IH C. revert pos j L J. induction t as [|d t IHt]; intros pos j L J; cbn [length] in J; [lia|].
    cbn [last_index] in L. destruct (last_index x (S (S pos)) t) eqn:L'; [discriminate|].
    destruct (d =? x) eqn:D; [discriminate|]. apply Z.eqb_neq in D.
    destruct j as [|j]; [exact D|]. apply (IHt _ j L'). cbn [length]. lia.
Qed.

Lemma splitext_app l : fst (splitext l) ++ snd (splitext l) = l.
Proof.
  unfold splitext. destruct (last_index 46 0 l) as [d|]; [|apply app_nil_r].
  cbv zeta. destruct (Nat.ltb _ _); [apply app_nil_r|].
  destruct (forallb _ _); [apply app_nil_r | apply firstn_skipn].
Qed.

Lemma splitext_dot l : snd (splitext l) = [] \/ exists t, snd (splitext l) = 46 :: t.
Proof.
  unfold splitext. destruct (last_index 46 0 l) as [d|] eqn:L; [|now left].
  cbv zeta. destruct (Nat.ltb _ _); [now left|]. destruct (forallb _ _); [now left|]. right.
  apply last_index_spec in L. destruct L as [k (-> & K & X & _)]. cbn [snd Nat.add].
  exists (skipn (S k) l). rewrite (skipn_cons_nth 0) by exact K. now rewrite X.
Qed.

Lemma decimal_str c : 0 <= c ->
  py_str c <> [] /\ all_digits (py_str c) /\ decimal (py_str c) = c.
Proof.
  intros C. assert (I := py_int_str c).
  assert (A : all_digits (py_str c)).
  { unfold py_str. destruct c as [|p|p]; [| |lia]; cbn [Z.to_int].
    - intros x [<- | []]. lia.
    - intros x X. apply is_digit_spec. now apply (proj1 (Forall_forall _ _) (of_uint_digit (Pos.to_uint p))). }
  assert (S : strip (py_str c) = py_str c).
  { apply stripped_strip, not_space_stripped, Forall_forall. intros x X. apply digit_not_space, is_digit_spec, A, X. }
  unfold py_int in I. rewrite S in I. destruct (py_str c) as [|d t] eqn:E; [discriminate I|].
  split; [discriminate|]. split; [exact A|].
  assert (D : 48 <= d <= 57) by (apply A; now left).
  destruct (Z.eqb_spec d 45); [lia|]. destruct (Z.eqb_spec d 43); [lia|].
  unfold unsigned_int in I. rewrite (proj2 (is_digit_spec d) D), digits_decimal in I by exact A.
  injection I as I. exact I.
Qed.

Lemma generated fname chans k : (k < length chans)%nat -> 0 <= nth k chans 0 ->
  ~ mentions_channel (snd (splitext fname)) ->
  basename_channum (nth k (chan_names fname chans) []) = (fst (basename_channum fname), Some (nth k chans 0)).
Proof.
  intros K C M. unfold chan_names.
  set (g := fun c => _). rewrite (nth_indep _ _ (g 0)) by (rewrite map_length; exact K).
  rewrite map_nth. unfold g. apply channum_named.
  destruct (decimal_str _ C) as (NE & A & D).
  exists (py_str (nth k chans 0)), (snd (splitext fname)). ands; try assumption; try reflexivity.
  intros d r E. destruct (splitext_dot fname) as [Z | [t Z]]; rewrite Z in E; [discriminate E|].
  injection E as <- _. lia.
Qed.

Lemma word_no_head a b : ~ contains_chan a -> a <> [] ->
  starts chan_word (a ++ bs "_chan" ++ b) = false.
Proof.
  intros N NE. destruct (starts chan_word _) eqn:S; [|reflexivity]. exfalso.
  apply starts_spec in S. destruct S as [r S].
  change chan_word with (bs "_chan") in S. cbn [bs N_of_ascii N_of_digits Z.of_N] in S.
  destruct a as [|a0 [|a1 [|a2 [|a3 [|a4 a]]]]]; [contradiction| | | | |]; cbn in S;
    try (injection S; intros; discriminate).
  injection S as -> -> -> -> -> _. apply N. exists [], a. reflexivity.
Qed.

Lemma after_first a b : ~ contains_chan a -> after_word (a ++ bs "_chan" ++ b) = Some b.
Proof.
  intros N. induction a as [|c a IH].
  - reflexivity.
  - assert (W := word_no_head (c :: a) b N ltac:(discriminate)).
    cbn [app] in W |- *. unfold after_word; fold after_word. rewrite W. apply IH.
    intros [p [q ->]]. apply N. exists (c :: p), q. reflexivity.
Qed.

Lemma before_word_digits ds e : all_digits ds -> (e = [] \/ exists t, e = 46 :: t) ->
  before_dot (before_word (ds ++ e)) = ds.
Proof.
  intros A E. induction ds as [|d ds IH]; cbn [app].
  - destruct E as [-> | [t ->]]; reflexivity.
  - assert (D : 48 <= d <= 57) by (apply A; now left).
    cbn [before_word]. assert (S : starts chan_word (d :: ds ++ e) = false).
    { destruct (starts chan_word _) eqn:S; [|reflexivity]. apply starts_spec in S. destruct S as [r S]. cbn in S.
      injection S as S _. lia. }
    rewrite S. cbn [before_dot]. destruct (Z.eqb_spec d 46); [lia|]. rewrite IH; [reflexivity|].
    intros x X. apply A. now right.
Qed.

Lemma ljhfile_generated fname chans k : (k < length chans)%nat -> 0 <= nth k chans 0 ->
  ~ contains_chan (fst (basename_channum fname)) ->
  ljhfile_channum (nth k (chan_names fname chans) []) = Some (nth k chans 0).
Proof.
  intros K C N. unfold chan_names.
  set (g := fun c => _). rewrite (nth_indep _ _ (g 0)) by (rewrite map_length; exact K).
  rewrite map_nth. unfold g, ljhfile_channum.
  change chan_word with (bs "_chan"). rewrite after_first by exact N.
  destruct (decimal_str _ C) as (_ & A & _).
  rewrite before_word_digits by (exact A || apply splitext_dot). apply py_int_str.
Qed.

(** * Pairing *)

Lemma ceq_spec a b : reflect (a = b) (ceq a b).
Proof.
  destruct a as [x|], b as [y|]; cbn [ceq]; try (constructor; congruence).
  destruct (Z.eqb_spec x y); constructor; congruence.
Qed.

Lemma cmem_spec c l : reflect (In c l) (cmem c l).
Proof.
  apply iff_reflect. unfold cmem. rewrite existsb_exists. split.
  - intros H. exists c. split; [exact H|]. destruct (ceq_spec c c); congruence.
  - intros [x (X & E)]. destruct (ceq_spec c x); congruence.
Qed.

Lemma dedup_in c l : In c (dedup l) <-> In c l.
Proof.
  induction l as [|d t IH]; [reflexivity|]. cbn [dedup In]. rewrite filter_In, IH.
  destruct (ceq_spec d c) as [->|N]; [tauto|].
  destruct (ceq_spec c d) as [->|M]; [tauto|]. tauto.
Qed.

Lemma dedup_nodup l : NoDup (dedup l).
Proof.
  induction l as [|d t IH]; cbn [dedup]; constructor.
  - rewrite filter_In. intros [_ H]. destruct (ceq_spec d d); [discriminate H | congruence].
  - now apply NoDup_filter.
Qed.

Lemma name_of_some files c : In c (map channum files) -> exists f, name_of files c = Some f.
Proof.
  induction files as [|f t IH]; [intros []|]. cbn [map In name_of]. intros [E | H].
  - destruct (name_of t c); [eexists; reflexivity|].
    destruct (ceq_spec (channum f) c); [eexists; reflexivity | contradiction].
  - destruct (IH H) as [g ->]. eexists. reflexivity.
Qed.

Lemma name_of_in files c f : name_of files c = Some f -> In f files /\ channum f = c.
Proof.
  induction files as [|g t IH]; [discriminate|]. cbn [name_of].
  destruct (name_of t c) as [h|].
  - intros H. injection H as ->. destruct (IH eq_refl). split; [now right | assumption].
  - destruct (ceq_spec (channum g) c); [|discriminate]. intros H. injection H as <-. split; [now left | assumption].
Qed.

Lemma remove1_some f l : In f l -> exists r, remove1 f l = Some r.
Proof.
  induction l as [|y t IH]; [intros []|]. intros H. cbn [remove1].
  destruct (beq_spec y f) as [->|N]; [eexists; reflexivity|].
  destruct H as [E | H]; [contradiction|]. destruct (IH H) as [r ->]. eexists. reflexivity.
Qed.

Lemma remove1_split f l r : remove1 f l = Some r -> exists a b, l = a ++ f :: b /\ r = a ++ b.
Proof.
  revert r. induction l as [|y t IH]; [discriminate|]. intros r. cbn [remove1].
  destruct (beq_spec y f) as [->|N].
  - intros H. injection H as <-. exists [], t. split; reflexivity.
  - destruct (remove1 f t) as [r'|]; [|discriminate]. intros H. injection H as <-.
    destruct (IH r' eq_refl) as [a [b (-> & ->)]]. exists (y :: a), b. split; reflexivity.
Qed.

(** Removing files of unwanted channels never fails and never touches a wanted file. *)
Lemma remove_all_safe (P : bytes -> Prop) all order : forall files w,
  NoDup order ->
  (forall c f, In c order -> name_of all c = Some f -> In f files /\ ~ P f) ->
  (forall c, In c order -> In c (map channum all)) ->
  kept P files w ->
  exists r, remove_all files all order = Some r /\ kept P r w /\
    (length r + length order = length files)%nat /\
    (forall f, In f r -> In f files).
Proof.
  induction order as [|c order IH]; intros files w ND H K W; cbn [remove_all].
  - exists files. ands; [reflexivity | exact W | cbn; lia | trivial].
  - destruct (name_of_some all c (K c (or_introl eq_refl))) as [f F]. rewrite F.
    destruct (H c f (or_introl eq_refl) F) as [I NP].
    destruct (remove1_some f files I) as [r R]. rewrite R.
    destruct (remove1_split _ _ _ R) as [a [b (-> & ->)]].
    inversion ND as [|c' o' NI ND']; subst.
    destruct (IH (a ++ b) w ND') as [r (E & W' & L & S)].
    + intros c' g C G. destruct (H c' g (or_intror C) G) as [I' NP']. split; [|exact NP'].
      apply in_app_or in I'. apply in_or_app. destruct I' as [I' | [<- | I']]; [now left | | now right].
      exfalso. apply name_of_in in F, G. destruct F as [_ F], G as [_ G]. apply NI. congruence.
    + intros c' C. apply K. now right.
    + now apply kept_drop with f.
    + exists r. ands; [exact E | exact W' | |].
      * rewrite app_length in L |- *. cbn [length]. lia.
      * intros g G. apply S in G. apply in_app_or in G. apply in_or_app. cbn [In]. tauto.
Qed.

Lemma valid_wanted f1 f2 nu uo c : In c (map channum f1) ->
  (is_valid f1 f2 nu uo c = true <-> wanted f2 nu uo c).
Proof.
  intros C. unfold is_valid, wanted. rewrite !andb_true_iff.
  assert (M : cmem c (keys f1) = true).
  { destruct (cmem_spec c (keys f1)) as [_|N]; [reflexivity|]. exfalso. apply N. now apply dedup_in. }
  rewrite M. 
  assert (A : (match f2 with [] => true | _ :: _ => cmem c (keys f2) end = true) <->
              (f2 = [] \/ exists g, In g f2 /\ channum g = c)).
  { destruct f2 as [|g f2]; [split; [now left | reflexivity]|].
    destruct (cmem_spec c (keys (g :: f2))) as [H|H]; unfold keys in H; rewrite dedup_in, in_map_iff in H.
    - split; [|reflexivity]. intros _. right. destruct H as [x (X & I)]. exists x. split; assumption.
    - split; [discriminate|]. intros [E | [x (X & I)]]; [discriminate E|]. exfalso. apply H. exists x. split; assumption. }
  assert (B : (match nu with Some l => negb (cmem c (map Some l)) | None => true end = true) <->
              (forall l, nu = Some l -> forall z, In z l -> c <> Some z)).
  { destruct nu as [l|]; [|split; [discriminate | reflexivity]].
    destruct (cmem_spec c (map Some l)) as [H|H]; rewrite in_map_iff in H; cbn [negb].
    - split; [discriminate|]. intros K. destruct H as [z (<- & I)]. now elim (K l eq_refl z I).
    - split; [|reflexivity]. intros _ l' E z I ->. injection E as <-. apply H. exists z. split; [reflexivity | exact I]. }
  assert (D : (match uo with Some l => cmem c (map Some l) | None => true end = true) <->
              (forall l, uo = Some l -> exists z, In z l /\ c = Some z)).
  { destruct uo as [l|]; [|split; [discriminate | reflexivity]].
    destruct (cmem_spec c (map Some l)) as [H|H]; rewrite in_map_iff in H.
    - split; [|reflexivity]. intros _ l' E. injection E as <-. destruct H as [z (<- & I)]. exists z. split; [exact I | reflexivity].
    - split; [discriminate|]. intros K. destruct (K l eq_refl) as [z (I & ->)]. exfalso. apply H. exists z. split; [reflexivity | exact I]. }
  tauto.
Qed.

Lemma valid_first f1 f2 nu uo c : is_valid f1 f2 nu uo c = true -> In c (map channum f1).
Proof.
  unfold is_valid. rewrite !andb_true_iff. intros (((H & _) & _) & _).
  destruct (cmem_spec c (keys f1)) as [I|]; [exact (proj1 (dedup_in _ _) I) | discriminate].
Qed.

(** What the two loops keep. *)
Definition keep1 (f1 f2 : list bytes) nu uo (f : bytes) : Prop := is_valid f1 f2 nu uo (channum f) = true.

Lemma loop_safe files f1 f2 nu uo order w :
  Permutation order (to_remove files f1 f2 nu uo) -> kept (keep1 f1 f2 nu uo) files w ->
  exists r, remove_all files files order = Some r /\ kept (keep1 f1 f2 nu uo) r w /\
    (length r + length order = length files)%nat /\ (forall f, In f r -> In f files).
Proof.
  intros P W. 
  assert (T : forall c, In c order -> In c (map channum files) /\ is_valid f1 f2 nu uo c = false).
  { intros c C. apply (Permutation_in _ P) in C. unfold to_remove in C. apply filter_In in C.
    destruct C as [C V]. apply (proj1 (dedup_in _ _)) in C. split; [exact C|]. now destruct (is_valid f1 f2 nu uo c). }
  apply remove_all_safe.
  - apply (Permutation_NoDup (Permutation_sym P)). apply NoDup_filter, dedup_nodup.
  - intros c f C F. apply name_of_in in F. destruct F as [I E]. split; [exact I|].
    unfold keep1. rewrite E. destruct (T c C) as [_ V]. congruence.
  - intros c C. apply T, C.
  - exact W.
Qed.

Lemma dedup_nodup_id l : NoDup l -> dedup l = l.
Proof.
  intros H. induction H as [|c l N D IH]; [reflexivity|]. cbn [dedup]. rewrite IH. f_equal.
  assert (F : forall m, ~ In c m -> filter (fun d => negb (ceq d c)) m = m).
  { induction m as [|d m IHm]; [reflexivity|]. intros M. cbn [filter].
    destruct (ceq_spec d c) as [->|_]; [exfalso; apply M; now left|]. cbn [negb]. f_equal. apply IHm.
    intros X. apply M. now right. }
  now apply F.
Qed.

Lemma kept_count (Q : option Z -> bool) (P : bytes -> Prop) files w :
  (forall f, P f <-> Q (channum f) = true) -> kept P files w ->
  (length w + length (filter (fun c => negb (Q c)) (map channum files)) = length files)%nat.
Proof.
  intros E H. induction H as [|x l r Px K IH|x l r Px K IH]; [reflexivity| |]; cbn [map filter length].
  - apply E in Px. rewrite Px. cbn [negb]. lia.
  - assert (Q (channum x) = false) as -> by (destruct (Q (channum x)) eqn:X; [exfalso; apply Px, E, X | reflexivity]).
    cbn [negb length]. lia.
Qed.

Lemma loop_exact files f1 f2 nu uo order :
  NoDup (map channum files) -> Permutation order (to_remove files f1 f2 nu uo) ->
  exists r, remove_all files files order = Some r /\ kept (keep1 f1 f2 nu uo) files r.
Proof.
  intros ND P.
  destruct (kept_exists (keep1 f1 f2 nu uo) files) as [w W].
  { intros f. unfold keep1. destruct (is_valid _ _ _ _ _); [now left | right; discriminate]. }
  destruct (loop_safe _ _ _ _ _ _ _ P W) as [r (E & K & L & _)].
  exists r. split; [exact E|].
  assert (C := kept_count (is_valid f1 f2 nu uo) _ _ _ (fun f => conj (fun x => x) (fun x => x)) W).
  apply Permutation_length in P. unfold to_remove, keys in P. rewrite dedup_nodup_id in P by exact ND.
  apply kept_full in K; [now subst|]. lia.
Qed.

Lemma keep_first f1 f2 nu uo f : In f f1 -> (keep1 f1 f2 nu uo f <-> wanted f2 nu uo (channum f)).
Proof. intros I. apply valid_wanted. now apply in_map. Qed.

Lemma keep_second f1 f2 nu uo f : In f f2 ->
  (keep1 f1 f2 nu uo f <-> (exists g, In g f1 /\ channum g = channum f) /\ wanted f2 nu uo (channum f)).
Proof.
  intros I. split.
  - intros H. assert (M := valid_first _ _ _ _ _ H). split; [|now apply (valid_wanted f1)].
    apply in_map_iff in M. destruct M as [g (E & G)]. exists g. split; assumption.
  - intros [[g (G & E)] W]. apply (valid_wanted f1); [|exact W]. rewrite <- E. now apply in_map.
Qed.

Lemma pairing f1 f2 nu uo o1 o2 : f1 <> [] -> NoDup (map channum f1) -> NoDup (map channum f2) ->
  Permutation o1 (to_remove f1 f1 f2 nu uo) -> Permutation o2 (to_remove f2 f1 f2 nu uo) ->
  exists r1 r2, remove_unpaired f1 f2 nu uo o1 o2 = Some (r1, r2) /\
    kept (fun f => wanted f2 nu uo (channum f)) f1 r1 /\
    kept (fun f => (exists g, In g f1 /\ channum g = channum f) /\ wanted f2 nu uo (channum f)) f2 r2.
Proof.
  intros NE N1 N2 P1 P2.
  destruct (loop_exact _ _ _ _ _ _ N1 P1) as [r1 (E1 & K1)].
  destruct (loop_exact _ _ _ _ _ _ N2 P2) as [r2 (E2 & K2)].
  exists r1, r2. ands.
  - unfold remove_unpaired. destruct f1; [contradiction|]. now rewrite E1, E2.
  - apply kept_ext with (2 := K1). intros f I. now apply keep_first.
  - apply kept_ext with (2 := K2). intros f I. now apply keep_second.
Qed.

Lemma pairing_safe f1 f2 nu uo o1 o2 : f1 <> [] ->
  Permutation o1 (to_remove f1 f1 f2 nu uo) -> Permutation o2 (to_remove f2 f1 f2 nu uo) ->
  exists r1 r2 w1 w2, remove_unpaired f1 f2 nu uo o1 o2 = Some (r1, r2) /\
    kept (fun f => wanted f2 nu uo (channum f)) f1 w1 /\
    kept (fun f => wanted f2 nu uo (channum f)) r1 w1 /\
    kept (fun f => (exists g, In g f1 /\ channum g = channum f) /\ wanted f2 nu uo (channum f)) f2 w2 /\
    kept (fun f => (exists g, In g f1 /\ channum g = channum f) /\ wanted f2 nu uo (channum f)) r2 w2.
Proof.
  intros NE P1 P2.
  assert (D : forall f, keep1 f1 f2 nu uo f \/ ~ keep1 f1 f2 nu uo f).
  { intros f. unfold keep1. destruct (is_valid _ _ _ _ _); [now left | right; discriminate]. }
  destruct (kept_exists _ f1 D) as [w1 W1]. destruct (kept_exists _ f2 D) as [w2 W2].
  destruct (loop_safe _ _ _ _ _ _ _ P1 W1) as [r1 (E1 & K1 & _ & S1)].
  destruct (loop_safe _ _ _ _ _ _ _ P2 W2) as [r2 (E2 & K2 & _ & S2)].
  exists r1, r2, w1, w2. ands.
  - unfold remove_unpaired. destruct f1; [contradiction|]. now rewrite E1, E2.
  - apply kept_ext with (2 := W1). intros f I. now apply keep_first.
  - apply kept_ext with (2 := K1). intros f I. apply keep_first, S1, I.
  - apply kept_ext with (2 := W2). intros f I. now apply keep_second.
  - apply kept_ext with (2 := K2). intros f I. apply keep_second, S2, I.
Qed.

(** * Sorting *)

Lemma str_le_total a : forall b, str_le a b = false -> str_le b a = true.
Proof.
  induction a as [|x a IH]; intros [|y b]; cbn [str_le]; try congruence.
  destruct (Z.ltb_spec x y), (Z.eqb_spec x y), (Z.ltb_spec y x), (Z.eqb_spec y x); cbn [orb andb]; try congruence; try lia.
  apply IH.
Qed.

Lemma str_le_trans a : forall b c, str_le a b = true -> str_le b c = true -> str_le a c = true.
Proof.
  induction a as [|x a IH]; intros [|y b] [|z c]; cbn [str_le]; try congruence.
  rewrite !orb_true_iff, !andb_true_iff, !Z.ltb_lt, !Z.eqb_eq.
  intros [H | [H H']] [K | [K K']]; try (left; lia). right. split; [lia | now apply IH with b].
Qed.

Lemma str_le_text a : forall b, str_le a b = true -> text_le a b.
Proof.
  induction a as [|x a IH]; intros b H.
  - right. left. exists b. reflexivity.
  - destruct b as [|y b]; [discriminate H|]. cbn [str_le] in H.
    rewrite orb_true_iff, andb_true_iff, Z.ltb_lt, Z.eqb_eq in H. destruct H as [H | [-> H]].
    + right. right. exists [], x, y, a, b. ands; [reflexivity | reflexivity | exact H].
    + destruct (IH b H) as [-> | [[t ->] | [p [x' [y' [a' [b' (-> & -> & L)]]]]]]].
      * now left.
      * right. left. exists t. reflexivity.
      * right. right. exists (y :: p), x', y', a', b'. ands; [reflexivity | reflexivity | exact L].
Qed.

Lemma insert_perm {A : Type} le (x : A) l : Permutation (insert le x l) (x :: l).
Proof.
  induction l as [|y t IH]; [reflexivity|]. cbn [insert]. destruct (le x y); [reflexivity|].
  rewrite IH. apply perm_swap.
Qed.

Lemma sort_perm {A : Type} (le : A -> A -> bool) l : Permutation (stable_sort le l) l.
Proof.
  induction l as [|x l IH]; [reflexivity|]. cbn [stable_sort fold_right].
  rewrite insert_perm. now constructor.
Qed.

Lemma sort_text l : StronglySorted (fun a b => str_le a b = true) (stable_sort str_le l).
Proof.
  induction l as [|x l IH]; [constructor|]. cbn [stable_sort fold_right]. fold (stable_sort str_le l).
  induction IH as [|y t S IHt F]; cbn [insert]; [repeat constructor|].
  destruct (str_le x y) eqn:E.
  - constructor; [now constructor|]. constructor; [exact E|].
    rewrite Forall_forall in F |- *. intros z Z. exact (str_le_trans _ _ _ E (F z Z)).
  - constructor; [exact IHt|]. apply Forall_forall. intros z Z.
    apply (Permutation_in _ (insert_perm _ _ _)) in Z. destruct Z as [<- | Z]; [now apply str_le_total|].
    rewrite Forall_forall in F. now apply F.
Qed.

Definition chan_le (a b : bytes) : bool :=
  match channum a, channum b with
  | Some x, Some y => x <=? y
  | _, _ => true
  end.

Lemma sort_chan l : Forall (fun f => channum f <> None) l ->
  StronglySorted (fun a b => str_le a b = true) l -> StronglySorted name_order (stable_sort chan_le l).
Proof.
  intros N S. induction S as [|x l S IH F]; [constructor|].
  inversion N as [|x' l' Nx Nl]; subst. specialize (IH Nl).
  cbn [stable_sort fold_right]. fold (stable_sort chan_le l).
  assert (F' : Forall (fun b => str_le x b = true /\ channum b <> None) (stable_sort chan_le l)).
  { rewrite Forall_forall in F, Nl |- *. intros z Z. apply (Permutation_in _ (sort_perm _ _)) in Z.
    split; [now apply F | now apply Nl]. }
  clear S F N Nl. destruct (channum x) as [cx|] eqn:CX; [|contradiction].
  induction IH as [|y t S IHt G]; cbn [insert]; [repeat constructor|].
  inversion F' as [|y' t' [Fy Ny] Ft]; subst.
  destruct (channum y) as [cy|] eqn:CY; [|contradiction].
  unfold chan_le at 1. rewrite CX, CY. destruct (Z.leb_spec cx cy) as [L|L].
  - constructor; [now constructor|]. rewrite Forall_forall in G, Ft |- *.
    intros z [<- | Z].
    + exists cx, cy. ands; try assumption. destruct (Z.eq_dec cx cy); [right; split; [assumption | now apply str_le_text] | left; lia].
    + destruct (G z Z) as [a [b (E1 & E2 & O)]]. rewrite CY in E1. injection E1 as <-.
      exists cx, b. ands; try assumption. destruct (Ft z Z) as [Fz _].
      destruct (Z.eq_dec cx b); [right; split; [assumption | now apply str_le_text] | left; lia].
  - constructor; [now apply IHt|]. rewrite Forall_forall in G |- *. intros z Z.
    apply (Permutation_in _ (insert_perm _ _ _)) in Z. destruct Z as [<- | Z]; [|now apply G].
    exists cy, cx. ands; try assumption. left. lia.
Qed.

Lemma sort_names l : l <> [] -> (forall f, In f l -> mentions_channel f) ->
  exists r s, sort_filenames l None = Some (SList r s) /\
    Permutation r l /\ StronglySorted name_order r /\ Permutation s l.
Proof.
  intros NE M.
  assert (N : forall f, In f l -> channum f <> None).
  { intros f F C. apply channum_none in C. apply C, M, F. }
  assert (B : forallb (fun f => match channum f with Some _ => true | None => false end) l = true).
  { apply forallb_forall. intros f F. specialize (N f F). now destruct (channum f). }
  assert (R : exists r s, Some (SList (stable_sort chan_le (stable_sort str_le l)) (stable_sort str_le l)) = Some (SList r s) /\
    Permutation r l /\ StronglySorted name_order r /\ Permutation s l).
  { do 2 eexists. ands; [reflexivity | | |apply sort_perm].
    - rewrite sort_perm. apply sort_perm.
    - apply sort_chan; [|apply sort_text]. apply Forall_forall. intros f F. apply N.
      now apply (Permutation_in _ (sort_perm _ _)) in F. }
  unfold sort_filenames. destruct l as [|f [|g l]]; [contradiction | |].
  - exact R.
  - rewrite B. exact R.
Qed.

Lemma str_le_antisym a : forall b, str_le a b = true -> str_le b a = true -> a = b.
Proof.
  induction a as [|x a IH]; intros [|y b]; cbn [str_le]; try congruence.
  rewrite !orb_true_iff, !andb_true_iff, !Z.ltb_lt, !Z.eqb_eq. intros [H | [H H']] [K | [K K']]; try lia.
  f_equal; [exact H | now apply IH].
Qed.

Lemma sorted_unique {A : Type} (R : A -> A -> Prop) : (forall a b, R a b -> R b a -> a = b) ->
  forall l m, StronglySorted R l -> StronglySorted R m -> Permutation l m -> l = m.
Proof.
  intros AS l m S. revert m. induction S as [|x l S IH F]; intros m T P.
  - now apply Permutation_nil in P.
  - destruct m as [|y m]; [apply Permutation_sym, Permutation_nil in P; discriminate P|].
    inversion T as [|y' m' T' G]; subst. rewrite Forall_forall in F, G.
    assert (x = y).
    { assert (X := Permutation_in _ P (or_introl eq_refl)).
      assert (Y := Permutation_in _ (Permutation_sym P) (or_introl eq_refl)).
      destruct X as [X | X]; [congruence|]. destruct Y as [Y | Y]; [congruence|].
      apply AS; [now apply F | now apply G]. }
    subst y. f_equal. apply IH; [assumption|]. now apply Permutation_cons_inv in P.
Qed.

Lemma sort_independent l l' : Permutation l l' -> (forall f, In f l -> mentions_channel f) ->
  sort_filenames l None = sort_filenames l' None.
Proof.
  intros P M. destruct l as [|f l]; [apply Permutation_nil in P; now subst|].
  assert (NE : l' <> []) by (intros ->; apply Permutation_sym, Permutation_nil in P; discriminate P).
  assert (M' : forall g, In g l' -> mentions_channel g).
  { intros g G. apply M. now apply (Permutation_in _ (Permutation_sym P)). }
  assert (E : forall x, x <> [] -> (forall g, In g x -> mentions_channel g) ->
    sort_filenames x None = Some (SList (stable_sort chan_le (stable_sort str_le x)) (stable_sort str_le x))).
  { intros x NX MX. unfold sort_filenames. destruct x as [|g [|h x]]; [contradiction | reflexivity |].
    assert (B : forallb (fun f => match channum f with Some _ => true | None => false end) (g :: h :: x) = true).
    { apply forallb_forall. intros z Z. destruct (channum z) eqn:C; [reflexivity|].
      apply channum_none in C. exfalso. apply C, MX, Z. }
    rewrite B. reflexivity. }
  rewrite !E by (assumption || discriminate).
  assert (Q : stable_sort str_le (f :: l) = stable_sort str_le l').
  { apply (sorted_unique (fun a b => str_le a b = true) str_le_antisym); try apply sort_text.
    rewrite !sort_perm. exact P. }
  now rewrite Q.
Qed.
