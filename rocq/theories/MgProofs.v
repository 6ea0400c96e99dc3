(** Proofs about merging LJH files. *)
From Coq Require Import ZArith Ascii String Bool QArith QArith.Qcanon Lia List.
From Verif Require Import LjhModel LjhSpec LjhProofs LjhEdit NameModel NameSpec NameProofs MgModel MgSpec.
Import ListNotations.
Open Scope Z_scope.

Lemma upd_same st p c : upd st p c p = Some c.
Proof. unfold upd. now destruct (beq_spec p p). Qed.

Lemma upd_other st p c q : q <> p -> upd st p c q = st q.
Proof. intros N. unfold upd. now destruct (beq_spec q p). Qed.

(** * The bytes appended *)

Lemma append_bytes fl src dest o : ljh_open fl src = Some o -> v22 o = true -> Forall storable (all_pulses o) ->
  append_traces fl src dest None = (dest ++ flat_map record_bytes (all_pulses o), true).
Proof.
  intros O V S. unfold append_traces. rewrite O.
  now rewrite (write_selected _ _ _ (selected_all o V) S).
Qed.

Lemma append_extends fl src dest l : exists c, fst (append_traces fl src dest l) = dest ++ c.
Proof.
  unfold append_traces. destruct (ljh_open fl src) as [o|].
  - destruct (write_pulses o _) as [b ok]. now exists b.
  - exists []. now rewrite app_nil_r.
Qed.

Lemma open_extended fl f o c : ljh_open fl f = Some o -> ends_in_newline (firstn (hsize o) f) ->
  exists o' more, ljh_open fl (f ++ c) = Some o' /\ same_header o o' /\ all_pulses o' = all_pulses o ++ more.
Proof.
  intros O NL. assert (W : exists o' more, ljh_open fl (f ++ c) = Some o' /\ same_header o o' /\
    all_pulses o' = all_pulses o ++ more); [|exact W].
  set (o' := with_body o (hsize o) (body o ++ c)).
  exists o', (skipn (nPulses o) (all_pulses o')). split; [exact (open_append _ _ _ _ O NL)|].
  split; [apply with_body_same|].
  rewrite <- (firstn_skipn (nPulses o) (all_pulses o')) at 1. f_equal.
  assert (PS : pulse_size o' = pulse_size o) by reflexivity.
  assert (P : pulse_size o <> 0%nat) by (unfold pulse_size; destruct (v22 o); lia).
  assert (LE : (nPulses o <= nPulses o')%nat).
  { unfold nPulses. rewrite PS. apply Nat.div_le_mono; auto. cbn. rewrite app_length. lia. }
  unfold all_pulses. rewrite firstn_map, firstn_seq.
  rewrite Nat.min_l by assumption.
  apply map_ext_in. intros i Hi. apply in_seq in Hi.
  assert (R : rec_bytes o' i = rec_bytes o i).
  { unfold rec_bytes. rewrite PS. cbn [o' with_body body]. apply field_app_l.
    pose proof (nPulses_bound o). nia. }
  assert (FC : frame_count o' i = frame_count o i) by (unfold frame_count; now rewrite R).
  unfold subframecount, usec, samples. rewrite R, FC. reflexivity.
Qed.

Lemma open_records fl f o ps : ljh_open fl f = Some o -> is_bytes f -> v22 o = true ->
  ends_in_newline (firstn (hsize o) f) -> (length (body o) mod (16 + 2 * nSamples o) = 0)%nat ->
  Forall (valid_pulse (nSamples o)) ps ->
  exists o', ljh_open fl (f ++ flat_map record_bytes ps) = Some o' /\ same_header o o' /\
    all_pulses o' = all_pulses o ++ ps.
Proof.
  intros O B V NL M F. eexists. split; [exact (open_append _ _ _ _ O NL)|]. split; [apply with_body_same|].
  assert (Hb : body o = flat_map record_bytes (all_pulses o)).
  { rewrite <- records_body; auto; [|eapply is_bytes_body; eauto].
    unfold nPulses. rewrite firstn_all2; auto.
    assert (P : pulse_size o <> 0%nat) by (unfold pulse_size; destruct (v22 o); lia).
    pose proof (Nat.div_mod (length (body o)) _ P). rewrite pulse_size_22 in * by exact V. lia. }
  apply (body_records _ _ []).
  - exact V.
  - cbn [with_body body]. rewrite Hb at 1. now rewrite flat_map_app, app_nil_r.
  - cbn [with_body nSamples]. apply Forall_app. split; [|exact F].
    apply records_valid; auto. eapply is_bytes_body; eauto.
  - unfold pulse_size. cbn. destruct (v22 o); lia.
Qed.

(** * The loop *)

Lemma loop_others fl out c names : forall st q, q <> out -> fst (merge_loop fl out c st names) q = st q.
Proof.
  induction names as [|n t IH]; intros st q N; cbn [merge_loop]; auto.
  destruct (open_at fl st n) as [[o c']|]; auto. destruct (st n) as [src|]; auto.
  destruct (st out) as [dest|]; auto. destruct (c' =? c); auto.
  destruct (append_traces fl src dest None) as [f ok]. destruct ok; [rewrite IH by exact N|]; cbn [fst]; now apply upd_other.
Qed.

Lemma loop_extends fl out c names : forall st f, st out = Some f ->
  exists m, fst (merge_loop fl out c st names) out = Some (f ++ m).
Proof.
  induction names as [|n t IH]; intros st f S; cbn [merge_loop].
  - exists []. now rewrite app_nil_r.
  - assert (Z : exists m, fst (st, false) out = Some (f ++ m)) by (exists []; now rewrite app_nil_r).
    destruct (open_at fl st n) as [[o c']|]; auto. destruct (st n) as [src|]; auto.
    rewrite S. destruct (c' =? c); auto.
    destruct (append_extends fl src f None) as [m E].
    destruct (append_traces fl src f None) as [g ok]. cbn [fst] in E. subst g. destruct ok.
    + destruct (IH (upd st out (f ++ m)) (f ++ m) (upd_same _ _ _)) as [m' E']. exists (m ++ m').
      now rewrite app_assoc.
    + exists m. apply upd_same.
Qed.

Lemma holds_ext fl st st' c n p ps : st' p = st p -> holds fl st c n p ps -> holds fl st' c n p ps.
Proof. intros E (f & o & H). exists f, o. now rewrite E. Qed.

Lemma forall2_impl {A B : Type} (P Q : A -> B -> Prop) l m :
  (forall a b, In a l -> P a b -> Q a b) -> Forall2 P l m -> Forall2 Q l m.
Proof.
  intros I H. induction H; constructor.
  - apply I; auto. now left.
  - apply IHForall2. intros a b J. apply I. now right.
Qed.

(** Through good files the loop appends their records; it goes on with what follows them. *)
Lemma loop_good fl out c n names pss : forall st f rest,
  Forall2 (holds fl st c n) names pss -> ~ In out names -> st out = Some f ->
  exists st1, st1 out = Some (f ++ flat_map record_bytes (concat pss)) /\ same_but out st st1 /\
    merge_loop fl out c st (names ++ rest) = merge_loop fl out c st1 rest.
Proof.
  revert pss. induction names as [|p t IH]; intros pss st f rest H N S; inversion H; subst.
  - exists st. cbn. rewrite app_nil_r. repeat split; auto.
  - rename y into ps. rename l' into pss'. rename H2 into Hp. rename H4 into Ht.
    destruct Hp as (src & o & Sp & B & O & V & Ns & A & St & C).
    assert (E : append_traces fl src f None = (f ++ flat_map record_bytes ps, true)).
    { rewrite <- A. apply append_bytes; auto. now rewrite A. }
    destruct (IH pss' (upd st out (f ++ flat_map record_bytes ps)) (f ++ flat_map record_bytes ps) rest)
      as (st1 & S1 & B1 & M1).
    + apply (forall2_impl (holds fl st c n)); [|exact Ht]. intros a b I. apply holds_ext.
      apply upd_other. intros ->. apply N. now right.
    + intros I. apply N. now right.
    + apply upd_same.
    + exists st1. split; [|split].
      * rewrite S1. cbn [concat]. now rewrite flat_map_app, app_assoc.
      * intros q Q. rewrite (B1 q Q). now apply upd_other.
      * cbn [app merge_loop]. unfold open_at. rewrite Sp, O, C, S, Z.eqb_refl, E. exact M1.
Qed.

Lemma holds_valid fl st c n p ps : holds fl st c n p ps -> Forall (valid_pulse n) ps.
Proof.
  intros (f & o & _ & B & O & V & <- & <- & _). apply records_valid; auto. eapply is_bytes_body; eauto.
Qed.

Lemma holds_all_valid fl st c n names pss : Forall2 (holds fl st c n) names pss ->
  Forall (valid_pulse n) (concat pss).
Proof. induction 1; cbn; [constructor|]. apply Forall_app. split; auto. eapply holds_valid; eauto. Qed.

(** * Merging *)

Section Merge.
Variable fl : bytes -> option Qc.
Variables (st : fs) (out : bytes) (overwrite : bool).
Hypothesis free : st out = None \/ overwrite = true.

Lemma merge_start n t f : st n = Some f -> n <> out ->
  merge fl st out (n :: t) overwrite =
  match open_at fl (upd st out f) out with
  | None => (upd st out f, false)
  | Some (_, c) => merge_loop fl out c (upd st out f) t
  end.
Proof.
  intros S N. unfold merge.
  assert (negb overwrite && (match st out with Some _ => true | None => false end) = false) as ->.
  { destruct free as [-> | ->]; [now destruct overwrite | reflexivity]. }
  rewrite S. destruct (beq_spec n out) as [E|_]; [contradiction|]. reflexivity.
Qed.

(** The start, and the good files after it. *)
Lemma merge_good c n f0 first ps0 names pss rest :
  holds fl st c n first ps0 -> st first = Some f0 -> whole fl f0 -> Forall2 (holds fl st c n) names pss ->
  ~ In out (first :: names) -> ljhfile_channum out = Some c ->
  exists st1 o0 o', ljh_open fl f0 = Some o0 /\
    st1 out = Some (f0 ++ flat_map record_bytes (concat pss)) /\ same_but out st st1 /\
    ljh_open fl (f0 ++ flat_map record_bytes (concat pss)) = Some o' /\ same_header o0 o' /\
    all_pulses o' = ps0 ++ concat pss /\
    merge fl st out (first :: names ++ rest) overwrite = merge_loop fl out c st1 rest.
Proof.
  intros (f & o & Sf & B & O & V & Ns & A & St & C) S W H N Co.
  rewrite S in Sf. injection Sf as <-.
  destruct W as (o2 & O2 & NL & M). rewrite O in O2. injection O2 as <-.
  assert (No : first <> out) by (intros ->; apply N; now left).
  destruct (loop_good fl out c n names pss (upd st out f0) f0 rest) as (st1 & S1 & B1 & M1).
  - apply (forall2_impl (holds fl st c n)); [|exact H]. intros a b I. apply holds_ext.
    apply upd_other. intros ->. apply N. now right.
  - intros I. apply N. now right.
  - apply upd_same.
  - destruct (open_records fl f0 o (concat pss) O B V NL M) as (o' & O' & SH & P).
    { rewrite Ns. eapply holds_all_valid; eauto. }
    exists st1, o, o'. repeat split; auto; try apply SH.
    + intros q Q. rewrite (B1 q Q). now apply upd_other.
    + now rewrite P, A.
    + rewrite (merge_start _ _ _ S No). unfold open_at. rewrite upd_same, O, Co. exact M1.
Qed.
End Merge.

Lemma merge_others fl st out names ow : same_but out st (fst (merge fl st out names ow)).
Proof.
  intros q N. unfold merge. destruct (_ && _); auto. destruct names as [|n t]; auto.
  destruct (st n) as [f|]; auto. destruct (beq n out); auto. cbv zeta.
  destruct (open_at _ _ _) as [[o c]|].
  - rewrite loop_others by exact N. now apply upd_other.
  - now apply upd_other.
Qed.

Lemma merge_extends fl st out n t f ow : st n = Some f -> n <> out -> st out = None \/ ow = true ->
  exists m, fst (merge fl st out (n :: t) ow) out = Some (f ++ m).
Proof.
  intros S N F. rewrite (merge_start fl st out ow F n t f S N).
  destruct (open_at _ _ _) as [[o c]|].
  - apply loop_extends. apply upd_same.
  - exists []. rewrite app_nil_r. apply upd_same.
Qed.

(** * The name of the output *)

Lemma contains_cut x c y : ~ In c (bs "_chan") -> contains_chan (x ++ c :: y) -> contains_chan x \/ contains_chan y.
Proof.
  intros Nc (a & b & E). revert x E. induction a as [|z a IH]; intros x E.
  - destruct (le_lt_dec 5 (length x)) as [L|L].
    + left. exists [], (skipn 5 x). rewrite <- (firstn_skipn 5 x) at 1. cbn [app]. f_equal.
      assert (F : firstn 5 (x ++ c :: y) = firstn 5 ([] ++ bs "_chan" ++ b)) by now rewrite E.
      rewrite firstn_app in F. replace (5 - length x)%nat with 0%nat in F by lia.
      cbn [firstn] in F. rewrite app_nil_r in F. exact F.
    + exfalso. apply Nc. assert (Nt : nth (length x) (x ++ c :: y) 0 = c).
      { rewrite app_nth2, Nat.sub_diag by lia. reflexivity. }
      rewrite E in Nt. cbn [app] in Nt. rewrite app_nth1 in Nt by (cbn; lia). rewrite <- Nt. apply nth_In. cbn. lia.
  - destruct x as [|z' x]; cbn [app] in E.
    + right. injection E as -> E. now exists a, b.
    + injection E as -> E. destruct (IH x E) as [(p & q & ->)|R]; [|now right].
      left. now exists (z :: p), q.
Qed.

Lemma no_word_merged : ~ contains_chan (bs "merged").
Proof.
  intros (a & b & E). vm_compute in E.
  repeat (destruct a as [|? a]; [discriminate E|]; injection E as _ E). destruct a; discriminate E.
Qed.

Lemma join_channum dir c : 0 <= c -> ~ contains_chan dir ->
  ljhfile_channum (join dir (bs "merged_chan" ++ py_str c ++ bs ".ljh")) = Some c.
Proof.
  intros C N. destruct (decimal_str _ C) as (_ & A & _).
  assert (G : forall d, ~ contains_chan d ->
    ljhfile_channum (d ++ bs "_chan" ++ py_str c ++ bs ".ljh") = Some c).
  { intros d Nd. unfold ljhfile_channum. rewrite after_first by exact Nd.
    rewrite before_word_digits; [apply py_int_str | exact A|]. right. eexists. reflexivity. }
  assert (S : bs "merged_chan" ++ py_str c ++ bs ".ljh" = bs "merged" ++ bs "_chan" ++ py_str c ++ bs ".ljh")
    by reflexivity.
  assert (F : ~ In 47 (bs "_chan")) by (vm_compute; intuition discriminate).
  rewrite S. unfold join. destruct (rev dir) as [|z r] eqn:R.
  - apply G. exact no_word_merged.
  - assert (D : dir = rev r ++ [z]) by (rewrite <- (rev_involutive dir), R; reflexivity).
    destruct (Z.eqb_spec z 47) as [->|_].
    + rewrite app_assoc. apply G. rewrite D, <- app_assoc. cbn [app]. intros K.
      apply contains_cut in K; [|exact F]. destruct K as [(p & q & K)|K].
      * apply N. rewrite D, K. exists p, (q ++ [47]). now rewrite <- !app_assoc.
      * now apply no_word_merged.
    + rewrite app_assoc, app_assoc. apply G. rewrite <- app_assoc. cbn [app]. intros K.
      apply contains_cut in K; [|exact F]. destruct K as [K|K]; [now apply N | now apply no_word_merged].
Qed.
