(** Proofs about truncating a set of files. *)
From Coq Require Import ZArith Ascii String Bool QArith QArith.Qcanon Lia List.
From Verif Require Import LjhModel LjhSpec LjhProofs LjhEdit NameModel NameSpec NameProofs MgModel MgProofs TrModel TrSpec.
Import ListNotations.
Open Scope Z_scope.

(** * The channel found in a name *)

Lemma starts_split p l : starts p l = true -> l = p ++ skipn (length p) l.
Proof.
  revert l. induction p as [|x p IH]; intros l H; auto.
  destruct l as [|y l]; [discriminate|]. cbn in H. apply andb_true_iff in H. destruct H as [E H].
  apply Z.eqb_eq in E. subst. cbn. f_equal. now apply IH.
Qed.

Lemma starts_self p l : starts p (p ++ l) = true.
Proof. induction p as [|x p IH]; cbn; auto. now rewrite Z.eqb_refl. Qed.

Lemma span_split l : exists r, l = span_digits l ++ r.
Proof.
  induction l as [|c t [r IH]]; [now exists []|]. cbn. destruct (is_digit c); [|now exists (c :: t)].
  exists r. cbn. now f_equal.
Qed.

Lemma span_all l : all_digits (span_digits l).
Proof.
  induction l as [|c t IH]; cbn; [intros x []|]. destruct (is_digit c) eqn:D; [|intros x []].
  unfold is_digit in D. intros x [<-|I]; [lia | now apply IH].
Qed.

Lemma span_stop ds x r : all_digits ds -> is_digit x = false -> span_digits (ds ++ x :: r) = ds.
Proof.
  intros A X. induction ds as [|d ds IH]; cbn.
  - now rewrite X.
  - assert (is_digit d = true) as -> by (unfold is_digit; specialize (A d (or_introl eq_refl)); lia).
    f_equal. apply IH. intros y I. apply A. now right.
Qed.

Lemma match_at_split l ds : match_at l = Some ds ->
  all_digits ds /\ exists r, l = (bs "chan" ++ ds ++ bs ".ljh") ++ r.
Proof.
  unfold match_at. destruct (starts (bs "chan") l) eqn:S; [|discriminate].
  apply starts_split in S. change (length (bs "chan")) with 4%nat in S.
  pose proof (span_all (skipn 4 l)) as A. destruct (span_split (skipn 4 l)) as [r R].
  destruct (span_digits (skipn 4 l)) as [|d e] eqn:D; [discriminate|].
  destruct (starts (bs ".ljh") _) eqn:T; [|discriminate]. intros E. injection E as <-. split; auto.
  apply starts_split in T. set (k := length (bs ".ljh")) in T.
  assert (Q : skipn (4 + length (d :: e)) l = r).
  { rewrite S, R, app_assoc. change (4 + length (d :: e))%nat with (length (bs "chan" ++ d :: e)).
    now rewrite skipn_app, skipn_all, Nat.sub_diag. }
  rewrite Q in T. exists (skipn k r). rewrite S, R, T at 1. now rewrite <- !app_assoc.
Qed.

Lemma match_at_hit ds : number ds -> match_at (bs "chan" ++ ds ++ bs ".ljh") = Some ds.
Proof.
  intros [N A]. unfold match_at. rewrite starts_self.
  change (skipn 4 (bs "chan" ++ ds ++ bs ".ljh")) with (ds ++ bs ".ljh").
  change (bs ".ljh") with (46 :: bs "ljh"). rewrite (span_stop ds 46 (bs "ljh") A eq_refl).
  destruct ds as [|d e]; [contradiction|].
  change (4 + length (d :: e))%nat with (length (bs "chan" ++ d :: e)).
  rewrite app_assoc, skipn_app, skipn_all, Nat.sub_diag. reflexivity.
Qed.

(** A text without [c] at the start of [b ++ c :: r] is at the start of [b]. *)
Lemma prefix_before (m : bytes) : forall b c r t, ~ In c m -> b ++ c :: r = m ++ t -> exists u, b = m ++ u.
Proof.
  induction m as [|x m IH]; intros b c r t N E; [now exists b|].
  destruct b as [|y b]; cbn in E; injection E as E1 E2.
  - exfalso. apply N. now left.
  - destruct (IH b c r t) as [u ->]; auto; [intros I; apply N; now right|]. subst. now exists u.
Qed.

Lemma no_underscore ds : all_digits ds -> ~ In 95 (bs "chan" ++ ds ++ bs ".ljh").
Proof.
  intros A I. apply in_app_or in I. destruct I as [I|I]; [vm_compute in I; intuition discriminate|].
  apply in_app_or in I. destruct I as [I|I]; [specialize (A _ I); lia | vm_compute in I; intuition discriminate].
Qed.

Lemma search_input pattern ds : no_ext pattern -> number ds -> search (input pattern ds) = Some ds.
Proof.
  intros Ne Nb. unfold input. induction pattern as [|x p IH].
  - change (search (95 :: (bs "chan" ++ ds ++ bs ".ljh")) = Some ds).
    cbn [search]. change (match_at (95 :: (bs "chan" ++ ds ++ bs ".ljh"))) with (@None bytes).
    pose proof (match_at_hit ds Nb) as H.
    change (bs "chan" ++ ds ++ bs ".ljh") with (99 :: (104 :: 97 :: 110 :: ds ++ bs ".ljh")) in *.
    cbn [search]. now rewrite H.
  - cbn [app search]. destruct (match_at _) as [es|] eqn:M.
    + exfalso. apply match_at_split in M. destruct M as [A [r R]]. apply Ne.
      destruct (prefix_before (bs "chan" ++ es ++ bs ".ljh") (x :: p) 95 (bs "chan" ++ ds ++ bs ".ljh") r) as [u U].
      * now apply no_underscore.
      * exact R.
      * exists (bs "chan" ++ es), u. rewrite U. now rewrite <- !app_assoc.
    + apply IH. intros (a & b & ->). apply Ne. now exists (x :: a), b.
Qed.

Lemma input_not_output pattern out ds es : number ds -> input pattern ds <> output pattern out es.
Proof.
  intros [_ A] E. unfold input, output in E. apply app_inv_head in E.
  change (bs "_chan" ++ ds ++ bs ".ljh") with (95 :: (bs "chan" ++ ds ++ bs ".ljh")) in E.
  change (bs "_" ++ out ++ bs "_chan" ++ es ++ bs ".ljh") with (95 :: (out ++ 95 :: (bs "chan" ++ es ++ bs ".ljh"))) in E.
  injection E as E. apply (no_underscore ds A). change (bs "chan" ++ ds ++ bs ".ljh") with (99 :: 104 :: 97 :: 110 :: ds ++ [46; 108; 106; 104]).
  rewrite E. apply in_or_app. right. now left.
Qed.

Lemma output_inj pattern out ds es : output pattern out ds = output pattern out es -> ds = es.
Proof. unfold output. intros E. do 4 apply app_inv_head in E. now apply app_inv_tail in E. Qed.

(** * The loop *)

Lemma trunc_others fl pattern out np ts names : forall st q, (forall ds, q <> output pattern out ds) ->
  fst (trunc_all fl pattern out np ts st names) q = st q.
Proof.
  induction names as [|n t IH]; intros st q N; cbn [trunc_all]; auto.
  destruct (search n) as [ds|]; auto. cbv zeta. destruct (beq _ _); auto.
  destruct (open_at fl st n) as [p|]; auto. destruct (st n) as [src|]; auto.
  destruct (truncate _ _ _ _ _ _) as [r ok].
  assert (E : (match r with Some f => upd st (trunc_name pattern out ds) f | None => st end) q = st q).
  { destruct r; auto. apply upd_other. apply N. }
  destruct ok; [rewrite IH by exact N|]; exact E.
Qed.

Lemma readable_ext fl st st' p o : st' p = st p -> readable fl st p o -> readable fl st' p o.
Proof. intros E (f & H). exists f. now rewrite E. Qed.

Section Good.
Variable fl : bytes -> option Qc.
Variables pattern out : bytes.
Variable lim : limit.
Hypothesis ext : no_ext pattern.

(** One step on a good file. *)
Lemma trunc_step st ds o t : number ds -> readable fl st (input pattern ds) o ->
  exists src, st (input pattern ds) = Some src /\ ljh_open fl src = Some o /\ is_bytes src /\
  trunc_all fl pattern out (count_of lim) (time_of lim) st (input pattern ds :: t) =
  (let (r, ok) := truncate fl src (st (output pattern out ds)) (count_of lim) (time_of lim) None in
   let st' := match r with Some f => upd st (output pattern out ds) f | None => st end in
   if ok then trunc_all fl pattern out (count_of lim) (time_of lim) st' t else (st', false)).
Proof.
  intros N (src & S & B & O & V & E & C). exists src. repeat (split; auto).
  cbn [trunc_all]. rewrite search_input by assumption. cbv zeta.
  change (trunc_name pattern out ds) with (output pattern out ds).
  destruct (beq_spec (input pattern ds) (output pattern out ds)) as [X|_]; [exfalso; revert X; now apply input_not_output|].
  unfold open_at. rewrite S, O. destruct (ljhfile_channum _); [reflexivity | contradiction].
Qed.

Definition fits (o : ljh) : Prop :=
  match lim with Count n => 0 <= n <= Z.of_nat (nPulses o) | Until _ => True end.

Lemma truncate_kept src o old : ljh_open fl src = Some o -> is_bytes src -> v22 o = true ->
  Forall (fun kv => starts end_mark (fst kv) = false) (hdict o) -> fits o ->
  exists f o', truncate fl src old (count_of lim) (time_of lim) None = (Some f, true) /\
    ljh_open fl f = Some o' /\ same_header o o' /\ kept lim (all_pulses o) (all_pulses o').
Proof.
  intros O B V E F. unfold fits in F. destruct lim as [n|s]; cbn [count_of time_of kept].
  - destruct (truncate_count fl src o old n O B V E F) as (f & o' & T & O' & H & P).
    exists f, o'. rewrite nPulses_all. auto 6.
  - apply truncate_time; auto.
Qed.

Lemma trunc_good names : forall os st rest,
  Forall number names -> NoDup names ->
  Forall2 (fun ds o => readable fl st (input pattern ds) o /\ fits o) names os ->
  exists st', Forall2 (fun ds o => exists f o', st' (output pattern out ds) = Some f /\ ljh_open fl f = Some o' /\
      same_header o o' /\ kept lim (all_pulses o) (all_pulses o')) names os /\
    (forall q, (forall ds, In ds names -> q <> output pattern out ds) -> st' q = st q) /\
    trunc_all fl pattern out (count_of lim) (time_of lim) st (map (input pattern) names ++ rest) =
    trunc_all fl pattern out (count_of lim) (time_of lim) st' rest.
Proof.
  induction names as [|ds t IH]; intros os st rest Nb Nd H; inversion H; subst.
  - exists st. repeat split; auto.
  - inversion Nb; subst. inversion Nd; subst. destruct H2 as [R F].
    destruct (trunc_step st ds y (map (input pattern) t ++ rest) H3 R) as (src & S & O & B & T).
    destruct R as (src' & S' & _ & O' & V & E & C).
    destruct (truncate_kept src y (st (output pattern out ds)) O B V E F) as (f & o' & K & Of & SH & P).
    rewrite K in T. cbv zeta in T.
    destruct (IH l' (upd st (output pattern out ds) f) rest) as (st' & G & Q & L); auto.
    { apply (forall2_impl (fun ds o => readable fl st (input pattern ds) o /\ fits o)); [|exact H4].
      intros es o I [Re Fe]. split; auto. eapply readable_ext; [|exact Re]. apply upd_other.
      apply input_not_output. rewrite Forall_forall in H5. now apply H5. }
    exists st'. split; [|split].
    + constructor; auto. exists f, o'. split; auto. rewrite Q; [apply upd_same|].
      intros es I X. apply output_inj in X. subst. contradiction.
    + intros q Nq. rewrite Q by (intros es I; apply Nq; now right). apply upd_other. apply Nq. now left.
    + cbn [map app]. rewrite T. exact L.
Qed.
End Good.
