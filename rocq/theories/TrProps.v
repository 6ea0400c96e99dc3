(** Properties of truncating a set of LJH files: C126. *)
From Coq Require Import ZArith Ascii String Bool QArith QArith.Qcanon Lia List.
From Verif Require Import LjhModel LjhSpec LjhProofs LjhEdit LjhProps NameModel NameSpec MgModel MgProofs TrModel TrSpec TrProofs.
Import ListNotations.
Open Scope Z_scope.

(** Every file is truncated to its own output, which has its header and the records within
    the limit; all the inputs and every other file stay as they are. *)
Theorem truncate_all fl pattern out lim st dss os :
  no_ext pattern -> Forall number dss -> NoDup dss ->
  Forall2 (fun ds o => readable fl st (input pattern ds) o /\
             (forall n, lim = Count n -> 0 <= n <= Z.of_nat (nPulses o))) dss os ->
  exists st', trunc_all fl pattern out (count_of lim) (time_of lim) st (map (input pattern) dss) = (st', true) /\
    Forall2 (fun ds o => exists f o', st' (output pattern out ds) = Some f /\ ljh_open fl f = Some o' /\
      same_header o o' /\ kept lim (all_pulses o) (all_pulses o')) dss os /\
    (forall q, (forall ds, In ds dss -> q <> output pattern out ds) -> st' q = st q).
Proof.
  intros Ne Nb Nd H.
  destruct (trunc_good fl pattern out lim Ne dss os st [] Nb Nd) as (st' & G & Q & L).
  - apply (forall2_impl (fun ds o => readable fl st (input pattern ds) o /\
             (forall n, lim = Count n -> 0 <= n <= Z.of_nat (nPulses o)))); [|exact H].
    intros ds o _ [R F]. split; auto. unfold fits. destruct lim; auto.
  - exists st'. rewrite app_nil_r in L. auto.
Qed.
Print Assumptions truncate_all.

(** No input is among the outputs. *)
Theorem inputs_are_not_outputs pattern out ds es : number ds -> input pattern ds <> output pattern out es.
Proof. exact (input_not_output pattern out ds es). Qed.
Print Assumptions inputs_are_not_outputs.

(** A file with fewer records than asked for raises: its output is a whole copy, the files
    before it are truncated, the ones after it have no output. *)
Theorem too_few_stops fl pattern out n st dss os bad o rest :
  no_ext pattern -> Forall number (dss ++ [bad]) -> NoDup (dss ++ [bad]) ->
  Forall2 (fun ds o => readable fl st (input pattern ds) o /\ 0 <= n <= Z.of_nat (nPulses o)) dss os ->
  readable fl st (input pattern bad) o -> Z.of_nat (nPulses o) < n ->
  exists st' f o', trunc_all fl pattern out (Some n) None st (map (input pattern) (dss ++ bad :: rest)) = (st', false) /\
    Forall2 (fun ds o => exists f o', st' (output pattern out ds) = Some f /\ ljh_open fl f = Some o' /\
      same_header o o' /\ all_pulses o' = firstn (Z.to_nat n) (all_pulses o)) dss os /\
    st' (output pattern out bad) = Some f /\ ljh_open fl f = Some o' /\ all_pulses o' = all_pulses o /\
    (forall ds, ~ In ds (dss ++ [bad]) -> st' (output pattern out ds) = st (output pattern out ds)).
Proof.
  intros Ne Nb Nd H R Few. apply Forall_app in Nb. destruct Nb as [Nb Nbad]. inversion Nbad; subst.
  assert (Nin : ~ In bad dss /\ NoDup dss).
  { apply NoDup_remove in Nd. rewrite app_nil_r in Nd. tauto. }
  destruct Nin as [Nin Nd'].
  destruct (trunc_good fl pattern out (Count n) Ne dss os st (map (input pattern) (bad :: rest)) Nb Nd') as (s1 & G & Q & L).
  { apply (forall2_impl (fun ds o => readable fl st (input pattern ds) o /\ 0 <= n <= Z.of_nat (nPulses o))); [|exact H].
    intros ds y _ X. exact X. }
  assert (R1 : readable fl s1 (input pattern bad) o).
  { eapply readable_ext; [|exact R]. apply Q. intros es _. now apply input_not_output. }
  destruct (trunc_step fl pattern out (Count n) Ne s1 bad o (map (input pattern) rest) H2 R1) as (src & S & O & B & T).
  destruct R as (src' & S' & _ & O' & V & E & C).
  destruct (truncate_too_many fl src o (s1 (output pattern out bad)) n O B V E Few) as (f & o' & K & Of & SH & P).
  cbn [count_of time_of] in T, L. rewrite K in T. cbv zeta in T.
  exists (upd s1 (output pattern out bad) f), f, o'. split; [|split; [|split; [|split; [|split]]]].
  - rewrite map_app, L. exact T.
  - apply (forall2_impl (fun ds o => exists f o', s1 (output pattern out ds) = Some f /\ ljh_open fl f = Some o' /\
      same_header o o' /\ kept (Count n) (all_pulses o) (all_pulses o'))); [|exact G].
    intros ds y I (g & y' & Sg & Og & Hg & Pg & Pk). exists g, y'. split; [|auto].
    rewrite upd_other; [exact Sg|]. intros X. apply output_inj in X. subst. contradiction.
  - apply upd_same.
  - exact Of.
  - exact P.
  - intros ds I. rewrite upd_other.
    + apply Q. intros es J X. apply output_inj in X. subst. apply I. apply in_or_app. now left.
    + intros X. apply output_inj in X. subst. apply I. apply in_or_app. right. now left.
Qed.
Print Assumptions too_few_stops.

(** Whatever the names, the limits and the outcome, only paths of the form of an output change. *)
Theorem truncate_changes_outputs_only fl pattern out np ts st names q :
  (forall ds, q <> output pattern out ds) -> fst (trunc_all fl pattern out np ts st names) q = st q.
Proof. intros N. now apply trunc_others. Qed.
Print Assumptions truncate_changes_outputs_only.

(** * Instances *)

Definition pat := bs "d/run".
Definition st1 : fs := upd (upd (upd (fun _ => None) (input pat (bs "1")) ex_file) (input pat (bs "02"))
  (dastard 3 ++ flat_map record_bytes [p3; p1; p2])) (input pat (bs "7")) (dastard 3 ++ record_bytes p3).
Definition seen (r : fs * bool) (ds : bytes) : option (list pulse) :=
  match fst r (output pat (bs "cut") ds) with Some f => pulses_of f | None => None end.

Example truncate_all_instance :
  let r := trunc_all fl0 pat (bs "cut") (Some 1) None st1 (map (input pat) [bs "1"; bs "02"; bs "7"]) in
  snd r = true /\ map (seen r) [bs "1"; bs "02"; bs "7"; bs "3"] = [Some [p1]; Some [p3]; Some [p3]; None].
Proof. vm_compute. auto. Qed.

Example truncate_until_instance :
  let r := trunc_all fl0 pat (bs "cut") None (Some (qz 1700000000)) st1 (map (input pat) [bs "1"; bs "02"]) in
  snd r = true /\ map (seen r) [bs "1"; bs "02"; bs "7"] = [Some [p1]; Some []; None].
Proof. vm_compute. auto. Qed.

Example too_few_instance :
  let r := trunc_all fl0 pat (bs "cut") (Some 2) None st1 (map (input pat) [bs "1"; bs "7"; bs "02"]) in
  snd r = false /\ map (seen r) [bs "1"; bs "7"; bs "02"] = [Some [p1; p2]; Some [p3]; None].
Proof. vm_compute. auto. Qed.

Lemma readable_check fl st p f :
  st p = Some f -> forallb (fun b => (0 <=? b) && (b <? 256)) f = true ->
  match ljh_open fl f with
  | Some o => v22 o && forallb (fun kv => negb (starts end_mark (fst kv))) (hdict o)
  | None => false
  end = true -> ljhfile_channum p <> None -> exists o, readable fl st p o /\ ljh_open fl f = Some o.
Proof.
  intros S B V C. destruct (ljh_open fl f) as [o|] eqn:O; [|discriminate].
  apply andb_true_iff in V. destruct V as [V H]. exists o. split; auto. exists f. repeat split; auto.
  - rewrite forallb_forall in B. apply Forall_forall. intros x I. apply B in I. lia.
  - rewrite forallb_forall in H. apply Forall_forall. intros x I. apply H in I. now apply negb_true_iff.
Qed.

(** The hypotheses of [truncate_all] (with one record) and of [too_few_stops] (with two). *)
Example truncate_hypotheses : no_ext pat /\ Forall number [bs "1"; bs "7"] /\ NoDup [bs "1"; bs "7"] /\
  exists o o7, readable fl0 st1 (input pat (bs "1")) o /\ nPulses o = 2%nat /\
    readable fl0 st1 (input pat (bs "7")) o7 /\ nPulses o7 = 1%nat.
Proof.
  split; [|split; [|split]].
  - intros (a & b & E). vm_compute in E.
    repeat (destruct a as [|? a]; [discriminate E|]; injection E as _ E). destruct a; discriminate E.
  - constructor; [|constructor; [|constructor]]; (split; [discriminate|]); intros x [<-|[]]; vm_compute; split; discriminate.
  - constructor; [|constructor; [|constructor]]; cbn; intuition discriminate.
  - destruct (readable_check fl0 st1 (input pat (bs "1")) ex_file) as (o & R & O).
    { vm_compute; reflexivity. } { vm_compute; reflexivity. } { vm_compute; reflexivity. } { vm_compute; discriminate. }
    destruct (readable_check fl0 st1 (input pat (bs "7")) (dastard 3 ++ record_bytes p3)) as (o7 & R7 & O7).
    { vm_compute; reflexivity. } { vm_compute; reflexivity. } { vm_compute; reflexivity. } { vm_compute; discriminate. }
    exists o, o7. split; [exact R|]. split; [|split; [exact R7|]].
    + assert (E : option_map nPulses (ljh_open fl0 ex_file) = Some 2%nat) by (vm_compute; reflexivity).
      rewrite O in E. now injection E.
    + assert (E : option_map nPulses (ljh_open fl0 (dastard 3 ++ record_bytes p3)) = Some 1%nat) by (vm_compute; reflexivity).
      rewrite O7 in E. now injection E.
Qed.

(** * Claims that do not hold *)

(** Each file keeps at most so many records: a short file among them ends the run, and the
    channels after it get no output. *)
Theorem at_most_refuted : exists st names n,
  let r := trunc_all fl0 pat (bs "cut") (Some n) None st names in
  snd r = false /\ seen r (bs "02") = None /\ In (input pat (bs "02")) names.
Proof. exists st1, (map (input pat) [bs "1"; bs "7"; bs "02"]), 2. vm_compute. auto 6. Qed.
Print Assumptions at_most_refuted.

(** Every file that the pattern finds is truncated: one whose name goes on after the channel
    number ends the run. *)
Theorem other_names_refuted : exists st n1 n2,
  let r := trunc_all fl0 pat (bs "cut") (Some 1) None st [n1; n2] in
  n1 = pat ++ bs "_chan" ++ bs "0_old" ++ bs ".ljh" /\ n2 = input pat (bs "1") /\
  open_at fl0 st n2 <> None /\ snd r = false /\ seen r (bs "1") = None.
Proof.
  exists st1, (pat ++ bs "_chan" ++ bs "0_old" ++ bs ".ljh"), (input pat (bs "1")). vm_compute.
  repeat split; auto. discriminate.
Qed.
Print Assumptions other_names_refuted.

(** A negative number is refused: it makes outputs without records. *)
Theorem negative_count_refuted : exists st ds n, n < 0 /\
  let r := trunc_all fl0 pat (bs "cut") (Some n) None st [input pat ds] in
  snd r = true /\ seen r ds = Some [].
Proof. exists st1, (bs "1"), (-3). vm_compute. auto. Qed.
Print Assumptions negative_count_refuted.

(** The pattern may be any text: with ".ljh" after a number in it the outputs of all the
    channels are one file. *)
Theorem pattern_refuted : exists pattern ds es ps qs,
  let st := upd (upd (fun _ => None) (input pattern ds) (dastard 3 ++ flat_map record_bytes ps))
                (input pattern es) (dastard 3 ++ flat_map record_bytes qs) in
  let r := trunc_all fl0 pattern (bs "cut") (Some 1) None st [input pattern ds; input pattern es] in
  number ds /\ number es /\ ds <> es /\ snd r = true /\
  fst r (output pattern (bs "cut") ds) = None /\ fst r (output pattern (bs "cut") es) = None.
Proof.
  assert (N : forall d, 48 <= d <= 57 -> number [d]).
  { intros d D. split; [discriminate|]. now intros x [<-|[]]. }
  exists (bs "r_chan3.ljh"), [49], [55], [p1], [p2]. cbv zeta.
  split; [apply N; lia|]. split; [apply N; lia|]. split; [discriminate|]. vm_compute. auto.
Qed.
Print Assumptions pattern_refuted.
