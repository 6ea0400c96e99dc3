(** Properties of merging LJH files: C125. *)
From Coq Require Import ZArith Ascii String Bool QArith QArith.Qcanon Lia List.
From Verif Require LfProofs.
From Verif Require Import LjhModel LjhSpec LjhProofs LjhEdit LjhProps NameModel NameSpec MgModel MgSpec MgProofs.
Import ListNotations.
Open Scope Z_scope.

(** Files of one channel, in the 2.2 format and of one record length: the output has the
    first file's header and everyone's records in the order of the names; nothing else
    changes.  Only the first file must end with a complete record. *)
Theorem merge_records fl st out ow c n first f0 ps0 names pss :
  st out = None \/ ow = true -> ljhfile_channum out = Some c -> ~ In out (first :: names) ->
  holds fl st c n first ps0 -> st first = Some f0 -> whole fl f0 -> Forall2 (holds fl st c n) names pss ->
  exists st' f o0 o', merge fl st out (first :: names) ow = (st', true) /\ st' out = Some f /\
    ljh_open fl f0 = Some o0 /\ ljh_open fl f = Some o' /\ same_header o0 o' /\
    all_pulses o' = ps0 ++ concat pss /\ same_but out st st'.
Proof.
  intros F Co N H S W Hs.
  destruct (merge_good fl st out ow F c n f0 first ps0 names pss [] H S W Hs N Co)
    as (st1 & o0 & o' & O & S1 & B1 & O' & SH & P & M).
  rewrite app_nil_r in M. exists st1, (f0 ++ flat_map record_bytes (concat pss)), o0, o'.
  cbn [merge_loop] in M. auto 10.
Qed.
Print Assumptions merge_records.

(** A later file of another channel, or one that cannot be opened, stops the merge with an
    exception; the output then holds the records of the files before it, and stays. *)
Theorem merge_stops fl st out ow c n first f0 ps0 names pss bad rest :
  st out = None \/ ow = true -> ljhfile_channum out = Some c -> ~ In out (first :: names) -> bad <> out ->
  holds fl st c n first ps0 -> st first = Some f0 -> whole fl f0 -> Forall2 (holds fl st c n) names pss ->
  (forall o, open_at fl st bad <> Some (o, c)) ->
  exists st' f o', merge fl st out (first :: names ++ bad :: rest) ow = (st', false) /\ st' out = Some f /\
    ljh_open fl f = Some o' /\ all_pulses o' = ps0 ++ concat pss /\ same_but out st st'.
Proof.
  intros F Co N Nb H S W Hs Bad.
  destruct (merge_good fl st out ow F c n f0 first ps0 names pss (bad :: rest) H S W Hs N Co)
    as (st1 & o0 & o' & O & S1 & B1 & O' & SH & P & M).
  exists st1, (f0 ++ flat_map record_bytes (concat pss)), o'. split; [|auto].
  rewrite M. cbn [merge_loop].
  assert (E : open_at fl st1 bad = open_at fl st bad) by (unfold open_at; now rewrite (B1 bad Nb)).
  rewrite E. destruct (open_at fl st bad) as [[o2 c2]|] eqn:Q; [|reflexivity].
  destruct (st1 bad); [|reflexivity]. rewrite S1.
  destruct (Z.eqb_spec c2 c) as [->|_]; [|reflexivity]. exfalso. now apply (Bad o2).
Qed.
Print Assumptions merge_stops.

(** Without the flag an existing output is not touched. *)
Theorem merge_refuses fl st out names f : st out = Some f -> merge fl st out names false = (st, false).
Proof. intros S. unfold merge. now rewrite S. Qed.
Print Assumptions merge_refuses.

(** Whatever the arguments and the outcome, no other file changes. *)
Theorem merge_inputs_unchanged fl st out names ow : same_but out st (fst (merge fl st out names ow)).
Proof. exact (merge_others fl st out names ow). Qed.
Print Assumptions merge_inputs_unchanged.

(** Whatever the further files and the outcome, the output starts with the first file's
    records under the first file's header. *)
Theorem merge_keeps_first fl st out ow first f0 o0 names :
  st out = None \/ ow = true -> first <> out -> st first = Some f0 -> ljh_open fl f0 = Some o0 ->
  ends_in_newline (firstn (hsize o0) f0) ->
  exists f o' more, fst (merge fl st out (first :: names) ow) out = Some f /\ ljh_open fl f = Some o' /\
    same_header o0 o' /\ all_pulses o' = all_pulses o0 ++ more.
Proof.
  intros F N S O NL. destruct (merge_extends fl st out first names f0 ow S N F) as [m E].
  destruct (open_extended fl f0 o0 m O NL) as (o' & more & O' & SH & P).
  exists (f0 ++ m), o', more. auto.
Qed.
Print Assumptions merge_keeps_first.

(** The output as one of the further names (a pattern that matches an earlier result, with
    the flag): its old records are gone, and the ones merged so far are there twice. *)
Theorem merge_output_among_inputs fl st out c n first f0 ps0 names pss :
  ljhfile_channum out = Some c -> ~ In out (first :: names) ->
  holds fl st c n first ps0 -> st first = Some f0 -> whole fl f0 -> Forall2 (holds fl st c n) names pss ->
  exists st' f o', merge fl st out (first :: names ++ [out]) true = (st', true) /\ st' out = Some f /\
    ljh_open fl f = Some o' /\ all_pulses o' = (ps0 ++ concat pss) ++ (ps0 ++ concat pss).
Proof.
  intros Co N H S W Hs.
  destruct (merge_good fl st out true (or_intror eq_refl) c n f0 first ps0 names pss [out] H S W Hs N Co)
    as (st1 & o0 & o' & O & S1 & B1 & O' & SH & P & M).
  pose proof (holds_all_valid _ _ _ _ _ _ Hs) as HV. pose proof (holds_valid _ _ _ _ _ _ H) as V0.
  destruct H as (f & o & Sf & B & Of & V & Ns & A & St & C).
  rewrite S in Sf. injection Sf as <-. rewrite O in Of. injection Of as <-.
  destruct W as (o2 & O2 & NL & Md). rewrite O in O2. injection O2 as <-.
  assert (Sts : Forall storable (ps0 ++ concat pss)).
  { apply Forall_app. split; [exact St|]. clear - Hs. induction Hs; cbn; [constructor|].
    apply Forall_app. split; auto. destruct H as (f & o & _ & _ & _ & _ & _ & _ & Q & _). exact Q. }
  assert (V' : v22 o' = true) by (destruct SH as (_ & E & _); congruence).
  set (f1 := f0 ++ flat_map record_bytes (concat pss)) in *.
  assert (E : append_traces fl f1 f1 None = (f1 ++ flat_map record_bytes (ps0 ++ concat pss), true)).
  { rewrite <- P. apply append_bytes; auto. now rewrite P. }
  destruct (open_records fl f0 o0 (concat pss ++ (ps0 ++ concat pss)) O B V NL Md) as (o3 & O3 & _ & P3).
  { rewrite Ns. apply Forall_app. split; [exact HV|]. apply Forall_app. auto. }
  exists (upd st1 out (f1 ++ flat_map record_bytes (ps0 ++ concat pss))),
         (f1 ++ flat_map record_bytes (ps0 ++ concat pss)), o3.
  split; [|split; [|split]].
  - rewrite M. cbn [merge_loop]. unfold open_at. rewrite S1, O', Co, Z.eqb_refl, E. reflexivity.
  - apply upd_same.
  - unfold f1. rewrite <- app_assoc, <- flat_map_app. exact O3.
  - rewrite P3, A. now rewrite <- !app_assoc.
Qed.
Print Assumptions merge_output_among_inputs.

(** The output as the first of the names, or a missing first file, or no names: an exception
    and no change. *)
Theorem merge_bad_start fl st out ow names :
  (match names with [] => True | n :: _ => n = out \/ st n = None end) ->
  merge fl st out names ow = (st, false).
Proof.
  intros H. unfold merge. destruct (_ && _); auto. destruct names as [|n t]; auto.
  destruct H as [-> | ->]; auto. destruct (st out); auto. destruct (beq_spec out out); [reflexivity | contradiction].
Qed.
Print Assumptions merge_bad_start.

(** The script's own output path carries the channel number of the first file, when the
    directory does not contain "_chan". *)
Theorem out_path_channum outdir first c : 0 <= c ->
  ~ contains_chan (match outdir with [] => dirname first | _ => outdir end) ->
  ljhfile_channum (out_path outdir first c) = Some c.
Proof. intros C N. unfold out_path. now apply join_channum. Qed.
Print Assumptions out_path_channum.

(** Without an output directory the output is put beside the first file. *)
Theorem out_path_beside d x base c : x <> 47 -> ~ In 47 base ->
  out_path [] (d ++ [x; 47] ++ base) c = d ++ [x; 47] ++ bs "merged_chan" ++ py_str c ++ bs ".ljh" /\
  out_path [] (47 :: base) c = 47 :: bs "merged_chan" ++ py_str c ++ bs ".ljh" /\
  out_path [] base c = bs "merged_chan" ++ py_str c ++ bs ".ljh".
Proof.
  intros X B. apply Z.eqb_neq in X. unfold out_path, dirname. split; [|split].
  - replace (d ++ [x; 47] ++ base) with ((d ++ [x]) ++ 47 :: base) by now rewrite <- app_assoc.
    rewrite LfProofs.last_index_at by auto. cbv zeta. cbn [Nat.add].
    assert (firstn (S (length (d ++ [x]))) ((d ++ [x]) ++ 47 :: base) = d ++ [x; 47]) as ->.
    { replace (S (length (d ++ [x]))) with (length (d ++ [x]) + 1)%nat by lia.
      rewrite firstn_app_2. cbn. now rewrite <- app_assoc. }
    rewrite rev_app_distr. cbn [rev app drop_slashes]. rewrite Z.eqb_refl, X.
    unfold join. rewrite rev_involutive. rewrite rev_app_distr. cbn [rev app]. rewrite X.
    rewrite <- !app_assoc. reflexivity.
  - pose proof (LfProofs.last_index_at 47 [] base 0 B) as L. cbn [app] in L. rewrite L. reflexivity.
  - rewrite (LfProofs.last_index_none 47 base 0 B). reflexivity.
Qed.
Print Assumptions out_path_beside.

(** Hence the whole script. *)
Theorem main_merges fl st outdir force c n first f0 ps0 names pss : 0 <= c ->
  ~ contains_chan (match outdir with [] => dirname first | _ => outdir end) ->
  st (out_path outdir first c) = None \/ force = true ->
  ~ In (out_path outdir first c) (first :: names) ->
  holds fl st c n first ps0 -> st first = Some f0 -> whole fl f0 -> Forall2 (holds fl st c n) names pss ->
  exists st' f o', main fl st (first :: names) outdir force false = (st', true) /\
    st' (out_path outdir first c) = Some f /\ ljh_open fl f = Some o' /\ all_pulses o' = ps0 ++ concat pss /\
    same_but (out_path outdir first c) st st'.
Proof.
  intros C Nd F N H S W Hs.
  destruct (merge_records fl st _ force c n first f0 ps0 names pss F (out_path_channum _ _ _ C Nd) N H S W Hs)
    as (st' & f & o0 & o' & M & S' & _ & O' & _ & P & B).
  exists st', f, o'. split; auto. unfold main.
  destruct H as (g & o & Sf & _ & O & _ & _ & _ & _ & Cf). unfold open_at. now rewrite Sf, O, Cf.
Qed.
Print Assumptions main_merges.

(** A dry run changes nothing. *)
Theorem main_dry_run fl st names outdir force : fst (main fl st names outdir force true) = st.
Proof. now destruct names. Qed.
Print Assumptions main_dry_run.

(** * Instances *)

Definition nA := bs "d/a_chan1.ljh".
Definition nB := bs "d/b_chan1.ljh".
Definition nC := bs "d/c_chan2.ljh".
Definition nM := bs "d/merged_chan1.ljh".
Definition fB : bytes := dastard 3 ++ flat_map record_bytes [p3] ++ [9; 9].
Definition st0 : fs := upd (upd (upd (fun _ => None) nA ex_file) nB fB) nC fB.
Definition at_path (r : fs * bool) (p : bytes) : option (list pulse) :=
  match fst r p with Some f => pulses_of f | None => None end.

Example main_instance :
  out_path [] nA 1 = nM /\ out_path (bs "/x/") nA 1 = bs "/x/merged_chan1.ljh" /\
  snd (main fl0 st0 [nA; nB] [] false false) = true /\
  at_path (main fl0 st0 [nA; nB] [] false false) nM = Some [p1; p2; p3].
Proof. vm_compute. auto. Qed.

Lemma holds_check fl st c n p ps f :
  st p = Some f -> forallb (fun b => (0 <=? b) && (b <? 256)) f = true ->
  match ljh_open fl f with Some o => v22 o && Nat.eqb (nSamples o) n | None => false end = true ->
  option_map all_pulses (ljh_open fl f) = Some ps -> Forall storable ps -> ljhfile_channum p = Some c ->
  holds fl st c n p ps.
Proof.
  intros S B V A St C. destruct (ljh_open fl f) as [o|] eqn:O; [|discriminate].
  apply andb_true_iff in V. destruct V as [V N]. apply Nat.eqb_eq in N. injection A as A.
  exists f, o. repeat split; auto. rewrite forallb_forall in B. apply Forall_forall. intros x I.
  apply B in I. lia.
Qed.

Lemma whole_check fl f :
  match ljh_open fl f with
  | Some o => (last (firstn (hsize o) f) 0 =? 10) && Nat.eqb (length (body o) mod (16 + 2 * nSamples o)) 0
  | None => false
  end = true -> whole fl f.
Proof.
  intros H. unfold whole. destruct (ljh_open fl f) as [o|]; [|discriminate]. exists o. split; auto.
  apply andb_true_iff in H. destruct H as [L M]. apply Nat.eqb_eq in M. split; auto.
  apply Z.eqb_eq in L. destruct (firstn (hsize o) f) as [|x t] using rev_ind; [cbn in L; lia|].
  rewrite last_last in L. subst. now exists t.
Qed.

Ltac storables := repeat (apply Forall_cons || apply Forall_nil); unfold storable; cbn; lia.

(** The hypotheses of [merge_records], of [merge_stops] (with the file of channel 2), of
    [merge_output_among_inputs] and of [main_merges]. *)
Example merge_hypotheses :
  st0 nM = None /\ ljhfile_channum nM = Some 1 /\ ~ In nM [nA; nB] /\
  holds fl0 st0 1 3 nA [p1; p2] /\ st0 nA = Some ex_file /\ whole fl0 ex_file /\
  Forall2 (holds fl0 st0 1 3) [nB] [[p3]] /\
  nC <> nM /\ (forall o, open_at fl0 st0 nC <> Some (o, 1)) /\
  ~ contains_chan (dirname nA) /\ out_path [] nA 1 = nM.
Proof.
  split; [vm_compute; reflexivity|]. split; [vm_compute; reflexivity|].
  split; [vm_compute; intuition discriminate|].
  split; [apply holds_check with ex_file; [vm_compute; reflexivity | vm_compute; reflexivity | vm_compute; reflexivity |
    vm_compute; reflexivity | storables | vm_compute; reflexivity]|].
  split; [vm_compute; reflexivity|]. split; [apply whole_check; vm_compute; reflexivity|].
  split; [constructor; [|constructor]; apply holds_check with fB;
    [vm_compute; reflexivity | vm_compute; reflexivity | vm_compute; reflexivity |
    vm_compute; reflexivity | storables | vm_compute; reflexivity]|].
  split; [vm_compute; discriminate|].
  split.
  - intros o C. assert (E : option_map snd (open_at fl0 st0 nC) = Some 2) by (vm_compute; reflexivity).
    rewrite C in E. discriminate E.
  - split; [|vm_compute; reflexivity]. intros (a & b & E). vm_compute in E.
    destruct a as [|? a]; [discriminate E|]. injection E as _ E. destruct a; discriminate E.
Qed.

Example merge_stops_instance : snd (merge fl0 st0 nM [nA; nC; nB] false) = false /\
  at_path (merge fl0 st0 nM [nA; nC; nB] false) nM = Some [p1; p2] /\
  snd (merge fl0 (fst (merge fl0 st0 nM [nA; nC; nB] false)) nM [nA; nB] false) = false.
Proof. vm_compute. auto. Qed.

Example merge_twice_instance :
  at_path (merge fl0 (upd st0 nM fB) nM [nA; nM] true) nM = Some [p1; p2; p1; p2].
Proof. vm_compute. reflexivity. Qed.

(** * Claims that do not hold *)

(** Merging again with the flag gives the same output: not when the names contain it. *)
Theorem merge_again_refuted : exists st names out,
  let r := merge fl0 st out names true in
  snd r = true /\ snd (merge fl0 (fst r) out (names ++ [out]) true) = true /\
  at_path (merge fl0 (fst r) out (names ++ [out]) true) out <> at_path r out.
Proof. exists st0, [nA; nB], nM. vm_compute. repeat split; auto. discriminate. Qed.
Print Assumptions merge_again_refuted.

(** Any incomplete record may end any of the files: not the first one. *)
Theorem merge_incomplete_first_refuted : exists st names out,
  let r := merge fl0 st out names false in
  at_path (st, true) nB = Some [p3] /\ at_path (st, true) nA = Some [p1; p2] /\ names = [nB; nA] /\
  snd r = true /\ at_path r out <> Some [p3; p1; p2].
Proof. exists st0, [nB; nA], nM. vm_compute. repeat split; auto. discriminate. Qed.
Print Assumptions merge_incomplete_first_refuted.

(** Old files are merged as well: files of version 2.1 get records of version 2.2 appended
    under the old header, without any message. *)
Definition old_file : bytes :=
  flat_map (fun l => l ++ [10])
    [ bs "Save File Format Version: 2.1.0"; bs "Timebase: 1e-5"; bs "Number of rows: 4";
      bs "Row number: 2"; bs "Presamples: 5"; bs "Total Samples: 3"; bs "#End of Header" ]
  ++ [0; 0; 1; 0; 0; 0; 7; 0; 8; 0; 9; 0].
Theorem merge_old_refuted : exists st names out ps,
  (forall q, In q names -> option_map (map p_data) (at_path (st, true) q) = Some ps) /\ length names = 2%nat /\
  snd (merge fl0 st out names false) = true /\
  option_map (map p_data) (at_path (merge fl0 st out names false) out) <> Some (ps ++ ps).
Proof.
  exists (upd (upd (fun _ => None) nA old_file) nB old_file), [nA; nB], nM, [[7; 8; 9]].
  split; [|vm_compute; repeat split; discriminate].
  intros q [<- | [<- | []]]; vm_compute; reflexivity.
Qed.
Print Assumptions merge_old_refuted.

(** The output directory does not matter: one whose name contains "_chan" makes the script
    fail after the first file has been copied. *)
Theorem main_outdir_refuted : exists st names outdir,
  snd (main fl0 st names [] false false) = true /\ snd (main fl0 st names outdir false false) = false /\
  at_path (main fl0 st names outdir false false) (out_path outdir nA 1) = Some [p1; p2].
Proof. exists st0, [nA; nB], (bs "run_chan2.d"). vm_compute. auto. Qed.
Print Assumptions main_outdir_refuted.

(** Files with records of another length are refused: they are appended. *)
Theorem merge_other_length_refuted : exists st names out,
  at_path (st, true) nA = Some [p1; p2] /\ at_path (st, true) nB = Some [mkPulse 5 6 [7; 8]] /\
  names = [nA; nB] /\ snd (merge fl0 st out names false) = true /\
  at_path (merge fl0 st out names false) out = Some [p1; p2].
Proof.
  exists (upd st0 nB (dastard 2 ++ record_bytes (mkPulse 5 6 [7; 8]))), [nA; nB], nM. vm_compute. auto 6.
Qed.
Print Assumptions merge_other_length_refuted.

Example out_path_examples : out_path [] (bs "/data/r/a_chan7.ljh") 7 = bs "/data/r/merged_chan7.ljh" /\
  out_path [] (bs "/a_chan7.ljh") 7 = bs "/merged_chan7.ljh" /\ out_path (bs "o/") (bs "/a_chan7.ljh") 7 = bs "o/merged_chan7.ljh".
Proof. vm_compute. auto. Qed.
