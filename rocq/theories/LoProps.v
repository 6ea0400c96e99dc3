(** Properties of the loops that convert LJH files to OFF files: C127. *)
From Coq Require Import ZArith Ascii String Bool Lia List.
From Verif Require Import LjhModel LjhProofs NameModel MgModel MgProofs LoModel LoSpec LoProofs.
Import ListNotations.
Open Scope Z_scope.

(** The channels of the pulse models with some LJH file are converted in their order, up to
    the limit; the names returned are theirs; each OFF file is what the conversion of its
    channel gives, and nothing else changes. *)
Theorem loop_converts conv chans bases off_base max st l :
  NoDup chans -> those (found st bases) chans l ->
  (forall c, In c (limited max l) -> exists f, conv c (contents st bases c) = (Some f, true)) ->
  exists st', multi_loop conv chans bases off_base max st = (st', Some (map (names bases off_base) (limited max l))) /\
    (forall c, In c (limited max l) -> st' (chan_file off_base c ".off") = fst (conv c (contents st bases c))) /\
    (forall q, (forall c, In c (limited max l) -> q <> chan_file off_base c ".off") -> st' q = st q).
Proof.
  intros Nd T G. assert (E : limited max l = room max 0 l) by (unfold limited, room; now rewrite Z.sub_0_r).
  rewrite E in *. unfold multi_loop. now apply loop_good.
Qed.
Print Assumptions loop_converts.

(** Whatever the conversions do, only OFF files of channels with a pulse model change: no LJH
    file does. *)
Theorem loop_changes_off_only conv chans bases off_base max st q :
  (forall c, In c chans -> q <> chan_file off_base c ".off") ->
  fst (multi_loop conv chans bases off_base max st) q = st q.
Proof. intros N. now apply loop_others. Qed.
Print Assumptions loop_changes_off_only.

Theorem loop_keeps_ljh conv chans bases off_base max st b c :
  fst (multi_loop conv chans bases off_base max st) (chan_file b c ".ljh") = st (chan_file b c ".ljh").
Proof. apply loop_others. intros d _. apply ljh_not_off. Qed.
Print Assumptions loop_keeps_ljh.

(** The loop raises only if a conversion does. *)
Theorem loop_raises conv chans bases off_base max st :
  snd (multi_loop conv chans bases off_base max st) = None -> exists c cs, In c chans /\ snd (conv c cs) = false.
Proof. apply loop_fails. Qed.
Print Assumptions loop_raises.

(** One base name: the experiment state file is copied beside the OFF files, with newlines
    for all line ends; when it is already there it stays. *)
Theorem state_file_copied conv chans path dir max require st l f :
  let base := fst (basename_channum path) in
  let off_base := join dir (tail_name base) in
  NoDup chans -> those (found st [base]) chans l ->
  (forall c, In c (limited max l) -> exists g, conv c (contents st [base] c) = (Some g, true)) ->
  st (state_path base) = Some f ->
  exists st', ljh2off_loop conv chans path dir max require st = (st', Some (map (names [base] off_base) (limited max l))) /\
    st' (state_path off_base) = Some (if beq base off_base then f else newlines f) /\
    (forall c, In c (limited max l) -> st' (chan_file off_base c ".off") = fst (conv c (contents st [base] c))).
Proof.
  cbv zeta. intros Nd T G S. unfold ljh2off_loop.
  set (base := fst (basename_channum path)) in *. set (ob := join dir (tail_name base)).
  destruct (loop_converts conv chans [base] ob max st l Nd T G) as (st1 & M & V & U).
  rewrite M. assert (S1 : st1 (state_path base) = Some f).
  { rewrite U; [exact S|]. intros c _. apply state_not_off. }
  rewrite S1. destruct (beq_spec (state_path base) (state_path ob)) as [E|E].
  - assert (base = ob) as Eb by (unfold state_path in E; now apply app_inv_tail in E).
    exists st1. split; [reflexivity|]. split; [|exact V]. rewrite <- E, S1.
    now destruct (beq_spec base ob).
  - exists (upd st1 (state_path ob) (newlines f)). split; [reflexivity|]. split.
    + rewrite upd_same. destruct (beq_spec base ob) as [Eb|_]; [|reflexivity]. exfalso. apply E. now rewrite Eb.
    + intros c I. rewrite upd_other; [now apply V|]. intros X. symmetry in X. revert X. apply state_not_off.
Qed.
Print Assumptions state_file_copied.

(** A file without carriage returns is copied as it is. *)
Theorem newlines_kept l : ~ In 13 l -> newlines l = l.
Proof. exact (newlines_id l). Qed.
Print Assumptions newlines_kept.

(** No state file: an exception when it is required, but only after all the OFF files have
    been written. *)
Theorem state_file_missing conv chans path dir max require st l :
  let base := fst (basename_channum path) in
  let off_base := join dir (tail_name base) in
  NoDup chans -> those (found st [base]) chans l ->
  (forall c, In c (limited max l) -> exists g, conv c (contents st [base] c) = (Some g, true)) ->
  st (state_path base) = None ->
  exists st', ljh2off_loop conv chans path dir max require st =
      (st', if require then None else Some (map (names [base] off_base) (limited max l))) /\
    (forall c, In c (limited max l) -> st' (chan_file off_base c ".off") = fst (conv c (contents st [base] c))).
Proof.
  cbv zeta. intros Nd T G S. unfold ljh2off_loop.
  set (base := fst (basename_channum path)) in *. set (ob := join dir (tail_name base)).
  destruct (loop_converts conv chans [base] ob max st l Nd T G) as (st1 & M & V & U).
  rewrite M. assert (S1 : st1 (state_path base) = None).
  { rewrite U; [exact S|]. intros c _. apply state_not_off. }
  rewrite S1. exists st1. split; [reflexivity | exact V].
Qed.
Print Assumptions state_file_missing.

(** The LJH files survive the whole script. *)
Theorem main_keeps_ljh conv chans path dir ex rep max st b c :
  fst (main conv chans path dir ex rep max st) (chan_file b c ".ljh") = st (chan_file b c ".ljh").
Proof.
  unfold main. destruct (_ && _); auto. unfold ljh2off_loop.
  pose proof (loop_keeps_ljh conv chans [fst (basename_channum path)]
    (join dir (tail_name (fst (basename_channum path)))) max st b c) as K.
  destruct (multi_loop _ _ _ _ _ _) as [st1 [l|]]; [|exact K].
  destruct (st1 (state_path _)); [|exact K]. destruct (beq _ _); [exact K|]. cbn [fst] in *.
  rewrite upd_other; [exact K|]. intros X. symmetry in X. revert X. apply state_not_ljh.
Qed.
Print Assumptions main_keeps_ljh.

(** An existing output directory is left alone without the flag. *)
Theorem main_refuses conv chans path dir max st : main conv chans path dir true false max st = (st, Some None).
Proof. reflexivity. Qed.
Print Assumptions main_refuses.

(** * Instances *)

Definition conv0 : conversion := fun c l =>
  if forallb (fun o => match o with Some _ => true | None => false end) l
  then (Some (c :: flat_map (fun o => match o with Some f => f | None => [] end) l), true)
  else match l with Some f :: _ => (Some (c :: f), false) | _ => (None, false) end.
Definition base0 := bs "d/run".
Definition st0 : fs :=
  upd (upd (upd (fun _ => None) (chan_file base0 3 ".ljh") [30]) (chan_file base0 11 ".ljh") [110])
      (state_path base0) (bs "# x" ++ [13; 10] ++ bs "1, A" ++ [10]).
Definition path0 := bs "d/run_chan3.ljh".

Example loop_instance :
  let r := ljh2off_loop conv0 [1; 3; 11] path0 (bs "out") 5 true st0 in
  snd r = Some [([bs "d/run_chan3.ljh"], bs "out/run_chan3.off"); ([bs "d/run_chan11.ljh"], bs "out/run_chan11.off")] /\
  fst r (bs "out/run_chan3.off") = Some [3; 30] /\ fst r (bs "out/run_chan1.off") = None /\
  fst r (bs "out/run_experiment_state.txt") = Some (bs "# x" ++ [10] ++ bs "1, A" ++ [10]) /\
  snd (ljh2off_loop conv0 [1; 3; 11] path0 (bs "out") 1 true st0) = Some [([bs "d/run_chan3.ljh"], bs "out/run_chan3.off")].
Proof. vm_compute. auto 6. Qed.

Example loop_hypotheses : NoDup [1; 3; 11] /\ those (found st0 [base0]) [1; 3; 11] [3; 11] /\
  (forall c, In c (limited 5 [3; 11]) -> exists f, conv0 c (contents st0 [base0] c) = (Some f, true)) /\
  fst (basename_channum path0) = base0 /\ st0 (state_path base0) <> None /\
  snd (ljh2off_loop conv0 [3] (bs "d/other_chan3.ljh") [] 5 true
         (upd (fun _ => None) (bs "d/other_chan3.ljh") [7])) = None.
Proof.
  split; [|split; [|split]].
  - repeat constructor; cbn; intuition discriminate.
  - apply those_out; [|apply those_in; [|apply those_in; [|constructor]]].
    + intros (b & [<-|[]] & N). apply N. vm_compute. reflexivity.
    + exists base0. split; [now left|]. vm_compute. discriminate.
    + exists base0. split; [now left|]. vm_compute. discriminate.
  - intros c I. cbn in I. destruct I as [<-|[<-|[]]]; eexists; vm_compute; reflexivity.
  - vm_compute. repeat split; discriminate.
Qed.

(** * Claims that do not hold *)

(** At most [max] channels: all of them with a limit of 0. *)
Theorem limit_zero_refuted : exists conv chans bases off_base st l,
  snd (multi_loop conv chans bases off_base 0 st) = Some l /\ (0 < length l)%nat.
Proof.
  exists conv0, [3; 11], [base0], (bs "o/run"), st0, (map (names [base0] (bs "o/run")) [3; 11]).
  split; [vm_compute; reflexivity | cbn; lia].
Qed.
Print Assumptions limit_zero_refuted.

(** Of several base names, the files that exist are converted: a missing one raises, and
    leaves an incomplete OFF file (with the conversion of [conv0], which like [multi_ljh2off]
    opens the files one after the other). *)
Theorem some_missing_refuted : exists chans bases off_base st,
  found st bases 3 /\ In 3 chans /\ snd (multi_loop conv0 chans bases off_base 9 st) = None /\
  fst (multi_loop conv0 chans bases off_base 9 st) (chan_file off_base 3 ".off") <> None.
Proof.
  exists [3], [base0; bs "d/more"], (bs "o/run"), st0. split; [|split; [now left|]].
  - exists base0. split; [now left|]. vm_compute. discriminate.
  - vm_compute. split; [reflexivity | discriminate].
Qed.
Print Assumptions some_missing_refuted.

(** An error means that nothing was written: the state file is looked for at the end. *)
Theorem error_after_writing_refuted : exists st path,
  snd (main conv0 [3] path (bs "out") false false 9 st) = None /\
  fst (main conv0 [3] path (bs "out") false false 9 st) (bs "out/run_chan3.off") = Some [3; 30].
Proof. exists (upd (fun _ => None) path0 [30]), path0. vm_compute. auto. Qed.
Print Assumptions error_after_writing_refuted.

(** The script ends without an error when there is nothing to convert: an IndexError. *)
Theorem nothing_to_convert_refuted : exists st path,
  snd (ljh2off_loop conv0 [5] path (bs "out") 9 true st) = Some [] /\
  snd (main conv0 [5] path (bs "out") false false 9 st) = None.
Proof. exists st0, path0. vm_compute. auto. Qed.
Print Assumptions nothing_to_convert_refuted.
