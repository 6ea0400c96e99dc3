From Coq Require Import ZArith Ascii String Bool Lia Sorted Permutation List.
From Verif Require Import LjhModel LjhSpec LjhProofs LjhEdit NameModel NameSpec NameProofs Kept LfModel LfSpec LfProofs.
Import ListNotations.
Open Scope Z_scope.

(** * C116: channels of a run *)
(** One number for every file of the run in the folder, in order (no name in the folder is also that of a folder where the program runs). *)
Theorem channels_listed f listdir fname d b c es : f fname <> IsDir -> named fname (d ++ slash :: b) c -> plain_folder d -> no_slash b ->
  listdir d = Some es -> (forall e, In e es -> no_slash e /\ e <> [] /\ f e <> IsDir) ->
  exists r zs, get_channels f listdir fname = Some r /\ ordered r /\ Permutation r zs /\
    run_channels (fun e => f (d ++ slash :: e) = IsFile) b es zs.
Proof.
  intros F N. apply channels_base with (c := Some c). unfold base_chan, isdir. apply channum_named in N. rewrite N.
  destruct (f fname); [reflexivity|reflexivity|contradiction].
Qed.
Print Assumptions channels_listed.

(** The same for a folder that has the name of the run. *)
Theorem channels_of_folder f listdir d n k es : f (d ++ slash :: n ++ repeat slash k) = IsDir -> plain_folder d -> no_slash n -> n <> [] -> ~ In 46 n ->
  ~ mentions_channel (d ++ slash :: n ++ slash :: n) ->
  listdir (d ++ slash :: n) = Some es -> (forall e, In e es -> no_slash e /\ e <> [] /\ f e <> IsDir) ->
  exists r zs, get_channels f listdir (d ++ slash :: n ++ repeat slash k) = Some r /\ ordered r /\ Permutation r zs /\
    run_channels (fun e => f ((d ++ slash :: n) ++ slash :: e) = IsFile) n es zs.
Proof.
  intros F P N E D M L H. apply (channels_base f listdir _ (d ++ slash :: n) n None es); trivial; [|now apply plain_app].
  now apply folder_base.
Qed.
Print Assumptions channels_of_folder.

(** A folder with the generated names of channels gives those channels, in whatever order it is listed. *)
Theorem channels_generated f listdir d b ext cs es c : plain_folder d -> no_slash b -> f (d ++ slash :: b ++ bs "_chan" ++ py_str c ++ ext) <> IsDir ->
  0 <= c -> ~ mentions_channel ext -> (forall x r, ext = x :: r -> ~ 48 <= x <= 57) -> listdir d = Some es ->
  Permutation es (map (fun z => b ++ bs "_chan" ++ py_str z ++ ext) cs) ->
  (forall z, In z cs -> 0 <= z /\ f (d ++ slash :: b ++ bs "_chan" ++ py_str z ++ ext) = IsFile) ->
  (forall e, In e es -> no_slash e /\ e <> [] /\ f e <> IsDir) ->
  exists r, get_channels f listdir (d ++ slash :: b ++ bs "_chan" ++ py_str c ++ ext) = Some r /\ ordered r /\ Permutation r cs.
Proof.
  intros P N F C M D L E A H.
  destruct (channels_listed f listdir (d ++ slash :: b ++ bs "_chan" ++ py_str c ++ ext) d b c es) as (r & zs & G & O & R & Z); trivial.
  - replace (d ++ slash :: b ++ bs "_chan" ++ py_str c ++ ext) with ((d ++ slash :: b) ++ bs "_chan" ++ py_str c ++ ext) by (rewrite <- app_assoc; reflexivity).
    now apply generated_named.
  - destruct (run_perm _ _ _ _ _ E Z) as (zs' & Z' & Q). exists r. split; [exact G|]. split; [exact O|].
    apply run_all in Z'; trivial. subst zs'. now rewrite R, Q.
Qed.
Print Assumptions channels_generated.

(** The channels of two runs: those of both, once each, in increasing order. *)
Theorem channels_of_both f listdir a b r : get_channels_both f listdir a b = Some r ->
  exists x y, get_channels f listdir a = Some x /\ get_channels f listdir b = Some y /\ increasing r /\ forall z, In z r <-> In z x /\ In z y.
Proof. exact (both_spec f listdir a b r). Qed.
Print Assumptions channels_of_both.

(** A name without a folder raises: no folder has an empty name. *)
Theorem bare_name_raises f listdir fname base c : f fname <> IsDir -> named fname base c -> no_slash fname -> listdir [] = None ->
  get_channels f listdir fname = None.
Proof.
  intros F N S L. pose proof N as N'. apply channum_named in N'. unfold get_channels, base_chan, isdir. rewrite N'.
  destruct N as (ds & rest & E & _).
  replace (match f fname with IsDir => true | _ => false end) with false by (destruct (f fname); [reflexivity|reflexivity|contradiction]).
  rewrite split_bare; [now rewrite L|]. intros I. apply S. rewrite E. apply in_or_app. now left.
Qed.
Print Assumptions bare_name_raises.
Theorem root_folder_raises f listdir fname : f fname = IsDir -> Forall (fun c => c = slash) fname -> get_channels f listdir fname = None.
Proof. intros F A. unfold get_channels. now rewrite (root_raises f fname F A). Qed.
Print Assumptions root_folder_raises.

Definition tree (files dirs : list bytes) : fs := fun p => if existsb (beq p) dirs then IsDir else if existsb (beq p) files then IsFile else Absent.
Definition run_files : fs := tree [bs "/d/run_chan2.ljh"; bs "/d/run_chan10.ljh"; bs "/d/runs_chan3.ljh"; bs "/d/run_chan2.off"; bs "/d/run/run_chan5.ljh"] [bs "/d"; bs "/d/run"; bs "/"].
Definition run_list (d : bytes) : option (list bytes) :=
  if beq d (bs "/d") then Some [bs "run_chan10.ljh"; bs "run_chan2.ljh"; bs "runs_chan3.ljh"; bs "run"]
  else if beq d (bs "/d/run") then Some [bs "run_chan5.ljh"; bs "notes.txt"] else None.
Ltac plain d c := exists (bs d), c; split; [vm_compute; reflexivity|vm_compute; discriminate].
Ltac in_list := intros H; vm_compute in H; repeat (destruct H as [H | H]; [discriminate H|]); destruct H.
Example channels_instance : let f := run_files in let fname := bs "/d/run_chan2.ljh" in
  f fname <> IsDir /\ named fname (bs "/d" ++ slash :: bs "run") 2 /\ plain_folder (bs "/d") /\ no_slash (bs "run") /\
  (exists es, run_list (bs "/d") = Some es /\ forall e, In e es -> no_slash e /\ e <> [] /\ f e <> IsDir) /\
  get_channels f run_list fname = Some [2; 10] /\ get_channels f run_list (bs "/d/run") = Some [5] /\
  get_channels f run_list (bs "run_chan2.ljh") = None /\ get_channels f run_list (bs "/") = None /\
  get_channels_both f run_list fname (bs "/d/run") = Some [].
Proof.
  cbv zeta. split; [vm_compute; discriminate|]. split; [apply channum_named; vm_compute; reflexivity|]. split; [plain "/"%string 100|].
  split; [in_list|]. split; [|repeat split; vm_compute; reflexivity].
  eexists. split; [vm_compute; reflexivity|]. intros e H. cbn [In] in H.
  repeat (destruct H as [<- | H]; [split; [in_list|]; split; [discriminate|vm_compute; discriminate]|]). destruct H.
Qed.
Example folder_instance : let f := run_files in
  f (bs "/d" ++ slash :: bs "run" ++ repeat slash 0) = IsDir /\ plain_folder (bs "/d") /\ no_slash (bs "run") /\ ~ In 46 (bs "run") /\
  ~ mentions_channel (bs "/d" ++ slash :: bs "run" ++ slash :: bs "run") /\
  (exists es, run_list (bs "/d" ++ slash :: bs "run") = Some es /\ forall e, In e es -> no_slash e /\ e <> [] /\ f e <> IsDir).
Proof.
  cbv zeta. split; [vm_compute; reflexivity|]. split; [plain "/"%string 100|]. split; [in_list|]. split; [in_list|].
  split; [apply (last_match_none _ 0); vm_compute; reflexivity|].
  eexists. split; [vm_compute; reflexivity|]. intros e H. cbn [In] in H.
  repeat (destruct H as [<- | H]; [split; [in_list|]; split; [discriminate|vm_compute; discriminate]|]). destruct H.
Qed.

(** "Every channel once" is false: a second file of the channel, of another kind, counts again. *)
Theorem channel_once_refuted : exists f listdir fname r, get_channels f listdir fname = Some r /\ ~ NoDup r.
Proof.
  exists run_files, (fun _ => Some [bs "run_chan2.ljh"; bs "run_chan2.off"]), (bs "/d/run_chan2.ljh"), [2; 2].
  split; [vm_compute; reflexivity|]. intros N. inversion N as [|? ? I _]; subst. apply I. now left.
Qed.
Print Assumptions channel_once_refuted.
(** "The number is that of the file, not of its folder" is false. *)
Theorem channel_of_folder_refuted : exists f fname folder file c, f fname = IsFile /\ fname = folder ++ slash :: file /\ no_slash file /\
  ~ mentions_channel file /\ base_chan f fname = Some (firstn 6 folder, Some c).
Proof.
  exists (fun _ => IsFile), (bs "/d/run_chan7/a.ljh"), (bs "/d/run_chan7"), (bs "a.ljh"), 7.
  repeat split; try (vm_compute; reflexivity); [in_list|]. apply (last_match_none _ 0). vm_compute. reflexivity.
Qed.
Print Assumptions channel_of_folder_refuted.
(** A folder whose name has a dot stands for a run with what is before the dot. *)
Theorem folder_with_dot_refuted : exists f d n, f (d ++ slash :: n) = IsDir /\ plain_folder d /\ no_slash n /\
  base_chan f (d ++ slash :: n) <> Some ((d ++ slash :: n) ++ slash :: n, None).
Proof.
  exists (fun _ => IsDir), (bs "/d"), (bs "run.1"). split; [reflexivity|]. split; [plain "/"%string 100|]. split; [in_list|].
  vm_compute. discriminate.
Qed.
Print Assumptions folder_with_dot_refuted.

(** * C117: folders for output, names beside a file, and LJHModify *)
(** With the folder of the file there, the output folder is made if need be, nothing else changes, and the name is in it. *)
Theorem output_name f ljh d b c : f ljh <> IsDir -> named ljh (d ++ slash :: b) c -> plain_folder d -> no_slash b -> f d = IsDir ->
  let out := d ++ slash :: bs "mass_output" in
  (f out = IsFile -> output_basename f ljh = (f, None)) /\
  (f out = IsDir -> output_basename f ljh = (f, Some (out ++ slash :: b))) /\
  (f out = Absent -> exists f', output_basename f ljh = (f', Some (out ++ slash :: b)) /\ only_new f f' out).
Proof.
  intros F N P S D out. apply channum_named in N.
  assert (B : base_chan f ljh = Some (d ++ slash :: b, Some c)).
  { unfold base_chan, isdir. rewrite N. destruct (f ljh); [reflexivity|reflexivity|contradiction]. }
  assert (SO : no_slash (bs "mass_output")) by in_list.
  assert (J : join out b = out ++ slash :: b) by (apply join_plain; [apply plain_app; [discriminate|exact SO]|exact S]).
  unfold output_basename. rewrite (folder_spec f ljh _ _ d b _ B P S SO). unfold isdir. rewrite D. fold out.
  destruct (make_dir_spec f out) as (A1 & A2 & A3).
  split; [intros E; rewrite (A1 E); reflexivity|]. split; [intros E; rewrite (A2 E), J; reflexivity|].
  intros E. destruct (A3 E) as (f' & -> & O). exists f'. rewrite J. split; [reflexivity|exact O].
Qed.
Print Assumptions output_name.
(** The same for the folder "mass" and any name of a file that is not an absolute one. *)
Theorem mass_folder_name f ljh d b c file : f ljh <> IsDir -> named ljh (d ++ slash :: b) c -> plain_folder d -> no_slash b -> f d = IsDir ->
  no_slash file -> let out := d ++ slash :: bs "mass" in
  (f out = IsFile -> mass_folder f ljh file = (f, None)) /\
  (f out = IsDir -> mass_folder f ljh file = (f, Some (out ++ slash :: file))) /\
  (f out = Absent -> exists f', mass_folder f ljh file = (f', Some (out ++ slash :: file)) /\ only_new f f' out).
Proof.
  intros F N P S D SF out. apply channum_named in N.
  assert (B : base_chan f ljh = Some (d ++ slash :: b, Some c)).
  { unfold base_chan, isdir. rewrite N. destruct (f ljh); [reflexivity|reflexivity|contradiction]. }
  assert (SO : no_slash (bs "mass")) by in_list.
  assert (J : join out file = out ++ slash :: file) by (apply join_plain; [apply plain_app; [discriminate|exact SO]|exact SF]).
  unfold mass_folder. rewrite (folder_spec f ljh _ _ d b _ B P S SO). unfold isdir. rewrite D. fold out.
  destruct (make_dir_spec f out) as (A1 & A2 & A3).
  split; [intros E; rewrite (A1 E); reflexivity|]. split; [intros E; rewrite (A2 E), J; reflexivity|].
  intros E. destruct (A3 E) as (f' & -> & O). exists f'. rewrite J. split; [reflexivity|exact O].
Qed.
Print Assumptions mass_folder_name.
(** A file whose folder is not there, or that is written without its folder, raises and changes nothing. *)
Theorem output_raises f ljh d b c : f ljh <> IsDir -> named ljh (d ++ slash :: b) c -> plain_folder d -> no_slash b -> f d <> IsDir ->
  output_basename f ljh = (f, None) /\ forall file, mass_folder f ljh file = (f, None).
Proof.
  intros F N P S D. apply channum_named in N.
  assert (B : base_chan f ljh = Some (d ++ slash :: b, Some c)).
  { unfold base_chan, isdir. rewrite N. destruct (f ljh); [reflexivity|reflexivity|contradiction]. }
  assert (I : isdir f d = false) by (unfold isdir; destruct (f d); [reflexivity|reflexivity|contradiction]).
  split; [|intros file].
  - unfold output_basename. rewrite (folder_spec f ljh _ _ d b _ B P S); [now rewrite I|in_list].
  - unfold mass_folder. rewrite (folder_spec f ljh _ _ d b _ B P S); [now rewrite I|in_list].
Qed.
Print Assumptions output_raises.
Theorem output_bare_raises f ljh base c : f ljh <> IsDir -> named ljh base c -> no_slash ljh -> f [] <> IsDir ->
  output_basename f ljh = (f, None) /\ forall file, mass_folder f ljh file = (f, None).
Proof.
  intros F N S D. pose proof N as N'. apply channum_named in N'. destruct N as (ds & rest & E & _).
  assert (SB : no_slash base) by (intros I; apply S; rewrite E; apply in_or_app; now left).
  assert (I : isdir f [] = false) by (unfold isdir; destruct (f []); [reflexivity|reflexivity|contradiction]).
  assert (B : base_chan f ljh = Some (base, Some c)).
  { unfold base_chan, isdir. rewrite N'. destruct (f ljh); [reflexivity|reflexivity|contradiction]. }
  split; [|intros file]; [unfold output_basename|unfold mass_folder]; unfold folder; now rewrite B, (split_bare base SB), I.
Qed.
Print Assumptions output_bare_raises.
(** Asking again gives the same name and makes nothing. *)
Theorem output_again f ljh d b c f' p : f ljh <> IsDir -> named ljh (d ++ slash :: b) c -> plain_folder d -> no_slash b ->
  ljh <> d ++ slash :: bs "mass_output" -> output_basename f ljh = (f', Some p) -> output_basename f' ljh = (f', Some p).
Proof.
  intros F N P S NE H. destruct (f d) eqn:D.
  - destruct (output_raises f ljh d b c F N P S) as [R _]; congruence.
  - destruct (output_raises f ljh d b c F N P S) as [R _]; congruence.
  - destruct (output_name f ljh d b c F N P S D) as (A1 & A2 & A3). cbv zeta in *. set (out := d ++ slash :: bs "mass_output") in *.
    destruct (f out) eqn:O.
    + destruct (A3 eq_refl) as (g & E & G1 & G2). rewrite H in E. injection E as -> ->.
      assert (D' : g d = IsDir).
      { rewrite G2; [exact D|]. intros X. apply (f_equal (@length Z)) in X. unfold out in X. rewrite app_length in X. cbn [length] in X. lia. }
      assert (F' : g ljh <> IsDir) by (rewrite G2; assumption).
      destruct (output_name g ljh d b c F' N P S D') as (_ & B2 & _). exact (B2 G1).
    + rewrite (A1 eq_refl) in H. discriminate H.
    + pose proof (A2 eq_refl) as E. rewrite H in E. injection E as -> ->. exact H.
Qed.
Print Assumptions output_again.
Theorem names_beside f fname base c : f fname <> IsDir -> named fname base c ->
  extern_trig_fnames f fname = Some (base ++ bs "_external_trigger.bin", base ++ bs "_external_trig.hdf5") /\
  aux_fname f fname = Some (base ++ bs ".timing_aux").
Proof.
  intros F N. apply channum_named in N. unfold extern_trig_fnames, aux_fname, base_chan, isdir. rewrite N.
  destruct (f fname); [split; reflexivity|split; reflexivity|contradiction].
Qed.
Print Assumptions names_beside.
Theorem microphone_name d n : plain_folder d -> no_slash n -> mic_fname (d ++ slash :: n) = d ++ slash :: bs "microphone_timestamps".
Proof. intros P N. unfold mic_fname. rewrite (split_plain d n P N). apply join_plain; [exact P|in_list]. Qed.
Print Assumptions microphone_name.
Theorem load_aux_raises {A : Type} (raw : list A) : load_aux raw = None.
Proof. reflexivity. Qed.
Print Assumptions load_aux_raises.

Example output_instance : let f := run_files in let ljh := bs "/d/run_chan2.ljh" in
  f ljh <> IsDir /\ named ljh (bs "/d" ++ slash :: bs "run") 2 /\ f (bs "/d") = IsDir /\ f [] <> IsDir /\ ljh <> bs "/d" ++ slash :: bs "mass_output" /\
  snd (output_basename f ljh) = Some (bs "/d/mass_output/run") /\ fst (output_basename f ljh) (bs "/d/mass_output") = IsDir /\
  snd (mass_folder f ljh (bs "a.h5")) = Some (bs "/d/mass/a.h5") /\ snd (output_basename f (bs "/e/run_chan2.ljh")) = None /\
  snd (output_basename f (bs "run_chan2.ljh")) = None /\ aux_fname f ljh = Some (bs "/d/run.timing_aux") /\
  mic_fname ljh = bs "/d/microphone_timestamps".
Proof.
  cbv zeta. split; [vm_compute; discriminate|]. split; [apply channum_named; vm_compute; reflexivity|]. split; [vm_compute; reflexivity|].
  split; [vm_compute; discriminate|]. split; [vm_compute; discriminate|]. repeat split; vm_compute; reflexivity.
Qed.

(** LJHModify never returns. *)
Theorem modify_raises resolve opens writable s input output overwrite : snd (ljh_modify resolve opens writable s input output overwrite) = false.
Proof.
  unfold ljh_modify. destruct (match s (resolve output) with None => _ | Some _ => _ end); [reflexivity|].
  destruct (s (resolve input)) as [c|]; [|reflexivity]. now destruct (opens c && writable output).
Qed.
Print Assumptions modify_raises.
(** It changes no file but the output, and that one only by emptying it, the input being another, readable file. *)
Theorem modify_effect resolve opens writable s input output overwrite q :
  let s' := fst (ljh_modify resolve opens writable s input output overwrite) in
  s' q = s q \/ (q = resolve output /\ s' q = Some [] /\ resolve input <> resolve output /\ (s q = None \/ overwrite = true) /\
    exists c, s (resolve input) = Some c /\ opens c = true).
Proof.
  cbv zeta. unfold ljh_modify. destruct (match s (resolve output) with None => _ | Some _ => _ end) eqn:R; [now left|].
  destruct (s (resolve input)) as [c|] eqn:I; [|now left]. destruct (opens c) eqn:O; [|now left].
  destruct (writable output); [|now left]. cbn [andb fst]. unfold put. destruct (beq_spec q (resolve output)) as [-> | N]; [right|now left].
  split; [reflexivity|]. split; [reflexivity|]. destruct (s (resolve output)) as [o|] eqn:E.
  - apply orb_false_iff in R. destruct R as [R1 R2]. apply negb_false_iff in R2.
    destruct (beq_spec (resolve input) (resolve output)) as [|NE]; [discriminate R1|]. split; [exact NE|]. split; [now right|]. now exists c.
  - split; [congruence|]. split; [now left|]. now exists c.
Qed.
Print Assumptions modify_effect.
(** An existing output is lost when overwriting is allowed. *)
Theorem modify_loses resolve opens writable s input output c o : s (resolve input) = Some c -> opens c = true -> writable output = true ->
  s (resolve output) = Some o -> resolve input <> resolve output ->
  fst (ljh_modify resolve opens writable s input output true) (resolve output) = Some [] /\
  fst (ljh_modify resolve opens writable s input output false) = s.
Proof.
  intros I O W E N. unfold ljh_modify. rewrite I, E, O, W. destruct (beq_spec (resolve input) (resolve output)); [contradiction|].
  cbn. split; [|reflexivity]. unfold put. destruct (beq_spec (resolve output) (resolve output)) as [_ | X]; [reflexivity|now contradiction X].
Qed.
Print Assumptions modify_loses.
Example modify_instance : let s := put (put (fun _ => None) (bs "a.ljh") [1]) (bs "b.ljh") [2; 3] in
  let r := ljh_modify (fun p => p) (fun _ => true) (fun _ => true) s (bs "a.ljh") (bs "b.ljh") true in
  s (bs "b.ljh") = Some [2; 3] /\ snd r = false /\ fst r (bs "b.ljh") = Some [] /\ fst r (bs "a.ljh") = Some [1].
Proof. vm_compute. auto. Qed.

(** Inverting the samples is its own inverse and keeps 16 bits; other samples raise. *)
Theorem invert_involution data : Forall (fun x => 0 <= x < 65536) data ->
  exists r, callback_invert true data = Some r /\ Forall2 (fun x y => x + y = 65535) data r /\ callback_invert true r = Some data.
Proof.
  intros F. eexists. split; [reflexivity|]. split.
  - induction F as [|x l X F IH]; cbn [map]; constructor; [|exact IH]. rewrite Z.mod_small; lia.
  - cbn [callback_invert]. f_equal. rewrite map_map. induction F as [|x l X F IH]; [reflexivity|]. cbn [map]. f_equal; [|exact IH].
    rewrite (Z.mod_small (65535 - x)) by lia. rewrite Z.mod_small; lia.
Qed.
Print Assumptions invert_involution.
Theorem invert_raises data : callback_invert false data = None.
Proof. reflexivity. Qed.
Print Assumptions invert_raises.
Example invert_instance : Forall (fun x => 0 <= x < 65536) [0; 5; 65535] /\ callback_invert true [0; 5; 65535] = Some [65535; 65530; 0].
Proof. split; [repeat constructor; lia|vm_compute; reflexivity]. Qed.
