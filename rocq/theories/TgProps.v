(** Property theorems: opening a group of channels and restoring it from its HDF5 file. *)
From Coq Require Import ZArith Ascii String Bool QArith QArith.Qcanon Lia Permutation List.
From Verif Require Import LjhModel LjhProofs NameModel NameSpec NameProofs TgModel TgSpec TgProofs.
Import ListNotations.
Open Scope Z_scope.

(** Whatever files are given, all channels of a group have the same nSamples, nPresamples and
    timebase, have pulses, and have a noise file of their own channel when they have one. *)
Theorem group_consistent h nh l noise g :
  (forall f, In f l -> p_npulses f <> 0 -> 0 < p_nseg f) -> setup h nh l noise = Some g ->
  (forall f n, In (f, n) (chans g) -> p_shape f = shape g) /\
  (forall f n, In (f, Some n) (chans g) -> n_chan n = p_chan f) /\
  (forall f n, In (f, n) (chans g) -> p_npulses f <> 0).
Proof. intros P H. apply (add_files_good _ _ _ _ P (good_empty h nh) H). Qed.
Print Assumptions group_consistent.

(** The channels are, in the order of the files, those with pulses whose noise file is of the
    same channel; without noise files, those with pulses. *)
Theorem group_channels h nh l ns g : length ns = length l -> setup h nh l (Some ns) = Some g ->
  chans g = map (fun p => (fst p, Some (snd p))) (filter belongs (combine l ns)).
Proof. intros L H. apply (add_files_noise l ns _ g L H). Qed.
Print Assumptions group_channels.

Theorem group_channels_no_noise h nh l g : setup h nh l None = Some g ->
  chans g = map (fun f => (f, None)) (filter (fun f => negb (p_npulses f =? 0)) l).
Proof. intros H. apply (add_files_none l _ g H). Qed.
Print Assumptions group_channels_no_noise.

(** Files of distinct channels that agree in shape and have matching noise files can always be
    opened, and the HDF5 file then says for each channel with pulses where its pulses and its
    noise are. *)
Theorem group_opens sh l ns : length ns = length l -> NoDup (map p_chan l) ->
  (forall p, In p (combine l ns) -> n_chan (snd p) = p_chan (fst p)) ->
  (forall f, In f l -> p_npulses f <> 0 -> p_shape f = sh /\ 0 < p_nseg f) ->
  exists g, setup [] [] l (Some ns) = Some g /\ h5 g = map entry (filter belongs (combine l ns)) /\
    nh5 g = map noise_entry (filter belongs (combine l ns)).
Proof.
  intros L Nd M Sh. destruct (add_files_fresh sh l ns (empty [] []) L Nd) as (g & G & H & H'); auto; cbn; try lia.
  exists g. auto.
Qed.
Print Assumptions group_opens.

(** The name of a group's HDF5 file is that of any of its files up to "_chan<digits>", so all
    channels of a run share one. *)
Theorem hdf5_name_of_run base ds rest : ~ mentions_channel base -> ds <> [] -> all_digits ds ->
  hdf5_name (base ++ bs "_chan" ++ ds ++ rest)
  = base ++ (if ends (bs "noi") (base ++ bs "_chan" ++ ds ++ rest) then bs "_noise" else []) ++ bs "_mass.hdf5".
Proof. intros N Ne A. unfold hdf5_name at 1. now rewrite before_chan_named. Qed.
Print Assumptions hdf5_name_of_run.

(** Restoring without a noise HDF5 file succeeds exactly when every group has a noise file and
    all of them imply one name, which is then used. *)
Theorem restore_implied items ps ls g : items <> [] ->
  (restore items None = Some (ps, ls, g) <->
   ps = map (fun e => a_file (snd e)) items /\ Forall2 (fun e f => a_noise (snd e) = Some f) items ls /\
   (forall f, In f ls -> g = Some (hdf5_name f))).
Proof.
  intros Ne. unfold restore. cbv zeta. split.
  - destruct (restore_loop items None) as [[l' g']|] eqn:R; [|discriminate].
    intros H. injection H as <- <- <-. apply restore_loop_spec in R. destruct R as (F & N & _).
    repeat split; auto. intros f I. symmetry. auto.
  - intros (-> & F & N).
    assert (R : restore_loop items None = Some (ls, g)).
    { apply restore_loop_spec. split; auto. split; [intros f I; symmetry; auto | intros E; contradiction]. }
    now rewrite R.
Qed.
Print Assumptions restore_implied.

(** With a noise HDF5 file, exactly when it has every channel; the files are paired by channel. *)
Theorem restore_given items name nh ps ls g :
  restore items (Some (name, nh)) = Some (ps, ls, g) <->
  ps = map (fun e => a_file (snd e)) items /\ Forall2 (fun e f => zget nh (fst e) = Some f) items ls /\ g = Some name.
Proof.
  unfold restore. cbv zeta.
  assert (A : forall ls', all_some (map (fun e : Z * attrs => zget nh (fst e)) items) = Some ls' <->
                          Forall2 (fun e f => zget nh (fst e) = Some f) items ls').
  { induction items as [|e t IH]; intros ls'; cbn.
    - split; [intros H; injection H as <-; constructor | intros F; now inversion F].
    - destruct (zget nh (fst e)) as [v|] eqn:Z.
      + destruct (all_some _) as [l'|] eqn:S.
        * split.
          -- intros H. injection H as <-. constructor; auto. now apply IH.
          -- intros F. inversion F as [|x y t' l2 X Y]; subst. apply IH in Y. congruence.
        * split; [discriminate|]. intros F. inversion F as [|x y t' l2 X Y]; subst. apply IH in Y. congruence.
      + split; [discriminate|]. intros F. inversion F as [|x y t' l2 X Y]; subst. congruence. }
  split.
  - destruct (all_some _) as [l'|]; [|discriminate]. intros H. injection H as <- <- <-.
    repeat split; auto. now apply A.
  - intros (-> & F & ->). apply A in F. now rewrite F.
Qed.
Print Assumptions restore_given.

(** Opening a group and restoring it, in whatever order HDF5 lists the groups, gives the same
    pairs of pulse and noise files. *)
Theorem restore_roundtrip sh l ns name items g : length ns = length l -> NoDup (map p_chan l) ->
  (forall p, In p (combine l ns) -> n_chan (snd p) = p_chan (fst p)) ->
  (forall f, In f l -> p_npulses f <> 0 -> p_shape f = sh /\ 0 < p_nseg f) ->
  (forall n, In n ns -> hdf5_name (n_path n) = name) ->
  setup [] [] l (Some ns) = Some g -> Permutation items (h5 g) -> items <> [] ->
  exists ps ls, restore items None = Some (ps, ls, Some name) /\
    Permutation (combine ps ls) (map (fun p => (p_path (fst p), n_path (snd p))) (filter belongs (combine l ns))).
Proof.
  intros L Nd M Sh N S P Ne. destruct (group_opens sh l ns L Nd M Sh) as (g' & G & H & _).
  rewrite S in G. injection G as <-. rewrite H in P.
  apply Permutation_map_inv in P. destruct P as (k & -> & P).
  exists (map (fun p => p_path (fst p)) k), (map (fun p => n_path (snd p)) k). split.
  - apply restore_implied; auto. split; [now rewrite map_map|]. split.
    + clear. induction k; constructor; auto.
    + intros f I. apply in_map_iff in I. destruct I as (p & <- & I). f_equal. symmetry. apply N.
      apply (Permutation_in p (Permutation_sym P)) in I. apply filter_In in I. destruct I as [I _].
      destruct p as [x y]. apply in_combine_r in I. exact I.
  - assert (E : combine (map (fun p : pfile * nfile => p_path (fst p)) k) (map (fun p => n_path (snd p)) k)
                = map (fun p => (p_path (fst p), n_path (snd p))) k).
    { clear. induction k; cbn; f_equal; auto. }
    rewrite E. apply Permutation_map. now apply Permutation_sym.
Qed.
Print Assumptions restore_roundtrip.

(** The same with the noise HDF5 file given. *)
Theorem restore_given_roundtrip sh l ns name items g : length ns = length l -> NoDup (map p_chan l) ->
  (forall p, In p (combine l ns) -> n_chan (snd p) = p_chan (fst p)) ->
  (forall f, In f l -> p_npulses f <> 0 -> p_shape f = sh /\ 0 < p_nseg f) ->
  setup [] [] l (Some ns) = Some g -> Permutation items (h5 g) ->
  exists ps ls, restore items (Some (name, nh5 g)) = Some (ps, ls, Some name) /\
    Permutation (combine ps ls) (map (fun p => (p_path (fst p), n_path (snd p))) (filter belongs (combine l ns))).
Proof.
  intros L Nd M Sh S P. destruct (group_opens sh l ns L Nd M Sh) as (g' & G & H & H').
  rewrite S in G. injection G as <-. rewrite H in P.
  apply Permutation_map_inv in P. destruct P as (k & -> & P).
  exists (map (fun p => p_path (fst p)) k), (map (fun p => n_path (snd p)) k). split.
  - apply restore_given. split; [now rewrite map_map|]. split; [|reflexivity].
    rewrite H'.
    assert (D : NoDup (map (fun p => p_chan (fst p)) (filter belongs (combine l ns)))).
    { apply chan_nodup. exact Nd. }
    assert (I : forall p, In p k -> In p (filter belongs (combine l ns))).
    { intros p I. apply (Permutation_in p (Permutation_sym P)) in I. exact I. }
    clear - D I. induction k as [|p k IH]; constructor.
    + cbn [fst entry]. apply zget_entry; auto. apply I. now left.
    + apply IH. intros q J. apply I. now right.
  - assert (E : combine (map (fun p : pfile * nfile => p_path (fst p)) k) (map (fun p => n_path (snd p)) k)
                = map (fun p => (p_path (fst p), n_path (snd p))) k).
    { clear. induction k; cbn; f_equal; auto. }
    rewrite E. apply Permutation_map. now apply Permutation_sym.
Qed.
Print Assumptions restore_given_roundtrip.

(** A limit on the channels takes as many pulse as noise files, from the front. *)
Theorem limit_noise {A B : Type} m (files : list A) (noise : list B) : length noise = length files ->
  exists fs ns, limit_chans (Some m) files (Some noise) = Some (fs, Some ns) /\
    length fs = Nat.min m (length files) /\ length ns = length fs /\
    combine fs ns = firstn m (combine files noise).
Proof.
  intros L. unfold limit_chans. eexists _, _. split; [reflexivity|].
  rewrite !firstn_length, L. split; [lia|]. split; [reflexivity|].
  rewrite <- combine_firstn. destruct (Nat.le_ge_cases m (length files)).
  - now rewrite Nat.min_l.
  - rewrite Nat.min_r by lia. rewrite !firstn_all2; auto; rewrite combine_length; lia.
Qed.
Print Assumptions limit_noise.

(** Claims that do not hold. *)

(** Any number of channels can be asked for: not of a group without noise files, whose limit
    raises TypeError. *)
Theorem limit_without_noise_refuted : exists m (files : list Z), (length files <= m)%nat /\ limit_chans (B := Z) (Some m) files None = None.
Proof. exists 5%nat, [1; 3]. split; [cbn; lia | reflexivity]. Qed.
Print Assumptions limit_without_noise_refuted.

Definition f1 : pfile := mkP (bs "r_chan1.ljh") 1 10 (100, 50, 1%Qc) 1.
Definition f3 : pfile := mkP (bs "r_chan3.ljh") 3 20 (100, 50, 1%Qc) 2.
Definition f5 : pfile := mkP (bs "r_chan5.ljh") 5 0 (100, 50, 1%Qc) 0.
Definition n1 : nfile := mkN (bs "n_chan1.noi") 1.
Definition n3 : nfile := mkN (bs "n_chan3.noi") 3.
Definition n5 : nfile := mkN (bs "n_chan5.noi") 5.

(** A channel left out because its noise file is of another channel is not in the HDF5 file: it
    is, with that noise file. *)
Theorem wrong_noise_recorded_refuted : exists l ns g, setup [] [] l (Some ns) = Some g /\
  chans g = [] /\ zget (h5 g) 1 = Some (mkA (bs "r_chan1.ljh") 10 (Some (bs "n_chan3.noi"))) /\
  zget (nh5 g) 1 = Some (bs "n_chan3.noi").
Proof. exists [f1], [n3]. eexists. repeat split. Qed.
Print Assumptions wrong_noise_recorded_refuted.

(** A group that was opened can be restored: not one without noise files. *)
Theorem restore_no_noise_refuted : exists l g, setup [] [] l None = Some g /\ h5 g <> [] /\ restore (h5 g) None = None.
Proof. exists [f1; f3]. eexists. split; [reflexivity|]. split; [discriminate | reflexivity]. Qed.
Print Assumptions restore_no_noise_refuted.

(** Two files of one channel are not both opened: with equally many pulses they are, and share
    one HDF5 group, so restoring gives only the second. *)
Theorem shared_group_refuted : exists l ns g, setup [] [] l (Some ns) = Some g /\
  length (chans g) = 2%nat /\ exists b nb name, restore (h5 g) None = Some ([b], [nb], name).
Proof.
  exists [f1; mkP (bs "s_chan1.ljh") 1 10 (100, 50, 1%Qc) 1], [n1; n1]. eexists.
  split; [reflexivity|]. split; [reflexivity|]. eexists _, _, _. reflexivity.
Qed.
Print Assumptions shared_group_refuted.

(** * Examples *)

Example opens_three : exists g, setup [] [] [f1; f5; f3] (Some [n1; n5; n3]) = Some g /\
  chans g = [(f1, Some n1); (f3, Some n3)] /\ nseg g = 2 /\ map fst (h5 g) = [1; 3].
Proof. eexists. split; [reflexivity|]. repeat split. Qed.
Example opens_hypotheses :
  (forall p, In p (combine [f1; f5; f3] [n1; n5; n3]) -> n_chan (snd p) = p_chan (fst p)) /\
  (forall f, In f [f1; f5; f3] -> p_npulses f <> 0 -> p_shape f = (100, 50, 1%Qc) /\ 0 < p_nseg f) /\
  (forall n, In n [n1; n5; n3] -> hdf5_name (n_path n) = bs "n_noise_mass.hdf5").
Proof.
  split; [|split].
  - intros p [<-|[<-|[<-|[]]]]; reflexivity.
  - intros f [<-|[<-|[<-|[]]]] H; try (split; reflexivity). now contradiction H.
  - intros n [<-|[<-|[<-|[]]]]; reflexivity.
Qed.
Example opens_no_noise : exists g, setup [] [] [f5; f3] None = Some g /\ chans g = [(f3, None)].
Proof. eexists. split; reflexivity. Qed.
Example shapes_differ : setup [] [] [f1; mkP (bs "r_chan3.ljh") 3 20 (200, 50, 1%Qc) 1] None = None.
Proof. reflexivity. Qed.
Example too_few_noise_files : setup [] [] [f1; f3] (Some [n1]) = None.
Proof. reflexivity. Qed.
Example pulses_changed : setup [(1, mkA (bs "r_chan1.ljh") 9 None)] [] [f1] None = None.
Proof. reflexivity. Qed.
Example name_of_pulses : hdf5_name (bs "d/r_chan12.ljh") = bs "d/r_mass.hdf5".
Proof. reflexivity. Qed.
Example restored : restore [(1, mkA (bs "r_chan1.ljh") 10 (Some (bs "n_chan1.noi"))); (3, mkA (bs "r_chan3.ljh") 20 (Some (bs "n_chan3.noi")))] None
  = Some ([bs "r_chan1.ljh"; bs "r_chan3.ljh"], [bs "n_chan1.noi"; bs "n_chan3.noi"], Some (bs "n_noise_mass.hdf5")).
Proof. vm_compute. reflexivity. Qed.
Example restored_two_runs : restore [(1, mkA (bs "r_chan1.ljh") 10 (Some (bs "n_chan1.noi"))); (3, mkA (bs "r_chan3.ljh") 20 (Some (bs "m_chan3.noi")))] None = None.
Proof. vm_compute. reflexivity. Qed.
Example restored_given : restore [(3, mkA (bs "r_chan3.ljh") 20 None)] (Some (bs "h", [(1, bs "a"); (3, bs "b")]))
  = Some ([bs "r_chan3.ljh"], [bs "b"], Some (bs "h")).
Proof. vm_compute. reflexivity. Qed.
Example limited : limit_chans (Some 2%nat) [1; 3; 5] (Some [10; 30; 50]) = Some ([1; 3], Some [10; 30]).
Proof. reflexivity. Qed.
