(** C98: histograms and energies of OFF channels in an HDF5 file. *)
From Coq Require Import Ascii String Bool ZArith QArith Qcanon Lia List.
From Verif Require Import QcPre LagModel HxModel HxSpec HxProofs.
Import ListNotations.
Local Open Scope string_scope.
Local Open Scope list_scope.
Local Notation length := List.length.

Definition channel_names : list string := ["bin_centers_ev"; "counts"; "name_of_energy_indicator"].
Definition group_names : list string := ["off_filename"; "attr"; "used_cut_recipe_name"; "bin_centers_ev"; "counts"; "name_of_energy_indicator"].

(** C98. The histograms of a channel that is not in the file yet: those of every state and the one of all pulses are
    written, no other dataset is below the channel, and everything else in the file is as it was. *)
Theorem hists_written : forall chan labels attr h f, plain chan -> fresh f chan -> labels_beside channel_names labels ->
  (forall s, In s labels -> h (Some s) <> None) -> h None <> None ->
  exists f', hists_to_hdf5 chan labels attr h f = (f', false) /\ untouched chan f f' /\
  (forall s c n, In s labels -> h (Some s) = Some (c, n) -> has f' [chan; s; "bin_centers"] (Some (Numbers c)) /\ has f' [chan; s; "counts"] (Some (Counts n))) /\
  (forall c n, h None = Some (c, n) -> has f' [chan; "bin_centers_ev"] (Some (Numbers c)) /\ has f' [chan; "counts"] (Some (Counts n))) /\
  has f' [chan; "name_of_energy_indicator"] (Some (Text attr)) /\
  (forall p v, hd_error p = Some chan -> has f' p (Some v) ->
     (exists s, In s labels /\ (p = [chan; s; "bin_centers"] \/ p = [chan; s; "counts"])) \/ exists n, In n channel_names /\ p = [chan; n]).
Proof.
  intros chan labels attr h f P F L H HN. destruct (h None) as [[c0 n0]|] eqn:E0; [|contradiction].
  set (tail := [("bin_centers_ev", Numbers c0); ("counts", Counts n0); ("name_of_energy_indicator", Text attr)]).
  destruct (hists_tree chan labels h tail f P F L H) as (f' & R & H1 & H2 & H3 & H4).
  - cbn [tail map fst]. distinct_names.
  - cbn [tail map fst]. plain_names.
  - exists f'. split; [unfold hists_to_hdf5, channel_ops; rewrite E0; exact R|]. split; [apply untouched_lookup; exact H3|].
    split; [|split; [|split]].
    + intros s c n I E. rewrite <- !lookup_has. now apply H1.
    + intros c n E. injection E as <- <-. rewrite <- !lookup_has. split; apply H2; cbn; auto.
    + rewrite <- lookup_has. apply H2. cbn. auto.
    + intros p v Q X. apply lookup_has in X. exact (H4 p v Q X).
Qed.
Print Assumptions hists_written.

(** C98. Writing the histograms of a channel a second time raises and changes nothing. *)
Theorem hists_twice_raise : forall chan labels attr h f f' attr' h', plain chan -> hists_to_hdf5 chan labels attr h f = (f', false) ->
  hists_to_hdf5 chan labels attr' h' f' = (f', true).
Proof.
  intros chan labels attr h f f' attr' h' P R. unfold hists_to_hdf5, run_in in *. rewrite parts_plain in * by exact P.
  destruct (require_group f [chan]) as [g|] eqn:E; [|discriminate].
  assert (G : lookup g [chan] = Some None).
  { unfold require_group in E. cbn [above app existsb fold_left] in E. destruct (is_data f [chan]) eqn:D; [discriminate|]. cbn in E. injection E as <-. unfold add_group.
    destruct (lookup f [chan]) as [[v|]|] eqn:L; [|exact L|].
    - assert (is_data f [chan] = true) by (apply is_data_iff; eauto). congruence.
    - rewrite lookup_app, L, lookup_one, same_refl. reflexivity. }
  assert (G' : lookup f' [chan] = Some None) by (pose proof (run_keeps (channel_ops labels attr h) [chan] g _ _ G) as K; now rewrite R in K).
  rewrite (require_same f' chan G'). unfold channel_ops in *. destruct labels as [|s labels].
  - cbn [flat_map app] in *. destruct (h None) as [[c n]|] eqn:HN; [|discriminate]. destruct (h' None) as [[c' n']|]; [|reflexivity].
    destruct (run_done _ _ _ _ "bin_centers_ev" (Some (Numbers c)) R) as (v & _ & L); [now left|]. cbn [run]. now rewrite (put_exists _ _ _ _ L).
  - cbn [flat_map] in *. unfold state_ops at 1. unfold state_ops at 1 in R. destruct (h (Some s)) as [[c n]|] eqn:HS; [|discriminate]. destruct (h' (Some s)) as [[c' n']|]; [|reflexivity].
    destruct (run_done _ _ _ _ (String.append s "/bin_centers") (Some (Numbers c)) R) as (v & _ & L); [now left|]. cbn [run app]. now rewrite (put_exists _ _ _ _ L).
Qed.
Print Assumptions hists_twice_raise.

(** C98. A state that has the name of one of the channel's own datasets always raises. *)
Theorem hists_state_name_raises : forall chan labels attr h f s, plain chan -> In s labels -> In s channel_names -> snd (hists_to_hdf5 chan labels attr h f) = true.
Proof.
  intros chan labels attr h f s P I N. unfold hists_to_hdf5, run_in. rewrite parts_plain by exact P. destruct (require_group f [chan]) as [g|]; [|reflexivity].
  unfold channel_ops. assert (PS : plain s) by (cbn in N; destruct N as [<-|[<-|[<-|[]]]]; apply plain_check; vm_compute; reflexivity).
  destruct (h (Some s)) as [[c n]|] eqn:E.
  - destruct (h None) as [[c' n']|].
    + assert (M : exists o, In (s, o) [("bin_centers_ev", Some (Numbers c')); ("counts", Some (Counts n')); ("name_of_energy_indicator", Some (Text attr))]).
      { cbn in N. destruct N as [<-|[<-|[<-|[]]]]; eexists; cbn; eauto. }
      destruct M as (o & M). apply (run_below (V := value) _ _ [chan] g (String.append s "/bin_centers") (Some (Numbers c)) s o).
      * apply in_flat_map. exists s. split; [exact I|]. unfold state_ops. rewrite E. now left.
      * exact M.
      * change (String.append s "/bin_centers") with (String.append s (String.append "/" "bin_centers")). rewrite (resolve_plain [chan] s PS), (resolve_two [chan] s "bin_centers" PS) by (apply plain_check; vm_compute; reflexivity).
        apply above_iff. exists [chan; s], ["bin_centers"]. repeat split; discriminate.
    + rewrite run_app. destruct (run [chan] _ g) as [f' [|]]; reflexivity.
  - apply in_split in I as (l1 & l2 & ->). rewrite flat_map_app. cbn [flat_map]. unfold state_ops at 2. rewrite E. rewrite <- !app_assoc. rewrite run_app. destruct (run [chan] (flat_map (state_ops h) l1) g) as [f' [|]]; reflexivity.
Qed.
Print Assumptions hists_state_name_raises.

(** The good channels are not in the file, and each has a histogram for every state and one of all pulses. *)
Definition ready (f : file value) (centers : list Qc) (labels : list string) (chans : list (string * hist)) : Prop :=
  NoDup ("all_channels" :: map fst chans) /\ (forall c h, In (c, h) chans -> plain c /\ fresh f c /\
    forall s, In s (None :: map Some labels) -> exists n, h s = Some (centers, n) /\ length n = length centers).

Lemma loop_written : forall cut labels attr centers chans f, ready f centers labels chans -> labels_beside group_names labels ->
  exists f', channels_loop (Some cut) labels attr chans f = (f', false) /\
  (forall c h s n, In (c, h) chans -> In s labels -> h (Some s) = Some (centers, n) -> lookup f' [c; s; "counts"] = Some (Some (Counts n))) /\
  (forall c h n, In (c, h) chans -> h None = Some (centers, n) -> lookup f' [c; "counts"] = Some (Some (Counts n))) /\
  (forall q, (forall c, hd_error q = Some c -> ~ In c (map fst chans)) -> lookup f' q = lookup f q).
Proof.
  intros cut labels attr centers chans. induction chans as [|[c h] chans IH]; intros f (ND & R) L.
  - exists f. repeat split; intros; contradiction.
  - destruct (R c h (or_introl eq_refl)) as (P & F & H).
    cbn [map fst] in ND. inversion ND as [|? ? N1 N2]. inversion N2 as [|? ? N3 N4]. subst.
    destruct (hists_written c labels attr h f P F) as (g & E & U & G1 & G2 & _).
    + destruct L as (L1 & L2 & L3). repeat split; auto. intros s I J. apply (L3 s I). cbn in J |- *. tauto.
    + intros s I Q. destruct (H (Some s)) as (n & E & _); [right; now apply in_map|congruence].
    + intros Q. destruct (H None) as (n & E & _); [now left|congruence].
    + assert (UL : forall q, hd_error q <> Some c -> lookup g q = lookup f q).
      { intros q Q. destruct (lookup f q) as [x|] eqn:X.
        - apply lookup_has in X. apply (U q x Q) in X. now apply lookup_has.
        - destruct (lookup g q) as [x|] eqn:Y; [|reflexivity]. apply lookup_has in Y. apply (U q x Q) in Y. apply lookup_has in Y. congruence. }
      destruct (IH g) as (f' & E' & I1 & I2 & I3).
      * split; [constructor; [cbn in N1; tauto|exact N4]|]. intros c' h' I. destruct (R c' h' (or_intror I)) as (P' & F' & H'). split; [exact P'|]. split; [|exact H'].
        apply (fresh_other f g c c'); auto. intros <-. apply N3. exact (in_map fst _ _ I).
      * exact L.
      * exists f'. cbn [channels_loop]. rewrite E, E'. split; [reflexivity|]. split; [|split].
        -- intros d k s n [Q|I] S1 S2; [|eapply I1; eassumption]. injection Q as -> ->. destruct (G1 s centers n S1 S2) as [_ X]. apply lookup_has in X.
           rewrite I3; [exact X|]. intros a A. cbn in A. injection A as <-. exact N3.
        -- intros d k n [Q|I] S2; [|eapply I2; eassumption]. injection Q as -> ->. destruct (G2 centers n S2) as [_ X]. apply lookup_has in X.
           rewrite I3; [exact X|]. intros a A. cbn in A. injection A as <-. exact N3.
        -- intros q Q. rewrite I3 by (intros a A B; apply (Q a A); now right). apply UL. intros A. apply (Q c A). now left.
Qed.

(** C98. The output of a group holds the histograms of each good channel, and under all_channels bin by bin their sums. *)
Theorem group_hists_written : forall off_filename cut centers labels attr chans f,
  chans <> [] -> ready f centers labels chans -> fresh f "all_channels" -> labels_beside group_names labels ->
  exists f', group_hists_to_hdf5 off_filename (Some cut) centers labels attr chans f = (f', false) /\
  (forall s, In s labels -> exists m ns, has f' ["all_channels"; s; "counts"] (Some (Counts m)) /\
     Forall2 (fun ch n => has f' [fst ch; s; "counts"] (Some (Counts n))) chans ns /\ forall i, nth i m 0%nat = total_at ns i) /\
  (exists m ns, has f' ["all_channels"; "counts"] (Some (Counts m)) /\
     Forall2 (fun ch n => has f' [fst ch; "counts"] (Some (Counts n))) chans ns /\ forall i, nth i m 0%nat = total_at ns i) /\
  has f' ["all_channels"; "used_cut_recipe_name"] (Some (Text cut)).
Proof.
  intros off_filename cut centers labels attr chans f NE R FA L. destruct (loop_written cut labels attr centers chans f R L) as (g & E & G1 & G2 & G3).
  unfold group_hists_to_hdf5. rewrite E. destruct chans as [|ch0 rest]; [contradiction|]. set (chans := ch0 :: rest) in *.
  destruct R as (ND & R). inversion ND as [|? ? NA N2]. subst.
  assert (SH : forall s, In s (None :: map Some labels) -> exists m ns, sum_hists centers chans s = Some m /\ length m = length centers /\ Forall2 (fun ch n => exists x, snd ch s = Some (x, n)) chans ns /\ forall i, nth i m 0%nat = total_at ns i).
  { intros s I. apply sum_hists_ok. intros c h J. destruct (R c h J) as (_ & _ & H). destruct (H s I) as (n & Q & LN). exists centers, n. auto. }
  destruct (SH None (or_introl eq_refl)) as (m0 & ns0 & S0 & L0 & F0 & T0).
  assert (FG : fresh g "all_channels").
  { apply fresh_lookup. intros p Q. rewrite G3; [now apply (proj1 (fresh_lookup f "all_channels") FA)|]. intros c Q' I. rewrite Q in Q'. injection Q' as <-. now apply NA. }
  set (tail := [("off_filename", Text off_filename); ("attr", Text attr); ("used_cut_recipe_name", Text cut);
                    ("bin_centers_ev", Numbers centers); ("counts", Counts m0); ("name_of_energy_indicator", Text attr)]).
  destruct (hists_tree "all_channels" labels (group_hist centers chans) tail g) as (f' & R' & H1 & H2 & H3 & _).
  - apply plain_check; vm_compute; reflexivity.
  - exact FG.
  - exact L.
  - intros s I Q. destruct (SH (Some s)) as (m & ns & S1 & _); [right; now apply in_map|]. unfold group_hist in Q. rewrite S1 in Q. discriminate.
  - cbn [tail map fst]. distinct_names.
  - cbn [tail map fst]. plain_names.
  - assert (K : forall c h q, In (c, h) chans -> hd_error q = Some c -> lookup f' q = lookup g q).
    { intros c h q I Q. apply H3. rewrite Q. intros X. injection X as ->. apply NA. exact (in_map fst _ _ I). }
    assert (F2 : forall s (q : string -> list string) ns, (forall c, hd_error (q c) = Some c) ->
               (forall c h n, In (c, h) chans -> h s = Some (centers, n) -> lookup g (q c) = Some (Some (Counts n))) -> In s (None :: map Some labels) ->
               Forall2 (fun ch n => exists x, snd ch s = Some (x, n)) chans ns -> Forall2 (fun ch n => has f' (q (fst ch)) (Some (Counts n))) chans ns).
    { intros s q ns Q1 Q2 Q3 F. refine (Forall2_impl_in _ _ _ _ _ F). intros [c h] n I (x & X). cbn [fst snd] in *. apply lookup_has. rewrite (K c h) by (exact I || apply Q1).
      destruct (R c h I) as (_ & _ & H). destruct (H s Q3) as (n' & X' & _). rewrite X' in X. injection X as _ <-. now apply (Q2 c h). }
    exists f'. split; [|split; [|split]].
    + unfold all_ops. unfold group_hist at 2. rewrite S0. exact R'.
    + intros s I. assert (I' : In (Some s) (None :: map Some labels)) by (right; now apply in_map). destruct (SH _ I') as (m & ns & S1 & _ & F1 & T1).
      exists m, ns. split; [|split; [|exact T1]].
      * apply lookup_has. apply (H1 s centers m I). unfold group_hist. now rewrite S1.
      * refine (F2 (Some s) (fun c => [c; s; "counts"]) ns _ _ I' F1); [reflexivity|]. intros c h n J E1. now apply (G1 c h s n).
    + exists m0, ns0. split; [|split; [|exact T0]].
      * apply lookup_has. apply H2. cbn. tauto.
      * refine (F2 None (fun c => [c; "counts"]) ns0 _ _ (or_introl eq_refl) F0); [reflexivity|]. intros c h n J E1. now apply (G2 c h n).
    + apply lookup_has. apply H2. cbn. tauto.
Qed.
Print Assumptions group_hists_written.

(** C98. A group without good channels raises, and leaves an empty group all_channels in the file. *)
Theorem group_without_channels_raises : forall off_filename cut centers labels attr f, fresh f "all_channels" ->
  group_hists_to_hdf5 off_filename cut centers labels attr [] f = (f ++ [(["all_channels"], None)], true).
Proof.
  intros off_filename cut centers labels attr f F. unfold group_hists_to_hdf5. cbn [channels_loop]. unfold run_in. rewrite parts_plain by (apply plain_check; vm_compute; reflexivity).
  pose proof (proj1 (fresh_lookup f "all_channels") F ["all_channels"] eq_refl) as L. unfold require_group. cbn [above app existsb fold_left]. unfold is_data, add_group. rewrite L. reflexivity.
Qed.
Print Assumptions group_without_channels_raises.

(** C98. energyTimestampLabelToHDF5: the energies, times and trigger times of a state are those of the same records: the
    ones of the state that pass the cut, in order. *)
Theorem energies_written : forall chan c states off_filename cut f, plain chan -> fresh f chan ->
  labels_beside ["off_filename"; "used_cut_recipe_name"] (map fst states) -> states <> [] ->
  labels_beside ["energy"; "unixnano"] (map fst (seconds c)) ->
  length (energy c) = length (passes c) -> length (nano c) = length (passes c) -> (forall n l, In (n, l) (seconds c) -> length l = length (passes c)) ->
  (forall s ss, In (s, ss) states -> (forall x, In x ss -> (snd x <= length (passes c))%nat) /\ (seconds c <> [] -> length ss = 1%nat)) ->
  exists f', labels_to_hdf5 chan c states off_filename cut f = (f', false) /\ untouched chan f f' /\
  (forall s ss, In (s, ss) states ->
     has f' [chan; s; "energy"] (Some (Numbers (map (fun i => nth i (energy c) 0%Qc) (chosen (passes c) ss)))) /\
     has f' [chan; s; "unixnano"] (Some (Times (map (fun i => nth i (nano c) 0%Z) (chosen (passes c) ss)))) /\
     forall n l, In (n, l) (seconds c) -> has f' [chan; s; n] (Some (Numbers (map (fun i => nth i l 0%Qc) (chosen (passes c) ss))))) /\
  has f' [chan; "used_cut_recipe_name"] (Some (Text cut)) /\ has f' [chan; "off_filename"] (Some (Text off_filename)).
Proof.
  intros chan c states off_filename cut f P F (L1 & L2 & L3) NE (S1 & S2 & S3) LE LN LS SL.
  set (label_block := fun st : string * list (nat * nat) => (fst st, ("energy", Numbers (map (fun i => nth i (energy c) 0%Qc) (chosen (passes c) (snd st)))) ::
        ("unixnano", Times (map (fun i => nth i (nano c) 0%Z) (chosen (passes c) (snd st)))) ::
        map (fun p => (fst p, Numbers (map (fun i => nth i (snd p) 0%Qc) (chosen (passes c) (snd st))))) (seconds c)) : block).
  set (tail := [("off_filename", Text off_filename); ("used_cut_recipe_name", Text cut)]).
  assert (B : flat_map (label_ops c) states = flat_map block_ops (map label_block states)).
  { apply flat_map_map_ext. intros [s ss] I. destruct (SL s ss I) as [R1 R2]. unfold label_ops, label_block, block_ops. cbn [fst snd].
    rewrite (get_attr_chosen (energy c) 0%Qc) by assumption. rewrite (get_attr_chosen (nano c) 0%Z) by assumption. cbn [map fst snd]. f_equal. f_equal.
    rewrite map_map. apply map_ext_in. intros [n l] J. cbn [fst snd]. f_equal.
    assert (Q : length ss = 1%nat) by (apply R2; intros Q; rewrite Q in J; contradiction). destruct ss as [|[a b] [|]]; try discriminate.
    unfold mask_of. rewrite (index_chosen l 0%Qc); [reflexivity|now apply (LS n)|]. apply (R1 (a, b)). now left. }
  assert (FB : map fst (map label_block states) = map fst states) by (rewrite map_map; reflexivity).
  destruct (tree_ok chan (map label_block states) tail f P F) as (f' & R & H1 & H2 & H3 & _); rewrite ?FB; auto.
  - intros b I. apply in_map_iff in I as ([s ss] & <- & I). cbn [label_block snd map fst]. rewrite map_map. cbn [fst]. split.
    + constructor; [|constructor; [|exact S1]].
      * intros [Q|Q]; [discriminate|]. apply (S3 "energy" Q). now left.
      * intros Q. apply (S3 "unixnano" Q). right. now left.
    + constructor; [|constructor; [|exact S2]]; apply plain_check; vm_compute; reflexivity.
  - cbn [tail map fst]. distinct_names.
  - cbn [tail map fst]. plain_names.
  - exists f'. split; [|split; [apply untouched_lookup; exact H3|split; [|split]]].
    + unfold labels_to_hdf5, label_all. destruct states as [|st states]; [contradiction|]. rewrite B. exact R.
    + intros s ss I. assert (IB : In (label_block (s, ss)) (map label_block states)) by now apply in_map. unfold label_block at 1 in IB. cbn [fst snd] in IB. split; [|split].
      * apply lookup_has. eapply H1; [exact IB|]. now left.
      * apply lookup_has. eapply H1; [exact IB|]. right. now left.
      * intros n l J. apply lookup_has. eapply H1; [exact IB|]. right. right. apply in_map_iff. exists (n, l). auto.
    + apply lookup_has. apply H2. cbn. tauto.
    + apply lookup_has. apply H2. cbn. tauto.
Qed.
Print Assumptions energies_written.

(** C98. Without state labels it always raises. *)
Theorem energies_without_labels_raise : forall chan c off_filename cut f, snd (labels_to_hdf5 chan c [] off_filename cut f) = true.
Proof. intros. unfold labels_to_hdf5, run_in. destruct (require_group f (parts chan)); reflexivity. Qed.
Print Assumptions energies_without_labels_raise.
(** C98. With trigger times, a state that was active more than once always raises. *)
Theorem energies_two_slices_raise : forall chan c states off_filename cut f s ss, In (s, ss) states -> (2 <= length ss)%nat -> seconds c <> [] ->
  snd (labels_to_hdf5 chan c states off_filename cut f) = true.
Proof.
  intros chan c states off_filename cut f s ss I L S. unfold labels_to_hdf5, run_in. destruct (require_group f (parts chan)) as [g|]; [|reflexivity].
  assert (X : exists n, In (n, None) (label_all c states off_filename cut)).
  { unfold label_all. destruct states as [|st states]; [contradiction|].
    assert (Y : exists n, In (n, None) (label_ops c (s, ss))).
    { unfold label_ops. destruct (get_attr (energy c) (passes c) ss); [|eexists; now left]. destruct (get_attr (nano c) (passes c) ss); [|eexists; now left].
      destruct (seconds c) as [|[n v] more]; [contradiction|]. eexists. right. right. left. destruct ss as [|a [|b ss]]; cbn in L; try lia. reflexivity. }
    destruct Y as (n & Y). exists n. apply in_app_iff. left. apply in_flat_map. exists (s, ss). auto. }
  destruct X as (n & X). destruct (run (parts chan) _ g) as [f' [|]] eqn:R; [reflexivity|]. destruct (run_done _ _ _ _ _ _ R X) as (v & Q & _). discriminate.
Qed.
Print Assumptions energies_two_slices_raise.

(** C98. So a channel with trigger times and valid states need not be written. *)
Theorem energies_any_state_refuted : exists chan c states off_filename cut f, plain chan /\ fresh f chan /\
  labels_beside ["off_filename"; "used_cut_recipe_name"] (map fst states) /\ labels_beside ["energy"; "unixnano"] (map fst (seconds c)) /\
  length (energy c) = length (passes c) /\ length (nano c) = length (passes c) /\ (forall n l, In (n, l) (seconds c) -> length l = length (passes c)) /\
  snd (labels_to_hdf5 chan c states off_filename cut f) = true.
Proof.
  exists "1", (mkChannel [qz 5; qz 6; qz 7] [10; 20; 30]%Z [true; true; true] [("seconds_after_last_external_trigger", [qz 1; qz 2; qz 3])]),
    [("A", [(0, 1); (2, 3)]%nat); ("B", [(1, 2)]%nat)], "x.off", "cutNone", [].
  split; [apply plain_check; vm_compute; reflexivity|]. split; [intros e []|].
  split; [split; [cbn [map fst]; distinct_names|split; [cbn [map fst]; plain_names|]]; intros s H; cbn in H |- *; intuition (subst; discriminate)|].
  split; [split; [cbn [map fst seconds]; distinct_names|split; [cbn [map fst seconds]; plain_names|]]; intros s H; cbn in H |- *; intuition (subst; discriminate)|].
  split; [reflexivity|]. split; [reflexivity|]. split; [intros n l [E|[]]; injection E as <- <-; reflexivity|]. vm_compute. reflexivity.
Qed.
Print Assumptions energies_any_state_refuted.

(** Two channels, two states and two bins; then the energies of a channel of four records. *)
Definition ex_hist (a b : list nat) : hist := fun s => match s with
  | Some "A" => Some ([qz 1; qz 2], a) | Some "B" => Some ([qz 1; qz 2], b) | None => Some ([qz 1; qz 2], add_counts a b) | _ => None end.
Definition ex_chans : list (string * hist) := [("1", ex_hist [3; 4] [5; 0]); ("3", ex_hist [1; 1] [0; 2])]%nat.
Example group_hists_instance :
  ex_chans <> [] /\ ready [] [qz 1; qz 2] ["A"; "B"] ex_chans /\ fresh (V := value) [] "all_channels" /\ labels_beside group_names ["A"; "B"] /\
  lookup (fst (group_hists_to_hdf5 "x.off" (Some "cutNone") [qz 1; qz 2] ["A"; "B"] "energy" ex_chans [])) ["all_channels"; "B"; "counts"] = Some (Some (Counts [5; 2]%nat)).
Proof.
  split; [discriminate|]. split; [|split; [intros e []|split; [|reflexivity]]].
  - split; [cbn [ex_chans map fst]; distinct_names|]. intros c h I. split; [|split; [intros e []|]].
    + destruct I as [E|[E|[]]]; injection E as <- <-; apply plain_check; vm_compute; reflexivity.
    + intros s J. destruct I as [E|[E|[]]]; injection E as <- <-; destruct J as [<-|[<-|[<-|[]]]]; eexists; split; reflexivity.
  - split; [distinct_names|]. split; [plain_names|]. intros s H. cbn in H |- *. intuition (subst; discriminate).
Qed.
Example energies_instance :
  let c := mkChannel [qz 5; qz 6; qz 7; qz 8] [10; 20; 30; 40]%Z [true; false; true; true] [("seconds_after_last_external_trigger", [qz 1; qz 2; qz 3; qz 4])] in
  let f' := fst (labels_to_hdf5 "1" c [("A", [(0, 2)]%nat); ("B", [(2, 4)]%nat)] "x.off" "cutNone" []) in
  has f' ["1"; "B"; "unixnano"] (Some (Times [30; 40]%Z)) /\ has f' ["1"; "A"; "seconds_after_last_external_trigger"] (Some (Numbers [qz 1])).
Proof. cbn zeta. rewrite <- !lookup_has. split; reflexivity. Qed.
