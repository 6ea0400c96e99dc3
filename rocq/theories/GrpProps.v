(** Properties of groups of channels: C45 (includeBad), C46 (loops), C47 (good and bad). *)
From Coq Require Import ZArith Bool Lia List.
From Verif Require Import GrpModel GrpSpec GrpProofs.
Import ListNotations.
Open Scope Z_scope.

(** * C45 *)

(** Outside a context the channels that are not bad are iterated over, inside a context all of
    them (or not, as asked), however channels are marked and exceptions raised, provided that no
    context is opened inside another. *)
Theorem include_bad_contexts : forall (C : Type) p (g : group C), flat p -> NoDup (map fst (chans g)) -> incl g = false ->
  let '(g1, o, r) := exec p g in ideal false p (chans g) = (chans g1, o, r) /\ incl g1 = false.
Proof.
  intros C p g F ND I. assert (E := exec_flat p g F ND I). destruct (exec p g) as [[g1 o] r]. tauto.
Qed.
Print Assumptions include_bad_contexts.

(** Whatever happens inside, after a context bad channels are skipped. *)
Theorem include_bad_ends : forall (C : Type) x p (g : group C),
  let '(g1, _, _) := exec (With x p) g in keys g1 = map fst (filter (fun q => negb (bad (snd q))) (chans g1)).
Proof. intros C x p g. cbn [exec]. destruct (exec p (enter (include_bad g x))) as [[g1 o] r]. reflexivity. Qed.
Print Assumptions include_bad_ends.

Definition g3 : group unit := mkGroup [(1, mkChan false [] tt); (3, mkChan true [66] tt); (5, mkChan false [] tt)] false false.
Example include_bad_instance :
  flat (Then Iterate (Then (Try (With true (Then (MarkBad 5 [67]) (Then Iterate Raise)))) (Then Iterate Why))) /\
  snd (fst (exec (Then Iterate (Then (Try (With true (Then (MarkBad 5 [67]) (Then Iterate Raise)))) (Then Iterate Why))) g3))
  = [SawKeys [1; 5]; SawKeys [1; 3; 5]; SawKeys [1]; SawWhy [(3, [66]); (5, [67])]].
Proof. split; [cbn; tauto | reflexivity]. Qed.

(** Leaving a context ends those around it; and so does asking for the reasons. *)
Theorem include_bad_nested_refuted : exists p (g : group unit), NoDup (map fst (chans g)) /\ incl g = false /\
  snd (fst (exec p g)) <> snd (fst (ideal false p (chans g))).
Proof.
  exists (With true (Then (With true Iterate) Iterate)), g3. split; [repeat constructor; cbn; lia |].
  split; [reflexivity |]. discriminate.
Qed.
Print Assumptions include_bad_nested_refuted.
Theorem include_bad_why_refuted : exists (g : group unit), NoDup (map fst (chans g)) /\ incl g = false /\
  snd (fst (exec (With true (Then Why Iterate)) g)) <> snd (fst (ideal false (With true (Then Why Iterate)) (chans g))).
Proof. exists g3. split; [repeat constructor; cbn; lia |]. split; [reflexivity |]. discriminate. Qed.
Print Assumptions include_bad_why_refuted.

(** * C46 *)

(** The method is called on every channel iterated over: those that fail become bad with the
    reason, the others are as the method left them; the values returned are those of the calls
    that did not fail. *)
Theorem group_loop_all : forall (C V : Type) (method : chan C -> chan C * outcome V) fmt (g : group C),
  NoDup (map fst (chans g)) -> (forall p, In p (items g) -> snd (method (snd p)) <> Interrupted) ->
  group_loop method fmt false g =
  (mkGroup (map (fun p => if incl g || negb (bad (snd p)) then (fst p, after method fmt (snd p)) else p) (chans g)) (incl g) (desired g),
   Completed (flat_map (result method) (items g))).
Proof. exact @group_loop_ok. Qed.
Print Assumptions group_loop_all.

(** Without one of the channels, the others end the same. *)
Theorem group_loop_isolated : forall (C V : Type) (method : chan C -> chan C * outcome V) fmt (g : group C) j,
  NoDup (map fst (chans g)) -> (forall p, In p (items g) -> snd (method (snd p)) <> Interrupted) ->
  exists g1 g2 v1 v2, group_loop method fmt false g = (g1, Completed v1) /\
    group_loop method fmt false (mkGroup (without j (chans g)) (incl g) (desired g)) = (g2, Completed v2) /\
    chans g2 = without j (chans g1) /\ v2 = without j v1.
Proof.
  intros C V method fmt g j ND NI. rewrite group_loop_ok by assumption. rewrite group_loop_ok.
  - do 4 eexists. split; [reflexivity |]. split; [reflexivity |]. cbn [chans incl]. split.
    + apply without_map. intros p. now destruct (incl g || negb (bad (snd p))).
    + rewrite !items_spec. cbn [chans incl]. now rewrite without_filter, without_results.
  - cbn [chans]. now apply filter_nodup_keys.
  - intros p. rewrite items_spec. cbn [chans incl]. rewrite without_filter, <- items_spec. intros H.
    unfold without in H. apply filter_In in H. now apply NI.
Qed.
Print Assumptions group_loop_isolated.

(** If exceptions are to be raised again, the loop ends at the first. *)
Theorem group_loop_rethrow : forall (C V : Type) (method : chan C -> chan C * outcome V) fmt (g : group C) a k c b c' m,
  NoDup (map fst (chans g)) -> items g = a ++ (k, c) :: b ->
  (forall p, In p a -> exists v, snd (method (snd p)) = Returned v) -> method c = (c', Raised m) ->
  group_loop method fmt true g =
  (mkGroup (map (fun p => if existsb (Z.eqb (fst p)) (map fst a ++ [k]) then (fst p, after method fmt (snd p)) else p) (chans g))
           (incl g) (desired g), Reraised m).
Proof.
  intros C V method fmt g a k c b c' m ND E R M. unfold group_loop. rewrite E.
  assert (NI : NoDup (map fst (items g))) by (rewrite items_spec; now apply filter_nodup_keys).
  rewrite (off_loop_rethrow method fmt k c c' m a b); [| exact ND | now rewrite <- E | | exact R | exact M].
  - do 2 f_equal. unfold touched. now rewrite map_app.
  - intros k0 c0 H. rewrite <- E, items_spec in H. apply filter_In in H. now apply in_dget.
Qed.
Print Assumptions group_loop_rethrow.

(** A TESGroup: the method is called on the channels that are not bad; if the reasons can be
    stored, those that fail, and no others, become bad, in memory and in the file. *)
Theorem core_loop_all : forall (C V : Type) limit (method : C -> C * outcome V) fmt (ds : dict C) s,
  agree limit s -> NoDup (members s) -> map fst ds = members s ->
  (forall p, In p ds -> snd (method (snd p)) <> Interrupted /\
     forall m, snd (method (snd p)) = Raised m -> storable limit [fmt m]) ->
  exists s', core_loop limit method fmt false (members s) ds s =
    (map (fun p => if is_bad s (fst p) then p else (fst p, fst (method (snd p)))) ds, s', Completed []) /\
    agree limit s' /\ members s' = members s /\
    (forall p, In p ds -> noted s' (fst p) =
       if is_bad s (fst p) then noted s (fst p)
       else match snd (method (snd p)) with Raised m => [fmt m] | _ => [] end).
Proof.
  intros C V limit method fmt ds s A ND K H.
  assert (NDd : NoDup (map fst ds)) by now rewrite K.
  destruct (core_loop_ok limit method fmt (members s) ds s A ND NDd) as (s' & E & A' & M' & D').
  - intros k Hk. split; [apply A, Hk |]. rewrite <- K in Hk. apply in_map_iff in Hk. destruct Hk as ([k' c] & <- & Hc).
    exists c. cbn [fst]. split; [now apply in_dget |]. destruct (H _ Hc) as [H1 H2]. split; [exact H1 |].
    intros m Hm. apply H2. unfold fails in Hm. cbn [snd]. destruct (snd (method c)); congruence.
  - exists s'. split; [| split; [exact A' |]; split; [exact M' |]].
    + rewrite E. do 2 f_equal. apply map_ext_in. intros p Hp.
      assert (member (fst p) (members s) = true) as ->
        by (apply member_spec; rewrite <- K; now apply in_map).
      cbn [andb]. now destruct (is_bad s (fst p)).
    + intros [k c] Hp. rewrite D'. cbn [fst snd].
      assert (member k (members s) = true) as -> by (apply member_spec; rewrite <- K; apply in_map_iff; now exists (k, c)).
      cbn [andb]. destruct (is_bad s k) eqn:B; [reflexivity |]. cbn [negb].
      rewrite (in_dget ds k c NDd Hp). unfold fails.
      assert (N : noted s k = []) by (unfold noted; unfold is_bad in B; now destruct (dget (bads s) k)).
      destruct (snd (method c)); [exact N | reflexivity | exact N].
Qed.
Print Assumptions core_loop_all.

Definition fails_if (P : Z -> bool) (c : chan Z) : chan Z * outcome Z :=
  (mkChan (bad c) (reason c) (data c + 100), if P (data c) then Raised [69] else Returned (2 * data c)).
Definition g4 : group Z := mkGroup [(1, mkChan false [] 10); (3, mkChan true [66] 20); (5, mkChan false [] 30); (7, mkChan false [] 40)] false false.
Example group_loop_instance :
  group_loop (fails_if (Z.eqb 30)) (fun m => m ++ [33]) false g4
  = (mkGroup [(1, mkChan false [] 110); (3, mkChan true [66] 20); (5, mkChan true [69; 33] 130); (7, mkChan false [] 140)] false false,
     Completed [(1, 20); (7, 80)]) /\
  group_loop (fails_if (Z.eqb 30)) (fun m => m ++ [33]) true g4
  = (mkGroup [(1, mkChan false [] 110); (3, mkChan true [66] 20); (5, mkChan true [69; 33] 130); (7, mkChan false [] 40)] false false,
     Reraised [69]).
Proof. split; reflexivity. Qed.

Definition s3 : tes := mkTes [1; 3; 5] 3 [] [1; 3; 5] [].
Lemma s3_agree limit : agree limit s3.
Proof. split; [intros c H; exact H |]. split; [intros c l H; discriminate H | intros c _ _; reflexivity]. Qed.
Definition meth (c : Z) : Z * outcome unit := (c + 100, if c =? 10 then Raised [233] else if c =? 20 then Raised [69] else Returned tt).
Example core_loop_instance : core_loop 1000 meth (fun m => m) false (members s3) [(1, 5); (3, 20); (5, 7)] s3
  = ([(1, 105); (3, 120); (5, 107)], mkTes [1; 3; 5] 3 [(3, [[69]])] [1; 3; 5] [(3, [[69]])], Completed []).
Proof. reflexivity. Qed.

(** A message that is not ASCII, or too long to store, ends the loop of a TESGroup: channels after
    it are not treated, and the channel is bad in memory but not in the file. *)
Theorem core_loop_message_refuted : exists limit (method : Z -> Z * outcome unit) ds s ds' s' e,
  agree limit s /\ map fst ds = members s /\ (forall p, In p ds -> snd (method (snd p)) <> Interrupted) /\
  core_loop limit method (fun m => m) false (members s) ds s = (ds', s', e) /\ e <> Completed [] /\
  exists k c, In (k, c) ds /\ ~ is_bad s k = true /\ In (k, c) ds' /\ fst (method c) <> c.
Proof.
  exists 1000%nat, meth, [(1, 10); (3, 6); (5, 7)], s3. do 3 eexists. split; [apply s3_agree |]. split; [reflexivity |].
  split; [intros p [<- | [<- | [<- | []]]]; discriminate |].
  split; [vm_compute; reflexivity |]. split; [discriminate |]. exists 3, 6. split; [right; now left |]. split; [discriminate |].
  split; [right; now left | discriminate].
Qed.
Print Assumptions core_loop_message_refuted.

(** * C47 *)

(** After commands none of which raised, the comments on a channel are those given since it was
    last set good, and the good channels are those without comments; and memory and file agree. *)
Theorem status_history : forall limit h s s', agree limit s -> Forall sets h -> commands limit s h = Some s' ->
  agree limit s' /\ (forall c, noted s' c = reasons h c (noted s c)) /\
  good_channels s' = filter (fun c => match reasons h c (noted s c) with [] => true | _ => false end) (members s).
Proof.
  intros limit h s s' A F H. destruct (commands_ok limit h s s' A F H) as (A' & M & _ & D). split; [exact A' |]. split; [exact D |].
  rewrite (good_ok limit s' A'), M. apply filter_ext. intros c. now rewrite D.
Qed.
Print Assumptions status_history.

(** Setting channels good always succeeds; setting channels bad does exactly if they have groups
    in the file and the comments can be stored. *)
Theorem status_good_succeeds : forall limit s l, agree limit s -> snd (set_chan_good s l) = false /\ snd (set_all_chan_good s) = false.
Proof.
  intros limit s l A. destruct (each_good limit l s A) as (s1 & E1 & _). destruct (each_good limit (map fst (bads s)) s A) as (s2 & E2 & _).
  unfold set_chan_good, set_all_chan_good. rewrite E1, E2. tauto.
Qed.
Print Assumptions status_good_succeeds.
Theorem status_bad_succeeds : forall limit s l m, NoDup l ->
  (snd (set_chan_bad limit s l m) = false <-> forall c, In c l -> In c (h5groups s) /\ storable limit (noted s c ++ [m])).
Proof.
  intros limit s l m ND. split; [intros H; now apply each_bad_fails | intros H; now apply each_bad_succeeds].
Qed.
Print Assumptions status_bad_succeeds.

(** Opening the files again, for all or some of the channels: the same comments. *)
Theorem status_reopened : forall limit h s s' ms n, agree limit s -> (forall c t, In t (noted s c) -> clean t) ->
  Forall sets h -> Forall clean_command h -> commands limit s h = Some s' ->
  NoDup ms -> (forall c, In c ms -> In c (members s)) ->
  agree limit (reopen s' ms n) /\ forall c, In c ms -> noted (reopen s' ms n) c = reasons h c (noted s c).
Proof.
  intros limit h s s' ms n A Cl F FC H ND Sub. destruct (commands_ok limit h s s' A F H) as (A' & M & _ & D).
  destruct (reopen_ok limit s' ms n A' ND) as [R1 R2].
  - intros c Hc. rewrite M. now apply Sub.
  - intros c t Ht. rewrite D in Ht. exact (reasons_clean c h (noted s c) FC (Cl c) t Ht).
  - split; [exact R1 |]. intros c Hc. rewrite R2 by exact Hc. apply D.
Qed.
Print Assumptions status_reopened.

Definition h1 : list command := [Bad [1; 5] [97; 98]; Good [1; 3]; Bad [5; 3] [99]; Bad [1] [100]; Good [3]].
Example status_instance : Forall sets h1 /\ Forall clean_command h1 /\
  option_map good_channels (commands 1000 s3 h1) = Some [3] /\
  option_map bads (commands 1000 s3 h1) = Some [(5, [[97; 98]; [99]]); (1, [[100]])] /\
  option_map (fun s => bads (reopen s [1; 3; 5] 3)) (commands 1000 s3 h1) = Some [(1, [[100]]); (5, [[97; 98]; [99]])].
Proof.
  split; [repeat (constructor; [cbn [sets]; repeat constructor; cbn; lia |]); constructor |].
  split; [repeat (constructor; [cbn; unfold clean; cbn; try discriminate; exact I |]); constructor |].
  split; [reflexivity |]. split; reflexivity.
Qed.

(** If storing the reason raises, the channel is bad in memory only. *)
Theorem status_raises_refuted : exists limit s l m, agree limit s /\ NoDup l /\
  let '(s', r) := set_chan_bad limit s l m in r = true /\ ~ agree limit s' /\
  exists c, In c (members s) /\ is_bad s' c = true /\ is_bad (reopen s' (members s) (n_files s)) c = false.
Proof.
  exists 1000%nat, s3, [3], [233]. split; [apply s3_agree |]. split; [repeat constructor; cbn; lia |].
  vm_compute. split; [reflexivity |]. split.
  - intros (_ & A2 & _). destruct (A2 3 [[233]] eq_refl) as (_ & _ & _ & a & E & _). discriminate E.
  - exists 3. split; [tauto |]. split; reflexivity.
Qed.
Print Assumptions status_raises_refuted.

(** The count n_good_channels counts bad channels that are not in the group, and files that were
    left out. *)
Theorem status_count_refuted : exists limit s, agree limit s /\ n_good_channels s <> num_good_channels s.
Proof.
  exists 1000%nat, (mkTes [1; 3] 3 [] [1; 3; 5] []). split; [| discriminate].
  split; [intros c H; cbn in *; tauto |]. split; [intros c l H; discriminate H | intros c _ _; reflexivity].
Qed.
Print Assumptions status_count_refuted.
