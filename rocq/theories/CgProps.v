(** C102: settings of a group of OFF channels. *)
From Coq Require Import Ascii String ZArith Bool Lia List.
From Verif Require Import GrpModel GrpProofs CgModel CgSpec CgProofs.
Import ListNotations.
Open Scope Z_scope.

(** The cut used by the group is the one named, or else the default of its first good channel; all the channels
    visited must know it, and there must be a good channel.  Otherwise an exception. *)
Theorem group_cut_chosen : forall recipe model (g : ogroup recipe model) n m, handle_default_cut g n = Some m <->
  exists c, leading g c /\ m = match n with Some x => x | None => default_cut (data c) end /\ forall k c', visited g k c' -> knows m (recipes (data c')).
Proof. intros. apply default_cut_spec. Qed.
Print Assumptions group_cut_chosen.

(** A channel takes as its default only a recipe that it has and whose name starts with "cut". *)
Theorem channel_default_set : forall recipe model n (o : off_chan recipe model),
  (forall o', channel_set_default n o = (o', true) <-> (exists t, n = ("cut" ++ t)%string) /\ knows n (recipes o) /\ o' = mkOff (number o) (recipes o) n (bin_size o) (pulse_model o)) /\
  (forall o', channel_set_default n o = (o', false) -> o' = o).
Proof.
  intros recipe model n o. unfold channel_set_default. pose proof (has_knows n (recipes o)) as K.
  assert (P : prefix "cut" n = true <-> exists t, n = ("cut" ++ t)%string).
  { split.
    - intros H. destruct n as [|a [|b [|c t]]]; cbn [prefix] in H; repeat (match type of H with context [ascii_dec ?x ?y] => destruct (ascii_dec x y) as [E|]; try (rewrite <- E; clear E) end); try discriminate H. now exists t.
    - intros (t & ->). cbn. destruct t; reflexivity. }
  split; intros o'.
  - rewrite <- P, <- K. destruct (prefix "cut" n), (has_recipe n (recipes o)); cbn; (split; [intros H; first [discriminate H|injection H as <-; auto]|intros (H1 & H2 & H3); first [discriminate H1|discriminate H2|now rewrite H3]]).
  - destruct (_ && _)%bool; intros H; [discriminate H|now injection H as <-].
Qed.
Print Assumptions channel_default_set.

(** All channels, bad ones too, get the bin size, and nothing else happens to them; the group keeps it too. *)
Theorem bin_size_set : forall recipe model (s : session recipe model) b, let s' := group_set_bin b s in
  group_bin s' = b /\ group_cut s' = group_cut s /\ properties s' = properties s /\ same_marks (grp s) (grp s') /\
  map (fun p => data (snd p)) (chans (grp s')) = map (fun p => let o := data (snd p) in mkOff (number o) (recipes o) (default_cut o) b (pulse_model o)) (chans (grp s)).
Proof.
  intros recipe model s b s'. split; [reflexivity|]. split; [reflexivity|]. split; [reflexivity|]. unfold same_marks, s'. rewrite bins_set, !map_map. split; apply map_ext; intros [k c]; reflexivity.
Qed.
Print Assumptions bin_size_set.

(** Saved are the books of the channels visited, each under the number of its channel. *)
Theorem books_saved : forall recipe model (g : ogroup recipe model), named g ->
  NoDup (map fst (save_books g)) /\ forall k b, In (k, b) (save_books g) <-> exists c, visited g k c /\ recipes (data c) = b.
Proof.
  intros recipe model g N. rewrite (saved_books g N). split.
  - rewrite map_map. cbn [fst]. destruct N as [ND _]. unfold items. destruct (incl g); [exact ND|]. change (fun x : Z * chan (off_chan recipe model) => fst x) with (@fst Z (chan (off_chan recipe model))). revert ND. generalize (chans g). induction d as [|[x w] l IH]; intros ND; [constructor|]. inversion ND; subst. cbn [filter snd]. destruct (negb (bad w)); [|now apply IH].
    cbn [map fst]. constructor; [|now apply IH]. intros I. apply in_map_iff in I as ([y u] & E & I). cbn in E. subst. apply filter_In in I as [I _]. apply H1. apply in_map_iff. exists (x, u). auto.
  - intros k b. rewrite in_map_iff. split.
    + intros ([x c] & E & I). cbn in E. injection E as <- <-. exists c. split; [now apply items_visited|reflexivity].
    + intros (c & V & <-). exists (k, c). split; [reflexivity|now apply items_visited].
Qed.
Print Assumptions books_saved.

(** Loading gives each channel named in the file its book, good or bad, and changes nothing else. *)
Theorem books_loaded : forall recipe model (d : dict (book recipe)) (s : session recipe model),
  NoDup (map fst d) -> NoDup (map fst (chans (grp s))) -> (forall k, In k (map fst d) -> In k (map fst (chans (grp s)))) ->
  exists s', load d s = (s', true) /\ group_cut s' = group_cut s /\ group_bin s' = group_bin s /\ properties s' = properties s /\ incl (grp s') = incl (grp s) /\ same_marks (grp s) (grp s') /\
  map (fun p => data (snd p)) (chans (grp s')) =
  map (fun p => let o := data (snd p) in mkOff (number o) (match dget d (fst p) with Some b => b | None => recipes o end) (default_cut o) (bin_size o) (pulse_model o)) (chans (grp s)).
Proof.
  intros recipe model d s N1 N2 I. unfold load. rewrite loaded_books by assumption. eexists. split; [reflexivity|]. cbn. repeat split; try reflexivity; unfold same_marks; cbn; rewrite map_map; apply map_ext; intros [k c]; unfold given; cbn; destruct (dget d k); [reflexivity..|].
  destruct c as [bd rs [nu re de bi pm]]. reflexivity.
Qed.
Print Assumptions books_loaded.

(** A channel that the group does not have: an exception, after the channels before it in the file were given their books. *)
Theorem books_load_stops : forall recipe model (d1 d2 : dict (book recipe)) k b (s : session recipe model),
  NoDup (map fst d1) -> NoDup (map fst (chans (grp s))) -> (forall x, In x (map fst d1) -> In x (map fst (chans (grp s)))) -> ~ In k (map fst (chans (grp s))) ->
  load (d1 ++ (k, b) :: d2) s = (fst (load d1 s), false).
Proof. intros recipe model d1 d2 k b s N1 N2 I NK. unfold load. rewrite load_stops by assumption. now rewrite loaded_books by assumption. Qed.
Print Assumptions books_load_stops.

(** So after saving, anything done to the books of the channels that were visited can be undone. *)
Theorem books_restored : forall recipe model (g : ogroup recipe model) (s : session recipe model), named g -> named (grp s) -> map fst (chans (grp s)) = map fst (chans g) ->
  exists s', load (save_books g) s = (s', true) /\ same_marks (grp s) (grp s') /\
  (forall k c c', visited g k c -> dget (chans (grp s')) k = Some c' -> recipes (data c') = recipes (data c)) /\
  (forall k, (forall c, ~ visited g k c) -> dget (chans (grp s')) k = dget (chans (grp s)) k).
Proof.
  intros recipe model g s N1 N2 K. destruct (books_saved recipe model g N1) as [ND IN].
  assert (P : forall k, In k (map fst (save_books g)) -> In k (map fst (chans (grp s)))).
  { intros k I. apply in_map_iff in I as ([x b] & E & I). cbn in E. subst x. apply IN in I as (c & (V & _) & _). rewrite K. apply in_map_iff. exists (k, c). auto. }
  destruct (books_loaded recipe model (save_books g) s ND (proj1 N2) P) as (s' & L & _ & _ & _ & _ & SM & _). exists s'. split; [exact L|]. split; [exact SM|].
  unfold load in L. rewrite loaded_books in L by (try assumption; exact (proj1 N2)). injection L as <-. cbn.
  assert (G : forall k (cs : dict (chan (off_chan recipe model))), dget (map (given (save_books g)) cs) k = option_map (fun c => snd (given (save_books g) (k, c))) (dget cs k)).
  { intros k. induction cs as [|[x w] cs IH]; [reflexivity|]. cbn [map dget]. unfold given at 1. cbn [fst snd]. destruct (dget (save_books g) x) eqn:E; destruct (Z.eqb_spec x k) as [->|]; cbn [option_map]; try exact IH; unfold given; cbn [fst]; rewrite E; reflexivity. }
  split.
  - intros k c c' V. rewrite G. destruct (dget (chans (grp s)) k) as [c0|]; [|discriminate]. cbn [option_map]. intros Q. injection Q as <-. unfold given. cbn [fst].
    assert (S : dget (save_books g) k = Some (recipes (data c))) by (apply in_dget; [exact ND|]; apply IN; eauto). rewrite S. reflexivity.
  - intros k V. rewrite G. destruct (dget (chans (grp s)) k) as [c0|]; [|reflexivity]. cbn [option_map]. unfold given. cbn [fst]. destruct (dget (save_books g) k) as [b|] eqn:S; [|reflexivity].
    assert (I : In (k, b) (save_books g)). { revert S. generalize (save_books g). induction d as [|[x w] d IH]; [discriminate|]. cbn [dget]. destruct (Z.eqb_spec x k) as [->|]; [intros E; injection E as ->; now left|intros E; right; now apply IH]. }
    apply IN in I as (c & V' & _). destruct (V c V').
Qed.
Print Assumptions books_restored.

(** add5LagRecipes: each visited channel gets the recipes of the model with its number ... *)
Theorem models_given : forall recipe model models addlag (g : ogroup recipe model), named g ->
  (forall k c, visited g k c -> exists m o, dget models k = Some m /\ addlag m (with_model m (data c)) = Some o) ->
  exists g', group_add_5lag models addlag g = (g', true) /\ map fst (chans g') = map fst (chans g) /\
  (forall k c, visited g k c -> exists m o, dget models k = Some m /\ addlag m (with_model m (data c)) = Some o /\ dget (chans g') k = Some (mkChan (bad c) (reason c) o)) /\
  (forall k, (forall c, ~ visited g k c) -> dget (chans g') k = dget (chans g) k).
Proof.
  intros recipe model models addlag g (ND & NM) H. unfold group_add_5lag.
  assert (KV : forall k, In k (keys g) <-> exists c, visited g k c).
  { intros k. unfold keys. rewrite in_map_iff. split.
    - intros ([x c] & E & I). cbn in E. subst. exists c. now apply items_visited.
    - intros (c & V). exists (k, c). split; [reflexivity|now apply items_visited]. }
  assert (NK : NoDup (keys g)).
  { unfold keys, items. destruct (incl g); [exact ND|]. clear -ND. revert ND. generalize (chans g). induction d as [|[x w] l IH]; intros ND; [constructor|]. inversion ND; subst. cbn [filter snd]. destruct (negb (bad w)); [|now apply IH].
    cbn [map fst]. constructor; [|now apply IH]. intros I. apply in_map_iff in I as ([y u] & E & I). cbn in E. subst. apply filter_In in I as [I _]. apply H1. apply in_map_iff. exists (x, u). auto. }
  assert (VD : forall k c, visited g k c -> dget (chans g) k = Some c /\ number (data c) = k) by (intros k c (V & _); split; [now apply in_dget|now apply NM]).
  destruct (models_added models addlag (keys g) (chans g) NK ND) as (cs' & A & B & C & D).
  { intros k I. apply KV in I as (c & V). destruct (H k c V) as (m & o & M1 & M2). destruct (VD k c V) as [V1 V2]. exists c, m, o. rewrite V2. auto. }
  rewrite A. eexists. split; [reflexivity|]. cbn. split; [exact B|]. split.
  - intros k c V. destruct (H k c V) as (m & o & M1 & M2). destruct (VD k c V) as [V1 V2]. destruct (D k c m) as (o' & O1 & O2); [apply KV; eauto|exact V1|now rewrite V2|]. exists m, o'. split; [exact M1|]. split; [exact O1|]. exact O2.
  - intros k V. apply C. intros I. apply KV in I as (c & V'). exact (V c V').
Qed.
Print Assumptions models_given.

(** ... and a visited channel without a model stops the loop with an exception: it and those after it are as before. *)
Theorem models_missing : forall recipe model models addlag (g : ogroup recipe model) l1 k c l2, named g -> items g = l1 ++ (k, c) :: l2 -> dget models k = None ->
  exists g', group_add_5lag models addlag g = (g', false) /\ forall x, ~ In x (map fst l1) -> dget (chans g') x = dget (chans g) x.
Proof.
  intros recipe model models addlag g l1 k c l2 (ND & NM) E M. unfold group_add_5lag, keys. rewrite E, map_app. cbn [map fst].
  assert (I : In (k, c) (chans g)). { assert (I : In (k, c) (items g)) by (rewrite E; apply in_app_iff; right; now left). now apply items_visited in I as [I _]. }
  assert (N1 : ~ In k (map fst l1)).
  { assert (NK : NoDup (map fst (items g))).
    { unfold items. destruct (incl g); [exact ND|]. clear -ND. revert ND. generalize (chans g). induction d as [|[x w] l IH]; intros ND; [constructor|]. inversion ND; subst. cbn [filter snd]. destruct (negb (bad w)); [|now apply IH].
      cbn [map fst]. constructor; [|now apply IH]. intros I. apply in_map_iff in I as ([y u] & Q & I). cbn in Q. subst. apply filter_In in I as [I _]. apply H1. apply in_map_iff. exists (x, u). auto. }
    rewrite E, map_app in NK. cbn [map fst] in NK. apply NoDup_remove_2 in NK. intros J. apply NK, in_app_iff. now left. }
  destruct (models_stop models addlag k (map fst l2) (map fst l1) (chans g) c N1) as (cs' & A & B).
  - now apply in_dget.
  - now rewrite (NM k c I).
  - rewrite A. eexists. split; [reflexivity|]. exact B.
Qed.
Print Assumptions models_missing.

(** A recipe that was added can be read as an attribute, in this session. *)
Theorem added_recipe_readable : forall recipe model (s s' : session recipe model) k n r, add_recipe k n r s = (s', true) ->
  exists c, dget (chans (grp s')) k = Some c /\ readable s' (data c) n = true /\ gettable (data c) n = true.
Proof.
  intros recipe model s s' k n r H. unfold add_recipe in H. destruct (dget (chans (grp s)) k) as [c|]; [|discriminate]. destruct (_ || _)%bool; [discriminate|]. injection H as <-. cbn. rewrite dget_dset, Z.eqb_refl.
  eexists. split; [reflexivity|]. unfold readable, gettable. cbn. rewrite String.eqb_refl. cbn. assert (G : has_recipe n (recipes (data c) ++ [(n, r)]) = true) by (apply has_knows; exists r; apply in_app_iff; right; now left). split; exact G.
Qed.
Print Assumptions added_recipe_readable.

Definition ch (n : Z) (bd : bool) (l : list (string * Z)) (cut : string) : Z * chan (off_chan Z Z) := (n, mkChan bd [] (mkOff n l cut None None)).
Definition demo : session Z Z :=
  mkSession (mkGroup [ch 1 false [("cutA", 1); ("energy", 7)]%string "cutA"; ch 3 true [("cutA", 1); ("energy", 8)]%string "cutA"; ch 5 false [("cutA", 1); ("cutB", 2)]%string "cutB"] false false) "cutA" None ["cutA"; "cutB"; "energy"]%string.

(** Loaded in another session, a recipe is in the book but cannot be read as an attribute. *)
Theorem loaded_not_readable_refuted : exists (s s' : session Z Z) c n, load (save_books (grp demo)) s = (s', true) /\ dget (chans (grp s')) 1 = Some c /\ gettable (data c) n = true /\ readable s' (data c) n = false.
Proof.
  exists (mkSession (mkGroup [ch 1 false [("cutA", 1)]%string "cutA"; ch 3 false [] "cutA"; ch 5 false [] "cutA"] false false) "cutA" None ["cutA"]%string). do 2 eexists. exists "energy"%string.
  split; [vm_compute; reflexivity|]. split; [vm_compute; reflexivity|]. split; vm_compute; reflexivity.
Qed.
Print Assumptions loaded_not_readable_refuted.

(** The books of channels marked bad are not saved, so they are not restored. *)
Theorem bad_books_lost_refuted : exists (s' : session Z Z) c, dget (save_books (grp demo)) 3 = None /\
  load (save_books (grp demo)) (mkSession (mkGroup [ch 1 false [] "cutA"; ch 3 false [] "cutA"; ch 5 false [] "cutA"] false false) "cutA" None []) = (s', true) /\
  dget (chans (grp s')) 3 = Some c /\ recipes (data c) = [].
Proof. do 2 eexists. split; [vm_compute; reflexivity|]. split; [vm_compute; reflexivity|]. split; vm_compute; reflexivity. Qed.
Print Assumptions bad_books_lost_refuted.

(** The default cut of a channel is not used by the group if it is not the first. *)
Theorem own_default_refuted : exists c, dget (chans (grp demo)) 5 = Some c /\ default_cut (data c) = "cutB"%string /\ handle_default_cut (grp demo) None = Some "cutA"%string.
Proof. eexists. split; [reflexivity|]. split; vm_compute; reflexivity. Qed.
Print Assumptions own_default_refuted.

(** A negated cut, which every channel can craft, is refused by the group. *)
Theorem negated_cut_refused : forall recipe model (g : ogroup recipe model) n, (exists k c, visited g k c) -> (forall k c, visited g k c -> Forall (fun p => prefix "!" (fst p) = false) (recipes (data c))) ->
  handle_default_cut g (Some (String "!"%char n)) = None.
Proof.
  intros recipe model g n (k & c & V) H. destruct (handle_default_cut g (Some (String "!"%char n))) as [m|] eqn:E; [|reflexivity]. apply default_cut_spec in E as (c0 & _ & -> & K). destruct (K k c V) as (r & I).
  specialize (H k c V). rewrite Forall_forall in H. specialize (H _ I). cbn in H. destruct n; discriminate H.
Qed.
Print Assumptions negated_cut_refused.

(** Setting the bin size inside an includeBad context ends the context. *)
Theorem bin_size_in_context_refuted : exists (s : session Z Z), incl (grp s) = true /\ keys (grp s) = [1; 3; 5] /\ keys (grp (group_set_bin (Some 2) s)) = [1; 5].
Proof. exists (mkSession (enter (include_bad (grp demo) true)) "cutA" None []). split; [reflexivity|]. split; reflexivity. Qed.
Print Assumptions bin_size_in_context_refuted.

Example group_instance : named (grp demo) /\ leading (grp demo) (snd (ch 1 false [("cutA", 1); ("energy", 7)]%string "cutA")) /\
  handle_default_cut (grp demo) (Some "cutA"%string) = Some "cutA"%string /\ handle_default_cut (grp demo) (Some "energy"%string) = None /\
  map fst (save_books (grp demo)) = [1; 5] /\ map (fun p => bin_size (data (snd p))) (chans (grp (group_set_bin (Some 2) demo))) = [Some 2; Some 2; Some 2] /\
  handle_default_cut (grp demo) (Some "!cutA"%string) = None.
Proof.
  split. { split; [cbn; apply NoDup_cons; [intros [H|[H|[]]]; discriminate|apply NoDup_cons; [intros [H|[]]; discriminate|apply NoDup_cons; [intros []|constructor]]]|]. intros k c I. cbn in I. repeat (destruct I as [I|I]; [injection I as <- <-; reflexivity|]). destruct I. }
  split. { exists [], 1. eexists. split; [reflexivity|]. split; [reflexivity|intros ? ? []]. }
  repeat split; vm_compute; reflexivity.
Qed.
Example models_instance : let addlag m (o : off_chan Z Z) := Some (mkOff (number o) (("filtValue5Lag"%string, m) :: recipes o) (default_cut o) (bin_size o) (pulse_model o)) in
  snd (group_add_5lag [(1, 10); (5, 50)] addlag (grp demo)) = true /\ snd (group_add_5lag [(1, 10)] addlag (grp demo)) = false /\
  map (fun p => pulse_model (data (snd p))) (chans (fst (group_add_5lag [(1, 10)] addlag (grp demo)))) = [Some 10; None; None].
Proof. repeat split; vm_compute; reflexivity. Qed.
