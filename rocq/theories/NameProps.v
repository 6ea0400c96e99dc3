(** Properties of file names and pairing: C38, C39, C57. *)
From Coq Require Import ZArith Ascii String Bool Lia Sorted Permutation List.
From Verif Require Import LjhModel Kept NameModel NameSpec NameProofs.
Import ListNotations.
Open Scope Z_scope.

(** * C38 *)

(** With one file per channel in each list, whatever the iteration order of the sets, the
    files kept are exactly those wanted, in their order. *)
Theorem pairing_exact f1 f2 nu uo o1 o2 : f1 <> [] -> NoDup (map channum f1) -> NoDup (map channum f2) ->
  Permutation o1 (to_remove f1 f1 f2 nu uo) -> Permutation o2 (to_remove f2 f1 f2 nu uo) ->
  exists r1 r2, remove_unpaired f1 f2 nu uo o1 o2 = Some (r1, r2) /\
    kept (fun f => wanted f2 nu uo (channum f)) f1 r1 /\
    kept (fun f => (exists g, In g f1 /\ channum g = channum f) /\ wanted f2 nu uo (channum f)) f2 r2.
Proof. exact (pairing f1 f2 nu uo o1 o2). Qed.
Print Assumptions pairing_exact.

(** With repeated channels it still does not fail, and removes no wanted file. *)
Theorem pairing_keeps_wanted f1 f2 nu uo o1 o2 : f1 <> [] ->
  Permutation o1 (to_remove f1 f1 f2 nu uo) -> Permutation o2 (to_remove f2 f1 f2 nu uo) ->
  exists r1 r2 w1 w2, remove_unpaired f1 f2 nu uo o1 o2 = Some (r1, r2) /\
    kept (fun f => wanted f2 nu uo (channum f)) f1 w1 /\
    kept (fun f => wanted f2 nu uo (channum f)) r1 w1 /\
    kept (fun f => (exists g, In g f1 /\ channum g = channum f) /\ wanted f2 nu uo (channum f)) f2 w2 /\
    kept (fun f => (exists g, In g f1 /\ channum g = channum f) /\ wanted f2 nu uo (channum f)) r2 w2.
Proof. exact (pairing_safe f1 f2 nu uo o1 o2). Qed.
Print Assumptions pairing_keeps_wanted.

Definition pulse_files := [bs "d/p_chan7.ljh"; bs "d/p_chan1.ljh"; bs "d/p_chan3.ljh"; bs "d/p_chan9.ljh"].
Definition noise_files := [bs "d/n_chan1.noi"; bs "d/n_chan9.noi"; bs "d/n_chan5.noi"; bs "d/n_chan7.noi"].

Example pairing_instance :
  pulse_files <> [] /\ NoDup (map channum pulse_files) /\ NoDup (map channum noise_files) /\
  Permutation [Some 9; Some 3] (to_remove pulse_files pulse_files noise_files (Some [9]) None) /\
  Permutation [Some 5; Some 9] (to_remove noise_files pulse_files noise_files (Some [9]) None) /\
  remove_unpaired pulse_files noise_files (Some [9]) None [Some 9; Some 3] [Some 5; Some 9] =
    Some ([bs "d/p_chan7.ljh"; bs "d/p_chan1.ljh"], [bs "d/n_chan1.noi"; bs "d/n_chan7.noi"]).
Proof.
  split; [discriminate|]. vm_compute.
  split; [|split; [|split; [|split]]]; try reflexivity; try apply perm_swap;
    repeat constructor; cbn; intuition congruence.
Qed.

(** The doubled channel of [pairing_keeps_wanted] is reachable, and one of its files stays
    although the other list has no such channel. *)
Theorem pairing_duplicate_refuted : exists f1 f2 o1 o2 r1 r2 f,
  Permutation o1 (to_remove f1 f1 f2 None None) /\ Permutation o2 (to_remove f2 f1 f2 None None) /\
  remove_unpaired f1 f2 None None o1 o2 = Some (r1, r2) /\
  In f r1 /\ (forall g, In g f2 -> channum g <> channum f).
Proof.
  exists [bs "a_chan1.ljh"; bs "b_chan1.ljh"; bs "a_chan2.ljh"], [bs "n_chan2.ljh"], [Some 1], [],
    [bs "a_chan1.ljh"; bs "a_chan2.ljh"], [bs "n_chan2.ljh"], (bs "a_chan1.ljh").
  vm_compute. repeat split; try apply Permutation_refl; try (left; reflexivity).
  intros g [<- | []] E. vm_compute in E. discriminate E.
Qed.
Print Assumptions pairing_duplicate_refuted.

(** An empty first list leaves the second as it is, even its never_use channels, contrary to
    the documentation. *)
Theorem pairing_empty_refuted : exists f2 o1 o2 r2 f c,
  remove_unpaired [] f2 (Some [c]) None o1 o2 = Some ([], r2) /\ In f r2 /\ channum f = Some c.
Proof.
  exists [bs "n_chan2.ljh"], [], [], [bs "n_chan2.ljh"], (bs "n_chan2.ljh"), 2.
  vm_compute. repeat split. now left.
Qed.
Print Assumptions pairing_empty_refuted.

(** * C39 *)

(** The base name and channel number are those before and after the last "_chan" that is
    followed by a digit. *)
Theorem channum_is_last f base c : basename_channum f = (base, Some c) <-> named f base c.
Proof. exact (channum_named f base c). Qed.
Print Assumptions channum_is_last.

Theorem channum_absent f : channum f = None <-> ~ mentions_channel f.
Proof. exact (channum_none f). Qed.
Print Assumptions channum_absent.

(** Generated names give back their channel and the base name, if the extension mentions no
    channel. *)
Theorem generated_channum fname chans k : (k < length chans)%nat -> 0 <= nth k chans 0 ->
  ~ mentions_channel (snd (splitext fname)) ->
  basename_channum (nth k (chan_names fname chans) []) = (fst (basename_channum fname), Some (nth k chans 0)).
Proof. exact (generated fname chans k). Qed.
Print Assumptions generated_channum.

(** The constructor of LJHFile agrees when the base name does not contain "_chan". *)
Theorem ljhfile_channum_generated fname chans k : (k < length chans)%nat -> 0 <= nth k chans 0 ->
  ~ contains_chan (fst (basename_channum fname)) ->
  ljhfile_channum (nth k (chan_names fname chans) []) = Some (nth k chans 0).
Proof. exact (ljhfile_generated fname chans k). Qed.
Print Assumptions ljhfile_channum_generated.

Example generated_instance :
  let f := bs "/data_chan/run_chan4_x_chan12_b.ljh" in
  basename_channum f = (bs "/data_chan/run_chan4_x", Some 12) /\
  chan_names f [3; 40] = [bs "/data_chan/run_chan4_x_chan3.ljh"; bs "/data_chan/run_chan4_x_chan40.ljh"] /\
  map channum (chan_names f [3; 40]) = [Some 3; Some 40] /\
  ~ mentions_channel (snd (splitext f)) /\ channum (bs "run_chans.ljh") = None.
Proof.
  cbv zeta. repeat split; try (vm_compute; reflexivity).
  apply (last_match_none _ 0). vm_compute. reflexivity.
Qed.
Example ljhfile_instance :
  let f := bs "/data/run_chan4.ljh" in
  ~ contains_chan (fst (basename_channum f)) /\ ljhfile_channum (nth 0 (chan_names f [31]) []) = Some 31.
Proof.
  cbv zeta. split; [|vm_compute; reflexivity].
  intros [a [b E]]. vm_compute in E.
  repeat (destruct a as [|? a]; [discriminate E|]; injection E as _ E). destruct a; discriminate E.
Qed.

(** "Whatever the base name" is false: the extension may mention a channel; and a negative
    number is not found. *)
Theorem generated_extension_refuted : exists fname c, 0 <= c /\
  nth 0 (map channum (chan_names fname [c])) None <> Some c.
Proof. exists (bs "run_chan1._chan7"), 3. split; [lia | vm_compute; discriminate]. Qed.
Print Assumptions generated_extension_refuted.

Theorem generated_negative_refuted : exists fname c,
  ~ mentions_channel (snd (splitext fname)) /\ nth 0 (map channum (chan_names fname [c])) None <> Some c.
Proof.
  exists (bs "run_chan1.ljh"), (-3). split; [apply (last_match_none _ 0) |]; vm_compute; [reflexivity | discriminate].
Qed.
Print Assumptions generated_negative_refuted.

(** The two ways of finding the channel disagree when the path contains "_chan" before, and
    the file may then not open at all. *)
Theorem ljhfile_channum_refuted : exists f g, channum f = Some 7 /\ ljhfile_channum f = Some 5 /\
  channum g = Some 7 /\ ljhfile_channum g = None.
Proof. exists (bs "d_chan5.old/b_chan7.ljh"), (bs "all_channels/b_chan7.ljh"). vm_compute. repeat split. Qed.
Print Assumptions ljhfile_channum_refuted.

(** * C57 *)

(** Sorting names that all mention a channel: a rearrangement in order of channel number and
    then of name.  The caller's list is rearranged too. *)
Theorem sort_filenames_sorted l : l <> [] -> (forall f, In f l -> mentions_channel f) ->
  exists r s, sort_filenames l None = Some (SList r s) /\
    Permutation r l /\ StronglySorted name_order r /\ Permutation s l.
Proof. exact (sort_names l). Qed.
Print Assumptions sort_filenames_sorted.

(** The result depends on the names only, not on the order in which they are given. *)
Theorem sort_filenames_independent l l' : Permutation l l' -> (forall f, In f l -> mentions_channel f) ->
  sort_filenames l None = sort_filenames l' None.
Proof. exact (sort_independent l l'). Qed.
Print Assumptions sort_filenames_independent.

Example sort_instance :
  (forall f, In f [bs "b_chan10"; bs "b_chan9"; bs "a_chan10"] -> mentions_channel f) /\
  sort_filenames [bs "b_chan10"; bs "b_chan9"; bs "a_chan10"] None =
    Some (SList [bs "b_chan9"; bs "a_chan10"; bs "b_chan10"] [bs "a_chan10"; bs "b_chan10"; bs "b_chan9"]).
Proof.
  split; [|vm_compute; reflexivity].
  intros f [<- | [<- | [<- | []]]];
    [exists (bs "b"), 49, (bs "0") | exists (bs "b"), 57, [] | exists (bs "a"), 49, (bs "0")];
    split; try reflexivity; lia.
Qed.

(** With an inclusion list the call always raises. *)
Theorem sort_inclusion_raises l inc : l <> [] -> sort_filenames l (Some inc) = None.
Proof. intros N. destruct l as [|f [|g l]]; [contradiction | reflexivity | reflexivity]. Qed.
Print Assumptions sort_inclusion_raises.
