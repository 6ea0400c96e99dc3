(** Properties of experiment states: C42 (states partition the pulses) and C43 (refreshing). *)
From Coq Require Import ZArith Ascii String Bool Lia Sorting.Sorted List.
From Verif Require Import Kept LjhModel LjhProofs StModel StSpec StProofs.
Import ListNotations.
Open Scope Z_scope.

(** * C42 *)

(** Reading a state file whose (rounded) times do not decrease, and computing the states of
    pulses whose (rounded) times do not decrease: the pulses selected by a state are, in order
    and once each, exactly those for which the last state change at or before them has a label
    that is not excluded and stands for that state. *)
Theorem states_of_pulses : forall rnd alias f ts xs ex us, state_file f ts xs ->
  nondecreasing (map rnd ts) -> nondecreasing (map rnd us) ->
  exists e d, esf_parse rnd f (esf_init ex) = Some e /\ calc_states rnd alias e us [] 0 0 = Some d /\
    forall a, kept (fun j => in_state alias (is_excluded ex xs) (map rnd ts) xs (rnd (nth j us 0)) a)
                   (seq 0 (length us)) (indices d a).
Proof. exact partition. Qed.
Print Assumptions states_of_pulses.

(** So no pulse is in two states. *)
Theorem states_exclusive : forall alias excluded times labels u a b,
  in_state alias excluded times labels u a -> in_state alias excluded times labels u b -> a = b.
Proof.
  intros alias excluded times labels u a b (i & (I1 & I2 & I3) & _ & <-) (k & (K1 & K2 & K3) & _ & <-).
  destruct (Nat.lt_trichotomy i k) as [C | [-> | C]]; [| reflexivity |].
  - specialize (I3 k ltac:(lia)). lia.
  - specialize (K3 i ltac:(lia)). lia.
Qed.
Print Assumptions states_exclusive.

Definition line (s : string) : bytes := bs s ++ [10].
Definition file (l : list string) : bytes := line "# unixnano, state label" ++ flat_map line l.
Definition id (z : Z) : Z := z.
Definition same (x : bytes) : bytes := x.
(** Index lists of several states of a computed dictionary. *)
Definition show (d : option sdict) (l : list string) : option (list (list nat)) :=
  option_map (fun d => map (fun a => indices d (bs a)) l) d.
Definition fresh (rnd : Z -> Z) (f : bytes) (ex : excludes) (us : list Z) : option sdict :=
  match esf_parse rnd f (esf_init ex) with Some e => calc_states rnd same e us [] 0 0 | None => None end.

Example states_file_instance :
  state_file (file ["100, START"; "200,A"; "300 , B"; "400, A"; "500, STOP"]%string) [100; 200; 300; 400; 500]
             [bs "START"; bs "A"; bs "B"; bs "A"; bs "STOP"].
Proof.
  exists (bs " unixnano, state label"), [line "100, START"; line "200,A"; line "300 , B"; line "400, A"; line "500, STOP"].
  split; [reflexivity |]. split; [intros H; repeat (destruct H as [H | H]; [discriminate H |]); exact H |].
  split; [discriminate |]. split; [reflexivity |]. split; [reflexivity |].
  assert (N : forall l : bytes, forallb (fun c => negb (c =? 44) && negb (c =? 10)) l = true -> no_comma l).
  { intros l F. rewrite forallb_forall in F. split; intros C; apply F in C; discriminate C. }
  intros i Hi. cbn [length] in Hi.
  destruct i as [| [| [| [| [| i]]]]]; [| | | | | lia]; cbn [nth].
  - exists (bs "100"), (bs " START"). repeat split; try reflexivity; apply N; reflexivity.
  - exists (bs "200"), (bs "A"). repeat split; try reflexivity; apply N; reflexivity.
  - exists (bs "300 "), (bs " B"). repeat split; try reflexivity; apply N; reflexivity.
  - exists (bs "400"), (bs " A"). repeat split; try reflexivity; apply N; reflexivity.
  - exists (bs "500"), (bs " STOP"). repeat split; try reflexivity; apply N; reflexivity.
Qed.
Example states_instance :
  show (fresh id (file ["100, START"; "200,A"; "300 , B"; "400, A"; "500, STOP"]%string) Auto
              [50; 150; 200; 250; 299; 300; 450; 499; 500; 600]) ["START"; "A"; "B"; "STOP"]%string
  = Some [[]; [2; 3; 4; 6; 7]; [5]; []]%nat.
Proof. reflexivity. Qed.

(** Because the times are compared as floating-point numbers, a pulse before a state change may
    be counted after it. *)
Theorem states_rounding_refuted : exists rnd f ts us d j,
  (forall a b, a <= b -> rnd a <= rnd b) /\ fresh rnd f Auto us = Some d /\
  esf_parse id f (esf_init Auto) <> None /\
  option_map nanos (esf_parse id f (esf_init Auto)) = Some ts /\
  In j (indices d (bs "B")) /\ nth j us 0 < nth 1 ts 0.
Proof.
  exists (fun z => z / 256 * 256), (file ["256, A"; "600, B"]%string), [256; 600], [300; 599]. eexists. exists 1%nat.
  split. { intros a b H. apply Z.mul_le_mono_nonneg_r; [lia |]. apply Z.div_le_mono; lia. }
  split; [vm_compute; reflexivity |]. split; [vm_compute; discriminate |]. split; [reflexivity |].
  split; [vm_compute; now left | reflexivity].
Qed.
Print Assumptions states_rounding_refuted.

(** * C43 *)

(** States kept up to date over any number of reliable refreshes are those computed at the end. *)
Theorem states_refreshed : forall rnd alias ex f us e d, refreshed rnd alias ex f us e d ->
  esf_parse rnd f (esf_init ex) = Some e /\ calc_states rnd alias e us [] 0 0 = Some d.
Proof. exact refreshed_fresh. Qed.
Print Assumptions states_refreshed.

(** A reliable refresh succeeds. *)
Theorem states_refresh_succeeds : forall rnd alias ex f us f' us' e d,
  refreshed rnd alias ex f us e d -> grown rnd alias ex f us f' us' ->
  exists e' d', refresh rnd alias f' e us' (length us) (Some d) = Some (e', d') /\ refreshed rnd alias ex f' us' e' d'.
Proof.
  intros rnd alias ex f us f' us' e d R G. destruct (refreshed_fresh _ _ _ _ _ _ _ R) as [He Hd].
  destruct (refresh_ok rnd alias ex f us f' us' e d He Hd G) as (e' & d' & H & _).
  exists e', d'. split; [exact H |]. eapply refreshed_next; eassumption.
Qed.
Print Assumptions states_refresh_succeeds.

(** Reading the rest of a file that has grown by whole lines gives the same as reading it whole. *)
Theorem states_file_grown : forall rnd ex f g ts xs ts' xs' e, state_file f ts xs -> state_file (f ++ g) ts' xs' ->
  stable ex xs xs' -> esf_parse rnd f (esf_init ex) = Some e ->
  esf_parse rnd (f ++ g) e = esf_parse rnd (f ++ g) (esf_init ex) /\ esf_parse rnd (f ++ g) e <> None.
Proof.
  intros rnd ex f g ts xs ts' xs' e SF SF' St He. rewrite (parse_file rnd ex f ts xs SF) in He. injection He as <-.
  rewrite (parse_file rnd ex _ ts' xs' SF'), (parse_rest rnd ex f g ts xs ts' xs' SF SF' St).
  split; [reflexivity | discriminate].
Qed.
Print Assumptions states_file_grown.

(** A refresh: from the states of [f], [us] to those after [f'], [us']; and the states computed
    anew. *)
Definition step (ex : excludes) (f : bytes) (us : list Z) (f' : bytes) (us' : list Z) (computed : bool) : option sdict :=
  match esf_parse id f (esf_init ex) with
  | None => None
  | Some e =>
      match calc_states id same e us [] 0 0 with
      | None => None
      | Some d => option_map snd (refresh id same f' e us' (length us) (if computed then Some d else None))
      end
  end.

Example states_grown_instance :
  grown id same (Excluded []) (file ["100, A"; "200, B"]%string) [150; 250]
        (file ["100, A"; "200, B"; "300, A"]%string) [150; 250; 260; 300].
Proof.
  assert (N : forall l : bytes, forallb (fun c => negb (c =? 44) && negb (c =? 10)) l = true -> no_comma l).
  { intros l F. rewrite forallb_forall in F. split; intros C; apply F in C; discriminate C. }
  exists (line "300, A"), [100; 200], [bs "A"; bs "B"], [100; 200; 300], [bs "A"; bs "B"; bs "A"].
  split; [reflexivity |].
  split.
  { exists (bs " unixnano, state label"), [line "100, A"; line "200, B"].
    split; [reflexivity |]. split; [intros H; repeat (destruct H as [H | H]; [discriminate H |]); exact H |].
    split; [discriminate |]. split; [reflexivity |]. split; [reflexivity |].
    intros i Hi. cbn [length] in Hi. destruct i as [| [| i]]; [| | lia]; cbn [nth].
    - exists (bs "100"), (bs " A"). repeat split; try reflexivity; apply N; reflexivity.
    - exists (bs "200"), (bs " B"). repeat split; try reflexivity; apply N; reflexivity. }
  split.
  { exists (bs " unixnano, state label"), [line "100, A"; line "200, B"; line "300, A"].
    split; [reflexivity |]. split; [intros H; repeat (destruct H as [H | H]; [discriminate H |]); exact H |].
    split; [discriminate |]. split; [reflexivity |]. split; [reflexivity |].
    intros i Hi. cbn [length] in Hi. destruct i as [| [| [| i]]]; [| | | lia]; cbn [nth].
    - exists (bs "100"), (bs " A"). repeat split; try reflexivity; apply N; reflexivity.
    - exists (bs "200"), (bs " B"). repeat split; try reflexivity; apply N; reflexivity.
    - exists (bs "300"), (bs " A"). repeat split; try reflexivity; apply N; reflexivity. }
  split; [intros x; reflexivity |]. split; [reflexivity |].
  exists [bs "A"], [300], [260; 300], [bs "A"], (bs "B").
  cbn [k_labels k_times k_records map]. split; [reflexivity |]. split; [reflexivity |]. split; [reflexivity |].
  split; [reflexivity |]. split.
  { intros u t [<- | [<- | []]] [<- | []]; reflexivity. }
  split. { intros t u [<- | [<- | []]] [<- | [<- | []]]; unfold id; lia. }
  split; [reflexivity |]. split; [intros [] |]. intros y [<- | []] _. discriminate.
Qed.
Example states_refresh_instance :
  show (step (Excluded []) (file ["100, A"; "200, B"]%string) [150; 250]
             (file ["100, A"; "200, B"; "300, A"]%string) [150; 250; 260; 300] true) ["A"; "B"]%string
  = Some [[0; 3]; [1; 2]]%nat.
Proof. reflexivity. Qed.

(** Without those conditions a refresh goes wrong.  A state entered again: new pulses go to the
    state that first appeared last. *)
Theorem states_refresh_repeated_refuted : exists f us us' d d',
  step (Excluded []) f us f us' true = Some d /\ fresh id f (Excluded []) us' = Some d' /\
  nondecreasing us' /\ firstn (length us) us' = us /\
  exists j, In j (indices d' (bs "A")) /\ ~ In j (indices d (bs "A")) /\ In j (indices d (bs "B")).
Proof.
  exists (file ["100, A"; "200, B"; "300, A"]%string), [150; 250; 350], [150; 250; 350; 360]. do 2 eexists.
  split; [vm_compute; reflexivity |]. split; [vm_compute; reflexivity |].
  split. { repeat (constructor; try lia). }
  split; [reflexivity |]. exists 3%nat.
  vm_compute. split; [tauto |]. split; [| tauto]. intros H. repeat destruct H as [H | H]; try discriminate H; exact H.
Qed.
Print Assumptions states_refresh_repeated_refuted.

(** A state entered again, and then a new one: an exception. *)
Theorem states_refresh_raises_refuted : exists f f' us d',
  step (Excluded []) f us f' us true = None /\ fresh id f' (Excluded []) us = Some d'.
Proof.
  exists (file ["100, A"; "200, A"]%string), (file ["100, A"; "200, A"; "300, B"]%string), [150; 250]. eexists.
  split; [vm_compute; reflexivity | vm_compute; reflexivity].
Qed.
Print Assumptions states_refresh_raises_refuted.

(** While an excluded state is active, new pulses go to the state before it. *)
Theorem states_refresh_excluded_refuted : exists f us us' d d' j,
  step Auto f us f us' true = Some d /\ fresh id f Auto us' = Some d' /\
  In j (indices d (bs "A")) /\ ~ In j (indices d' (bs "A")).
Proof.
  exists (file ["100, A"; "200, STOP"]%string), [150], [150; 250]. do 2 eexists. exists 1%nat.
  split; [vm_compute; reflexivity |]. split; [vm_compute; reflexivity |].
  vm_compute. split; [tauto |]. intros H. repeat destruct H as [H | H]; try discriminate H; exact H.
Qed.
Print Assumptions states_refresh_excluded_refuted.

(** If the states had not been used before the refresh, pulses are counted twice. *)
Theorem states_refresh_first_refuted : exists f f' us us' d d',
  step (Excluded []) f us f' us' false = Some d /\ fresh id f' (Excluded []) us' = Some d' /\
  indices d' (bs "B") = [1%nat] /\ indices d (bs "B") = [1; 1]%nat.
Proof.
  exists (file ["100, A"]%string), (file ["100, A"; "200, B"; "300, C"]%string), [150], [150; 250; 350]. do 2 eexists.
  split; [vm_compute; reflexivity |]. split; [vm_compute; reflexivity |]. split; reflexivity.
Qed.
Print Assumptions states_refresh_first_refuted.

(** A pulse older than a state change already known is counted in the new state. *)
Theorem states_refresh_late_refuted : exists f us us' d d' j,
  step (Excluded []) f us f us' true = Some d /\ fresh id f (Excluded []) us' = Some d' /\ nondecreasing us' /\
  In j (indices d (bs "B")) /\ In j (indices d' (bs "A")).
Proof.
  exists (file ["100, A"; "200, B"]%string), [150], [150; 190]. do 2 eexists. exists 1%nat.
  split; [vm_compute; reflexivity |]. split; [vm_compute; reflexivity |].
  split. { repeat (constructor; try lia). } vm_compute. tauto.
Qed.
Print Assumptions states_refresh_late_refuted.

(** The automatic exclusions are decided at the first reading only. *)
Theorem states_auto_once_refuted : exists f f' us d d',
  step Auto f us f' us true = Some d /\ fresh id f' Auto us = Some d' /\
  indices d (bs "START") = [0%nat] /\ indices d' (bs "START") = [].
Proof.
  exists (file ["100, START"]%string), (file ["100, START"; "200, A"]%string), [150]. do 2 eexists.
  split; [vm_compute; reflexivity |]. split; [vm_compute; reflexivity |]. split; reflexivity.
Qed.
Print Assumptions states_auto_once_refuted.

(** If the first reading stops in the middle of a line, the next reading fails. *)
Theorem states_half_line_refuted : exists f g e e',
  esf_parse id f (esf_init Auto) = Some e /\ esf_parse id (f ++ g) e = None /\
  esf_parse id (f ++ g) (esf_init Auto) = Some e'.
Proof.
  exists (file ["100, A"]%string ++ bs "200, B"), (bs "C" ++ [10] ++ line "300, D"). eexists. eexists.
  split; [vm_compute; reflexivity |]. split; [vm_compute; reflexivity | vm_compute; reflexivity].
Qed.
Print Assumptions states_half_line_refuted.
