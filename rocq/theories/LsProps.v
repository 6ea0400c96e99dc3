(** C100: experiment states as a category of the pulses of LJH channels. *)
From Coq Require Import ZArith NArith Ascii String Bool Lia List.
From Verif Require Import Kept LjhModel CutModel CutSpec CutProofs CutCatProofs StModel StSpec StProps LsModel LsSpec LsProofs.
Import ListNotations.
Open Scope Z_scope.

(** The states are registered as categories when a group is opened, after other fields have only been registered;
    then the pulses selected by a state are exactly those whose time is in it, the uncategorized ones those in no
    state, and no other field of the pulses changes. *)
Theorem states_select_pulses : forall rnd ex f ts xs us ws ops ops' e r1,
  state_file f ts xs -> nondecreasing (map rnd ts) -> nondecreasing (map rnd us) -> length us = length ws ->
  (forall x, In x xs -> plain_label x) -> (forall x, In x xs -> ~ is_excluded ex xs x -> to_name x <> "uncategorized"%string) ->
  esf_parse rnd f (esf_init ex) = Some e ->
  Forall registers ops -> Forall op_short ops -> Forall op_short ops' -> Forall (not_unreg "state"%string) ops' ->
  ~ In "state"%string (map fst (cdesc (run ops init_registry))) -> register_states e (run ops init_registry) = Some r1 ->
  let r := run ops' r1 in ~ In "state"%string (map fst (bdesc r)) ->
  let member i x := in_state (fun x => x) (is_excluded ex xs) (map rnd ts) xs (rnd (nth i us 0)) x in
  exists ws', parse_states rnd (Some e) r us ws = Some ws' /\ length ws' = length ws /\
  (forall x, In x xs -> ~ is_excluded ex xs x ->
     exists sel, select_category r [("state"%string, to_name x)] ws' = Some sel /\ selects sel (length ws) (fun i => member i x)) /\
  (exists sel, select_category r [("state"%string, "uncategorized"%string)] ws' = Some sel /\ selects sel (length ws) (fun i => forall x, ~ member i x)) /\
  (forall g, In g (fields r) -> fst g <> "state"%string -> map (field_bits g) ws' = map (field_bits g) ws).
Proof. exact states_cut. Qed.
Print Assumptions states_select_pulses.

(** Without a state file nothing changes. *)
Theorem no_states_no_change : forall rnd r us ws, parse_states rnd None r us ws = Some ws.
Proof. reflexivity. Qed.
Print Assumptions no_states_no_change.

(** When the field exists already (a file opened again), it keeps its categories, whatever the states are now. *)
Theorem states_registered_once : forall e r, In "state"%string (map fst (cdesc r)) -> register_states e r = Some r.
Proof.
  intros e r H. unfold register_states, register_categorical. replace (in_names _ _) with true; [reflexivity|]. symmetry.
  unfold in_names. apply existsb_exists. apply in_map_iff in H as (p & E & I). exists p. split; [exact I|]. rewrite E. apply String.eqb_refl.
Qed.
Print Assumptions states_registered_once.

Definition opened (ops : list reg_op) (f : bytes) (ex : excludes) : option (esf * registry) :=
  match esf_parse id f (esf_init ex) with
  | None => None
  | Some e => option_map (fun r => (e, r)) (register_states e (run ops init_registry))
  end.
(** The pulses of each of some categories. *)
Definition shown (o : option (esf * registry)) (us : list Z) (ws : list N) (cs : list string) : option (list (option (list bool))) :=
  match o with
  | None => None
  | Some (e, r) => option_map (fun ws' => map (fun c => select_category r [("state"%string, c)] ws') cs) (parse_states id (Some e) r us ws)
  end.
Definition two_states : bytes := file ["100, START"; "200,A"; "300 , B"; "400, A"; "500, STOP"]%string.

Example states_select_instance : let us := [150; 200; 300; 450; 600] in let ws := [1; 0; 1; 2; 0]%N in
  shown (opened [RegB ["x"; "y"]%string; RegC "calibration"%string ["in"; "out"]%string "none"%string] two_states Auto) us ws ["A"; "B"; "uncategorized"; "START"]%string
  = Some [Some [false; true; false; true; false]; Some [false; false; true; false; false]; Some [true; false; false; false; true]; None].
Proof. vm_compute. reflexivity. Qed.
Example states_select_hypotheses : let ops := [RegB ["x"; "y"]%string; RegC "calibration"%string ["in"; "out"]%string "none"%string] in
  exists e r1, esf_parse id two_states (esf_init Auto) = Some e /\ register_states e (run ops init_registry) = Some r1 /\
    Forall registers ops /\ Forall op_short ops /\ ~ In "state"%string (map fst (cdesc (run ops init_registry))) /\ ~ In "state"%string (map fst (bdesc r1)) /\
    nondecreasing (map id [100; 200; 300; 400; 500]) /\ (forall x, In x [bs "START"; bs "A"; bs "B"; bs "A"; bs "STOP"] -> plain_label x /\ to_name x <> "uncategorized"%string).
Proof.
  intros ops. do 2 eexists. split; [vm_compute; reflexivity|]. split; [vm_compute; reflexivity|].
  split; [apply Forall_cons; [exact I|apply Forall_cons; [exact I|constructor]]|].
  split. { apply Forall_cons; [|apply Forall_cons; [|constructor]]; cbn; unfold short; repeat (split || apply Forall_cons || apply Forall_nil); cbn; lia. }
  split. { vm_compute. intros [H|[]]. discriminate H. }
  split. { vm_compute. intros H. repeat (destruct H as [H|H]; [discriminate H|]). exact H. }
  split. { unfold nondecreasing. repeat constructor; unfold id; lia. }
  intros x H. repeat (destruct H as [<-|H]; [split; [split; [vm_compute; repeat (apply Forall_cons; [split; [discriminate|reflexivity]|]); constructor|vm_compute; repeat constructor]|vm_compute; discriminate]|]). destruct H.
Qed.

(** The codes of the states are written next to one another although the bits of the field need not be: after a field
    has been unregistered, pulses of the second state can be found in none of the categories they belong to. *)
Theorem states_with_gap_refuted : exists ops f us ws e r ws' x,
  Forall op_short ops /\ ~ In "state"%string (map fst (cdesc (run ops init_registry))) /\
  esf_parse id f (esf_init (Excluded [])) = Some e /\ register_states e (run ops init_registry) = Some r /\ parse_states id (Some e) r us ws = Some ws' /\
  In 1%nat (indices (match calc_states id same e us [] 0 0 with Some d => d | None => [] end) (bs x)) /\
  select_category r [("state"%string, x)] ws' = Some [false; false] /\ select_category r [("state"%string, "uncategorized"%string)] ws' = Some [false; true].
Proof.
  exists [RegB ["a"; "b"]%string; UnregB ["a"]%string], (file ["100, A"; "200, B"]%string), [150; 250], [0; 0]%N.
  do 3 eexists. exists "B"%string.
  split. { repeat (apply Forall_cons; [cbn; unfold short; repeat (split || apply Forall_cons || apply Forall_nil); cbn; lia|]). constructor. }
  split. { vm_compute. intros H. repeat (destruct H as [H|H]; [discriminate H|]). exact H. }
  split; [vm_compute; reflexivity|]. split; [vm_compute; reflexivity|]. split; [vm_compute; reflexivity|].
  split; [vm_compute; now left|]. split; vm_compute; reflexivity.
Qed.
Print Assumptions states_with_gap_refuted.

(** A state that is itself called uncategorized takes code 0, but is counted. *)
Theorem states_uncategorized_refuted : exists f us ws e r ws',
  esf_parse id f (esf_init (Excluded [])) = Some e /\ register_states e init_registry = Some r /\ parse_states id (Some e) r us ws = Some ws' /\
  indices (match calc_states id same e us [] 0 0 with Some d => d | None => [] end) (bs "B") = [1]%nat /\
  select_category r [("state"%string, "B"%string)] ws' = Some [true; false].
Proof.
  exists (file ["100, uncategorized"; "200, B"]%string), [150; 250], [0; 0]%N. do 3 eexists.
  split; [vm_compute; reflexivity|]. split; [vm_compute; reflexivity|]. split; [vm_compute; reflexivity|]. split; vm_compute; reflexivity.
Qed.
Print Assumptions states_uncategorized_refuted.

(** A file opened again with other states excluded: pulses of one state are selected as another. *)
Theorem states_reopened_refuted : exists f us ws e1 e2 r ws',
  esf_parse id f (esf_init (Excluded [])) = Some e1 /\ register_states e1 init_registry = Some r /\
  esf_parse id f (esf_init (Excluded [bs "A"])) = Some e2 /\ register_states e2 r = Some r /\ parse_states id (Some e2) r us ws = Some ws' /\
  indices (match calc_states id same e2 us [] 0 0 with Some d => d | None => [] end) (bs "B") = [1]%nat /\
  select_category r [("state"%string, "B"%string)] ws' = Some [false; false] /\ select_category r [("state"%string, "A"%string)] ws' = Some [false; true].
Proof.
  exists (file ["100, A"; "200, B"]%string), [150; 250], [0; 0]%N. do 4 eexists.
  split; [vm_compute; reflexivity|]. split; [vm_compute; reflexivity|]. split; [vm_compute; reflexivity|]. split; [vm_compute; reflexivity|].
  split; [vm_compute; reflexivity|]. split; [vm_compute; reflexivity|]. split; vm_compute; reflexivity.
Qed.
Print Assumptions states_reopened_refuted.

(** The same file, grown by a state since it was first opened: the pulses of the new state have no category (asking for it fails). *)
Theorem states_grown_refuted : exists f f' us ws e1 e2 r ws',
  esf_parse id f (esf_init (Excluded [])) = Some e1 /\ register_states e1 init_registry = Some r /\ (exists more, f' = f ++ more) /\
  esf_parse id f' (esf_init (Excluded [])) = Some e2 /\ register_states e2 r = Some r /\ parse_states id (Some e2) r us ws = Some ws' /\
  select_category r [("state"%string, "B"%string)] ws' = None /\ select_category r [("state"%string, "uncategorized"%string)] ws' = Some [false; true].
Proof.
  exists (file ["100, A"]%string), (file ["100, A"; "200, B"]%string), [150; 250], [0; 0]%N. do 4 eexists.
  split; [vm_compute; reflexivity|]. split; [vm_compute; reflexivity|]. split; [exists (line "200, B"%string); reflexivity|]. split; [vm_compute; reflexivity|].
  split; [vm_compute; reflexivity|]. split; [vm_compute; reflexivity|]. split; vm_compute; reflexivity.
Qed.
Print Assumptions states_grown_refuted.
