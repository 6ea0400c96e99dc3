(** Properties C01-C08: cut fields and per-pulse cut masks. *)
From Coq Require Import PeanoNat NArith QArith String Bool List.
From Verif Require Import CutModel CutSpec CutProofs CutMaskProofs CutHistProofs CutCatProofs CutSelProofs CutRefute CutMoreSpec CutMore.
Import ListNotations.
Local Open Scope N_scope.

(** C01. After any history of calls (any names), fields own disjoint non-empty sets of bits below 32
    and no owned bit is considered free. *)
Theorem cut_fields_disjoint : forall ops : list reg_op,
  disjoint_fields (run ops init_registry) /\ used_covers (run ops init_registry).
Proof. exact fields_disjoint_any_history. Qed.
Print Assumptions cut_fields_disjoint.

(** C01. With names of at most 64 bytes the used word is exactly the union of the owned bits. *)
Theorem cut_used_word_exact : forall ops : list reg_op,
  Forall op_short ops -> used_exact (run ops init_registry).
Proof. exact used_exact_history. Qed.
Print Assumptions cut_used_word_exact.

(** C01. Without the bound on name lengths the exactness fails: bits leak. *)
Theorem cut_used_word_exact_refuted : exists ops : list reg_op, ~ used_exact (run ops init_registry).
Proof. exact used_leak. Qed.
Print Assumptions cut_used_word_exact_refuted.

Example history_with_reuse :
  let r := run [RegB ["a"; "b"]; UnregB ["a"]; RegC "c" ["x"; "y"; "z"] "x"; RegB ["d"]]%string init_registry in
  map fst (fields r) = (builtin_boolean ++ ["b"; "d"; "calibration"; "c"]%string)%list /\
  lookup "c" (cdesc r) = Some (2 ^ 17 + 2 ^ 19) /\ lookup "d" (bdesc r) = Some (2 ^ 20).
Proof. vm_compute. auto. Qed.

(** C02. A boolean cut adds exactly the given pulses to the field and touches nothing else. *)
Theorem boolean_cut_frame : forall ops n m ws ws',
  let r := run ops init_registry in
  n <> ""%string -> In n (map fst (bdesc r)) ->
  cut r n (BoolMask m) ws = Some ws' ->
  length ws' = length ws /\
  (exists b b', bad_for r n ws = Some b /\ bad_for r n ws' = Some b' /\
                length m = length b /\ b' = map2 orb m b) /\
  (forall g, g <> n -> bad_for r g ws' = bad_for r g ws) /\
  (forall h, category_codes r h ws' = category_codes r h ws) /\
  (forall sel, select_category r sel ws' = select_category r sel ws).
Proof. exact boolean_cut_history. Qed.
Print Assumptions boolean_cut_frame.

(** C02. It succeeds for every registered name and every vector of the right length. *)
Theorem boolean_cut_succeeds : forall r n m ws,
  In n (map fst (bdesc r)) -> length m = length ws -> exists ws', cut r n (BoolMask m) ws = Some ws'.
Proof. exact cut_bool_ok. Qed.
Print Assumptions boolean_cut_succeeds.

Example boolean_cut_instance :
  cut init_registry "energy" (BoolMask [true; false; true]) [0; 5; 65536] = Some [4096; 5; 69632].
Proof. vm_compute. reflexivity. Qed.

(** C03. In every reachable registry: a pulse is good iff it is in the selected categories and passes every
    selected boolean field; bad iff it is in the selected categories and fails one. *)
Theorem good_bad_complementary : forall ops names sel ws g b,
  let r := run ops init_registry in
  good r names sel ws = Some g -> bad r names sel ws = Some b ->
  length g = length ws /\ length b = length ws /\
  exists s, select_category r sel ws = Some s /\
  forall i w si, nth_error ws i = Some w -> nth_error s i = Some si ->
    exists gi bi, nth_error g i = Some gi /\ nth_error b i = Some bi /\
      (gi = true <-> si = true /\ passes r names w) /\
      (bi = true <-> si = true /\ ~ passes r names w).
Proof. exact good_bad_history. Qed.
Print Assumptions good_bad_complementary.

(** C03. Selecting one category in each of several fields keeps exactly the pulses that each single selection keeps. *)
Theorem selection_is_intersection : forall ops sel ws s,
  Forall op_short ops -> NoDup (map fst sel) ->
  let r := run ops init_registry in
  select_category r sel ws = Some s ->
  length s = length ws /\
  (forall fc, In fc sel -> exists sf, select_category r [fc] ws = Some sf /\ length sf = length ws) /\
  forall i, (i < length ws)%nat ->
    (nth_error s i = Some true <->
     forall fc sf, In fc sel -> select_category r [fc] ws = Some sf -> nth_error sf i = Some true).
Proof. exact select_intersection_history. Qed.
Print Assumptions selection_is_intersection.

Example selection_instance :
  let r := run [RegC "c" ["x"; "y"; "z"] "x"]%string init_registry in
  select_category r [("calibration", "out"); ("c", "z")]%string [65536; 65536 + 262144; 262144; 65536 + 131072 + 262144]
  = Some [false; true; false; false].
Proof. vm_compute. reflexivity. Qed.

Theorem good_raises_iff_bad_raises : forall r names sel ws,
  good r names sel ws = None <-> bad r names sel ws = None.
Proof. exact good_bad_none. Qed.
Print Assumptions good_raises_iff_bad_raises.

Example good_bad_instance :
  good init_registry [] [("calibration", "out")%string] [65536; 65537; 0; 1] = Some [true; false; false; false] /\
  bad init_registry [] [("calibration", "out")%string] [65536; 65537; 0; 1] = Some [false; true; false; false].
Proof. split; vm_compute; reflexivity. Qed.

(** C04. Categorical assignment reads back, from registration to selection, in any fragmented layout. *)
Theorem categorical_reads_back : forall ops f cs d ops' bd ws ws',
  Forall op_short ops -> op_short (RegC f cs d) -> Forall op_short ops' -> Forall (not_unreg f) ops' ->
  ~ In f (map fst (cdesc (run ops init_registry))) ->
  try_op (RegC f cs d) (run ops init_registry) <> None ->
  let r := run (ops ++ RegC f cs d :: ops') init_registry in
  ~ In f (map fst (bdesc r)) ->
  cut_categorical r f bd ws = Some ws' ->
  length ws' = length ws /\
  (forall c b, In (c, b) bd -> (c = d \/ In c cs) /\ length b = length ws) /\
  (forall c c' i, (i < length ws)%nat -> assigned bd c i -> assigned bd c' i -> c = c') /\
  (forall c, c = d \/ In c cs -> exists sel, select_category r [(f, c)] ws' = Some sel /\ length sel = length ws /\
      forall i, (i < length ws)%nat ->
        (nth_error sel i = Some true <-> assigned bd c i \/ (c = d /\ unassigned bd i))) /\
  (forall g, In g (fields r) -> fst g <> f -> map (field_bits g) ws' = map (field_bits g) ws).
Proof. exact categorical_history. Qed.
Print Assumptions categorical_reads_back.

(** C04. The assignment succeeds whenever categories are known, lengths fit and nothing conflicts. *)
Theorem categorical_succeeds : forall ops f cs d ops' bd ws,
  Forall op_short ops -> op_short (RegC f cs d) -> Forall op_short ops' -> Forall (not_unreg f) ops' ->
  ~ In f (map fst (cdesc (run ops init_registry))) ->
  try_op (RegC f cs d) (run ops init_registry) <> None ->
  let r := run (ops ++ RegC f cs d :: ops') init_registry in
  ~ In f (map fst (bdesc r)) ->
  (forall c b, In (c, b) bd -> (c = d \/ In c cs) /\ length b = length ws) ->
  (forall c c' i, (i < length ws)%nat -> assigned bd c i -> assigned bd c' i -> c = c') ->
  exists ws', cut_categorical r f bd ws = Some ws'.
Proof. exact categorical_total_history. Qed.
Print Assumptions categorical_succeeds.

(** C04. The restriction to names not also used by a boolean field is needed. *)
Theorem categorical_reads_back_refuted : exists ops f bd ws ws',
  let r := run ops init_registry in
  Forall op_short ops /\ In f (map fst (cdesc r)) /\
  cut_categorical r f bd ws = Some ws' /\
  exists c i, assigned bd c i /\ (i < length ws)%nat /\
    select_category r [(f, c)] ws' = Some (map (fun _ => false) ws).
Proof. exact categorical_shadowed. Qed.
Print Assumptions categorical_reads_back_refuted.

Example categorical_instance :
  let ops := [RegB ["a"; "b"]; UnregB ["a"]]%string in
  let r := run (ops ++ [RegC "c" ["x"; "y"; "z"] "x"; RegB ["d"]]%string)%list init_registry in
  try_op (RegC "c" ["x"; "y"; "z"] "x")%string (run ops init_registry) <> None /\
  cut_categorical r "c" [("z", [true; false; false]); ("y", [false; true; false])]%string [1; 2; 3]
    = Some [524289; 131074; 3] /\
  select_category r [("c", "z")%string] [524289; 131074; 3] = Some [true; false; false].
Proof. vm_compute. repeat split; discriminate. Qed.

(** C05. *)
Theorem clear_cut_frame : forall ops names ws ws',
  let r := run ops init_registry in
  clear_cut r names ws = Some ws' ->
  length ws' = length ws /\
  (forall i w', nth_error ws' i = Some w' -> passes r names w') /\
  (forall g, names <> [] -> ~ In g names -> g <> ""%string -> bad_for r g ws' = bad_for r g ws) /\
  (forall h, category_codes r h ws' = category_codes r h ws) /\
  (forall q, In q (cdesc r) -> map (field_bits q) ws' = map (field_bits q) ws) /\
  clear_cut r names ws' = Some ws'.
Proof. exact clear_cut_history. Qed.
Print Assumptions clear_cut_frame.

Theorem clear_cut_raises : forall r names ws,
  clear_cut r names ws = None <-> exists n, In n names /\ (n = ""%string \/ ~ In n (map fst (bdesc r))).
Proof. exact clear_cut_fails. Qed.
Print Assumptions clear_cut_raises.

Example clear_cut_instance :
  clear_cut init_registry ["energy"%string] [69632 + 1; 1] = Some [65536 + 1; 1].
Proof. vm_compute. reflexivity. Qed.

(** C06. A single allowed range: exactly the values not strictly inside are marked (values and limits not NaN);
    cut_parameter then acts like [cut] with that vector, to which C02 applies. *)
Theorem cut_parameter_range : forall r data a b n ws,
  In n (map fst (bdesc r)) -> length data = length ws ->
  lim_num a -> lim_num b -> Forall is_num data ->
  exists v, cut_parameter r data (Some (OneRange a b)) n ws = cut r n (BoolMask v) ws /\
            marks (fun x => ~ in_open a b x) data v.
Proof. exact cut_parameter_one_spec. Qed.
Print Assumptions cut_parameter_range.

(** C06. For any values and limits: the values at or beyond a limit are marked, so NaN never is. *)
Theorem cut_parameter_limits : forall r data a b n ws,
  In n (map fst (bdesc r)) -> length data = length ws ->
  exists v, cut_parameter r data (Some (OneRange a b)) n ws = cut r n (BoolMask v) ws /\ marks (beyond a b) data v.
Proof. exact cut_parameter_beyond. Qed.
Print Assumptions cut_parameter_limits.

(** C06. A list of ranges, each with at least one limit; data may contain NaN. *)
Theorem cut_parameter_list : forall r data l n ws,
  In n (map fst (bdesc r)) -> l <> [] -> Forall has_limit l ->
  exists v, cut_parameter r data (Some (Ranges l)) n ws = cut r n (BoolMask v) ws /\
    marks (fun x => if existsb is_invert l then in_some_range l x else ~ in_some_range l x) data v.
Proof. exact cut_parameter_ranges. Qed.
Print Assumptions cut_parameter_list.

(** C06. Any list of ranges: a range without limits raises when it comes first and is ignored otherwise. *)
Theorem cut_parameter_list_any : forall r data l n ws,
  In n (map fst (bdesc r)) -> l <> [] ->
  if starts_unlimited l then cut_parameter r data (Some (Ranges l)) n ws = None
  else exists v, cut_parameter r data (Some (Ranges l)) n ws = cut r n (BoolMask v) ws /\
    marks (fun x => if existsb is_invert l then in_some_range (filter limited l) x else ~ in_some_range (filter limited l) x) data v.
Proof. exact cut_parameter_ranges_any. Qed.
Print Assumptions cut_parameter_list_any.

(** C06. Widening never marks more, even with NaN values or limits on the data side. *)
Theorem cut_parameter_widening : forall r data a b a' b' n ws ws1 ws2,
  WInv r -> n <> ""%string -> In n (map fst (bdesc r)) -> length data = length ws ->
  wider_low a' a -> wider_high b' b ->
  cut_parameter r data (Some (OneRange a b)) n ws = Some ws1 ->
  cut_parameter r data (Some (OneRange a' b')) n ws = Some ws2 ->
  forall i v1 v2, option_map (fun l => nth_error l i) (bad_for r n ws1) = Some (Some v1) ->
                  option_map (fun l => nth_error l i) (bad_for r n ws2) = Some (Some v2) ->
                  v2 = true -> v1 = true.
Proof. exact widening_marks_less. Qed.
Print Assumptions cut_parameter_widening.

(** C06. A NaN value fails a < x < b but is not marked. *)
Theorem cut_parameter_nan_refuted : exists r data a b n ws ws',
  cut_parameter r data (Some (OneRange a b)) n ws = Some ws' /\
  bad_for r n ws' = Some [false] /\ (forall x, In x data -> ~ in_open a b x) /\ data <> [].
Proof. exact nan_not_marked. Qed.
Print Assumptions cut_parameter_nan_refuted.

(** C06. In a list, an element without limits should allow everything, but the call raises. *)
Theorem cut_parameter_unbounded_element_refuted : exists r data n ws,
  In n (map fst (bdesc r)) /\ length data = length ws /\
  cut_parameter r data (Some (Ranges [Pair None None])) n ws = None.
Proof. exact unbounded_element. Qed.
Print Assumptions cut_parameter_unbounded_element_refuted.

Example cut_parameter_instance :
  cut_parameter init_registry [Fin 1; Fin (5 # 2); PosInf; Fin 0]
    (Some (OneRange (Some (Fin 0)) (Some (Fin 2)))) "energy" [0; 0; 0; 0] = Some [0; 4096; 4096; 4096] /\
  cut_parameter init_registry [Fin 1; Fin (5 # 2); NaN; Fin 0]
    (Some (Ranges [Pair (Some (Fin 0)) (Some (Fin 1)); Pair (Some (Fin 7)) None])) "energy" [0; 0; 0; 0]
    = Some [0; 4096; 4096; 0].
Proof. split; vm_compute; reflexivity. Qed.
Example cut_parameter_odd_instance :
  cut_parameter init_registry [Fin 1; NaN; NegInf] (Some (OneRange (Some (Fin 2)) None)) "energy" [0; 0; 0] = Some [4096; 0; 4096] /\
  starts_unlimited [Invert; Pair (Some (Fin 0)) (Some (Fin 1)); Pair None None] = false /\
  cut_parameter init_registry [Fin 1; Fin (5 # 2); NaN]
    (Some (Ranges [Invert; Pair (Some (Fin 0)) (Some (Fin 1)); Pair None None])) "energy" [0; 0; 0] = Some [4096; 0; 0].
Proof. split; [|split]; vm_compute; reflexivity. Qed.

(** C07. Refuted: unregistering does not clear the pulses' bits, so a field reusing the bit starts cut. *)
Theorem fresh_field_good_refuted : exists es n r',
  let s := run_cuts es (init_registry, [0]) in
  ~ In n (map fst (bdesc (fst s))) /\ register_boolean [n] (fst s) = Some r' /\
  bad_for r' n (snd s) = Some [true].
Proof. exact stale_bit. Qed.
Print Assumptions fresh_field_good_refuted.

(** C07. True for histories in which fields are unregistered only while no pulse is cut by them. *)
Theorem fresh_field_good : forall es n0 names n,
  clean_history es (init_registry, repeat 0 n0) ->
  let s := run_cuts es (init_registry, repeat 0 n0) in
  forall r', register_boolean names (fst s) = Some r' -> In n names -> short n -> n <> ""%string ->
  ~ In n (map fst (bdesc (fst s))) ->
  bad_for r' n (snd s) = Some (map (fun _ => false) (snd s)).
Proof. exact fresh_clean. Qed.
Print Assumptions fresh_field_good.

(** C07. In particular when nothing is unregistered. *)
Theorem fresh_field_good_no_unregistration : forall es n0 names n,
  Forall no_unregister es ->
  let s := run_cuts es (init_registry, repeat 0 n0) in
  forall r', register_boolean names (fst s) = Some r' -> In n names -> short n -> n <> ""%string ->
  ~ In n (map fst (bdesc (fst s))) ->
  bad_for r' n (snd s) = Some (map (fun _ => false) (snd s)).
Proof. exact fresh_history. Qed.
Print Assumptions fresh_field_good_no_unregistration.

Example fresh_clean_instance :
  let es := [Reg (RegB ["a"]); Cut "a" (BoolMask [true; false]); Clear ["a"]; Reg (UnregB ["a"]); Cut "energy" (BoolMask [true; false])]%string in
  clean_history es (init_registry, repeat 0 2) /\
  exists r', register_boolean ["b"]%string (fst (run_cuts es (init_registry, repeat 0 2))) = Some r' /\
    lookup "b" (bdesc r') = Some (2 ^ 17).
Proof.
  split.
  - cbn [clean_history clean_event]. repeat split. intros n [<-|[]]. vm_compute. reflexivity.
  - eexists. split; vm_compute; reflexivity.
Qed.

Example fresh_instance :
  let s := run_cuts [Cut "energy" (BoolMask [true; false]); Reg (RegB ["a"]); Cut "a" (BoolMask [true; true])]%string
             (init_registry, repeat 0 2) in
  exists r', register_boolean ["b"]%string (fst s) = Some r' /\ snd s = [135168; 131072].
Proof. eexists. split; vm_compute; reflexivity. Qed.

(** C08. Refuted for a crash inside a registration followed by another registration. *)
Theorem crash_disjoint_refuted : exists es : list event, ~ disjoint_fields (run_events es init_registry).
Proof. exact crash_breaks. Qed.
Print Assumptions crash_disjoint_refuted.

(** C08. The state found right after one crash, at any point of any call, is still disjoint. *)
Theorem crash_found_disjoint : forall ops o r',
  In r' (crash_states o (run ops init_registry)) -> disjoint_fields r'.
Proof. exact crash_once_history. Qed.
Print Assumptions crash_found_disjoint.

(** C08. Crashes inside unregister calls, any number of them, are harmless for ever after. *)
Theorem crash_in_unregister_safe : forall es : list event,
  Forall crash_only_in_unregister es ->
  disjoint_fields (run_events es init_registry) /\ used_covers (run_events es init_registry).
Proof. exact unregister_crashes_safe. Qed.
Print Assumptions crash_in_unregister_safe.

Example crash_in_unregister_instance :
  let es := [Call (RegB ["a"]); Crash (UnregB ["a"]) 1; Call (RegC "c" ["x"] "u")]%string in
  Forall crash_only_in_unregister es /\
  lookup "c" (cdesc (run_events es init_registry)) = Some (2 ^ 18).
Proof. split; [repeat constructor | vm_compute; reflexivity]. Qed.

(** C08. So are crashes in registrations anywhere but between the descriptions and the used word. *)
Theorem crash_harmless : forall es : list event,
  Forall harmless_crash es ->
  disjoint_fields (run_events es init_registry) /\ used_covers (run_events es init_registry).
Proof. intros es H. pose proof (harmless_winv es init_registry H init_winv) as W. split; [apply winv_disjoint, W|apply winv_covers, W]. Qed.
Print Assumptions crash_harmless.

(** C08. Crashes anywhere in the registrations of boolean fields never make fields overlap, until a categorical
    field is registered. *)
Theorem crash_in_boolean_safe : forall es es' : list event,
  Forall harmless_crash es -> Forall no_categorical es' ->
  disjoint_fields (run_events (es ++ es') init_registry).
Proof. exact boolean_crashes. Qed.
Print Assumptions crash_in_boolean_safe.

Example crash_harmless_instance :
  let es := [Call (RegB ["a"]); Crash (RegC "c" ["x"] "u") 1; Crash (RegB ["b"]) 2; Call (RegC "d" ["x"] "u")]%string in
  Forall harmless_crash es /\
  lookup "d" (cdesc (run_events es init_registry)) = Some (2 ^ 19).
Proof. split; [repeat constructor; cbn; discriminate | vm_compute; reflexivity]. Qed.
Example crash_in_boolean_instance :
  let es := [Crash (RegB ["a"; "b"]) 1; Call (RegB ["a"; "d"])]%string in
  Forall no_categorical es /\ lookup "d" (bdesc (run_events es init_registry)) = Some (2 ^ 17) /\
  lookup "b" (bdesc (run_events es init_registry)) = Some (2 ^ 18).
Proof. split; [repeat constructor|split; vm_compute; reflexivity]. Qed.
