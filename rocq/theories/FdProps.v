(** C101: filters of LJH channels and filtering their records. *)
From Coq Require Import String ZArith QArith Qcanon Bool Lia List.
From Verif Require Import QcPre LagModel LagSpec OptModel OptProofs FdModel FdSpec FdProofs.
Import ListNotations.
Local Open Scope Qc_scope.

(** * Filtering *)

(** With an arrival-time-safe filter each record gets the response to the filter, from its second sample on if the filter
    is one sample shorter than the record, or from the first if the record was marked for a shift or the filter is as long
    as the record, and the arrival time is the ratio of the two responses.  Nothing else changes, and the size of the
    segments does not matter. *)
Theorem ats_filtered : forall proxy c f d force (shifting : bool), sound c -> type_now c = "ats"%string -> flt_now c = Some f -> f_dt f = Some d -> length d = length (f_values f) ->
  (if shifting then length (f_values f) + 1 = nsamp c else length (f_values f) = nsamp c)%nat -> force = true \/ untouched c ->
  exists c', filter_data proxy None force None c = (c', true) /\ same_but_results c c' /\
  results c' (fun i t v => estimates (f_values f) d (if shifting && negb (nth i (shifts c) false) then 1 else 0) (nth i (recs c) []) t v).
Proof.
  intros proxy c f d force shifting S T F D LD LV ST. destruct (filter_ats_ok proxy c f d force shifting S T F D LD LV ST) as (c' & E & SB & R).
  exists c'. split; [exact E|]. split; [exact SB|]. destruct R as (R1 & R2 & R3). split; [exact R1|]. split; [exact R2|]. intros i I. specialize (R3 i I). unfold offset in R3. destruct shifting, (nth i (shifts c) false); exact R3.
Qed.
Print Assumptions ats_filtered.

(** With a 5-lag filter each record gets the vertex of the best parabola, whichever implementation is used; the Python
    implementation filters the transformed record. *)
Theorem five_lag_filtered : forall proxy c v g force, sound c -> type_now c = "5lag"%string -> (8 <= nsamp c)%nat -> (length v + 4 = nsamp c)%nat ->
  (flt_now c = None /\ option_map s_values (on_disk c) = Some v \/ option_map f_values (flt_now c) = Some v) -> force = true \/ untouched c ->
  ((forall f l, g = Some f -> length (f l) = length l) ->
   exists c', filter_data proxy g force (Some false) c = (c', true) /\ same_but_results c c' /\
   results c' (fun i t u => five_lag_result v (match g with None => nth i (recs c) [] | Some f => f (map (fun x => x - nth i (ptm c) 0) (nth i (recs c) [])) end) t u)) /\
  ((forall r, In r (recs c) -> ~ exists a b, best_parabola (lagged v r) a b 0) ->
   exists c', filter_data proxy g force None c = (c', true) /\ same_but_results c c' /\
   results c' (fun i t u => five_lag_result v (nth i (recs c) []) t u)).
Proof.
  intros proxy c v g force S T N LV FV ST. split.
  - intros G. destruct (filter_5lag_python proxy c v g force S T N LV FV G ST) as (c' & H). exists c'. exact H.
  - intros NZ. exact (filter_5lag_default proxy c v g force S T N LV FV ST NZ).
Qed.
Print Assumptions five_lag_filtered.

(** Results are only computed once, unless that is forced: any value other than zero and nothing happens. *)
Theorem filtered_once : forall proxy tr cython c, ~ untouched c -> filter_data proxy tr false cython c = (c, true).
Proof. intros. now apply touched_kept. Qed.
Print Assumptions filtered_once.

(** There must be a filter, of one of the two kinds, and Cython cannot do the first kind: otherwise an exception, and the channel stays as it was. *)
Theorem filter_refused : forall proxy tr force cython c, force = true \/ untouched c ->
  (flt_now c = None /\ on_disk c = None) \/ (type_now c = "ats"%string /\ cython = Some true) \/
  (type_now c <> "ats"%string /\ type_now c <> "5lag"%string /\ cython <> Some true) \/ (type_now c = "ats"%string /\ flt_now c = None) ->
  filter_data proxy tr force cython c = (c, false).
Proof. exact filter_wrong. Qed.
Print Assumptions filter_refused.

(** A transform cannot be used with a filter one sample shorter than the records if there is more than one segment: an exception. *)
Theorem ats_transform_refused : forall proxy c g force cython, sound c -> type_now c = "ats"%string -> (1 < nsegs c)%nat ->
  (forall f, flt_now c = Some f -> length (f_values f) <> nsamp c) -> force = true \/ untouched c ->
  filter_data proxy (Some g) force cython c = (c, false).
Proof. exact filter_ats_transform. Qed.
Print Assumptions ats_transform_refused.

(** * Computing, storing and loading filters *)

(** A stored filter is kept unless a new one is forced; whatever raises leaves all as it was; otherwise the new filter is
    the one in use and the one stored. *)
Theorem five_lag_filter_computed : forall mk5 sp fmax f3db pre post category force c c' ok,
  compute_5lag_filter mk5 sp fmax f3db pre post category force c = (c', ok) ->
  (ok = false -> c' = c) /\ (on_disk c <> None -> force = false -> c' = c /\ ok = true) /\
  (ok = true -> on_disk c = None \/ force = true -> exists f spectrum, mk5 (avg c) (acorr c) spectrum 0 fmax f3db pre post = Some f /\
     flt_now c' = Some f /\ type_now c' = "5lag"%string /\ on_disk c' = Some (to_hdf5 f) /\ fvals c' = fvals c /\ fphases c' = fphases c /\
     ~ Forall (fun x => x = 0) (acorr c) /\ ~ Forall (fun x => x = 0) (avg c) /\ category = false).
Proof.
  intros mk5 sp fmax f3db pre post category force c c' ok H. unfold compute_5lag_filter in H.
  assert (Z : forall l, forallb zero l = false -> ~ Forall (fun x => x = 0) l).
  { intros l E F. apply not_true_iff_false in E. apply E, forallb_forall. rewrite Forall_forall in F. intros x X. apply zero_ok. now apply F. }
  assert (G : forall x, (if forallb zero (acorr c) || category || forallb zero (avg c) then (c, false)
      else match mk5 (avg c) (acorr c) x 0 fmax f3db pre post with None => (c, false) | Some f => (set_filter c (Some (to_hdf5 f)) (Some f) lag5, true) end) = (c', ok) ->
      (ok = false -> c' = c) /\ (ok = true -> exists f spectrum, mk5 (avg c) (acorr c) spectrum 0 fmax f3db pre post = Some f /\
     flt_now c' = Some f /\ type_now c' = "5lag"%string /\ on_disk c' = Some (to_hdf5 f) /\ fvals c' = fvals c /\ fphases c' = fphases c /\
     ~ Forall (fun x => x = 0) (acorr c) /\ ~ Forall (fun x => x = 0) (avg c) /\ category = false)).
  { intros x E. destruct (forallb zero (acorr c)) eqn:A; cbn [orb] in E; [injection E as <- <-; split; congruence|]. destruct category; cbn [orb] in E; [injection E as <- <-; split; congruence|].
    destruct (forallb zero (avg c)) eqn:B; [injection E as <- <-; split; congruence|]. destruct (mk5 _ _ x _ _ _ _ _) as [f|] eqn:M; injection E as <- <-; split; intros Q; try congruence.
    exists f, x. split; [exact M|]. repeat split; auto. }
  destruct (on_disk c) as [s|] eqn:O; [destruct force|].
  - destruct (G _ H) as [G1 G2]. split; [exact G1|]. split; [congruence|]. intros K _. exact (G2 K).
  - injection H as <- <-. split; [congruence|]. split; [auto|]. intros _ [K|K]; congruence.
  - destruct (G _ H) as [G1 G2]. split; [exact G1|]. split; [congruence|]. intros K _. exact (G2 K).
Qed.
Print Assumptions five_lag_filter_computed.

(** An arrival-time-safe filter is found again as it was when the channel is opened again, except that the numbers of
    samples cut and the model are not kept. *)
Theorem ats_filter_reloaded : forall mk5 mkF f d force c c', compute_ats_filter (Some f) force c = (c', true) -> on_disk c = None \/ force = true ->
  f_type f = "ats"%string -> f_dt f = Some d ->
  exists c'' f', reopen mk5 mkF c' = Some c'' /\ flt_now c'' = Some f' /\ type_now c'' = "ats"%string /\ on_disk c'' = on_disk c' /\
  f_values f' = f_values f /\ f_dt f' = f_dt f /\ f_peak f' = f_peak f /\ f_var f' = f_var f /\ f_vdv f' = f_vdv f /\ f_fmax f' = f_fmax f /\ f_f3db f' = f_f3db f /\ f_type f' = f_type f.
Proof.
  intros mk5 mkF f d force c c' H O T D. unfold compute_ats_filter in H.
  assert (E : c' = set_filter c (Some (to_hdf5 f)) (Some f) (f_type f)).
  { destruct (on_disk c); [destruct force|]; [| |]; try (destruct O; congruence); destruct (forallb zero (acorr c)); congruence. }
  subst c'. unfold reopen. cbn [on_disk set_filter to_hdf5 s_version s_type s_dt Z.eqb Pos.eqb negb]. change ats with "ats"%string. rewrite T. cbn [String.eqb Ascii.eqb Bool.eqb]. rewrite D.
  do 2 eexists. split; [reflexivity|]. split; [reflexivity|]. cbn. repeat split; reflexivity.
Qed.
Print Assumptions ats_filter_reloaded.

(** A 5-lag filter is computed again when the channel is opened: from the average pulse and noise at that time, without
    any samples cut.  If none were cut, and nothing changed, it has the same values, provided that these do not depend on the spectrum
    and the peak given. *)
Definition five_lag_maker (mk5 : list Qc -> list Qc -> list Qc -> Qc -> option Qc -> option Qc -> nat -> nat -> option flt) : Prop :=
  forall a n s s' p p' fm f3, option_map (fun f => (f_values f, f_var f)) (mk5 a n s p fm f3 0%nat 0%nat) = option_map (fun f => (f_values f, f_var f)) (mk5 a n s' p' fm f3 0%nat 0%nat).
Theorem five_lag_filter_reloaded : forall mk5 mkF sp fmax f3db force c c' f, five_lag_maker mk5 ->
  compute_5lag_filter mk5 sp fmax f3db 0 0 false force c = (c', true) -> on_disk c = None \/ force = true ->
  flt_now c' = Some f -> f_type f = "5lag"%string -> f_fmax f = fmax -> f_f3db f = f3db ->
  exists c'' f', reopen mk5 mkF c' = Some c'' /\ flt_now c'' = Some f' /\ type_now c'' = "5lag"%string /\ f_values f' = f_values f /\ f_var f' = f_var f.
Proof.
  intros mk5 mkF sp fmax f3db force c c' f MK H O F T FM F3. unfold compute_5lag_filter in H.
  set (spec := match sp with Some s => s | None => psd c end) in H.
  assert (E : exists f0, mk5 (avg c) (acorr c) spec 0 fmax f3db 0%nat 0%nat = Some f0 /\ c' = set_filter c (Some (to_hdf5 f0)) (Some f0) lag5 /\ forallb zero (avg c) = false).
  { destruct (on_disk c); [destruct force|]; [| |]; try (destruct O; congruence);
      (destruct (forallb zero (acorr c)); [discriminate|]; cbn [orb] in H; destruct (forallb zero (avg c)); [discriminate|]; destruct (mk5 (avg c) (acorr c) spec 0 fmax f3db 0%nat 0%nat) as [f0|]; [|discriminate]; exists f0; injection H as <-; auto). }
  destruct E as (f0 & M & -> & AZ). cbn in F. injection F as ->. unfold reopen. cbn [on_disk set_filter to_hdf5 s_version s_type s_dt s_fmax s_f3db avg acorr psd Z.eqb Pos.eqb negb].
  rewrite T. cbn [String.eqb ats lag5 Ascii.eqb Bool.eqb]. destruct (avg c) as [|a l] eqn:A; [discriminate|]. cbn [lmax]. rewrite <- A in *. rewrite FM, F3.
  set (pk := fold_left _ l a). pose proof (MK (avg c) (acorr c) spec (psd c) 0 pk fmax f3db) as Q. rewrite M in Q. cbn [option_map] in Q. destruct (mk5 (avg c) (acorr c) (psd c) pk fmax f3db 0%nat 0%nat) as [f'|]; [|discriminate].
  cbn [option_map] in *. injection Q as Q1 Q2. do 2 eexists. split; [reflexivity|]. split; [reflexivity|]. cbn. auto.
Qed.
Print Assumptions five_lag_filter_reloaded.

(** The filters of OptModel are such. *)
Definition opt5 (npre : nat) (a n s : list Qc) (p : Qc) (fm f3 : option Qc) (pre post : nat) : option flt :=
  match fm, f3 with
  | None, None => option_map (fun F => mkFlt (values F) (nominal_peak F) (variance F) 0 None 5 None None pre post "5lag"%string) (compute_5lag (mkMaker a npre (Some n) None None p) pre post)
  | _, _ => None
  end.
Theorem five_lag_values_unaffected : forall npre, five_lag_maker (opt5 npre).
Proof.
  intros npre a n s s' p p' fm f3. unfold opt5. destruct fm; [reflexivity|]. destruct f3; [reflexivity|].
  unfold compute_5lag, normalize_signal. cbn [sig OptModel.npre noise dtm upeak autocorr].
  destruct (Nat.leb _ _); [reflexivity|]. destruct (ToepModel.qdiv _ _); [|reflexivity]. destruct (lmin _); [|reflexivity]. destruct (lmax _); [|reflexivity]. destruct (lmax _); [|reflexivity]. destruct (ToepModel.qdiv _ _); [|reflexivity].
  set (sg := cut 0 0 _). unfold autocorr. cbn [noise sig]. destruct (Nat.ltb _ _); [reflexivity|]. destruct (ToepModel.solve_symmetric _ _); [|reflexivity]. destruct (ToepModel.solve_symmetric _ _); [|reflexivity]. destruct (normalize_5lag _ _); [|reflexivity]. destruct (bracketR _ _); reflexivity.
Qed.
Print Assumptions five_lag_values_unaffected.

(** * What does not hold *)
Definition qs (l : list Z) : list Qc := map qz l.
Definition pulses : chan :=
  mkChan [qs [1; 1; 1; 3; 9; 7; 4; 2; 1]%Z; qs [2; 2; 2; 3; 7; 8; 5; 3; 2]%Z; qs [1; 1; 1; 1; 3; 9; 7; 4; 2]%Z] 9 2 2 (qs [1; 2; 1]%Z) [false; true; false]
         (qs [1; 1; 1; 3; 9; 7; 4; 2; 1]%Z) (qs [4; 2; 1; 0; 0; 0; 0; 0; 0]%Z) (qs [1; 1; 1; 1; 1]%Z) None None "ats"%string (repeat (Some 0) 3) (repeat (Some 0) 3).
Definition no_fourier (_ _ _ : list Qc) (_ : Qc) (_ _ : option Qc) : option flt := None.
Definition nums (l : list Qc) : list Q := map this l.

(** If samples were cut, the channel that is opened again has another filter than the one stored. *)
Theorem five_lag_cut_reloaded_refuted : exists c', compute_5lag_filter (opt5 3) None None None 1 1 false false pulses = (c', true) /\
  exists c'' f f' s, reopen (opt5 3) no_fourier c' = Some c'' /\ flt_now c' = Some f /\ flt_now c'' = Some f' /\ on_disk c'' = Some s /\
  f_values f' <> s_values s /\ s_values s = f_values f.
Proof.
  destruct (compute_5lag_filter (opt5 3) None None None 1 1 false false pulses) as [c' ok] eqn:E.
  assert (K : ok = true) by (apply (f_equal snd) in E; vm_compute in E; now symmetry). subst ok. exists c'. split; [reflexivity|].
  apply (f_equal fst) in E. cbn [fst] in E. subst c'.
  assert (V : match reopen (opt5 3) no_fourier (fst (compute_5lag_filter (opt5 3) None None None 1 1 false false pulses)), flt_now (fst (compute_5lag_filter (opt5 3) None None None 1 1 false false pulses)) with
    | Some c'', Some f => match flt_now c'', on_disk c'' with Some f', Some s => forallb (fun p => Qeq_bool (this (fst p)) (this (snd p))) (combine (f_values f') (s_values s)) = false /\ forallb (fun p => Qeq_bool (this (fst p)) (this (snd p))) (combine (f_values f') (f_values f')) = true /\ s_values s = f_values f | _, _ => False end | _, _ => False end).
  { vm_compute. auto. }
  destruct (reopen _ _ _) as [c''|]; [|destruct V]. destruct (flt_now (fst _)) as [f|]; [|destruct V]. destruct (flt_now c'') as [f'|] eqn:F'; [|destruct V]. destruct (on_disk c'') as [s|] eqn:D; [|destruct V].
  exists c'', f, f', s. destruct V as (V1 & V2 & V3). repeat split; try assumption. intros Q. rewrite <- Q in V1. congruence.
Qed.
Print Assumptions five_lag_cut_reloaded_refuted.

(** Even if not, the nominal peak (and so the predicted resolution) may differ: 8 when computed, 9 when loaded. *)
Theorem five_lag_peak_reloaded_refuted : exists c', compute_5lag_filter (opt5 3) None None None 0 0 false false pulses = (c', true) /\
  exists c'' f f', reopen (opt5 3) no_fourier c' = Some c'' /\ flt_now c' = Some f /\ flt_now c'' = Some f' /\ f_peak f = qz 8 /\ f_peak f' = qz 9.
Proof.
  destruct (compute_5lag_filter (opt5 3) None None None 0 0 false false pulses) as [c' ok] eqn:E.
  assert (K : ok = true) by (apply (f_equal snd) in E; vm_compute in E; now symmetry). subst ok. exists c'. split; [reflexivity|].
  apply (f_equal fst) in E. cbn [fst] in E. subst c'.
  assert (V : match reopen (opt5 3) no_fourier (fst (compute_5lag_filter (opt5 3) None None None 0 0 false false pulses)), flt_now (fst (compute_5lag_filter (opt5 3) None None None 0 0 false false pulses)) with
    | Some c'', Some f => match flt_now c'' with Some f' => this (f_peak f) = (8 # 1)%Q /\ this (f_peak f') = (9 # 1)%Q | _ => False end | _, _ => False end).
  { vm_compute. auto. }
  destruct (reopen _ _ _) as [c''|]; [|destruct V]. destruct (flt_now (fst _)) as [f|]; [|destruct V]. destruct (flt_now c'') as [f'|] eqn:F'; [|destruct V].
  exists c'', f, f'. destruct V as (V1 & V2). repeat split; try assumption; apply Qc_is_canon; [rewrite V1|rewrite V2]; reflexivity.
Qed.
Print Assumptions five_lag_peak_reloaded_refuted.

(** After a new filter the results of the old one stay, unless filtering is forced too. *)
Definition two_filters : chan :=
  set_filter pulses None (Some (mkFlt (qs [0; 0; 0; 1; 1; 0; 0; 0]%Z) 1 1 1 (Some (qs [0; 0; 0; 0; 1; 0; 0; 0]%Z)) 1 None None 0 0 "ats"%string)) "ats"%string.
Definition new_filter : flt := mkFlt (qs [0; 0; 0; 2; 2; 0; 0; 0]%Z) 1 1 1 (Some (qs [0; 0; 0; 0; 1; 0; 0; 0]%Z)) 1 None None 0 0 "ats"%string.
Theorem new_filter_not_used_refuted : exists c1 c2 c3, filter_data false None false None two_filters = (c1, true) /\
  compute_ats_filter (Some new_filter) true c1 = (c2, true) /\ filter_data false None false None c2 = (c3, true) /\
  flt_now c3 = Some new_filter /\ fvals c3 = fvals c1 /\ nth 0 (fvals c3) None <> Some (lagged (f_values new_filter) (nth 0 (recs c3) []) 1).
Proof.
  destruct (filter_data false None false None two_filters) as [c1 ok] eqn:E1. assert (K : ok = true) by (apply (f_equal snd) in E1; vm_compute in E1; now symmetry). subst ok.
  assert (V : option_map this (nth 0 (fvals c1) None) = Some (16 # 1)%Q) by (apply (f_equal fst) in E1; cbn [fst] in E1; rewrite <- E1; vm_compute; reflexivity).
  assert (A : acorr c1 = acorr pulses /\ recs c1 = recs pulses) by (apply (f_equal fst) in E1; cbn [fst] in E1; rewrite <- E1; split; vm_compute; reflexivity). destruct A as [A R].
  exists c1, (set_filter c1 (Some (to_hdf5 new_filter)) (Some new_filter) (f_type new_filter)), (set_filter c1 (Some (to_hdf5 new_filter)) (Some new_filter) (f_type new_filter)).
  split; [reflexivity|]. split. { unfold compute_ats_filter. rewrite A. destruct (on_disk c1); reflexivity. }
  split. { apply touched_kept. intros U. unfold untouched in U. cbn [fvals set_filter] in U. destruct (fvals c1) as [|x l]; [discriminate|]. inversion U; subst. cbn in V. discriminate. }
  split; [reflexivity|]. split; [reflexivity|]. cbn [fvals set_filter recs]. rewrite R. intros Q. rewrite Q in V. vm_compute in V. discriminate.
Qed.
Print Assumptions new_filter_not_used_refuted.

Example ats_filtered_instance : sound two_filters /\ untouched two_filters /\
  map (option_map this) (fvals (fst (filter_data false None false None two_filters))) = [Some 16; Some 10; Some 12]%Q /\
  map (option_map this) (fphases (fst (filter_data false None false None two_filters))) = [Some (7 # 16); Some (7 # 10); Some (3 # 4)]%Q.
Proof.
  split; [|split; [unfold untouched; cbn; repeat (apply Forall_cons; [reflexivity|]); constructor|split; vm_compute; reflexivity]].
  unfold sound. cbn. repeat split; try reflexivity; try lia. { repeat (apply Forall_cons; [reflexivity|]). constructor. }
Qed.
Example ats_filter_reloaded_instance : exists c' c'' f', compute_ats_filter (Some new_filter) false pulses = (c', true) /\ reopen (opt5 3) no_fourier c' = Some c'' /\ flt_now c'' = Some f' /\ f_values f' = qs [0; 0; 0; 2; 2; 0; 0; 0]%Z.
Proof. do 3 eexists. split; [unfold compute_ats_filter; cbn; reflexivity|]. split; [reflexivity|]. split; reflexivity. Qed.
Example five_lag_filtered_instance : let v := qs [-1; 1; 2; -1; -1]%Z in
  let c := set_filter pulses None (Some (mkFlt v 1 1 1 None 5 None None 0 0 "5lag"%string)) "5lag"%string in
  sound c /\ untouched c /\ (length v + 4 = nsamp c)%nat /\ snd (filter_data false None false None c) = true /\ snd (filter_data false None false (Some false) c) = true /\
  map (option_map this) (fvals (fst (filter_data false None false None c))) = map (option_map this) (fvals (fst (filter_data false None false (Some false) c))).
Proof.
  split; [|split; [unfold untouched; cbn; repeat (apply Forall_cons; [reflexivity|]); constructor|]].
  - unfold sound. cbn. repeat split; try reflexivity; try lia. { repeat (apply Forall_cons; [reflexivity|]). constructor. }
  - split; [reflexivity|]. split; [vm_compute; reflexivity|]. split; vm_compute; reflexivity.
Qed.
Example ats_transform_instance : sound two_filters /\ (1 < nsegs two_filters)%nat /\ length (f_values new_filter) <> nsamp two_filters.
Proof. split; [apply ats_filtered_instance|]. split; cbn; lia. Qed.
