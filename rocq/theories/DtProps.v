(** C99: drift corrections are kept in HDF5 files, and the times to external triggers. *)
From Coq Require Import Ascii String Bool ZArith QArith Qcanon Lia List.
From Verif Require Import QcPre LjhModel ArrModel ArrSpec ArrProps HxModel HxSpec HxProofs GtModel GtSpec GtProofs LagModel DtModel DtSpec DtProofs.
Import ListNotations.
Local Open Scope string_scope.
Local Open Scope list_scope.
Local Infix "^^" := String.append (right associativity, at level 60).
Local Notation length := List.length.

(** ** Drift correction *)
(** A value at the median indicator is left alone, the correction is linear in the value, and a step of the indicator
    changes the result by the slope times the value. *)
Theorem drift_applied : forall d,
  (forall u, apply_drift d (median_indicator d) u = u) /\
  (forall i a b c, apply_drift d i (a * b + c) = a * apply_drift d i b + apply_drift d i c)%Qc /\
  (forall i j u, apply_drift d j u - apply_drift d i u = slope d * (j - i) * u)%Qc.
Proof. intros d. unfold apply_drift. repeat split; intros; ring. Qed.
Print Assumptions drift_applied.

(** What was written is read back, whatever group it is in, and the rest of the file is kept. *)
Theorem drift_round_trip : forall d base name f, plain name -> room f (base ++ [name]) ->
  exists f', drift_to_hdf5 d base name f = (f', false) /\ drift_from_hdf5 base name f' = Some d /\ forall p x, has f p x -> has f' p x.
Proof.
  intros d base name f P R. destruct (drift_written d base name f P R) as (f' & E & H1 & H2). exists f'. split; [exact E|]. split; [now apply drift_read|].
  intros p x H. apply lookup_has, H2, lookup_has, H.
Qed.
Print Assumptions drift_round_trip.

(** Reading is determined by the five entries: any correction that is read was stored with version 1. *)
Theorem drift_read_iff : forall d base name f, plain name ->
  drift_from_hdf5 base name f = Some d <->
  has f (base ++ [name; "indicatorName"]) (Some (SText (indicator_name d))) /\ has f (base ++ [name; "uncorrectedName"]) (Some (SText (uncorrected_name d))) /\
  has f (base ++ [name; "medianIndicator"]) (Some (SNumber (median_indicator d))) /\ has f (base ++ [name; "slope"]) (Some (SNumber (slope d))) /\
  has f (base ++ [name; "version"]) (Some (SVersion 1)).
Proof.
  intros d base name f P. unfold drift_from_hdf5.
  repeat match goal with |- context [resolve base (name ^^ String "/" ?s)] => change (name ^^ String "/" s) with (name ^^ "/" ^^ s) end.
  rewrite !resolve_names by (try exact P; cbn; tauto). rewrite <- !lookup_has. split.
  - destruct (lookup f _) as [[[i| |]|]|]; try discriminate. destruct (lookup f _) as [[[u| |]|]|]; try discriminate. destruct (lookup f _) as [[[|m|]|]|]; try discriminate.
    destruct (lookup f _) as [[[|s|]|]|]; try discriminate. destruct (lookup f _) as [[[| |v]|]|]; try discriminate. destruct (Z.eqb_spec v 1) as [->|]; [|discriminate].
    intros E. injection E as <-. cbn. auto.
  - intros (-> & -> & -> & -> & ->). now destruct d.
Qed.
Print Assumptions drift_read_iff.

(** A second correction of the same name is refused and the first one stays. *)
Theorem drift_twice_raises : forall d d' base name f f', plain name -> drift_to_hdf5 d base name f = (f', false) ->
  drift_to_hdf5 d' base name f' = (f', true) /\ drift_from_hdf5 base name f' = Some d.
Proof.
  intros d d' base name f f' P R.
  assert (H : forall n v, In (n, Some v) (drift_ops d name) -> lookup f' (resolve base n) = Some (Some v)).
  { intros n v I. destruct (run_done _ _ _ _ _ _ R I) as (w & E & L). injection E as <-. exact L. }
  split; [|now apply drift_read]. unfold drift_to_hdf5 at 1. cbn [drift_ops run].
  rewrite (put_exists _ _ _ _ (H _ (SText (indicator_name d)) (or_introl eq_refl))). reflexivity.
Qed.
Print Assumptions drift_twice_raises.

(** ** External triggers *)
(** The header says how many rows a frame has (and not the misspelt key), the triggers are counted in rows: the channel
    gets, for every pulse, the rows and seconds since the latest trigger and until the next one, and the distance to the
    nearest.  A pulse with no such trigger gets the largest int64 in rows. *)
Theorem off_timing_right : forall c r a b ts,
  entry (info c) "NumberOfRows" = Some r -> ~ In "SubframeDivsions" (map fst (info c)) -> (0 < r)%Z ->
  framecount c <> [] -> ascending (framecount c) -> ascending (a :: b :: ts) ->
  exists c' la sa lu su ln sn, timing_of (a :: b :: ts) (mkWanted true true true) c = Some c' /\
  after c' = Some (la, sa) /\ until c' = Some (lu, su) /\ nearest c' = Some (ln, sn) /\
  rows (fun n k => since_last max_value (a :: b :: ts) (n * r) k) (framecount c) la /\
  rows (fun n s => forall t, latest_before (a :: b :: ts) (n * r) t -> s = frame_time (frame_period c) n - trigger_time (frame_period c) r t)%Qc (framecount c) sa /\
  rows (fun n k => until_next max_value (a :: b :: ts) (n * r) k) (framecount c) lu /\
  rows (fun n s => forall t, first_after (a :: b :: ts) (n * r) t -> s = trigger_time (frame_period c) r t - frame_time (frame_period c) n)%Qc (framecount c) su /\
  ((forall t n, In t (a :: b :: ts) -> In n (framecount c) -> (Z.abs (t - n * r) <= max_value)%Z) ->
   rows (fun n k => nearest_of (a :: b :: ts) (n * r) k) (framecount c) ln) /\
  rows (fun k s => s = qz k * (frame_period c / qz r))%Qc ln sn.
Proof.
  intros c r a b ts E N R NE A T. apply entry_none in N.
  destruct (timing_general c r r a b ts) as (c' & la & sa & lu & su & ln & sn & H & H1 & H2 & H3 & H4 & H5 & H6 & H7 & H8 & H9); auto; [unfold subframe_divisions; now rewrite E, N|lia|].
  exists c', la, sa, lu, su, ln, sn. do 5 (split; [assumption|]).
  assert (O : (qz r / qz r = 1)%Qc) by (field; apply qz_pos_neq; lia).
  split; [|split; [exact H6|split; [|split; [exact H8|exact H9]]]].
  - destruct H5 as (L & H5). split; [exact L|]. intros i n s X Y t B. rewrite (H5 i n s X Y t B), O. ring.
  - destruct H7 as (L & H7). split; [exact L|]. intros i n s X Y t B. rewrite (H7 i n s X Y t B), O. ring.
Qed.
Print Assumptions off_timing_right.

(** With the misspelt key in the header, the counts are in its divisions but the seconds are too long by divisions/rows. *)
Theorem off_timing_misspelt_key : forall c r d a b ts,
  entry (info c) "NumberOfRows" = Some r -> entry (info c) "SubframeDivsions" = Some d -> (0 < d)%Z -> (0 < r)%Z ->
  framecount c <> [] -> ascending (framecount c) -> ascending (a :: b :: ts) ->
  exists c' la sa, timing_of (a :: b :: ts) (mkWanted true true true) c = Some c' /\ after c' = Some (la, sa) /\
  rows (fun n k => since_last max_value (a :: b :: ts) (n * d) k) (framecount c) la /\
  rows (fun n s => forall t, latest_before (a :: b :: ts) (n * d) t ->
          s * qz r = qz d * (frame_time (frame_period c) n - trigger_time (frame_period c) d t))%Qc (framecount c) sa.
Proof.
  intros c r d a b ts E M D R NE A T.
  destruct (timing_general c d r a b ts) as (c' & la & sa & lu & su & ln & sn & H & H1 & H2 & H3 & H4 & H5 & _); auto; [unfold subframe_divisions; now rewrite E, M|lia|].
  exists c', la, sa. do 3 (split; [assumption|]). destruct H5 as (L & H5). split; [exact L|]. intros i n s X Y t B. rewrite (H5 i n s X Y t B). field. apply qz_pos_neq. lia.
Qed.
Print Assumptions off_timing_misspelt_key.

(** The key as the header spells it is not looked at: a header with 64 rows and 128 divisions per frame, triggers counted in
    divisions, gives a wrong trigger and a wrong time. *)
Definition divided : off_channel := mkOff false [("NumberOfRows", 64%Z); ("SubframeDivisions", 128%Z)] 1%Qc [10%Z] None None None.
Theorem off_timing_divisions_refuted : exists c d ts n t c' la sa, entry (info c) "SubframeDivisions" = Some d /\ ascending ts /\
  framecount c = [n] /\ latest_before ts (n * d) t /\ timing_of ts (mkWanted true false false) c = Some c' /\ after c' = Some (la, sa) /\
  ~ rows (fun n k => since_last max_value ts (n * d) k) (framecount c) la /\
  ~ rows (fun n s => s = frame_time (frame_period c) n - trigger_time (frame_period c) d t)%Qc (framecount c) sa.
Proof.
  exists divided, 128%Z, [600; 1270; 1920]%Z, 10%Z, 1270%Z. do 3 eexists.
  split; [reflexivity|]. split; [|split; [reflexivity|split; [|split; [vm_compute; reflexivity|split; [reflexivity|]]]]].
  - intros i j x y L X Y. destruct i as [|[|[|i]]], j as [|[|[|j]]]; cbn in X, Y; try lia; try (destruct i; discriminate); try (destruct j; discriminate); injection X as <-; injection Y as <-; lia.
  - repeat split; [cbn; tauto|lia|]. intros u I L. cbn in I. destruct I as [<-|[<-|[<-|[]]]]; lia.
  - split.
    + intros (_ & H). specialize (H 0%nat 10%Z 40%Z eq_refl eq_refl). destruct H as [(t & I & L & M & E)|[N _]].
      * cbn in I. destruct I as [<-|[<-|[<-|[]]]]; lia.
      * specialize (N 600%Z). cbn in N. lia.
    + intros (_ & H). specialize (H 0%nat 10%Z _ eq_refl eq_refl). apply (f_equal this) in H. vm_compute in H. discriminate.
Qed.
Print Assumptions off_timing_divisions_refuted.

(** A channel without records, or whose header lacks the rows, cannot be timed. *)
Theorem off_timing_raises : forall ts w c, framecount c = [] \/ ~ In "NumberOfRows" (map fst (info c)) \/ entry (info c) "NumberOfRows" = Some 0%Z <->
  timing_of ts w c = None.
Proof.
  intros ts w c. split.
  - intros [H|[H|H]]; unfold timing_of.
    + rewrite H. now destruct (subframe_divisions _).
    + apply entry_none in H. unfold subframe_divisions. now rewrite H.
    + unfold row_period. rewrite H. cbn. destruct (subframe_divisions _); [|reflexivity]. now destruct (nearest_arrivals _ _).
  - intros H. destruct (entry (info c) "NumberOfRows") as [r|] eqn:E; [|right; left; now apply entry_none]. destruct (Z.eq_dec r 0) as [->|R]; [auto|].
    left. destruct (framecount c) as [|n l] eqn:F; [reflexivity|]. exfalso.
    assert (D : exists d, subframe_divisions (info c) = Some d) by (unfold subframe_divisions; rewrite E; eauto). destruct D as (d & D).
    destruct (timing_ready ts w c d r D E R) as (rws & _ & Q); [rewrite F; discriminate|]. congruence.
Qed.
Print Assumptions off_timing_raises.

(** An attribute that was not asked for keeps its earlier value. *)
Theorem off_timing_keeps : forall ts w c c', timing_of ts w c = Some c' ->
  framecount c' = framecount c /\ info c' = info c /\ (w_after w = false -> after c' = after c) /\ (w_until w = false -> until c' = until c) /\ (w_nearest w = false -> nearest c' = nearest c).
Proof.
  intros ts w c c' H. unfold timing_of in H. destruct (subframe_divisions _); [|discriminate]. destruct (nearest_arrivals _ _); [discriminate|]. destruct (row_period _ _); [|discriminate].
  injection H as <-. cbn. repeat split; intros ->; reflexivity.
Qed.
Print Assumptions off_timing_keeps.

(** The group: the file is a line of text and then the counts, eight bytes each.  Every good channel is timed and the bad ones
    are left alone ... *)
Theorem off_group_timing : forall line xs tail w cs, ~ In 10%Z line -> Forall (fun x => (- 2 ^ 63 <= x < 2 ^ 63)%Z) xs -> (length tail < 8)%nat ->
  (forall c, In c cs -> bad c = false -> timing_of xs w c <> None) ->
  exists cs', calc_timing (Some (line ++ [10%Z] ++ flat_map eight_bytes xs ++ tail)) w cs = (cs', false) /\
  rows (fun c c' => if bad c then c' = c else timing_of xs w c = Some c') cs cs'.
Proof.
  intros line xs tail w cs L X T H. cbn [calc_timing]. unfold trigger_subframes.
  assert (E : int64s (snd (take_line (line ++ [10%Z] ++ flat_map eight_bytes xs ++ tail))) = xs).
  { rewrite <- (int64s_encoded xs tail T X) at 2. f_equal. clear - L. induction line as [|c line IH]; cbn [app take_line]; [reflexivity|].
    destruct (Z.eqb_spec c 10) as [->|N]; [exfalso; apply L; now left|]. assert (L' : ~ In 10%Z line) by (intros I; apply L; now right). specialize (IH L').
    cbn [app] in IH. destruct (take_line (line ++ 10%Z :: flat_map eight_bytes xs ++ tail)). exact IH. }
  rewrite E. destruct (group_ok xs w cs H) as (cs' & R & F). exists cs'. split; [exact R|]. now apply Forall2_rows.
Qed.
Print Assumptions off_group_timing.
(** ... but the first good channel that cannot be timed is marked bad, the exception is raised and the later channels are left as they were. *)
Theorem off_group_timing_stops : forall f w a c b, (forall c, In c a -> bad c = false -> timing_of (trigger_subframes f) w c <> None) ->
  bad c = false -> framecount c = [] ->
  exists a', calc_timing (Some f) w (a ++ c :: b) = (a' ++ mark_bad c :: b, true) /\
  rows (fun c c' => if bad c then c' = c else timing_of (trigger_subframes f) w c = Some c') a a'.
Proof.
  intros f w a c b H B E. cbn [calc_timing]. destruct (group_stops (trigger_subframes f) w a c b H B) as (a' & R & F).
  - apply off_timing_raises. now left.
  - exists a'. split; [exact R|]. now apply Forall2_rows.
Qed.
Print Assumptions off_group_timing_stops.

(** ** Concrete cases *)
Definition some_drift : drift := mkDrift "pretriggerMean" "filtValue" (qz 1000) (qz (-1) / qz 100)%Qc.
Definition some_file : file stored := [(["cal"], None); (["cal"; "version"], Some (SVersion 7))].
Example drift_case : plain "dc" /\ room some_file (["cal"] ++ ["dc"]) /\
  (let '(f, r) := drift_to_hdf5 some_drift ["cal"] "dc" some_file in r = false /\ length f = 8%nat /\ drift_from_hdf5 ["cal"] "dc" f = Some some_drift /\
   drift_from_hdf5 ["cal"] "other" f = None) /\
  apply_drift some_drift (qz 1010) (qz 50) = qz 45.
Proof.
  split; [apply plain_check; vm_compute; reflexivity|]. split; [split|split].
  - intros q x H. apply lookup_has in H. cbn in H. destruct q; discriminate.
  - intros q r v N E H. destruct q as [|a [|b [|d q]]]; [contradiction| | |].
    + cbn in E. injection E as <- _. apply lookup_has in H. discriminate.
    + cbn in E. injection E as <- <- _. apply lookup_has in H. discriminate.
    + cbn in E. discriminate.
  - vm_compute. auto.
  - apply Qc_is_canon. vm_compute. reflexivity.
Qed.
Definition some_channel (b : bool) (l : list Z) : off_channel := mkOff b [("NumberOfColumns", 2%Z); ("NumberOfRows", 8%Z)] (qz 8) l None None None.
Example timing_case :
  let c := some_channel false [1; 2; 5]%Z in
  entry (info c) "NumberOfRows" = Some 8%Z /\ ~ In "SubframeDivsions" (map fst (info c)) /\ ascending (framecount c) /\ ascending [10; 30]%Z /\
  option_map (fun c' => (option_map fst (after c'), option_map fst (until c'), option_map fst (nearest c'), option_map (fun p => map this (snd p)) (nearest c'))) (timing_of [10; 30]%Z (mkWanted true true true) c) =
  Some (Some [max_value; 6; 10]%Z, Some [2; 14; max_value]%Z, Some [2; 6; 10]%Z, Some [2; 6; 10]%Q).
Proof.
  cbv zeta. split; [reflexivity|]. split; [cbn; intros [H|[H|[]]]; discriminate|]. split; [|split; [|vm_compute; reflexivity]].
  - intros i j x y L X Y. destruct i as [|[|[|i]]], j as [|[|[|j]]]; cbn in X, Y; try lia; try (destruct i; discriminate); try (destruct j; discriminate); injection X as <-; injection Y as <-; lia.
  - intros i j x y L X Y. destruct i as [|[|i]], j as [|[|j]]; cbn in X, Y; try lia; try (destruct i; discriminate); try (destruct j; discriminate); injection X as <-; injection Y as <-; lia.
Qed.
Definition misspelt : off_channel := mkOff false [("NumberOfRows", 4%Z); ("SubframeDivsions", 8%Z)] (qz 8) [2%Z] None None None.
Example misspelt_case : entry (info misspelt) "NumberOfRows" = Some 4%Z /\ entry (info misspelt) "SubframeDivsions" = Some 8%Z /\
  option_map (fun c' => option_map (fun p => (fst p, map this (snd p))) (after c')) (timing_of [10; 30]%Z (mkWanted true true true) misspelt) = Some (Some ([6%Z], [12%Q])) /\
  this (frame_time (qz 8) 2 - trigger_time (qz 8) 8 10)%Qc = 6%Q.
Proof. vm_compute. auto. Qed.
Example group_timing_case :
  let f := bs "# external triggers" ++ [10%Z] ++ flat_map eight_bytes [10; 30]%Z ++ [1%Z] in
  let look := map (fun c => (bad c, option_map fst (after c))) in
  let '(cs, r) := calc_timing (Some f) (mkWanted true false false) [some_channel true []; some_channel false [1; 2]%Z; some_channel false [4]%Z] in
  let '(cs', r') := calc_timing (Some f) (mkWanted true false false) [some_channel false [2]%Z; some_channel false []; some_channel false [4]%Z] in
  look cs = [(true, None); (false, Some [max_value; 6]%Z); (false, Some [2]%Z)] /\ r = false /\
  look cs' = [(false, Some [6]%Z); (true, None); (false, None)] /\ r' = true.
Proof. vm_compute. auto. Qed.
