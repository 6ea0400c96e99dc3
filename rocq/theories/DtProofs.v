From Coq Require Import Ascii String Bool ZArith QArith Qcanon Lia FinFun List.
From Verif Require FluxProofs.
From Verif Require Import QcPre LjhModel ArrModel ArrSpec ArrProps HxModel HxSpec HxProofs GtModel GtSpec GtProofs LagModel DtModel DtSpec.
Import ListNotations.
Local Open Scope string_scope.
Local Open Scope list_scope.
Local Infix "^^" := String.append (right associativity, at level 60).
Local Notation length := List.length.

Definition names : list string := ["indicatorName"; "uncorrectedName"; "medianIndicator"; "slope"; "version"].
Lemma names_plain : Forall plain names.
Proof. plain_names. Qed.
Lemma drift_names : forall d name o, In o (drift_ops d name) -> exists n v, In n names /\ o = (name ^^ "/" ^^ n, Some v).
Proof.
  intros d name o H. cbn in H. destruct H as [<-|[<-|[<-|[<-|[<-|[]]]]]]; eexists _, _; (split; [|cbn; reflexivity]); cbn; tauto.
Qed.
Lemma resolve_names : forall base name n, plain name -> In n names -> resolve base (name ^^ "/" ^^ n) = base ++ [name; n].
Proof. intros base name n P I. apply resolve_two; [exact P|]. pose proof names_plain as F. rewrite Forall_forall in F. now apply F. Qed.

Lemma drift_written : forall d base name f, plain name -> room f (base ++ [name]) ->
  exists f', drift_to_hdf5 d base name f = (f', false) /\
  (forall n v, In (n, Some v) (drift_ops d name) -> lookup f' (resolve base n) = Some (Some v)) /\
  (forall q x, lookup f q = Some x -> lookup f' q = Some x).
Proof.
  intros d base name f P (R1 & R2). unfold drift_to_hdf5.
  assert (L : map (fun o => resolve base (fst o)) (drift_ops d name) = map (fun n => base ++ [name; n]) names).
  { cbn [drift_ops names map fst]. repeat match goal with |- context [name ^^ String "/" ?s] => change (name ^^ String "/" s) with (name ^^ "/" ^^ s) end.
    rewrite !resolve_names by (try exact P; cbn; tauto). reflexivity. }
  assert (T : forall o, In o (drift_ops d name) -> exists n, In n names /\ resolve base (fst o) = base ++ [name; n]).
  { intros o O. destruct (drift_names d name o O) as (n & v & N & ->). exists n. split; [exact N|]. cbn [fst]. now apply resolve_names. }
  destruct (run_ok (drift_ops d name) base f) as (f' & R & H1 & _).
  - rewrite L. apply FinFun.Injective_map_NoDup; [|unfold names; distinct_names]. intros a b E. apply app_inv_head in E. congruence.
  - intros o O. destruct (drift_names d name o O) as (n & v & _ & ->). discriminate.
  - intros o O. destruct (T o O) as (n & N & ->). split; [intros E; apply app_eq_nil in E as [_ E]; discriminate|]. split.
    + destruct (lookup f (base ++ [name; n])) as [x|] eqn:E; [|reflexivity]. exfalso. apply lookup_has in E. apply (R1 [n] x). now rewrite <- app_assoc.
    + intros q w I E. apply lookup_has in E. apply above_iff in I as (a & b & A & B & E1 & ->). cbn [app] in E.
      destruct (exists_last B) as (b' & z & ->). rewrite app_assoc in E1. replace (base ++ [name; n]) with ((base ++ [name]) ++ [n]) in E1 by now rewrite <- app_assoc.
      apply app_inj_tail in E1 as [E1 _]. exact (R2 a b' w A E1 E).
  - intros o o' O O' I. destruct (T o O) as (n & _ & E). destruct (T o' O') as (n' & _ & E'). rewrite E, E' in I. apply above_iff in I as (a & b & A & B & E1 & E2). cbn [app] in E2. rewrite <- E2 in E1.
    apply (f_equal (@List.length _)) in E1. rewrite !app_length in E1. destruct b; [contradiction|]. cbn in E1. lia.
  - exists f'. split; [exact R|]. split; [exact H1|]. intros q x H. pose proof (run_keeps (drift_ops d name) base f q x H) as K. now rewrite R in K.
Qed.
Lemma drift_read : forall d base name f, (forall n v, In (n, Some v) (drift_ops d name) -> lookup f (resolve base n) = Some (Some v)) ->
  drift_from_hdf5 base name f = Some d.
Proof.
  intros d base name f H. unfold drift_from_hdf5. rewrite (H _ (SText (indicator_name d))), (H _ (SText (uncorrected_name d))), (H _ (SNumber (median_indicator d))), (H _ (SNumber (slope d))), (H _ (SVersion 1)) by (unfold drift_ops; cbn [In]; tauto).
  now destruct d.
Qed.

(** * Triggers *)
Lemma entry_some : forall h k v, entry h k = Some v <-> exists a b, h = a ++ (k, v) :: b /\ ~ In k (map fst a).
Proof.
  intros h k v. unfold entry. split.
  - induction h as [|[k' v'] h IH]; cbn [find fst option_map]; [discriminate|]. destruct (String.eqb_spec k' k) as [->|N].
    + intros E. cbn in E. injection E as ->. exists [], h. auto.
    + intros E. destruct (IH E) as (a & b & -> & Q). exists ((k', v') :: a), b. split; [reflexivity|]. intros [E2|I]; [cbn in E2; contradiction|now apply Q].
  - intros (a & b & -> & N). induction a as [|[k' v'] a IH]; cbn [find app fst].
    + now rewrite String.eqb_refl.
    + destruct (String.eqb_spec k' k) as [->|E]; [exfalso; apply N; now left|]. apply IH. intros I. apply N. now right.
Qed.
Lemma entry_none : forall h k, entry h k = None <-> ~ In k (map fst h).
Proof.
  intros h k. unfold entry. induction h as [|[k' v'] h IH]; cbn [find fst option_map map In]; [tauto|]. destruct (String.eqb_spec k' k) as [->|N].
  - split; [discriminate|tauto].
  - rewrite IH. tauto.
Qed.

Lemma qz_pos_neq : forall r, (r <> 0)%Z -> qz r <> 0%Qc.
Proof. intros r H E. unfold qz in E. apply Q2Qc_eq_iff in E. apply H. unfold Qeq in E. cbn in E. lia. Qed.
(** Subframes turned into seconds: d counts per frame, the period of a row. *)
Lemma seconds_of : forall F d r n t, (d <> 0)%Z -> (r <> 0)%Z ->
  (qz (n * d - t) * (F / qz r) = qz d / qz r * (frame_time F n - trigger_time F d t))%Qc.
Proof.
  intros F d r n t D R. rewrite FluxProofs.qz_sub, FluxProofs.qz_mul. unfold frame_time, trigger_time. field. split; now apply qz_pos_neq.
Qed.
Lemma seconds_until : forall F d r n t, (d <> 0)%Z -> (r <> 0)%Z ->
  (qz (t - n * d) * (F / qz r) = qz d / qz r * (trigger_time F d t - frame_time F n))%Qc.
Proof.
  intros F d r n t D R. rewrite FluxProofs.qz_sub, FluxProofs.qz_mul. unfold frame_time, trigger_time. field. split; now apply qz_pos_neq.
Qed.

Lemma Forall2_rows : forall {A B : Type} (P : A -> B -> Prop) a b, Forall2 P a b -> rows P a b.
Proof.
  intros A B P a b H. split; [induction H; cbn; congruence|]. induction H; intros [|i] u v X Y; cbn in X, Y; try discriminate.
  - injection X as <-. injection Y as <-. assumption.
  - eapply IHForall2; eassumption.
Qed.

Lemma ascending_scaled : forall l d, (0 <= d)%Z -> ascending l -> ascending (map (fun n => (n * d)%Z) l).
Proof.
  intros l d D A i j x y L X Y. rewrite nth_error_map in X, Y. destruct (nth_error l i) eqn:E; [|discriminate]. destruct (nth_error l j) eqn:E2; [|discriminate].
  cbn in X, Y. injection X as <-. injection Y as <-. apply Z.mul_le_mono_nonneg_r; [exact D|]. eapply A; eassumption.
Qed.

Lemma timing_ready : forall ts w c d r, subframe_divisions (info c) = Some d -> entry (info c) "NumberOfRows" = Some r -> (r <> 0)%Z -> framecount c <> [] ->
  exists rws, nearest_arrivals (map (fun n => (n * d)%Z) (framecount c)) ts = Pair rws /\
  timing_of ts w c = Some (mkOff (bad c) (info c) (frame_period c) (framecount c)
                  (if w_after w then Some (in_seconds (frame_period c / qz r)%Qc (map fst rws)) else after c)
                  (if w_until w then Some (in_seconds (frame_period c / qz r)%Qc (map snd rws)) else until c)
                  (if w_nearest w then Some (in_seconds (frame_period c / qz r)%Qc (map (fun r => Z.min (fst r) (snd r)) rws)) else nearest c)).
Proof.
  intros ts w c d r D E R NE. unfold timing_of. rewrite D. unfold row_period. rewrite E. destruct (Z.eqb_spec r 0); [contradiction|].
  destruct (nearest_arrivals _ ts) as [|rws] eqn:N.
  - exfalso. unfold nearest_arrivals in N. destruct (framecount c) as [|x l]; [contradiction|]. cbn [map] in N. destruct ts as [|a [|b ts]]; try discriminate.
    destruct (before_first a _) as [e [|? ?]]; discriminate.
  - exists rws. auto.
Qed.

Lemma group_ok : forall ts w cs, (forall c, In c cs -> bad c = false -> timing_of ts w c <> None) ->
  exists cs', timing_group ts w cs = (cs', false) /\ Forall2 (fun c c' => if bad c then c' = c else timing_of ts w c = Some c') cs cs'.
Proof.
  intros ts w. induction cs as [|c cs IH]; intros H; cbn [timing_group]; [exists []; auto|].
  destruct IH as (cs' & E & F); [intros c' I; apply H; now right|]. rewrite E. destruct (bad c) eqn:B.
  - exists (c :: cs'). split; [reflexivity|]. constructor; [now rewrite B|exact F].
  - pose proof (H c (or_introl eq_refl) B) as T. destruct (timing_of ts w c) as [c'|] eqn:X; [|contradiction]. exists (c' :: cs'). split; [reflexivity|]. constructor; [now rewrite B|exact F].
Qed.
Lemma group_stops : forall ts w a c b, (forall c, In c a -> bad c = false -> timing_of ts w c <> None) -> bad c = false -> timing_of ts w c = None ->
  exists a', timing_group ts w (a ++ c :: b) = (a' ++ mark_bad c :: b, true) /\ Forall2 (fun c c' => if bad c then c' = c else timing_of ts w c = Some c') a a'.
Proof.
  intros ts w. induction a as [|x a IH]; intros c b H B T; cbn [timing_group app].
  - rewrite B, T. exists []. auto.
  - destruct (IH c b) as (a' & E & F); [intros c' I; apply H; now right|exact B|exact T|]. rewrite E. destruct (bad x) eqn:BX.
    + exists (x :: a'). split; [reflexivity|]. constructor; [now rewrite BX|exact F].
    + pose proof (H x (or_introl eq_refl) BX) as TX. destruct (timing_of ts w x) as [c'|] eqn:X; [|contradiction]. exists (c' :: a'). split; [reflexivity|]. constructor; [now rewrite BX|exact F].
Qed.
Lemma rows_in : forall {A B : Type} (P : A -> B -> Prop) a b x, rows P a b -> In x a -> exists y, In y b /\ P x y.
Proof.
  intros A B P a b x (L & H) I. apply In_nth_error in I as (i & I). assert (i < length b)%nat by (rewrite <- L; apply nth_error_Some; congruence).
  destruct (nth_error b i) as [y|] eqn:E; [|apply nth_error_None in E; lia]. exists y. split; [eapply nth_error_In; eassumption|]. eapply H; eassumption.
Qed.

Lemma rows_map_l : forall {A A' B : Type} (P : A' -> B -> Prop) (g : A -> A') a b, rows P (map g a) b -> rows (fun x y => P (g x) y) a b.
Proof.
  intros A A' B P g a b (L & H). rewrite map_length in L. split; [exact L|]. intros i x y X Y. apply (H i); [|exact Y]. rewrite nth_error_map, X. reflexivity.
Qed.
Lemma rows_map_r : forall {A B B' : Type} (P : A -> B -> Prop) (Q : A -> B' -> Prop) (g : B -> B') a b, rows P a b -> (forall x y, P x y -> Q x (g y)) -> rows Q a (map g b).
Proof.
  intros A B B' P Q g a b (L & H) I. split; [now rewrite map_length|]. intros i x y X Y. rewrite nth_error_map in Y. destruct (nth_error b i) as [y'|] eqn:E; [|discriminate].
  cbn in Y. injection Y as <-. apply I. eapply H; eassumption.
Qed.
Lemma latest_unique : forall none ts p k t, since_last none ts p k -> latest_before ts p t -> k = (p - t)%Z.
Proof.
  intros none ts p k t [(u & I & L & M & ->)|[N _]] (I' & L' & M').
  - specialize (M t I' L'). specialize (M' u I L). lia.
  - specialize (N t I'). lia.
Qed.
Lemma next_unique : forall none ts p k t, until_next none ts p k -> first_after ts p t -> k = (t - p)%Z.
Proof.
  intros none ts p k t [(u & I & L & M & ->)|[N _]] (I' & L' & M').
  - specialize (M t I' L'). specialize (M' u I L). lia.
  - specialize (N t I'). lia.
Qed.

Lemma timing_general : forall c d r a b ts, subframe_divisions (info c) = Some d -> entry (info c) "NumberOfRows" = Some r -> (0 < d)%Z -> (r <> 0)%Z ->
  framecount c <> [] -> ascending (framecount c) -> ascending (a :: b :: ts) ->
  exists c' la sa lu su ln sn, timing_of (a :: b :: ts) (mkWanted true true true) c = Some c' /\
  after c' = Some (la, sa) /\ until c' = Some (lu, su) /\ nearest c' = Some (ln, sn) /\
  rows (fun n k => since_last max_value (a :: b :: ts) (n * d) k) (framecount c) la /\
  rows (fun n s => forall t, latest_before (a :: b :: ts) (n * d) t -> s = qz d / qz r * (frame_time (frame_period c) n - trigger_time (frame_period c) d t))%Qc (framecount c) sa /\
  rows (fun n k => until_next max_value (a :: b :: ts) (n * d) k) (framecount c) lu /\
  rows (fun n s => forall t, first_after (a :: b :: ts) (n * d) t -> s = qz d / qz r * (trigger_time (frame_period c) d t - frame_time (frame_period c) n))%Qc (framecount c) su /\
  ((forall t n, In t (a :: b :: ts) -> In n (framecount c) -> (Z.abs (t - n * d) <= max_value)%Z) ->
   rows (fun n k => nearest_of (a :: b :: ts) (n * d) k) (framecount c) ln) /\
  rows (fun k s => s = qz k * (frame_period c / qz r))%Qc ln sn.
Proof.
  intros c d r a b ts D E DP R NE A T. destruct (timing_ready (a :: b :: ts) (mkWanted true true true) c d r D E R NE) as (rws & N & Q).
  set (ps := map (fun n => (n * d)%Z) (framecount c)) in *.
  destruct (nearest_arrivals_correct ps a b ts) as (rws' & N' & F).
  { unfold ps. destruct (framecount c); [contradiction|discriminate]. }
  { apply ascending_scaled; [lia|exact A]. } { exact T. }
  assert (rws' = rws) by congruence. subst rws'. cbn [w_after w_until w_nearest] in Q. unfold in_seconds in Q.
  apply Forall2_rows in F. unfold ps in F. apply rows_map_l in F.
  assert (F1 : rows (fun n k => since_last max_value (a :: b :: ts) (n * d) k) (framecount c) (map fst rws)) by (eapply rows_map_r; [exact F|]; cbn; intros; tauto).
  assert (F2 : rows (fun n k => until_next max_value (a :: b :: ts) (n * d) k) (framecount c) (map snd rws)) by (eapply rows_map_r; [exact F|]; cbn; intros; tauto).
  do 7 eexists. split; [exact Q|]. cbn [after until nearest]. do 3 (split; [reflexivity|]). split; [exact F1|]. split; [|split; [exact F2|split; [|split]]].
  - eapply rows_map_r; [exact F1|]. cbn. intros n k S t L. rewrite (latest_unique _ _ _ _ _ S L). apply seconds_of; [lia|exact R].
  - eapply rows_map_r; [exact F2|]. cbn. intros n k S t L. rewrite (next_unique _ _ _ _ _ S L). apply seconds_until; [lia|exact R].
  - intros B. destruct F as (LF & F). split; [now rewrite map_length|]. intros i n k X Y. rewrite nth_error_map in Y. destruct (nth_error rws i) as [rw|] eqn:W; [|discriminate].
    cbn in Y. injection Y as <-. destruct (F i n rw X W) as [G1 G2]. apply nearest_min; [discriminate| |exact G1|exact G2]. intros t I. apply B; [exact I|]. eapply nth_error_In; eassumption.
  - split; [now rewrite !map_length|]. intros i x y X Y. rewrite nth_error_map, X in Y. cbn [option_map] in Y. congruence.
Qed.
