(** C27, C28: PhaseCorrector. *)
From Coq Require Import String Reals ZArith Bool Lra Lia Permutation Sorted List.
From Verif Require Import EntModel SplModel SplSpec SplProofs SplEval SplMore SplProps PhaseModel PhaseSpec PhaseProofs PhaseMore.
Import ListNotations.
Local Open Scope R_scope.

(** * C28: the correction *)

(** Each pulse is corrected by itself ... *)
Theorem phase_each_pulse phase unc cs : length phase = length unc -> lines_in_order cs ->
  exists out, phase_corrected_filtvals phase unc cs = Some out /\ length out = length unc /\
    forall i, (i < length unc)%nat -> phase_corrected (nth i phase 0) (nth i unc 0) cs = Some (nth i out 0).
Proof.
  intros HL HO. unfold phase_corrected_filtvals. rewrite HL, Nat.eqb_refl. cbn [negb].
  assert (I : increasing (0 :: map (fun c : R -> R => c 0) cs) = true) by (apply increasing_sorted; apply in_order_sorted; exact HO). rewrite I. cbn [negb].
  destruct (all_some_map _ (fun p => phase_corrected (fst p) (snd p) cs) (combine phase unc)) as (out & E & F & G).
  - intros a _. apply corrected_total. exact HO.
  - assert (E2 : length (combine phase unc) = length unc) by (rewrite combine_length; lia). exists out. split; [exact E|]. split; [congruence|]. intros i Hi. assert (X := G i (0, 0) ltac:(lia)).
    rewrite combine_nth2 in X by exact HL. exact X.
Qed.
(** ... unless the lengths differ, or the lines are not in order and above 0. *)
Theorem phase_refused phase unc cs : phase_corrected_filtvals phase unc cs = None <-> length phase <> length unc \/ ~ lines_in_order cs.
Proof.
  split.
  - intros H. destruct (Nat.eq_dec (length phase) (length unc)) as [E|E]; [right; intros HO | left; exact E].
    destruct (phase_each_pulse phase unc cs E HO) as (out & F & _). congruence.
  - intros H. unfold phase_corrected_filtvals. destruct (Nat.eqb_spec (length phase) (length unc)) as [E|E]; [|reflexivity]. cbn [negb].
    destruct H as [H|H]; [contradiction|]. destruct (increasing (0 :: map (fun c : R -> R => c 0) cs)) eqn:F; [|reflexivity].
    exfalso. apply H. apply in_order_sorted, increasing_sorted. exact F.
Qed.

(** Negative heights, and pulses with phase 0, are not changed. *)
Theorem phase_negative_unchanged phase v cs : lines_in_order cs -> v < 0 -> phase_corrected phase v cs = Some v.
Proof. intros HO. exact (corrected_negative phase cs HO v). Qed.
Theorem phase_zero_unchanged v cs : lines_in_order cs -> phase_corrected 0 v cs = Some v.
Proof.
  intros HO. destruct (corrected_total 0 cs HO v) as (w & E). rewrite E. f_equal.
  assert (Z : forall i, K 0 cs i = 0) by (intros [|i]; cbn; [reflexivity | unfold shift; ring]).
  destruct (Rlt_dec v 0) as [N|N]; [rewrite (corrected_negative 0 cs HO v N) in E; apply some_inj in E; symmetry; exact E|].
  destruct (Nat.eq_dec (length cs) 0) as [C|C].
  - unfold phase_corrected in E. rewrite C in E. cbn [Nat.eqb] in E. destruct (negb _); [discriminate|]. destruct (_ =? 0)%nat; apply some_inj in E; symmetry; exact E.
  - assert (X : exists b, (b < length cs)%nat /\ H cs b <= v /\ ((S b < length cs)%nat -> v <= H cs (S b))).
    { destruct (Req_dec v 0) as [V|V]; [exists 0%nat; repeat split; [lia | cbn; lra | intros; rewrite V; cbn; apply Rlt_le, (proj1 HO); lia]|].
      destruct (interval_exists cs v ltac:(lra) ltac:(lia)) as (b & B1 & B2 & B3). exists b. repeat split; [exact B1 | lra | exact B3]. }
    destruct X as (b & B1 & B2 & B3). rewrite (corrected_on 0 cs HO v b B1 B2 B3) in E. apply some_inj in E. rewrite <- E. unfold L. rewrite !Z. ring.
Qed.
(** At the height of a line its own correction is used ... *)
Theorem phase_at_line phase cs i : lines_in_order cs -> (i < length cs)%nat ->
  phase_corrected phase (line cs i) cs = Some (line cs i + shift cs phase i).
Proof.
  intros HO Hi. rewrite (corrected_on phase cs HO (line cs i) i Hi).
  - f_equal. exact (L_right phase cs HO i Hi).
  - change (line cs i) with (H cs (S i)). apply Rlt_le, (H_step cs HO). lia.
  - intros _. change (line cs i) with (H cs (S i)). lra.
Qed.
(** ... between two lines, those of both, weighted linearly ... *)
Theorem phase_between_lines phase v cs i : lines_in_order cs -> (S i < length cs)%nat -> line cs i <= v <= line cs (S i) ->
  phase_corrected phase v cs = Some (v + through (line cs i) (shift cs phase i) (line cs (S i)) (shift cs phase (S i)) v).
Proof.
  intros HO Hi Hv. rewrite (corrected_on phase cs HO v (S i) Hi); [|cbn; lra|cbn; intros; lra].
  f_equal. exact (L_through phase cs HO (S i) v Hi).
Qed.
(** ... below the first line a correction proportional to the height ... *)
Theorem phase_below_first phase v cs : lines_in_order cs -> (0 < length cs)%nat -> 0 <= v <= line cs 0 ->
  phase_corrected phase v cs = Some (v + v / line cs 0 * shift cs phase 0).
Proof.
  intros HO Hi Hv. rewrite (corrected_on phase cs HO v 0 Hi); [|cbn; lra|cbn; intros; lra].
  f_equal. unfold L. cbn. assert (X := proj1 HO 0%nat Hi). field. lra.
Qed.
(** ... and above the last line the straight line through the last two corrections, or through the only one and 0. *)
Theorem phase_above_last phase v cs i : lines_in_order cs -> length cs = S (S i) -> line cs (S i) <= v ->
  phase_corrected phase v cs = Some (v + through (line cs i) (shift cs phase i) (line cs (S i)) (shift cs phase (S i)) v).
Proof.
  intros HO Hi Hv. assert (X := proj2 HO i (S i) ltac:(lia)). rewrite (corrected_on phase cs HO v (S i)); [|lia|cbn; lra|cbn; intros; lia].
  f_equal. exact (L_through phase cs HO (S i) v ltac:(lia)).
Qed.
Theorem phase_above_only phase v cs : lines_in_order cs -> length cs = 1%nat -> 0 <= v ->
  phase_corrected phase v cs = Some (v + v / line cs 0 * shift cs phase 0).
Proof.
  intros HO Hi Hv. rewrite (corrected_on phase cs HO v 0); [|lia|cbn; lra|cbn; intros; lia].
  f_equal. unfold L. cbn. assert (X := proj1 HO 0%nat ltac:(lia)). field. lra.
Qed.
Theorem phase_no_lines phase v : phase_corrected phase v [] = Some v.
Proof. unfold phase_corrected. cbn. match goal with |- context [(?a =? 0)%nat] => destruct (a =? 0)%nat end; reflexivity. Qed.

(** The corrected height is a continuous function of the height, with a fixed phase or one that varies continuously
    with it, and of the phase. *)
Theorem phase_continuous cs phase : lines_in_order cs -> exists f, continuity f /\ forall v, phase_corrected phase v cs = Some (f v).
Proof.
  intros HO. exists (value_at phase cs). split; [intros v; apply (value_cont phase cs HO)|].
  intros v. unfold value_at. destruct (corrected_total phase cs HO v) as (w & E). rewrite E. reflexivity.
Qed.
Theorem phase_continuous_moving cs p : lines_in_order cs -> continuity p -> Forall continuity cs ->
  exists f, continuity f /\ forall v, phase_corrected (p v) v cs = Some (f v).
Proof.
  intros HO Hp Hc. exists (fun v => value_at (p v) cs v). split; [exact (value_cont_moving cs p HO Hp Hc)|].
  intros v. unfold value_at. destruct (corrected_total (p v) cs HO v) as (w & E). rewrite E. reflexivity.
Qed.
Theorem phase_continuous_in_phase cs v : lines_in_order cs -> Forall continuity cs ->
  exists f, continuity f /\ forall phase, phase_corrected phase v cs = Some (f phase).
Proof.
  intros HO Hc. exists (fun phase => value_at phase cs v). split; [exact (value_cont_phase cs v HO Hc)|].
  intros phase. unfold value_at. destruct (corrected_total phase cs HO v) as (w & E). rewrite E. reflexivity.
Qed.

(** correct(): the phase is measured from the smooth phase at the pulse's height, and limited to 0.6 samples. *)
Definition corrections_of (c : corrector) : list (R -> R) := map (fun s => spline_at s 0) (corrs c).
Theorem correct_each_pulse c phase ph : length phase = length ph -> lines_in_order (corrections_of c) ->
  exists out, correct c phase ph = Some out /\ length out = length ph /\
    forall i, (i < length ph)%nat -> exists d, Rabs d <= 6 / 10 /\
      (Rabs (nth i phase 0 - spline_at (unif c) 0 (nth i ph 0)) <= 6 / 10 -> d = nth i phase 0 - spline_at (unif c) 0 (nth i ph 0)) /\
      (nth i phase 0 - spline_at (unif c) 0 (nth i ph 0) > 6 / 10 -> d = 6 / 10) /\
      (nth i phase 0 - spline_at (unif c) 0 (nth i ph 0) < - (6 / 10) -> d = - (6 / 10)) /\
      phase_corrected d (nth i ph 0) (corrections_of c) = Some (nth i out 0).
Proof.
  intros HL HO. unfold correct. rewrite HL, Nat.eqb_refl. cbn [negb]. fold (corrections_of c).
  set (cl := map (fun p => clip (- (6 / 10)) (6 / 10) (fst p - spline_at (unif c) 0 (snd p))) (combine phase ph)).
  assert (E2 : length cl = length ph) by (unfold cl; rewrite map_length, combine_length; lia).
  destruct (phase_each_pulse cl ph (corrections_of c) E2 HO) as (out & E & F & G). exists out. split; [exact E|]. split; [exact F|].
  intros i Hi. exists (nth i cl 0). set (u := nth i phase 0 - spline_at (unif c) 0 (nth i ph 0)).
  assert (N : nth i cl 0 = clip (- (6 / 10)) (6 / 10) u).
  { unfold cl. rewrite (nth_indep _ 0 (clip (- (6 / 10)) (6 / 10) (fst (0, 0) - spline_at (unif c) 0 (snd (0, 0))))) by (fold cl; lia).
    rewrite (map_nth (fun p : R * R => clip (- (6 / 10)) (6 / 10) (fst p - spline_at (unif c) 0 (snd p))) (combine phase ph) (0, 0) i). rewrite combine_nth2 by exact HL. reflexivity. }
  rewrite N. assert (X := clip_range (- (6 / 10)) (6 / 10) u ltac:(lra)). split; [apply Rabs_le; lra|].
  unfold clip, rltb. repeat split.
  - intros Y. assert (Z : - (6 / 10) <= u <= 6 / 10) by (unfold Rabs in Y; destruct (Rcase_abs u); lra).
    destruct (Rlt_dec u (- (6 / 10))); [lra|]. destruct (Rlt_dec (6 / 10) u); lra.
  - intros Y. destruct (Rlt_dec u (- (6 / 10))); [lra|]. destruct (Rlt_dec (6 / 10) u); lra.
  - intros Y. destruct (Rlt_dec u (- (6 / 10))); lra.
  - rewrite <- (G i Hi). unfold clip, rltb in N. rewrite N. reflexivity.
Qed.
(** Pulses with the same phase get heights that depend continuously on the height before. *)
Theorem correct_continuous c phase : well_made c -> NoDup (unif_x c) -> lines_in_order (corrections_of c) ->
  exists f, continuity f /\ forall v, correct c [phase] [v] = Some [f v].
Proof.
  intros (W & N) HD HO. set (p := fun v => clip (- (6 / 10)) (6 / 10) (phase - spline_at (unif c) 0 v)).
  assert (Hp : continuity p).
  { intros v. apply (continuity_pt_comp (fun v => phase - spline_at (unif c) 0 v) (clip (- (6 / 10)) (6 / 10))); [|apply clip_cont; lra].
    apply (continuity_pt_minus (fun _ => phase)); [apply cont_const|]. unfold make_corrector in W. destruct (make_spline (unif_x c) (unif_y c) None None) as [s|] eqn:E; [|discriminate].
    apply some_inj in W. assert (U : unif c = s) by (rewrite <- W; reflexivity). rewrite U. eapply lim_cont. apply (proj1 (spline_smooth _ _ _ _ s E HD v)). }
  assert (Hc : Forall continuity (corrections_of c)).
  { unfold corrections_of. apply Forall_map. eapply Forall_impl; [|exact N]. intros s (xs & ys & D & M) v. eapply lim_cont. apply (proj1 (spline_smooth _ _ _ _ s M D v)). }
  destruct (phase_continuous_moving (corrections_of c) p HO Hp Hc) as (f & F & E). exists f. split; [exact F|].
  intros v. unfold correct. fold (corrections_of c). cbn [length Nat.eqb negb combine map fst snd]. unfold phase_corrected_filtvals. cbn [length Nat.eqb negb].
  assert (I : increasing (0 :: map (fun c : R -> R => c 0) (corrections_of c)) = true) by (apply increasing_sorted; apply in_order_sorted; exact HO). rewrite I. cbn [negb combine map fst snd].
  change (clip (- (6 / 10)) (6 / 10) (phase - spline_at (unif c) 0 v)) with (p v). rewrite E. reflexivity.
Qed.

(** * C27: saving and loading *)

(** Loading gives back what was saved, if the group had no correction with the number after the last one saved. *)
Theorem phase_save_load c g : well_made c -> get g (Cx (length (corrs c))) = None ->
  exists g', to_hdf5 c g true = (g', true) /\ from_hdf5 g' = Some c.
Proof.
  intros (W & N) HG. destruct (saved c g) as (g' & E & A1 & A2 & A3 & A4 & A5 & A6 & A7). exists g'. split; [exact E|].
  unfold from_hdf5. rewrite A1, A2, A3, A4, A5. rewrite (read_list g' (corrs c) 0 (S (length g'))); [exact W | | exact N | |].
  - assert (X : (length (corrs c) <= length g')%nat); [|lia]. apply names_bound. intros j Hj K. rewrite A6 in K.
    destruct (nth_error (corrs c) j) eqn:F; [discriminate | apply nth_error_None in F; lia].
  - intros j s Hj. cbn [Nat.add]. rewrite A6, A7, Hj. split; reflexivity.
  - cbn [Nat.add]. rewrite A6. destruct (nth_error (corrs c) (length (corrs c))) eqn:F; [|exact HG].
    assert (Y : nth_error (corrs c) (length (corrs c)) <> None) by congruence. apply nth_error_Some in Y. lia.
Qed.
(** After any history of saves to a new group, loading gives the last corrector with, after its own corrections, those of
    earlier ones with higher numbers. *)
Theorem phase_save_history hist c : Forall well_made hist -> well_made c ->
  from_hdf5 (save_all (hist ++ [c]) []) = Some (mkCorrector (unif_x c) (unif_y c) (unif c) (overlay (map corrs (hist ++ [c]))) (indicator c) (uncorrected c)).
Proof.
  intros HH (W & N). rewrite (holds_load _ c _ (save_all_holds hist c)).
  - unfold make_corrector in *. destruct (make_spline (unif_x c) (unif_y c) None None) as [s|]; [|discriminate]. apply some_inj in W. rewrite <- W. reflexivity.
  - apply overlay_natural. apply Forall_app. split; [|repeat constructor; exact N]. eapply Forall_impl; [|exact HH]. intros b (_ & X). exact X.
Qed.
(** So it gives the last corrector exactly if none before had more corrections. *)
Theorem phase_save_history_iff hist c : Forall well_made hist -> well_made c ->
  (from_hdf5 (save_all (hist ++ [c]) []) = Some c <-> forall b, In b hist -> (length (corrs b) <= length (corrs c))%nat).
Proof.
  intros HH HC. rewrite (phase_save_history hist c HH HC). rewrite map_app. cbn [map]. rewrite overlay_app.
  assert (LEN : forall h : list corrector, (forall b, In b h -> (length (corrs b) <= length (overlay (map corrs h)))%nat) /\
                      (forall m, (forall b, In b h -> (length (corrs b) <= m)%nat) -> (length (overlay (map corrs h)) <= m)%nat)).
  { induction h as [|a h IH]; cbn; [split; [intros b [] | intros; lia]|]. destruct IH as (I1 & I2). rewrite app_length, skipn_length. split.
    - intros b [<-|Hb]; [lia|]. assert (X := I1 b Hb). lia.
    - intros m Hm. assert (X := I2 m (fun b Hb => Hm b (or_intror Hb))). assert (Y := Hm a (or_introl eq_refl)). lia. }
  destruct (LEN hist) as (L1 & L2). split.
  - intros E. apply some_inj in E. apply (f_equal (fun b => length (corrs b))) in E. cbn [corrs] in E. assert (F := E).
    rewrite app_length, skipn_length in F. intros b Hb. assert (X := L1 b Hb). lia.
  - intros HB. assert (X := L2 _ HB). assert (Z : skipn (length (corrs c)) (overlay (map corrs hist)) = []) by (apply skipn_all2; exact X).
    rewrite Z, app_nil_r. destruct c. reflexivity.
Qed.
(** Without overwrite nothing that exists is replaced: a group that holds a corrector is refused unchanged. *)
Theorem phase_no_overwrite c g : get g Ux <> None -> to_hdf5 c g false = (g, false).
Proof. intros HG. unfold to_hdf5. cbn. unfold update. destruct (get g Ux); [reflexivity | contradiction]. Qed.
(** A new group is written in the same way. *)
Lemma updates_fresh g l : NoDup (map fst l) -> (forall k, In k (map fst l) -> get g k = None) -> updates false g l = updates true g l.
Proof.
  revert g. induction l as [|(k, v) l IH]; intros g HD HG; [reflexivity|]. cbn [updates]. inversion HD as [|a b N D]; subst.
  assert (E := HG k (or_introl eq_refl)). unfold update. rewrite E. apply IH; [exact D|]. intros k' Hk'. cbn.
  destruct (key_eqb k k') eqn:F; [apply key_eqb_eq in F; subst; contradiction | apply HG; right; exact Hk'].
Qed.
Lemma items_keys cs i k : In k (map fst (correction_items i cs)) -> exists j, (i <= j)%nat /\ (k = Cx j \/ k = Cy j).
Proof.
  revert i. induction cs as [|c cs IH]; intros i; cbn; [intros []|]. intros [<-|[<-|HI]].
  - exists i. split; [lia | left; reflexivity].
  - exists i. split; [lia | right; reflexivity].
  - destruct (IH (S i) HI) as (j & Hj & E). exists j. split; [lia | exact E].
Qed.
Lemma items_nodup cs i : NoDup (map fst (correction_items i cs)).
Proof.
  revert i. induction cs as [|c cs IH]; intros i; cbn; [constructor|]. constructor; [|constructor; [|apply IH]].
  - intros [E|HI]; [discriminate|]. destruct (items_keys _ _ _ HI) as (j & Hj & [E|E]); [injection E as E; lia | discriminate].
  - intros HI. destruct (items_keys _ _ _ HI) as (j & Hj & [E|E]); [discriminate | injection E as E; lia].
Qed.
Theorem phase_save_new c : to_hdf5 c [] false = to_hdf5 c [] true.
Proof.
  unfold to_hdf5. apply updates_fresh; [|reflexivity]. rewrite map_app. cbn [map fst app].
  assert (X : forall k, In k (map fst (correction_items 0 (corrs c))) -> match k with Cx _ | Cy _ => True | _ => False end).
  { intros k HI. destruct (items_keys _ _ _ HI) as (j & _ & [-> | ->]); exact I. }
  repeat (constructor; [intros HI; cbn in HI; repeat (destruct HI as [HI|HI]; [discriminate|]); exact (X _ HI)|]).
  apply items_nodup.
Qed.
(** A file of another version is refused. *)
Theorem phase_load_version g v : get g Ver = Some (Num v) -> v <> 1%Z -> from_hdf5 g = None.
Proof.
  intros E N. unfold from_hdf5. rewrite E. destruct (get g Ux) as [[x| |]|]; try reflexivity. destruct (get g Uy) as [[y| |]|]; try reflexivity.
  destruct (get g Unc) as [[|u|]|]; try reflexivity. destruct (get g Ind) as [[|i|]|]; try reflexivity.
  destruct (read_corrections g 0 (S (length g))); [|reflexivity]. rewrite (proj2 (Z.eqb_neq v 1)) by exact N. reflexivity.
Qed.

(** * What does not hold *)

Lemma flat_exists : exists s, make_spline [0; 2] [0; 0] None None = Some s.
Proof. destruct (spline_interpolates [0; 2] [0; 0] None None ltac:(cbn; lia) ltac:(cbn; lia) nodup2) as (s & H & _). exists s. exact H. Qed.
(** A corrector saved over one with more corrections comes back with additional ones. *)
Theorem phase_save_load_refuted : exists c1 c2, well_made c1 /\ well_made c2 /\ from_hdf5 (save_all [c1; c2] []) <> Some c2.
Proof.
  destruct flat_exists as (s & E). assert (N : natural s) by (exists [0; 2], [0; 0]; split; [exact nodup2 | exact E]).
  set (c1 := mkCorrector [0; 2] [0; 0] s [s] "p"%string "q"%string). set (c2 := mkCorrector [0; 2] [0; 0] s [] "p"%string "q"%string).
  assert (W1 : well_made c1) by (split; [unfold make_corrector; cbn [unif_x unif_y c1]; rewrite E; reflexivity | repeat constructor; exact N]).
  assert (W2 : well_made c2) by (split; [unfold make_corrector; cbn [unif_x unif_y c2]; rewrite E; reflexivity | constructor]).
  exists c1, c2. split; [exact W1|]. split; [exact W2|]. intros H. assert (X := proj1 (phase_save_history_iff [c1] c2 (Forall_cons _ W1 (Forall_nil _)) W2) H c1 (or_introl eq_refl)).
  cbn in X. lia.
Qed.
(** A correction with given end slopes comes back without them. *)
Theorem phase_save_load_slopes_refuted : exists c, make_corrector (unif_x c) (unif_y c) (corrs c) (indicator c) (uncorrected c) = Some c /\
  (exists xs ys p, corrs c <> [] /\ forall s, In s (corrs c) -> NoDup xs /\ make_spline xs ys (Some p) None = Some s) /\
  from_hdf5 (fst (to_hdf5 c [] true)) <> Some c.
Proof.
  destruct flat_exists as (s & E). destruct (spline_interpolates [0; 2] [0; 0] (Some 1) None ltac:(cbn; lia) ltac:(cbn; lia) nodup2) as (t & T & _).
  exists (mkCorrector [0; 2] [0; 0] s [t] "p"%string "q"%string). split; [unfold make_corrector; cbn [unif_x unif_y]; rewrite E; reflexivity|].
  split; [exists [0; 2], [0; 0], 1; split; [discriminate|]; intros u [<-|[]]; split; [exact nodup2 | exact T]|].
  assert (KX : kx t = [0; 2] /\ ky t = [0; 0]).
  { destruct (made _ _ _ _ _ T nodup2) as (O & _ & B). rewrite (b_x _ _ _ _ _ B), (b_y _ _ _ _ _ B).
    rewrite <- (order_is _ _ _ _ _ T nodup2 _ order2). split; reflexivity. }
  destruct KX as (KX & KY). intros H. cbn -[make_spline make_corrector] in H. unfold from_hdf5 in H. cbn -[make_spline make_corrector] in H. rewrite KX, KY, E in H. cbn -[make_spline make_corrector] in H. unfold make_corrector in H. rewrite E in H.
  injection H as H. destruct (made _ _ _ _ _ T nodup2) as (_ & _ & B). assert (S1 := b_g1 _ _ _ _ _ B 1 eq_refl).
  destruct (spline_below _ _ _ _ s 0 E nodup2 ltac:(cbn; lia)) as (_ & _); [intros [|[|j]] Hj; cbn in *; try lra; lia|].
  assert (L := spline_line [0; 2] [0; 0] s 0 0 E nodup2). assert (V : forall v, spline_at s 0 v = 0 + 0 * v).
  { apply L. intros [|[|i]] Hi; cbn in *; try lra; lia. }
  destruct (spline_smooth _ _ _ _ t T nodup2 0) as (D & _). rewrite <- H in *. clear H.
  assert (Z : spline_at s 1 0 = 0).
  { apply (uniqueness_limite (spline_at s 0) 0); [exact D|]. apply (lim_ext _ (fun _ => 0)); [intros t0; rewrite V; ring | apply derivable_pt_lim_const]. }
  destruct (spline_below _ _ _ _ s 0 T nodup2 ltac:(cbn; lia)) as (_ & G); [intros [|[|j]] Hj; cbn in *; try lra; lia|].
  assert (Y := G 1 eq_refl). cbn in Y. lra.
Qed.

(** * Examples *)
Definition two_lines : list (R -> R) := [fun p => 10 - p; fun p => 20 - 4 * p].
Lemma two_lines_in_order : lines_in_order two_lines.
Proof.
  split.
  - intros [|[|i]] Hi; unfold line; cbn in *; try lra; lia.
  - intros [|[|i]] [|[|j]] Hij; unfold line; cbn in *; try lra; lia.
Qed.
Example phase_example : phase_corrected (1 / 2) 15 two_lines = Some (15 + (1 / 2 + 2) / 2).
Proof.
  rewrite (phase_between_lines _ _ _ 0 two_lines_in_order) by (unfold line; cbn; (lia || lra)). f_equal. unfold through, line, shift, two_lines. cbn. field.
Qed.
Example phase_example_above : phase_corrected (1 / 2) 30 two_lines = Some (30 + 7 / 2).
Proof.
  rewrite (phase_above_last _ _ _ 0 two_lines_in_order) by (unfold line; cbn; (lia || lra || reflexivity)). f_equal. unfold through, line, shift, two_lines. cbn. field.
Qed.
Example phase_example_vector : exists out, phase_corrected_filtvals [1 / 2; 0; 1] [10; 7; -3] two_lines = Some out /\ nth 0 out 0 = 21 / 2 /\ nth 1 out 0 = 7 /\ nth 2 out 0 = -3.
Proof.
  destruct (phase_each_pulse [1 / 2; 0; 1] [10; 7; -3] two_lines eq_refl two_lines_in_order) as (out & E & _ & G). exists out. split; [exact E|].
  assert (A := G 0%nat ltac:(cbn; lia)). assert (B := G 1%nat ltac:(cbn; lia)). assert (C := G 2%nat ltac:(cbn; lia)). cbn [nth] in A, B, C.
  replace 10 with (line two_lines 0) in A by (unfold line; cbn; lra). rewrite (phase_at_line _ _ 0 two_lines_in_order) in A by (cbn; lia). apply some_inj in A.
  rewrite (phase_zero_unchanged 7 _ two_lines_in_order) in B. apply some_inj in B. rewrite (phase_negative_unchanged _ _ _ two_lines_in_order) in C by lra. apply some_inj in C.
  rewrite <- A, <- B, <- C. unfold line, shift. cbn. repeat split; lra.
Qed.
(** A saved corrector with one correction. *)
Example phase_save_example : exists c, well_made c /\ length (corrs c) = 1%nat /\ from_hdf5 (save_all [c; c] []) = Some c.
Proof.
  destruct flat_exists as (s & E). assert (N : natural s) by (exists [0; 2], [0; 0]; split; [exact nodup2 | exact E]).
  set (c := mkCorrector [0; 2] [0; 0] s [s] "p"%string "q"%string).
  assert (W : well_made c) by (split; [unfold make_corrector; cbn [unif_x unif_y c]; rewrite E; reflexivity | repeat constructor; exact N]).
  exists c. split; [exact W|]. split; [reflexivity|]. apply (phase_save_history_iff [c] c (Forall_cons _ W (Forall_nil _)) W). intros b [<-|[]]. lia.
Qed.
(** A corrector with lines in order. *)
Example correct_example : exists c, well_made c /\ NoDup (unif_x c) /\ lines_in_order (corrections_of c) /\ correct c [1] [10] = Some [10 + 6 / 10].
Proof.
  destruct flat_exists as (s & E).
  destruct (spline_interpolates [0; 2] [10; 8] None None ltac:(cbn; lia) ltac:(cbn; lia) nodup2) as (t & T & _).
  assert (V : forall v, spline_at t 0 v = 10 + -1 * v) by (apply (spline_line _ _ t 10 (-1) T nodup2); intros [|[|i]] Hi; cbn in *; try lra; lia).
  assert (U : forall v, spline_at s 0 v = 0 + 0 * v) by (apply (spline_line _ _ s 0 0 E nodup2); intros [|[|i]] Hi; cbn in *; try lra; lia).
  set (c := mkCorrector [0; 2] [0; 0] s [t] "p"%string "q"%string). exists c.
  assert (O : lines_in_order (corrections_of c)).
  { split; [intros [|i] Hi; cbn in Hi; [|lia] | intros i j Hij; cbn in Hij; lia]. unfold line. cbn. rewrite V. lra. }
  split; [split; [unfold make_corrector; cbn [unif_x unif_y c]; rewrite E; reflexivity | repeat constructor; exists [0; 2], [10; 8]; split; [exact nodup2 | exact T]]|].
  split; [exact nodup2|]. split; [exact O|].
  destruct (correct_each_pulse c [1] [10] eq_refl O) as (out & F & L & G). rewrite F. f_equal.
  destruct (G 0%nat ltac:(cbn; lia)) as (d & _ & _ & D & _ & X). cbn [nth] in D, X. change (unif c) with s in D. rewrite U in D. rewrite (D ltac:(lra)) in X.
  destruct out as [|o [|o' out]]; cbn in L; try lia. cbn in X.
  rewrite (phase_above_only _ _ _ O) in X by (cbn; (lra || reflexivity)). apply some_inj in X. f_equal. rewrite <- X. unfold line, shift. cbn. rewrite !V. field.
Qed.

Print Assumptions phase_each_pulse.
Print Assumptions phase_refused.
Print Assumptions phase_negative_unchanged.
Print Assumptions phase_zero_unchanged.
Print Assumptions phase_at_line.
Print Assumptions phase_between_lines.
Print Assumptions phase_below_first.
Print Assumptions phase_above_last.
Print Assumptions phase_above_only.
Print Assumptions phase_no_lines.
Print Assumptions phase_continuous.
Print Assumptions phase_continuous_moving.
Print Assumptions phase_continuous_in_phase.
Print Assumptions correct_each_pulse.
Print Assumptions correct_continuous.
Print Assumptions phase_save_load.
Print Assumptions phase_save_history.
Print Assumptions phase_save_history_iff.
Print Assumptions phase_no_overwrite.
Print Assumptions phase_save_new.
Print Assumptions phase_load_version.
Print Assumptions phase_save_load_refuted.
Print Assumptions phase_save_load_slopes_refuted.
