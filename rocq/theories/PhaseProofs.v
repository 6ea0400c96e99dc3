(** Proofs about PhaseCorrector. *)
From Coq Require Import String Reals ZArith Bool Lra Lia Permutation Sorted List.
From Verif Require Import EntModel SplModel SplSpec SplProofs SplEval SplMore PhaseModel PhaseSpec.
Import ListNotations.
Local Open Scope R_scope.

Lemma increasing_sorted l : increasing l = true <-> StronglySorted Rlt l.
Proof.
  split.
  - intros H. apply Sorted_StronglySorted; [intros a b c; apply Rlt_trans|]. induction l as [|a [|b l] IH]; [constructor|repeat constructor|].
    change (rltb a b && increasing (b :: l) = true) in H. apply andb_prop in H. destruct H as (H1 & H2).
    constructor; [apply IH; exact H2|]. constructor. apply rltb_true. exact H1.
  - induction l as [|a [|b l] IH]; intros H; [reflexivity|reflexivity|]. inversion H as [|x y H1 H2]; subst.
    change (rltb a b && increasing (b :: l) = true). apply andb_true_intro. split; [apply rltb_true; apply Forall_inv in H2; exact H2 | apply IH; exact H1].
Qed.
Lemma digitize_spec l v : StronglySorted Rlt l ->
  (digitize l v <= length l)%nat /\ (forall i, (i < digitize l v)%nat -> nth i l 0 <= v) /\
  (forall i, (digitize l v <= i < length l)%nat -> v < nth i l 0).
Proof.
  unfold digitize. intros H. induction H as [|a l Hl IH Ha]; [cbn; repeat split; intros; lia|].
  cbn [filter]. destruct (rleb a v) eqn:E.
  - apply rleb_true in E. cbn [length]. destruct IH as (A & B & C). repeat split; [lia| |].
    + intros [|i] Hi; [exact E|]. cbn [nth]. apply B. lia.
    + intros [|i] Hi; [lia|]. cbn [nth]. apply C. lia.
  - assert (N : v < a). { destruct (Rlt_dec v a) as [K|K]; [exact K|]. assert (rleb a v = true) by (apply rleb_true; lra). congruence. }
    assert (Z : filter (fun b => rleb b v) l = []).
    { clear - N Ha. induction Ha as [|b l Hb _ IH]; [reflexivity|]. cbn. destruct (rleb b v) eqn:E; [apply rleb_true in E; lra | exact IH]. }
    rewrite Z. cbn. repeat split; [lia|intros; lia|]. intros [|i] Hi; [exact N|].
    rewrite Forall_forall in Ha. assert (a < nth i l 0) by (apply Ha, nth_In; lia). cbn. lra.
Qed.
Lemma sorted_nth l : StronglySorted Rlt l <-> forall i j, (i < j < length l)%nat -> nth i l 0 < nth j l 0.
Proof.
  split.
  - intros H. induction H as [|a l Hl IH Ha]; intros i j Hij; [cbn in Hij; lia|]. destruct j as [|j]; [lia|]. cbn in Hij. destruct i as [|i]; cbn.
    + rewrite Forall_forall in Ha. apply Ha, nth_In. lia.
    + apply IH. lia.
  - induction l as [|a l IH]; intros H; constructor.
    + apply IH. intros i j Hij. apply (H (S i) (S j)). cbn. lia.
    + apply Forall_forall. intros x Hx. destruct (In_nth _ _ 0 Hx) as (k & Hk & <-). apply (H 0%nat (S k)). cbn. lia.
Qed.

Section One.
Variables (phase : R) (cs : list (R -> R)).
Let nc := length cs.
Let ph := 0 :: map (fun c : R -> R => c 0) cs.
Let corr := 0 :: map (fun c : R -> R => c 0 - c phase) cs.
Definition H (i : nat) : R := match i with O => 0 | S k => line cs k end.
Definition K (i : nat) : R := match i with O => 0 | S k => shift cs phase k end.
Lemma nth_ph i : (i <= nc)%nat -> nth i ph 0 = H i.
Proof.
  intros Hi. unfold ph. destruct i as [|i]; [reflexivity|]. cbn. unfold line.
  exact (map_nth (fun c : R -> R => c 0) cs (fun _ => 0) i).
Qed.
Lemma nth_corr i : (i <= nc)%nat -> nth i corr 0 = K i.
Proof.
  intros Hi. unfold corr. destruct i as [|i]; [reflexivity|]. cbn. unfold shift.
  rewrite (nth_indep _ 0 ((fun c : R -> R => c 0 - c phase) (fun _ => 0))) by (rewrite map_length; exact Hi). exact (map_nth (fun c : R -> R => c 0 - c phase) cs (fun _ => 0) i).
Qed.
Lemma in_order_sorted : lines_in_order cs <-> StronglySorted Rlt ph.
Proof.
  rewrite sorted_nth. assert (E : length ph = S nc) by (unfold ph; cbn; rewrite map_length; reflexivity). rewrite E. split.
  - intros (A & B) i j Hij. rewrite !nth_ph by lia. destruct j as [|j]; [lia|]. destruct i as [|i]; cbn; [apply A | apply B]; unfold nc in *; lia.
  - intros A. split.
    + intros i Hi. assert (X := A 0%nat (S i) ltac:(unfold nc; lia)). rewrite !nth_ph in X by (unfold nc; lia). exact X.
    + intros i j Hij. assert (X := A (S i) (S j) ltac:(unfold nc; lia)). rewrite !nth_ph in X by (unfold nc; lia). exact X.
Qed.
Hypothesis HO : lines_in_order cs.
Lemma H_step i j : (i < j <= nc)%nat -> H i < H j.
Proof.
  intros Hij. destruct HO as (A & B). destruct j as [|j]; [lia|]. destruct i as [|i]; cbn; [apply A | apply B]; unfold nc in *; lia.
Qed.
Definition L (i : nat) (v : R) : R := v + ((v - H i) / (H (S i) - H i) * K (S i) + (1 - (v - H i) / (H (S i) - H i)) * K i).
Lemma L_left i : (i < nc)%nat -> L i (H i) = H i + K i.
Proof. intros Hi. unfold L. assert (X := H_step i (S i) ltac:(lia)). field. lra. Qed.
Lemma L_right i : (i < nc)%nat -> L i (H (S i)) = H (S i) + K (S i).
Proof. intros Hi. unfold L. assert (X := H_step i (S i) ltac:(lia)). field. lra. Qed.
Lemma L_through i v : (i < nc)%nat -> L i v = v + through (H i) (K i) (H (S i)) (K (S i)) v.
Proof. intros Hi. unfold L, through. assert (X := H_step i (S i) ltac:(lia)). field. lra. Qed.

Lemma corrected_total v : exists w, phase_corrected phase v cs = Some w.
Proof.
  unfold phase_corrected. fold ph. rewrite (proj2 (increasing_sorted ph) (proj1 in_order_sorted HO)). cbn [negb].
  destruct (digitize ph v =? 0)%nat; [eexists; reflexivity|]. destruct (length cs =? 0)%nat; eexists; reflexivity.
Qed.
Lemma corrected_negative v : v < 0 -> phase_corrected phase v cs = Some v.
Proof.
  intros Hv. unfold phase_corrected. fold ph. assert (HS := proj1 in_order_sorted HO). rewrite (proj2 (increasing_sorted ph) HS). cbn [negb].
  destruct (digitize_spec ph v HS) as (A & B & _). destruct (Nat.eqb_spec (digitize ph v) 0) as [Z|Z]; [reflexivity|].
  assert (X := B 0%nat ltac:(lia)). cbn in X. lra.
Qed.
(** The interval of each value, closed at both ends. *)
Lemma corrected_on v b : (b < nc)%nat -> H b <= v -> ((S b < nc)%nat -> v <= H (S b)) -> phase_corrected phase v cs = Some (L b v).
Proof.
  intros Hb H1 H2. unfold phase_corrected. fold ph. fold corr. assert (HS := proj1 in_order_sorted HO). rewrite (proj2 (increasing_sorted ph) HS). cbn [negb].
  assert (E : length ph = S nc) by (unfold ph; cbn; rewrite map_length; reflexivity).
  destruct (digitize_spec ph v HS) as (A & B & C). set (d := digitize ph v) in *. rewrite E in *.
  assert (D : (S b <= d)%nat). { destruct (Nat.le_gt_cases (S b) d) as [X|X]; [exact X|]. assert (Y := C b ltac:(lia)). rewrite nth_ph in Y by lia. lra. }
  destruct (Nat.eqb_spec d 0) as [Z|Z]; [lia|]. fold nc. destruct (Nat.eqb_spec nc 0) as [Z'|Z']; [lia|].
  destruct (Nat.eq_dec (Nat.min (d - 1) (nc - 1)) b) as [F|F].
  - rewrite F. rewrite !nth_ph, !nth_corr by lia. reflexivity.
  - (* v is the upper end of the interval *)
    assert (S1 : (S b < nc)%nat) by lia. specialize (H2 S1).
    assert (X := B (S b) ltac:(lia)). rewrite nth_ph in X by lia. assert (EV : v = H (S b)) by lra.
    assert (D2 : d = S (S b)).
    { destruct (Nat.le_gt_cases d (S (S b))) as [Y|Y]; [lia|]. assert (W := B (S (S b)) ltac:(lia)). rewrite nth_ph in W by lia.
      assert (V := H_step (S b) (S (S b)) ltac:(lia)). lra. }
    rewrite D2. replace (Nat.min (S (S b) - 1) (nc - 1)) with (S b) by lia. rewrite !nth_ph, !nth_corr by lia.
    f_equal. fold (L (S b) v). rewrite EV. rewrite L_left, L_right by lia. reflexivity.
Qed.

(** ** Continuity *)
Definition value_at (v : R) : R := match phase_corrected phase v cs with Some w => w | None => 0 end.
Lemma cont_affine a b v : continuity_pt (fun t => a + b * t) v.
Proof.
  apply (lim_cont _ _ (0 + b * 1)). apply (derivable_pt_lim_plus (fun _ => a) (fun t => b * t)); [apply derivable_pt_lim_const|].
  apply (derivable_pt_lim_scal (fun t => t)). apply derivable_pt_lim_id.
Qed.
Lemma cont_ext f g v : (forall t, f t = g t) -> continuity_pt g v -> continuity_pt f v.
Proof. intros E C eps He. destruct (C eps He) as (d & Hd & X). exists d. split; [exact Hd|]. intros t Ht. rewrite !E. apply X. exact Ht. Qed.
Lemma L_cont i v : (i < nc)%nat -> continuity_pt (L i) v.
Proof.
  intros Hi. assert (X := H_step i (S i) ltac:(lia)). set (q := / (H (S i) - H i)).
  apply (cont_ext _ (fun t => (K i - q * H i * (K (S i) - K i)) + (1 + q * (K (S i) - K i)) * t)); [|apply cont_affine].
  intros t. unfold L, Rdiv. fold q. ring.
Qed.
(** In which interval a value is. *)
Lemma interval_exists v : 0 < v -> (0 < nc)%nat -> exists b, (b < nc)%nat /\ H b < v /\ ((S b < nc)%nat -> v <= H (S b)).
Proof.
  intros Hv Hn. assert (G : forall m, (0 < m <= nc)%nat -> (exists b, (b < m)%nat /\ H b < v /\ ((S b < m)%nat -> v <= H (S b)))).
  { induction m as [|m IH]; intros Hm; [lia|]. destruct m as [|m].
    - exists 0%nat. split; [lia|]. split; [exact Hv | intros; lia].
    - destruct (IH ltac:(lia)) as (b & B1 & B2 & B3). destruct (Nat.eq_dec (S b) (S m)) as [E|E].
      + destruct (Rle_dec v (H (S b))) as [C|C].
        * exists b. split; [lia|]. split; [exact B2 | intros _; exact C].
        * exists (S b). split; [lia|]. split; [lra | intros; lia].
      + exists b. split; [lia|]. split; [exact B2|]. intros _. apply B3. lia. }
  apply G. lia.
Qed.
Lemma value_cont v : continuity_pt value_at v.
Proof.
  destruct (Nat.eq_dec nc 0) as [Z|Z].
  - apply (cont_ext _ (fun t => 0 + 1 * t)); [|apply cont_affine]. intros t. unfold value_at, phase_corrected. fold nc. rewrite Z. cbn [Nat.eqb].
    fold ph. rewrite (proj2 (increasing_sorted ph) (proj1 in_order_sorted HO)). cbn [negb]. destruct (digitize ph t =? 0)%nat; ring.
  - assert (V : forall t b, (b < nc)%nat -> H b <= t -> ((S b < nc)%nat -> t <= H (S b)) -> value_at t = L b t)
      by (intros t b B1 B2 B3; unfold value_at; rewrite (corrected_on t b B1 B2 B3); reflexivity).
    assert (N : forall t, t < 0 -> value_at t = 0 + 1 * t) by (intros t Ht; unfold value_at; rewrite (corrected_negative t Ht); ring).
    assert (N0 : value_at 0 = 0).
    { rewrite (V 0 0%nat) by (cbn; try lia; try lra; intros; apply Rlt_le; apply (H_step 0 1); lia). change 0 with (H 0) at 1. rewrite L_left by lia. cbn. ring. }
    destruct (Rlt_dec 0 v) as [P|P].
    + destruct (interval_exists v P ltac:(lia)) as (b & B1 & B2 & B3).
      destruct (Nat.eq_dec (S b) nc) as [E|E].
      * apply (glue_continuous _ (L b) (L b) v (v - H b)); [lra | | | reflexivity | apply L_cont; exact B1 | apply L_cont; exact B1];
          intros t Ht; apply V; (lia || lra || (intros; lra) || (intros; lia)).
      * specialize (B3 ltac:(lia)). destruct (Rlt_dec v (H (S b))) as [Q|Q].
        -- apply (glue_continuous _ (L b) (L b) v (Rmin (v - H b) (H (S b) - v))).
           ++ apply Rmin_pos; lra.
           ++ assert (X := Rmin_l (v - H b) (H (S b) - v)). intros t Ht. apply V; (lia || lra || (intros; lra) || (intros; lia)).
           ++ assert (X := Rmin_r (v - H b) (H (S b) - v)). intros t Ht. apply V; (lia || lra || (intros; lra) || (intros; lia)).
           ++ reflexivity.
           ++ apply L_cont; exact B1.
           ++ apply L_cont; exact B1.
        -- assert (EV : v = H (S b)) by lra.
           destruct (Nat.eq_dec (S (S b)) nc) as [F|F].
           ++ apply (glue_continuous _ (L b) (L (S b)) v (v - H b)); [lra | | | | apply L_cont; lia | apply L_cont; lia].
              ** intros t Ht. apply V; (lia || lra || (intros; lra) || (intros; lia)).
              ** intros t Ht. apply V; (lia || lra || (intros; lra) || (intros; lia)).
              ** rewrite EV, L_left, L_right by lia. reflexivity.
           ++ assert (Y := H_step (S b) (S (S b)) ltac:(lia)).
              apply (glue_continuous _ (L b) (L (S b)) v (Rmin (v - H b) (H (S (S b)) - v))).
              ** apply Rmin_pos; lra.
              ** assert (X := Rmin_l (v - H b) (H (S (S b)) - v)). intros t Ht. apply V; (lia || lra || (intros; lra) || (intros; lia)).
              ** assert (X := Rmin_r (v - H b) (H (S (S b)) - v)). intros t Ht. apply V; (lia || lra || (intros; lra) || (intros; lia)).
              ** rewrite EV, L_left, L_right by lia. reflexivity.
              ** apply L_cont; lia.
              ** apply L_cont; lia.
    + destruct (Req_dec v 0) as [E|E].
      * rewrite E. assert (Y := H_step 0 1 ltac:(lia)). cbn [H] in Y.
        apply (glue_continuous _ (fun t => 0 + 1 * t) (L 0) 0 (line cs 0)).
        -- exact Y.
        -- intros t Ht. destruct (Req_dec t 0) as [F|F]; [rewrite F, N0; ring | apply N; lra].
        -- intros t Ht. apply V; cbn; (lia || lra || (intros; lra) || (intros; lia)).
        -- assert (X := L_left 0 ltac:(lia)). cbn in X. rewrite X. ring.
        -- apply cont_affine.
        -- apply L_cont. lia.
      * apply (glue_continuous _ (fun t => 0 + 1 * t) (fun t => 0 + 1 * t) v (- v)); [lra | | | reflexivity | apply cont_affine | apply cont_affine];
          intros t Ht; apply N; lra.
Qed.
End One.

(** The assertion. *)
Lemma corrected_refused phase v cs : ~ lines_in_order cs -> phase_corrected phase v cs = None.
Proof.
  intros N. unfold phase_corrected. destruct (increasing (0 :: map (fun c => c 0) cs)) eqn:E; [|reflexivity].
  exfalso. apply N. apply in_order_sorted. apply increasing_sorted. exact E.
Qed.

(** * Saving *)

Lemma key_eqb_eq a b : key_eqb a b = true <-> a = b.
Proof.
  destruct a, b; cbn; split; intros E; try discriminate; try reflexivity; try (apply Nat.eqb_eq in E; subst; reflexivity); injection E as ->; apply Nat.eqb_refl.
Qed.
Lemma key_eqb_refl a : key_eqb a a = true. Proof. apply key_eqb_eq. reflexivity. Qed.
Lemma get_del g k k' : get (del g k) k' = if key_eqb k k' then None else get g k'.
Proof.
  induction g as [|(a, v) g IH]; cbn; [destruct (key_eqb k k'); reflexivity|].
  destruct (key_eqb a k) eqn:E; cbn.
  - apply key_eqb_eq in E. subst a. unfold del in IH. rewrite IH. destruct (key_eqb k k'); reflexivity.
  - destruct (key_eqb a k') eqn:F; [|exact IH]. apply key_eqb_eq in F. subst a. destruct (key_eqb k k') eqn:G; [|reflexivity].
    apply key_eqb_eq in G. subst k. rewrite key_eqb_refl in E. discriminate.
Qed.
Lemma update_true g k v : exists g', update true g k v = Some g' /\ forall k', get g' k' = if key_eqb k k' then Some v else get g k'.
Proof.
  unfold update. destruct (get g k) eqn:E; eexists; (split; [reflexivity|]); intros k'; cbn; destruct (key_eqb k k') eqn:F; try reflexivity.
  rewrite get_del, F. reflexivity.
Qed.
(** Values after a series of updates. *)
Fixpoint last_of (l : list (key * value)) (k : key) : option value :=
  match l with [] => None | (k', v) :: t => match last_of t k with Some w => Some w | None => if key_eqb k' k then Some v else None end end.
Lemma updates_true g l : exists g', updates true g l = (g', true) /\ forall k, get g' k = match last_of l k with Some v => Some v | None => get g k end.
Proof.
  revert g. induction l as [|(k, v) l IH]; intros g; cbn; [exists g; split; reflexivity|].
  destruct (update_true g k v) as (g1 & -> & E1). destruct (IH g1) as (g2 & -> & E2). exists g2. split; [reflexivity|].
  intros k'. rewrite E2, E1. destruct (last_of l k'); [reflexivity|]. destruct (key_eqb k k'); reflexivity.
Qed.
Lemma last_of_app l l' k : last_of (l ++ l') k = match last_of l' k with Some v => Some v | None => last_of l k end.
Proof.
  induction l as [|(a, v) l IH]; cbn; [destruct (last_of l' k); reflexivity|]. rewrite IH. destruct (last_of l' k); reflexivity.
Qed.
Lemma last_items cs i k : last_of (correction_items i cs) k =
  match k with
  | Cx j => if (j <? i)%nat then None else option_map (fun c => Vec (kx c)) (nth_error cs (j - i))
  | Cy j => if (j <? i)%nat then None else option_map (fun c => Vec (ky c)) (nth_error cs (j - i))
  | _ => None
  end.
Proof.
  revert i. induction cs as [|c cs IH]; intros i; cbn [correction_items last_of].
  - destruct k as [| | | | |j|j]; try reflexivity; destruct (j <? i)%nat; try reflexivity; destruct (j - i)%nat; reflexivity.
  - rewrite IH. destruct k as [| | | | |j|j]; cbn [key_eqb]; try reflexivity.
    + destruct (Nat.ltb_spec j (S i)) as [A|A]; destruct (Nat.ltb_spec j i) as [B|B]; try lia.
      * rewrite (proj2 (Nat.eqb_neq _ _)) by lia. reflexivity.
      * assert (j = i) by lia. subst j. rewrite Nat.eqb_refl, Nat.sub_diag. reflexivity.
      * replace (j - i)%nat with (S (j - S i)) by lia. cbn [nth_error]. destruct (option_map _ _); [reflexivity|].
        rewrite (proj2 (Nat.eqb_neq _ _)) by lia. reflexivity.
    + destruct (Nat.ltb_spec j (S i)) as [A|A]; destruct (Nat.ltb_spec j i) as [B|B]; try lia.
      * rewrite (proj2 (Nat.eqb_neq _ _)) by lia. reflexivity.
      * assert (j = i) by lia. subst j. rewrite Nat.eqb_refl, Nat.sub_diag. reflexivity.
      * replace (j - i)%nat with (S (j - S i)) by lia. cbn [nth_error]. destruct (option_map _ _); [reflexivity|].
        rewrite (proj2 (Nat.eqb_neq _ _)) by lia. reflexivity.
Qed.

Lemma saved c g : exists g', to_hdf5 c g true = (g', true) /\
  get g' Ux = Some (Vec (unif_x c)) /\ get g' Uy = Some (Vec (unif_y c)) /\ get g' Unc = Some (Txt (uncorrected c)) /\
  get g' Ind = Some (Txt (indicator c)) /\ get g' Ver = Some (Num 1) /\
  (forall j, get g' (Cx j) = match nth_error (corrs c) j with Some s => Some (Vec (kx s)) | None => get g (Cx j) end) /\
  (forall j, get g' (Cy j) = match nth_error (corrs c) j with Some s => Some (Vec (ky s)) | None => get g (Cy j) end).
Proof.
  unfold to_hdf5. destruct (updates_true g ([(Ux, Vec (unif_x c)); (Uy, Vec (unif_y c)); (Unc, Txt (uncorrected c)); (Ind, Txt (indicator c)); (Ver, Num 1)] ++ correction_items 0 (corrs c)))
    as (g' & E & F). exists g'. split; [exact E|].
  assert (G : forall k, get g' k = match last_of (correction_items 0 (corrs c)) k with Some v => Some v | None =>
     match last_of [(Ux, Vec (unif_x c)); (Uy, Vec (unif_y c)); (Unc, Txt (uncorrected c)); (Ind, Txt (indicator c)); (Ver, Num 1)] k with Some v => Some v | None => get g k end end).
  { intros k. rewrite F, last_of_app. destruct (last_of (correction_items 0 (corrs c)) k); reflexivity. }
  repeat (split; [rewrite G, last_items; reflexivity|]). split; intros j; rewrite G, last_items; cbn [Nat.ltb Nat.leb]; rewrite Nat.sub_0_r; destruct (nth_error (corrs c) j); reflexivity.
Qed.

(** Reading back a list of natural splines stored under consecutive names. *)
Definition natural (s : spline) : Prop := exists xs ys, NoDup xs /\ make_spline xs ys None None = Some s.
Lemma natural_remake s : natural s -> make_spline (kx s) (ky s) None None = Some s.
Proof.
  intros (xs & ys & HD & HM). destruct (made xs ys None None s HM HD) as (O & HL & B). set (l := sort_pairs (combine xs ys)) in *.
  set (M := M_of (px l) (py l) (length l) None None) in *.
  assert (Ex := b_x _ _ _ _ _ B). assert (Ey := b_y _ _ _ _ _ B). assert (H2 := b_len _ _ _ _ _ B). assert (HS := b_sorted _ _ _ _ _ B).
  destruct (built_make (kx s) (ky s) None None) as (s' & E & O' & HL' & B').
  - rewrite Ex, Ey, !map_length. lia.
  - rewrite Ex, map_length. exact H2.
  - rewrite Ex. apply sorted_nodup. exact HS.
  - assert (El : sort_pairs (combine (kx s) (ky s)) = l).
    { rewrite Ex, Ey, combine_map_fst_snd. apply sorted_unique; [|exact HS | apply Permutation_sym, sort_pairs_perm].
      apply sort_pairs_sorted, sorted_nodup. exact HS. }
    rewrite El in *. fold M in B'. rewrite E. f_equal.
    assert (A1 : kx s' = kx s) by (rewrite (b_x _ _ _ _ _ B'); symmetry; exact Ex).
    assert (A2 : ky s' = ky s) by (rewrite (b_y _ _ _ _ _ B'); symmetry; exact Ey).
    assert (A3 : ky2 s' = ky2 s).
    { apply list_eq_nth; [rewrite (b_m2 _ _ _ _ _ B), (b_m2 _ _ _ _ _ B'); reflexivity|]. intros i Hi. rewrite (b_m2 _ _ _ _ _ B') in Hi.
      rewrite (b_m _ _ _ _ _ B), (b_m _ _ _ _ _ B') by exact Hi. reflexivity. }
    assert (A4 := b_s1 _ _ _ _ _ B'). rewrite <- (b_s1 _ _ _ _ _ B) in A4. assert (A5 := b_sN _ _ _ _ _ B'). cbv zeta in A5. rewrite <- (b_sN _ _ _ _ _ B) in A5.
    assert (A6 := b_xs _ _ _ _ _ B'). assert (A7 := b_ys _ _ _ _ _ B'). rewrite A1 in A6. rewrite A2 in A7. rewrite <- (b_xs _ _ _ _ _ B) in A6. rewrite <- (b_ys _ _ _ _ _ B) in A7.
    clear - A1 A2 A3 A4 A5 A6 A7. destruct s, s'. cbn in *. subst. reflexivity.
Qed.
Lemma read_list g cs i fuel : (length cs < fuel)%nat -> Forall natural cs ->
  (forall j s, nth_error cs j = Some s -> get g (Cx (i + j)) = Some (Vec (kx s)) /\ get g (Cy (i + j)) = Some (Vec (ky s))) ->
  get g (Cx (i + length cs)) = None -> read_corrections g i fuel = Some cs.
Proof.
  revert i fuel. induction cs as [|s cs IH]; intros i [|fuel] Hf HN HG HE; cbn [length] in *; try lia; cbn [read_corrections].
  - rewrite Nat.add_0_r in HE. rewrite HE. reflexivity.
  - destruct (HG 0%nat s eq_refl) as (A & B). rewrite Nat.add_0_r in A, B. rewrite A, B. rewrite (natural_remake s (Forall_inv HN)).
    rewrite (IH (S i) fuel); [reflexivity | lia | exact (Forall_inv_tail HN) | |].
    + intros j t Hj. assert (C := HG (S j) t Hj). replace (S i + j)%nat with (i + S j)%nat by lia. exact C.
    + replace (S i + length cs)%nat with (i + S (length cs))%nat by lia. exact HE.
Qed.
(** A group holds at least as many entries as consecutive names. *)
Lemma get_in g k v : get g k = Some v -> In k (map fst g).
Proof.
  induction g as [|(a, w) g IH]; cbn; [discriminate|]. destruct (key_eqb a k) eqn:E; [|intros X; right; apply IH; exact X].
  intros _. left. apply key_eqb_eq. exact E.
Qed.
Lemma names_bound g n : (forall j, (j < n)%nat -> get g (Cx j) <> None) -> (n <= length g)%nat.
Proof.
  intros H. rewrite <- (map_length fst g).
  replace n with (length (map Cx (seq 0 n))) by (rewrite map_length, seq_length; reflexivity).
  apply NoDup_incl_length.
  - apply FinFun.Injective_map_NoDup; [intros a b E; injection E as ->; reflexivity | apply seq_NoDup].
  - intros k Hk. apply in_map_iff in Hk. destruct Hk as (j & <- & Hj). apply in_seq in Hj. destruct (get g (Cx j)) eqn:E; [exact (get_in _ _ _ E)|].
    exfalso. apply (H j); [lia | exact E].
Qed.

(** What a group holds for loading. *)
Definition holds (g : group) (c : corrector) (cs : list spline) : Prop :=
  get g Ux = Some (Vec (unif_x c)) /\ get g Uy = Some (Vec (unif_y c)) /\ get g Unc = Some (Txt (uncorrected c)) /\
  get g Ind = Some (Txt (indicator c)) /\ get g Ver = Some (Num 1) /\
  (forall j s, nth_error cs j = Some s -> get g (Cx j) = Some (Vec (kx s)) /\ get g (Cy j) = Some (Vec (ky s))) /\
  (forall j, (length cs <= j)%nat -> get g (Cx j) = None).
Lemma holds_load g c cs : holds g c cs -> Forall natural cs -> from_hdf5 g = make_corrector (unif_x c) (unif_y c) cs (indicator c) (uncorrected c).
Proof.
  intros (A & B & C & D & E & F & G) HN. unfold from_hdf5. rewrite A, B, C, D, E.
  rewrite (read_list g cs 0 (S (length g))); [reflexivity | | exact HN | exact F |].
  - assert (X : (length cs <= length g)%nat); [|lia]. apply names_bound. intros j Hj K.
    destruct (nth_error cs j) as [s|] eqn:N; [destruct (F j s N); congruence | apply nth_error_None in N; lia].
  - apply G. cbn. lia.
Qed.

Definition well_made (c : corrector) : Prop :=
  make_corrector (unif_x c) (unif_y c) (corrs c) (indicator c) (uncorrected c) = Some c /\ Forall natural (corrs c).
Fixpoint save_all (hist : list corrector) (g : group) : group :=
  match hist with [] => g | c :: t => save_all t (fst (to_hdf5 c g true)) end.

Lemma overlay_app (A : Type) (h : list (list A)) (l : list A) : overlay (h ++ [l]) = l ++ skipn (length l) (overlay h).
Proof.
  induction h as [|a h IH]; cbn.
  - rewrite !skipn_nil, !app_nil_r. reflexivity.
  - rewrite IH. rewrite <- app_assoc. f_equal. rewrite app_length. rewrite skipn_app.
    assert (E : forall (u w : list A) n, skipn (n + length u) w = skipn (length u) (skipn n w)).
    { intros u w n. revert w. induction n as [|n IHn]; intros w; [reflexivity|]. destruct w as [|x w]; [rewrite !skipn_nil; reflexivity|]. cbn. apply IHn. }
    set (o := overlay h). clear IH. clearbody o.
    destruct (Nat.le_gt_cases (length l) (length o)) as [C|C].
    + replace (length l + length (skipn (length l) o))%nat with (length o) by (rewrite skipn_length; lia).
      replace (length l - length o)%nat with 0%nat by lia. reflexivity.
    + replace (length (skipn (length l) o)) with 0%nat by (rewrite skipn_length; lia). rewrite Nat.add_0_r.
      assert (Z : skipn (length l) o = []) by (apply skipn_all2; lia). rewrite Z. cbn.
      replace (length l) with (length o + (length l - length o))%nat at 1 by lia.
      assert (Q : forall (w : list A) n m, skipn (n + m) w = skipn m (skipn n w)).
      { intros w n m. revert w. induction n as [|n IHn]; intros w; [reflexivity|]. destruct w as [|x w]; [rewrite !skipn_nil; reflexivity|]. cbn. apply IHn. }
      apply Q.
Qed.
Lemma save_all_app h c g : save_all (h ++ [c]) g = fst (to_hdf5 c (save_all h g) true).
Proof. revert g. induction h as [|a h IH]; intros g; [reflexivity|]. cbn. apply IH. Qed.
Lemma nth_error_overlay (A : Type) (l o : list A) j : nth_error (l ++ skipn (length l) o) j = match nth_error l j with Some s => Some s | None => nth_error o j end.
Proof.
  destruct (nth_error l j) as [s|] eqn:E.
  - rewrite nth_error_app1; [exact E|]. apply nth_error_Some. congruence.
  - apply nth_error_None in E. rewrite nth_error_app2 by exact E.
    assert (X : forall (w : list A) n k, nth_error (skipn n w) k = nth_error w (n + k)).
    { intros w n k. revert w. induction n as [|n IHn]; intros w; [reflexivity|]. destruct w as [|x w]; [destruct k; reflexivity|]. cbn. apply IHn. }
    rewrite X. f_equal. lia.
Qed.
Lemma save_all_holds hist c : holds (save_all (hist ++ [c]) []) c (overlay (map corrs (hist ++ [c]))).
Proof.
  assert (Gen : forall h, (forall j, get (save_all h []) (Cx j) = option_map (fun s => Vec (kx s)) (nth_error (overlay (map corrs h)) j)) /\
                          (forall j, get (save_all h []) (Cy j) = option_map (fun s => Vec (ky s)) (nth_error (overlay (map corrs h)) j))).
  { intros h. induction h as [|a h IH] using rev_ind; [split; intros [|j]; reflexivity|].
    rewrite save_all_app, map_app. cbn [map]. rewrite overlay_app. destruct IH as (I1 & I2).
    destruct (saved a (save_all h [])) as (g' & E & _ & _ & _ & _ & _ & F & G). rewrite E. cbn [fst]. split; intros j.
    - rewrite F, nth_error_overlay, I1. destruct (nth_error (corrs a) j); reflexivity.
    - rewrite G, nth_error_overlay, I2. destruct (nth_error (corrs a) j); reflexivity. }
  assert (GG := Gen (hist ++ [c])). destruct GG as (G1 & G2).
  rewrite save_all_app in *. destruct (saved c (save_all hist [])) as (g' & E & A1 & A2 & A3 & A4 & A5 & _). rewrite E in *. cbn [fst] in *.
  repeat (split; [assumption|]). split.
  - intros j s Hj. rewrite G1, G2, Hj. split; reflexivity.
  - intros j Hj. rewrite G1. apply nth_error_None in Hj. rewrite Hj. reflexivity.
Qed.
Lemma overlay_natural h : Forall (fun c => Forall natural (corrs c)) h -> Forall natural (overlay (map corrs h)).
Proof.
  intros H. induction H as [|c h Hc _ IH]; cbn; [constructor|]. apply Forall_app. split; [exact IH|].
  rewrite Forall_forall in *. intros s Hs. apply Hc.
  assert (X : forall (w : list spline) n, incl (skipn n w) w).
  { intros w n. revert w. induction n as [|n IHn]; intros [|x w] y Hy; cbn in *; try contradiction; try exact Hy. right. apply IHn. exact Hy. }
  apply X in Hs. exact Hs.
Qed.
