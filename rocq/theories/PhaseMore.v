(** The phase correction as a function of height and phase. *)
From Coq Require Import String Reals ZArith Bool Lra Lia Permutation Sorted List.
From Verif Require Import EntModel SplModel SplSpec SplProofs SplEval SplMore PhaseModel PhaseSpec PhaseProofs.
Import ListNotations.
Local Open Scope R_scope.

Section Moving.
Variables (cs : list (R -> R)) (p : R -> R).
Hypothesis HO : lines_in_order cs.
Hypothesis Hp : continuity p.
Hypothesis Hc : Forall continuity cs.
Let nc := length cs.

Lemma cont_const (a : R) v : continuity_pt (fun _ => a) v.
Proof. apply (lim_cont _ _ 0). apply derivable_pt_lim_const. Qed.
Lemma cont_id v : continuity_pt (fun t => t) v.
Proof. apply (lim_cont _ _ 1). apply derivable_pt_lim_id. Qed.
Lemma K_cont i v : (i <= nc)%nat -> continuity_pt (fun t => K (p t) cs i) v.
Proof.
  intros Hi. destruct i as [|i]; [exact (cont_const 0 v)|]. cbn [K]. unfold shift.
  apply (continuity_pt_minus (fun _ => nth i cs (fun _ => 0) 0) (fun t => nth i cs (fun _ => 0) (p t))); [apply cont_const|].
  apply (continuity_pt_comp p (nth i cs (fun _ => 0))); [apply Hp|]. rewrite Forall_forall in Hc. apply Hc. apply nth_In. exact Hi.
Qed.
Lemma L_cont_moving i v : (i < nc)%nat -> continuity_pt (fun t => L (p t) cs i t) v.
Proof.
  intros Hi. unfold L. set (q := / (H cs (S i) - H cs i)).
  assert (W : continuity_pt (fun t => (t - H cs i) / (H cs (S i) - H cs i)) v).
  { apply (cont_ext _ (fun t => (- (H cs i * q)) + q * t)); [intros t; unfold Rdiv; fold q; ring | apply cont_affine]. }
  apply (continuity_pt_plus (fun t => t)); [apply cont_id|].
  apply (continuity_pt_plus (fun t => (t - H cs i) / (H cs (S i) - H cs i) * K (p t) cs (S i)) (fun t => (1 - (t - H cs i) / (H cs (S i) - H cs i)) * K (p t) cs i)).
  - apply (continuity_pt_mult (fun t => (t - H cs i) / (H cs (S i) - H cs i)) (fun t => K (p t) cs (S i))); [exact W | apply K_cont; lia].
  - apply (continuity_pt_mult (fun t => 1 - (t - H cs i) / (H cs (S i) - H cs i)) (fun t => K (p t) cs i)); [|apply K_cont; lia].
    apply (continuity_pt_minus (fun _ => 1) (fun t => (t - H cs i) / (H cs (S i) - H cs i))); [apply cont_const | exact W].
Qed.
Lemma value_cont_moving : continuity (fun v => value_at (p v) cs v).
Proof.
  intros v. destruct (Nat.eq_dec nc 0) as [Z|Z].
  - apply (cont_ext _ (fun t => 0 + 1 * t)); [|apply cont_affine]. intros t. destruct (corrected_total (p t) cs HO t) as (w & E).
    unfold value_at. rewrite E. unfold phase_corrected in E. fold nc in E. rewrite Z in E. cbn [Nat.eqb] in E.
    destruct (negb _); [discriminate|]. destruct (_ =? 0)%nat; apply some_inj in E; rewrite <- E; ring.
  - assert (V : forall t b, (b < nc)%nat -> H cs b <= t -> ((S b < nc)%nat -> t <= H cs (S b)) -> value_at (p t) cs t = L (p t) cs b t)
      by (intros t b B1 B2 B3; unfold value_at; rewrite (corrected_on (p t) cs HO t b B1 B2 B3); reflexivity).
    assert (N : forall t, t < 0 -> value_at (p t) cs t = 0 + 1 * t) by (intros t Ht; unfold value_at; rewrite (corrected_negative (p t) cs HO t Ht); ring).
    assert (N0 : value_at (p 0) cs 0 = 0).
    { rewrite (V 0 0%nat) by (cbn; try lia; try lra; intros; apply Rlt_le; apply (H_step cs HO 0 1); fold nc; lia).
      assert (X := L_left (p 0) cs HO 0 ltac:(fold nc; lia)). cbn [H] in X. rewrite X. cbn. ring. }
    assert (HS := H_step cs HO). fold nc in HS.
    assert (LL : forall t i, (i < nc)%nat -> L t cs i (H cs i) = H cs i + K t cs i) by (intros t i Hi; apply (L_left t cs HO i Hi)).
    assert (LR : forall t i, (i < nc)%nat -> L t cs i (H cs (S i)) = H cs (S i) + K t cs (S i)) by (intros t i Hi; apply (L_right t cs HO i Hi)).
    destruct (Rlt_dec 0 v) as [P|P].
    + destruct (interval_exists cs v P ltac:(fold nc; lia)) as (b & B1 & B2 & B3). fold nc in B1, B3.
      destruct (Nat.eq_dec (S b) nc) as [E|E].
      * apply (glue_continuous _ (fun t => L (p t) cs b t) (fun t => L (p t) cs b t) v (v - H cs b)); [lra | | | reflexivity | apply L_cont_moving; exact B1 | apply L_cont_moving; exact B1];
          intros t Ht; apply V; (lia || lra || (intros; lra) || (intros; lia)).
      * specialize (B3 ltac:(lia)). destruct (Rlt_dec v (H cs (S b))) as [Q|Q].
        -- apply (glue_continuous _ (fun t => L (p t) cs b t) (fun t => L (p t) cs b t) v (Rmin (v - H cs b) (H cs (S b) - v))).
           ++ apply Rmin_pos; lra.
           ++ assert (X := Rmin_l (v - H cs b) (H cs (S b) - v)). intros t Ht. apply V; (lia || lra || (intros; lra) || (intros; lia)).
           ++ assert (X := Rmin_r (v - H cs b) (H cs (S b) - v)). intros t Ht. apply V; (lia || lra || (intros; lra) || (intros; lia)).
           ++ reflexivity.
           ++ apply L_cont_moving; exact B1.
           ++ apply L_cont_moving; exact B1.
        -- assert (EV : v = H cs (S b)) by lra.
           destruct (Nat.eq_dec (S (S b)) nc) as [F|F].
           ++ apply (glue_continuous _ (fun t => L (p t) cs b t) (fun t => L (p t) cs (S b) t) v (v - H cs b)); [lra | | | | apply L_cont_moving; lia | apply L_cont_moving; lia].
              ** intros t Ht. apply V; (lia || lra || (intros; lra) || (intros; lia)).
              ** intros t Ht. apply V; (lia || lra || (intros; lra) || (intros; lia)).
              ** rewrite EV, LL, LR by lia. reflexivity.
           ++ assert (Y := HS (S b) (S (S b)) ltac:(lia)).
              apply (glue_continuous _ (fun t => L (p t) cs b t) (fun t => L (p t) cs (S b) t) v (Rmin (v - H cs b) (H cs (S (S b)) - v))).
              ** apply Rmin_pos; lra.
              ** assert (X := Rmin_l (v - H cs b) (H cs (S (S b)) - v)). intros t Ht. apply V; (lia || lra || (intros; lra) || (intros; lia)).
              ** assert (X := Rmin_r (v - H cs b) (H cs (S (S b)) - v)). intros t Ht. apply V; (lia || lra || (intros; lra) || (intros; lia)).
              ** rewrite EV, LL, LR by lia. reflexivity.
              ** apply L_cont_moving; lia.
              ** apply L_cont_moving; lia.
    + destruct (Req_dec v 0) as [E|E].
      * rewrite E. assert (Y := HS 0%nat 1%nat ltac:(lia)). cbn [H] in Y.
        apply (glue_continuous _ (fun t => 0 + 1 * t) (fun t => L (p t) cs 0 t) 0 (line cs 0)).
        -- exact Y.
        -- intros t Ht. destruct (Req_dec t 0) as [F|F]; [rewrite F, N0; ring | apply N; lra].
        -- intros t Ht. apply V; cbn; (lia || lra || (intros; lra) || (intros; lia)).
        -- assert (X := LL (p 0) 0%nat ltac:(lia)). cbn in X. rewrite X. ring.
        -- apply cont_affine.
        -- apply L_cont_moving. lia.
      * apply (glue_continuous _ (fun t => 0 + 1 * t) (fun t => 0 + 1 * t) v (- v)); [lra | | | reflexivity | apply cont_affine | apply cont_affine];
          intros t Ht; apply N; lra.
Qed.
End Moving.

(** As a function of the phase. *)
Lemma value_cont_phase cs v : lines_in_order cs -> Forall continuity cs -> continuity (fun phase => value_at phase cs v).
Proof.
  intros HO Hc phase.
  destruct (Rlt_dec 0 v) as [P|P].
  - destruct (Nat.eq_dec (length cs) 0) as [Z|Z].
    + apply (cont_ext _ (fun _ => v)); [|apply cont_const]. intros t. destruct (corrected_total t cs HO v) as (w & E). unfold value_at. rewrite E.
      unfold phase_corrected in E. rewrite Z in E. cbn [Nat.eqb] in E. destruct (negb _); [discriminate|]. destruct (_ =? 0)%nat; apply some_inj in E; rewrite <- E; reflexivity.
    + destruct (interval_exists cs v P ltac:(lia)) as (b & B1 & B2 & B3).
      apply (cont_ext _ (fun t => L t cs b v)); [intros t; unfold value_at; rewrite (corrected_on t cs HO v b B1) by (lra || exact B3); reflexivity|].
      unfold L. apply (continuity_pt_plus (fun _ => v)); [apply cont_const|].
      apply (continuity_pt_plus (fun t => (v - H cs b) / (H cs (S b) - H cs b) * K t cs (S b)) (fun t => (1 - (v - H cs b) / (H cs (S b) - H cs b)) * K t cs b)).
      * apply (continuity_pt_mult (fun _ => (v - H cs b) / (H cs (S b) - H cs b)) (fun t => K t cs (S b))); [apply cont_const|].
        apply (K_cont cs (fun t => t) cont_id Hc); lia.
      * apply (continuity_pt_mult (fun _ => 1 - (v - H cs b) / (H cs (S b) - H cs b)) (fun t => K t cs b)); [apply cont_const|].
        apply (K_cont cs (fun t => t) cont_id Hc); lia.
  - apply (cont_ext _ (fun _ => v)); [|apply cont_const]. intros t. unfold value_at. destruct (Req_dec v 0) as [E|E].
    + destruct (Nat.eq_dec (length cs) 0) as [Z|Z].
      * destruct (corrected_total t cs HO v) as (w & F). rewrite F. unfold phase_corrected in F. rewrite Z in F. cbn [Nat.eqb] in F.
        destruct (negb _); [discriminate|]. destruct (_ =? 0)%nat; apply some_inj in F; rewrite <- F; reflexivity.
      * rewrite (corrected_on t cs HO v 0) by (cbn; try lia; try lra; intros; rewrite E; apply Rlt_le; apply (proj1 HO); lia).
        assert (X := L_left t cs HO 0 ltac:(lia)). cbn in X. rewrite E, X. ring.
    + rewrite (corrected_negative t cs HO v) by lra. reflexivity.
Qed.

(** [clip] *)
Lemma clip_lipschitz lo hi a b : lo <= hi -> Rabs (clip lo hi a - clip lo hi b) <= Rabs (a - b).
Proof.
  intros Hl. unfold clip, rltb. destruct (Rlt_dec a lo), (Rlt_dec b lo), (Rlt_dec hi a), (Rlt_dec hi b);
    unfold Rabs; repeat destruct (Rcase_abs _); lra.
Qed.
Lemma clip_cont lo hi : lo <= hi -> continuity (clip lo hi).
Proof.
  intros Hl v eps He. exists eps. split; [exact He|]. intros t (_ & Hd). cbn in *. unfold R_dist in *.
  eapply Rle_lt_trans; [apply clip_lipschitz; exact Hl | exact Hd].
Qed.
Lemma clip_range lo hi v : lo <= hi -> lo <= clip lo hi v <= hi.
Proof. intros Hl. unfold clip, rltb. destruct (Rlt_dec v lo), (Rlt_dec hi v); lra. Qed.

(** * Vectors *)
Lemma all_some_map (A : Type) (f : A -> option R) (l : list A) : (forall a, In a l -> exists w, f a = Some w) ->
  exists out, all_some (map f l) = Some out /\ length out = length l /\ forall i d, (i < length l)%nat -> f (nth i l d) = Some (nth i out 0).
Proof.
  induction l as [|a l IH]; intros HA.
  - exists []. repeat split. intros i d Hi. cbn in Hi. lia.
  - destruct (HA a (or_introl eq_refl)) as (w & E). destruct (IH (fun b Hb => HA b (or_intror Hb))) as (out & E1 & E2 & E3).
    exists (w :: out). cbn. rewrite E, E1. repeat split; [cbn; lia|]. intros [|i] d Hi; cbn; [exact E | apply E3; lia].
Qed.
Lemma combine_nth2 (a b : list R) i : length a = length b -> nth i (combine a b) (0, 0) = (nth i a 0, nth i b 0).
Proof. apply combine_nth. Qed.
