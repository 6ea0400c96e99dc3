(** Proofs about groups of noise files. *)
From Coq Require Import ZArith Bool QArith QArith.Qcanon Lia List.
From Verif Require Import LjhModel TgModel TgProofs TnModel.
Import ListNotations.
Open Scope Z_scope.

Lemma add_noise_some g f g' : add_noise g f = Some g' ->
  chans g' = chans g ++ [(f, None)] /\ shape g' = p_shape f /\ (nseg g <> 0 -> shape g = p_shape f) /\
  nseg g' = (if nseg g =? 0 then Z.max 0 (p_nseg f) else Z.max (nseg g) (p_nseg f)) /\
  h5 g' = zset (h5 g) (p_chan f) (mkA (p_path f) (p_npulses f) None).
Proof.
  unfold add_noise. destruct (match zget _ _ with Some _ => _ | None => _ end); [|discriminate]. cbv zeta.
  destruct (Z.eqb_spec (nseg g) 0) as [Z|Z].
  - intros H. injection H as <-. cbn. repeat split; auto. intros; contradiction.
  - destruct (shape_eqb _ _) eqn:S; [|discriminate]. apply shape_eqb_eq in S.
    intros H. injection H as <-. cbn. repeat split; auto.
Qed.

Lemma add_noises_chans l : forall g g', add_noises g l = Some g' -> chans g' = chans g ++ map (fun f => (f, None)) l.
Proof.
  induction l as [|f t IH]; intros g g' H; cbn [add_noises] in H.
  - injection H as <-. now rewrite app_nil_r.
  - destruct (add_noise g f) as [g1|] eqn:A; [|discriminate]. apply add_noise_some in A. destruct A as (C & _).
    rewrite (IH _ _ H), C, <- app_assoc. reflexivity.
Qed.

Lemma add_noises_shape l : forall g g', (forall f, In f l -> 0 < p_nseg f) -> 0 <= nseg g ->
  add_noises g l = Some g' -> forall f, In f l -> p_shape f = shape g' /\ (0 < nseg g -> shape g = shape g').
Proof.
  induction l as [|f t IH]; intros g g' P S H x I; [destruct I|]. cbn [add_noises] in H.
  destruct (add_noise g f) as [g1|] eqn:A; [|discriminate]. apply add_noise_some in A.
  destruct A as (_ & Sh & Sn & N & _).
  assert (Pf : 0 < p_nseg f) by (apply P; now left).
  assert (N1 : 0 < nseg g1) by (rewrite N; destruct (nseg g =? 0); lia).
  assert (E : shape g1 = shape g').
  { destruct t as [|f' t']; [now injection H as <-|].
    apply (IH g1 g' (fun y J => P y (or_intror J)) ltac:(lia) H f' (or_introl eq_refl)). exact N1. }
  split.
  - destruct I as [<-|I]; [congruence|]. apply (IH g1 g' (fun y J => P y (or_intror J)) ltac:(lia) H x I).
  - intros G. rewrite Sn by lia. congruence.
Qed.

Lemma add_noises_opens sh l : forall g, NoDup (map p_chan l) ->
  (forall f, In f l -> ~ In (p_chan f) (map fst (h5 g))) -> (forall f, In f l -> p_shape f = sh) ->
  (nseg g <> 0 -> shape g = sh) ->
  exists g', add_noises g l = Some g' /\
    h5 g' = h5 g ++ map (fun f => (p_chan f, mkA (p_path f) (p_npulses f) None)) l.
Proof.
  induction l as [|f t IH]; intros g Nd Fr Sh S.
  - exists g. cbn. now rewrite app_nil_r.
  - cbn [map] in Nd. apply NoDup_cons_iff in Nd. destruct Nd as [F Nd]. cbn [add_noises].
    assert (A : exists g1, add_noise g f = Some g1).
    { unfold add_noise. rewrite (zget_fresh _ _ (Fr f (or_introl eq_refl))). cbv zeta.
      destruct (Z.eqb_spec (nseg g) 0) as [Z|Z]; [eauto|]. rewrite (S Z), (Sh f (or_introl eq_refl)).
      assert (shape_eqb sh sh = true) as -> by now apply shape_eqb_eq. eauto. }
    destruct A as [g1 A]. rewrite A. apply add_noise_some in A. destruct A as (_ & Sg & _ & _ & H).
    rewrite (zset_fresh _ _ _ (Fr f (or_introl eq_refl))) in H.
    destruct (IH g1 Nd) as (g' & R & Q).
    + intros f' I. rewrite H, map_app. intros J. apply in_app_or in J. destruct J as [J|[J|[]]].
      * revert J. apply Fr. now right.
      * cbn in J. apply F. rewrite J. now apply in_map.
    + intros f' I. apply Sh. now right.
    + intros _. rewrite Sg. apply Sh. now left.
    + exists g'. split; auto. rewrite Q, H, <- app_assoc. reflexivity.
Qed.
