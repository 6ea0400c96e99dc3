(** Proofs about opening and restoring groups of channels. *)
From Coq Require Import ZArith Ascii String Bool QArith QArith.Qcanon Lia Permutation List.
From Verif Require Import LjhModel LjhProofs NameModel NameSpec NameProofs TrProofs TgModel TgSpec.
Import ListNotations.
Open Scope Z_scope.

Lemma shape_eqb_eq a b : shape_eqb a b = true <-> a = b.
Proof.
  destruct a as [[x y] q], b as [[x' y'] q']. unfold shape_eqb. cbn [fst snd].
  rewrite !andb_true_iff, !Z.eqb_eq. split.
  - intros [[-> ->] Q]. apply Qc_eq_bool_correct in Q. now subst.
  - intros E. injection E as -> -> ->. repeat split. unfold Qc_eq_bool. now destruct (Qc_eq_dec q' q').
Qed.

Lemma zset_same {A : Type} d k (v : A) : zget (zset d k v) k = Some v.
Proof.
  induction d as [|[j w] t IH]; cbn; [now rewrite Z.eqb_refl|].
  destruct (j =? k) eqn:E; cbn; rewrite E; auto.
Qed.

Lemma zset_other {A : Type} d k j (v : A) : j <> k -> zget (zset d k v) j = zget d j.
Proof.
  intros N. induction d as [|[i w] t IH]; cbn.
  - destruct (Z.eqb_spec k j); congruence.
  - destruct (Z.eqb_spec i k) as [->|]; cbn; destruct (Z.eqb_spec k j); try congruence; destruct (i =? j); auto.
Qed.

Lemma zset_fresh {A : Type} d k (v : A) : ~ In k (map fst d) -> zset d k v = d ++ [(k, v)].
Proof.
  induction d as [|[j w] t IH]; intros N; auto. cbn. destruct (Z.eqb_spec j k) as [->|_].
  - exfalso. apply N. now left.
  - f_equal. apply IH. intros I. apply N. now right.
Qed.

Lemma zget_fresh {A : Type} (d : list (Z * A)) k : ~ In k (map fst d) -> zget d k = None.
Proof.
  induction d as [|[j w] t IH]; intros N; auto. cbn. destruct (Z.eqb_spec j k) as [->|_].
  - exfalso. apply N. now left.
  - apply IH. intros I. apply N. now right.
Qed.

(** * What holds of every group that is made *)

Lemma add_file_cases g f nf g' : add_file g f nf = Some g' ->
  (g' = g /\ p_npulses f = 0) \/
  (p_npulses f <> 0 /\ chans g' = chans g /\ shape g' = shape g /\ nseg g' = nseg g /\
   exists n, nf = Some n /\ n_chan n <> p_chan f) \/
  (p_npulses f <> 0 /\ chans g' = chans g ++ [(f, nf)] /\ shape g' = p_shape f /\
   (nseg g <> 0 -> shape g = p_shape f) /\ (nseg g = 0 -> nseg g' = Z.max 0 (p_nseg f)) /\
   (nseg g <> 0 -> nseg g' = Z.max (nseg g) (p_nseg f)) /\
   (forall n, nf = Some n -> n_chan n = p_chan f)).
Proof.
  unfold add_file. destruct (Z.eqb_spec (p_npulses f) 0) as [E|E].
  - intros H. injection H as <-. now left.
  - cbv zeta. destruct (negb _); [discriminate|].
    destruct (match nf with Some n => negb (p_chan f =? n_chan n) | None => false end) eqn:M.
    + intros H. injection H as <-. right; left. cbn. repeat split; auto.
      destruct nf as [n|]; [|discriminate]. exists n. split; auto. apply negb_true_iff, Z.eqb_neq in M. congruence.
    + assert (K : forall n, nf = Some n -> n_chan n = p_chan f).
      { intros n ->. apply negb_false_iff, Z.eqb_eq in M. congruence. }
      destruct (Z.eqb_spec (nseg g) 0) as [Z|Z].
      * intros H. injection H as <-. right; right. cbn. repeat split; auto; intros; contradiction.
      * destruct (shape_eqb _ _) eqn:S; [|discriminate]. apply shape_eqb_eq in S.
        intros H. injection H as <-. right; right. cbn. repeat split; auto; intros; contradiction.
Qed.

Definition good (g : group) : Prop :=
  0 <= nseg g /\ (nseg g = 0 -> chans g = []) /\ (forall f n, In (f, n) (chans g) -> p_shape f = shape g) /\
  (forall f n, In (f, Some n) (chans g) -> n_chan n = p_chan f) /\
  (forall f n, In (f, n) (chans g) -> p_npulses f <> 0).

Lemma add_file_good g f nf g' : (p_npulses f <> 0 -> 0 < p_nseg f) -> good g -> add_file g f nf = Some g' -> good g'.
Proof.
  intros P (S & Z0 & Sh & N & Pl) H. apply add_file_cases in H.
  destruct H as [[-> _] | [(_ & C & S' & Sg & _) | (Np & C & S' & Sn & S0 & S1 & M)]].
  - now repeat split.
  - unfold good. rewrite C, S', Sg. now repeat split.
  - specialize (P Np). unfold good. rewrite C, S'.
    assert (Q : 0 < nseg g').
    { destruct (Z.eq_dec (nseg g) 0) as [E|E]; [rewrite (S0 E) | rewrite (S1 E)]; lia. }
    split; [lia|]. split; [lia|]. split; [|split].
    + intros f' n I. apply in_app_or in I. destruct I as [I|[I|[]]]; [|now injection I as -> ->].
      rewrite (Sh f' n I). apply Sn. intros E. rewrite (Z0 E) in I. destruct I.
    + intros f' n I. apply in_app_or in I. destruct I as [I|[I|[]]]; [now apply N|]. injection I as -> E. now apply M.
    + intros f' n I. apply in_app_or in I. destruct I as [I|[I|[]]]; [now apply (Pl f' n)|]. injection I as -> _. exact Np.
Qed.

Lemma add_files_good l : forall noise g g', (forall f, In f l -> p_npulses f <> 0 -> 0 < p_nseg f) ->
  good g -> add_files g l noise = Some g' -> good g'.
Proof.
  induction l as [|f t IH]; intros noise g g' P G H; cbn [add_files] in H; [now injection H as <-|].
  assert (Pt : forall f', In f' t -> p_npulses f' <> 0 -> 0 < p_nseg f') by (intros f' I; apply P; now right).
  destruct noise as [[|n ns]|].
  - destruct (p_npulses f =? 0); [|discriminate]. now apply (IH _ _ _ Pt G H).
  - destruct (add_file g f (Some n)) as [g1|] eqn:A; [|discriminate].
    apply (IH _ _ _ Pt (add_file_good _ _ _ _ (P f (or_introl eq_refl)) G A) H).
  - destruct (add_file g f None) as [g1|] eqn:A; [|discriminate].
    apply (IH _ _ _ Pt (add_file_good _ _ _ _ (P f (or_introl eq_refl)) G A) H).
Qed.

Lemma good_empty h nh : good (empty h nh).
Proof. repeat split; cbn; auto; try lia; intros; contradiction. Qed.

(** Which channels. *)
Lemma add_files_noise l : forall ns g g', length ns = length l -> add_files g l (Some ns) = Some g' ->
  chans g' = chans g ++ map (fun p => (fst p, Some (snd p))) (filter belongs (combine l ns)).
Proof.
  induction l as [|f t IH]; intros ns g g' L H; cbn [add_files] in H.
  - injection H as <-. cbn. now rewrite app_nil_r.
  - destruct ns as [|n ns]; [discriminate L|]. injection L as L.
    destruct (add_file g f (Some n)) as [g1|] eqn:A; [|discriminate].
    rewrite (IH ns g1 g' L H). cbn [combine filter].
    assert (belongs (f, n) = negb (p_npulses f =? 0) && (p_chan f =? n_chan n)) as -> by reflexivity.
    apply add_file_cases in A.
    destruct A as [[-> E] | [(Np & C & _ & _ & n' & Q & M) | (Np & C & _ & _ & _ & _ & M)]].
    + rewrite E. reflexivity.
    + injection Q as <-. rewrite C. destruct (Z.eqb_spec (p_chan f) (n_chan n)); [congruence|].
      rewrite andb_false_r. reflexivity.
    + rewrite C. destruct (Z.eqb_spec (p_npulses f) 0); [contradiction|].
      rewrite (M n eq_refl), Z.eqb_refl. cbn [negb andb map fst snd]. now rewrite <- app_assoc.
Qed.

Lemma add_files_none l : forall g g', add_files g l None = Some g' ->
  chans g' = chans g ++ map (fun f => (f, None)) (filter (fun f => negb (p_npulses f =? 0)) l).
Proof.
  induction l as [|f t IH]; intros g g' H; cbn [add_files] in H.
  - injection H as <-. cbn. now rewrite app_nil_r.
  - destruct (add_file g f None) as [g1|] eqn:A; [|discriminate].
    rewrite (IH g1 g' H). cbn [filter]. apply add_file_cases in A.
    destruct A as [[-> E] | [(Np & C & _ & _ & n' & Q & M) | (Np & C & _)]].
    + rewrite E. reflexivity.
    + discriminate Q.
    + rewrite C. destruct (Z.eqb_spec (p_npulses f) 0); [contradiction|]. cbn [negb map]. now rewrite <- app_assoc.
Qed.

(** * A new group of matching files *)

Section Fresh.
Variable sh : Z * Z * Qc.

Lemma add_files_fresh l : forall ns g,
  length ns = length l -> NoDup (map p_chan l) ->
  (forall f, In f l -> ~ In (p_chan f) (map fst (h5 g))) ->
  (forall f, In f l -> ~ In (p_chan f) (map fst (nh5 g))) ->
  (forall p, In p (combine l ns) -> n_chan (snd p) = p_chan (fst p)) ->
  (forall f, In f l -> p_npulses f <> 0 -> p_shape f = sh /\ 0 < p_nseg f) ->
  0 <= nseg g -> (nseg g <> 0 -> shape g = sh) ->
  exists g', add_files g l (Some ns) = Some g' /\
    h5 g' = h5 g ++ map entry (filter belongs (combine l ns)) /\
    nh5 g' = nh5 g ++ map noise_entry (filter belongs (combine l ns)).
Proof.
  induction l as [|f t IH]; intros ns g L Nd Fr Fn M Sh S0 S1.
  - exists g. cbn. now rewrite !app_nil_r.
  - destruct ns as [|n ns]; [discriminate L|]. injection L as L. cbn [map] in Nd. inversion Nd; subst.
    assert (Mn : n_chan n = p_chan f) by apply (M (f, n) (or_introl eq_refl)).
    cbn [add_files combine filter].
    assert (belongs (f, n) = negb (p_npulses f =? 0)) as -> by (unfold belongs; cbn [fst snd]; now rewrite Mn, Z.eqb_refl, andb_true_r).
    assert (Mt : forall p, In p (combine t ns) -> n_chan (snd p) = p_chan (fst p)) by (intros p I; apply M; now right).
    assert (Sht : forall f', In f' t -> p_npulses f' <> 0 -> p_shape f' = sh /\ 0 < p_nseg f') by (intros f' I; apply Sh; now right).
    unfold add_file. destruct (Z.eqb_spec (p_npulses f) 0) as [E|E]; cbn [negb].
    + apply IH; auto; intros f' I; [apply Fr | apply Fn]; now right.
    + cbv zeta. rewrite (zget_fresh _ _ (Fr f (or_introl eq_refl))). cbn [negb]. rewrite Mn, Z.eqb_refl. cbn [negb].
      destruct (Sh f (or_introl eq_refl) E) as [Ef Pf]. rewrite (zset_fresh _ _ _ (Fr f (or_introl eq_refl))), (zset_fresh _ _ _ (Fn f (or_introl eq_refl))).
      assert (Step : forall g1, h5 g1 = h5 g ++ [entry (f, n)] -> nh5 g1 = nh5 g ++ [noise_entry (f, n)] -> 0 <= nseg g1 -> (nseg g1 <> 0 -> shape g1 = sh) ->
        exists g', add_files g1 t (Some ns) = Some g' /\
          h5 g' = h5 g ++ map entry ((f, n) :: filter belongs (combine t ns)) /\
          nh5 g' = nh5 g ++ map noise_entry ((f, n) :: filter belongs (combine t ns))).
      { intros g1 Hh Hn Hs Hp. destruct (IH ns g1 L H2) as (g' & R & Q & Q'); auto.
        - intros f' I. rewrite Hh, map_app. intros J. apply in_app_or in J. destruct J as [J|[J|[]]].
          + revert J. apply Fr. now right.
          + cbn in J. apply H1. rewrite J. now apply in_map.
        - intros f' I. rewrite Hn, map_app. intros J. apply in_app_or in J. destruct J as [J|[J|[]]].
          + revert J. apply Fn. now right.
          + cbn in J. apply H1. rewrite J. now apply in_map.
        - exists g'. split; auto. rewrite Q, Q', Hh, Hn, <- !app_assoc. split; reflexivity. }
      destruct (Z.eqb_spec (nseg g) 0) as [Z|Z].
      * apply Step; cbn; auto. lia.
      * rewrite (S1 Z), Ef. assert (shape_eqb sh sh = true) as -> by now apply shape_eqb_eq.
        apply Step; cbn; auto. lia.
Qed.
End Fresh.

(** * Restoring *)

Lemma noise_cons e (t : list (Z * attrs)) l : Forall2 (fun e f => a_noise (snd e) = Some f) (e :: t) l ->
  exists f l', l = f :: l' /\ a_noise (snd e) = Some f /\ Forall2 (fun e f => a_noise (snd e) = Some f) t l'.
Proof. intros F. inversion F as [|x y t' l' X Y]. exists y, l'. auto. Qed.

Lemma restore_loop_spec items : forall gen l g,
  restore_loop items gen = Some (l, g) <->
  Forall2 (fun e f => a_noise (snd e) = Some f) items l /\
  (forall f, In f l -> Some (hdf5_name f) = g) /\ (match gen with Some x => g = Some x | None => items = [] -> g = None end).
Proof.
  induction items as [|[c a] t IH]; intros gen l g; cbn [restore_loop].
  - split.
    + intros H. injection H as <- <-. split; [constructor|]. split; [intros f []|]. destruct gen; auto.
    + intros (F & _ & G). inversion F; subst. destruct gen; [now rewrite G | now rewrite G].
  - destruct (a_noise a) as [f|] eqn:A.
    + cbv zeta. destruct (match gen with Some x => beq x (hdf5_name f) | None => true end) eqn:B.
      * assert (Gn : match gen with Some x => x = hdf5_name f | None => True end).
        { destruct gen; auto. now destruct (beq_spec b (hdf5_name f)). }
        destruct (restore_loop t (Some (hdf5_name f))) as [[l' g']|] eqn:R.
        -- apply IH in R. destruct R as (F & N & G). split.
           ++ intros H. injection H as <- <-. split; [constructor; auto|]. split.
              ** intros x [<-|I]; auto.
              ** destruct gen; [now rewrite Gn | discriminate].
           ++ intros (F' & N' & G'). apply noise_cons in F'. destruct F' as (f2 & l2 & -> & H2 & F'). cbn in H2. rewrite A in H2. injection H2 as <-.
              assert (R : restore_loop t (Some (hdf5_name f)) = Some (l2, g)).
              { apply IH. split; auto. split; [intros x I; apply N'; now right|]. symmetry. apply N'. now left. }
              assert (R2 : restore_loop t (Some (hdf5_name f)) = Some (l', g')) by (apply IH; auto).
              rewrite R in R2. injection R2 as <- <-. reflexivity.
        -- split; [discriminate|]. intros (F' & N' & G'). apply noise_cons in F'. destruct F' as (f2 & l2 & -> & H2 & F'). cbn in H2. rewrite A in H2. injection H2 as <-.
           assert (R2 : restore_loop t (Some (hdf5_name f)) = Some (l2, g)); [|congruence].
           apply IH. split; auto. split; [intros x I; apply N'; now right|]. symmetry. apply N'. now left.
      * split; [discriminate|]. intros (F' & N' & G'). apply noise_cons in F'. destruct F' as (f2 & l2 & -> & H2 & F'). cbn in H2. rewrite A in H2. injection H2 as <-.
        destruct gen as [x|]; [|discriminate]. destruct (beq_spec x (hdf5_name f)) as [|Ne]; [discriminate|].
        exfalso. apply Ne. specialize (N' f (or_introl eq_refl)). congruence.
    + split; [discriminate|]. intros (F & _). apply noise_cons in F. destruct F as (f2 & l2 & _ & H1 & _). cbn in H1. congruence.
Qed.

Lemma before_chan_named base ds rest : ~ mentions_channel base -> ds <> [] -> all_digits ds ->
  before_chan (base ++ bs "_chan" ++ ds ++ rest) = base.
Proof.
  intros N Ne A. induction base as [|z b IH].
  - cbn [app]. change (bs "_chan" ++ ds ++ rest) with (95 :: (bs "chan" ++ ds ++ rest)). cbn [before_chan].
    assert (M : match_here (95 :: (bs "chan" ++ ds ++ rest)) <> None).
    { unfold match_here. change (95 :: (bs "chan" ++ ds ++ rest)) with (chan_word ++ ds ++ rest).
      rewrite starts_self. change (skipn 5 (chan_word ++ ds ++ rest)) with (ds ++ rest).
      destruct ds as [|d e]; [contradiction|]. cbn [app span_digits].
      assert (is_digit d = true) as -> by (apply is_digit_spec, A; now left). discriminate. }
    destruct (match_here _); [reflexivity | contradiction].
  - cbn [app before_chan].
    destruct (match_here (z :: b ++ bs "_chan" ++ ds ++ rest)) as [es|] eqn:M.
    + exfalso. apply match_some in M. destruct M as (r & E & Nes & Aes & _).
      destruct es as [|d e]; [contradiction|].
      change (bs "_chan" ++ (d :: e) ++ r) with (95 :: ((bs "chan" ++ [d]) ++ e ++ r)) in E.
      injection E as -> E.
      change (bs "_chan" ++ ds ++ rest) with (95 :: (bs "chan" ++ ds ++ rest)) in E.
      destruct (prefix_before (bs "chan" ++ [d]) b 95 (bs "chan" ++ ds ++ rest) (e ++ r)) as [u U].
      * intros I. vm_compute in I. specialize (Aes d (or_introl eq_refl)).
        destruct I as [I|[I|[I|[I|[I|[]]]]]]; try discriminate I. lia.
      * exact E.
      * apply N. exists [], d, u. split; [|apply Aes; now left]. rewrite U. reflexivity.
    + f_equal. apply IH. intros (a & d & t & -> & D). apply N. exists (z :: a), d, t. split; auto.
Qed.

Lemma chan_nodup l : forall (ns : list nfile), NoDup (map p_chan l) ->
  NoDup (map (fun p => p_chan (fst p)) (filter belongs (combine l ns))).
Proof.
  induction l as [|f t IH]; intros [|n ns] N; try constructor. cbn [map] in N. apply NoDup_cons_iff in N. destruct N as [F N].
  cbn [combine filter]. destruct (belongs (f, n)); [|auto]. cbn [map fst]. constructor; [|auto].
  intros I. apply in_map_iff in I. destruct I as ([f' n'] & E & I). apply filter_In in I. destruct I as [I _].
  apply in_combine_l in I. apply F. rewrite <- E. now apply in_map.
Qed.

Lemma zget_entry (d : list (pfile * nfile)) p : NoDup (map (fun p => p_chan (fst p)) d) -> In p d ->
  zget (map noise_entry d) (p_chan (fst p)) = Some (n_path (snd p)).
Proof.
  induction d as [|q t IH]; intros N I; [destruct I|]. cbn [map] in N. apply NoDup_cons_iff in N. destruct N as [F N].
  cbn [map zget noise_entry]. destruct I as [->|I]; [now rewrite Z.eqb_refl|].
  destruct (Z.eqb_spec (p_chan (fst q)) (p_chan (fst p))) as [E|_]; [|auto].
  exfalso. apply F. rewrite E. now apply (in_map (fun p => p_chan (fst p))).
Qed.
