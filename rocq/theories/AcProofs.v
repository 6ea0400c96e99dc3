(** Proofs about apply_cuts and auto_cuts. *)
From Coq Require Import ZArith NArith QArith Qcanon Bool String Permutation Sorted Lia List.
From Verif Require Import QcPre BitLemmas CutModel CutSpec CutProofs CutMaskProofs CutHistProofs CutRefute.
From Verif Require Import HistModel HistSpec HistProofs LagModel DerModel QSort AvgModel AvgSpec AvgProofs XtModel AcModel AcSpec.
Import ListNotations.
Local Open Scope list_scope.

Lemma cut_by_spec r n ws i w : WInv r -> registered r n -> nth_error ws i = Some w ->
  (cut_by r n ws i <-> ~ passes r [n] w) /\ (~ cut_by r n ws i <-> passes r [n] w).
Proof.
  intros HI (Hin & Hne) Hw.
  destruct (bool_bit_mask_registered r n Hne Hin) as [bm Hbm].
  assert (G : good r [n] [] ws = Some (map (fun w => N.land w bm =? 0)%N ws)) by (unfold good; now rewrite Hbm).
  assert (B : bad r [n] [] ws = Some (map (fun w => negb (N.land w bm =? 0)%N) ws)) by (unfold bad; now rewrite Hbm).
  destruct (good_bad_spec r [n] [] ws _ _ HI G B) as (L1 & L2 & s & Hs & K).
  assert (exists si, nth_error s i = Some si) as [si Hsi].
  { unfold select_category in Hs. cbn [select_bits] in Hs. apply OffProofs.some_inj in Hs. subst s. rewrite nth_error_map, Hw. cbn. eauto. }
  assert (si = true).
  { unfold select_category in Hs. cbn [select_bits] in Hs. apply OffProofs.some_inj in Hs. subst s. rewrite nth_error_map, Hw in Hsi. cbn in Hsi.
    apply OffProofs.some_inj in Hsi. rewrite N.land_0_r in Hsi. now subst. }
  subst si. destruct (K i w true Hw Hsi) as (gi & bi & Hg & Hb & E1 & E2).
  rewrite nth_error_map, Hw in Hg, Hb. cbn in Hg, Hb. apply OffProofs.some_inj in Hg, Hb.
  assert (C : cut_by r n ws i <-> bi = true).
  { unfold cut_by, bad_for. split.
    - intros (v & Hv & Hn). rewrite B in Hv. apply OffProofs.some_inj in Hv. subst v. rewrite nth_error_map, Hw in Hn. cbn in Hn.
      apply OffProofs.some_inj in Hn. congruence.
    - intros ->. eexists. split; [exact B|]. rewrite nth_error_map, Hw. cbn. now rewrite Hb. }
  rewrite C. destruct (N.land w bm =? 0)%N; cbn in Hg, Hb; subst gi bi; intuition congruence.
Qed.

Lemma is_good_passes r ws i w : WInv r -> nth_error ws i = Some w -> (is_good r ws i <-> passes r [] w).
Proof.
  intros HI Hw. unfold is_good. split.
  - intros H p b Hp Hne _ Hb.
    assert (R : registered r (fst p)) by (split; [now apply in_map | exact Hne]).
    specialize (H _ R). apply (proj2 (cut_by_spec r _ ws i w HI R Hw)) in H.
    apply (H p b Hp Hne); [right; now left | exact Hb].
  - intros H n R. apply (proj2 (cut_by_spec r n ws i w HI R Hw)).
    intros p b Hp Hne _ Hb. apply (H p b Hp Hne); [now left | exact Hb].
Qed.

Lemma registered_bad_for r n ws : registered r n -> exists v, bad_for r n ws = Some v /\ length v = length ws.
Proof.
  intros (Hin & Hne). destruct (bool_bit_mask_registered r n Hne Hin) as [bm Hbm].
  rewrite bad_for_eq, Hbm. cbn. eexists. split; [reflexivity | apply map_length].
Qed.

Lemma step_ok r d a n ws : WInv r -> registered r n -> usable a -> length d = length ws ->
  exists ws', cut_parameter r d a n ws = Some ws' /\ length ws' = length ws /\
    (forall i x, nth_error d i = Some x -> (cut_by r n ws' i <-> cut_by r n ws i \/ outside a x)) /\
    (forall g i, g <> n -> (cut_by r g ws' i <-> cut_by r g ws i)) /\
    (forall h, category_codes r h ws' = category_codes r h ws).
Proof.
  intros HI (Hin & Hne) HU HL.
  assert (W : forall v, length v = length d ->
    (forall i x c, nth_error d i = Some x -> nth_error v i = Some c -> (c = true <-> outside a x)) ->
    cut_parameter r d a n ws = cut r n (BoolMask v) ws ->
    exists ws', cut_parameter r d a n ws = Some ws' /\ length ws' = length ws /\
    (forall i x, nth_error d i = Some x -> (cut_by r n ws' i <-> cut_by r n ws i \/ outside a x)) /\
    (forall g i, g <> n -> (cut_by r g ws' i <-> cut_by r g ws i)) /\
    (forall h, category_codes r h ws' = category_codes r h ws)).
  { intros v Lv Hv E. destruct (cut_bool_ok r n v ws Hin) as [ws' Hc]; [congruence|].
    exists ws'. rewrite E. split; [exact Hc|].
    destruct (cut_bool_frame r n v ws ws' HI Hne Hin Hc) as (L & (b & b' & B & B' & Lb & Eb) & F & C & _).
    split; [exact L|]. split; [|split; [|exact C]].
    - intros i x Hx. unfold cut_by. rewrite B, B'.
      assert (exists c, nth_error v i = Some c) as [c Hc'].
      { destruct (nth_error v i) eqn:E'; [eauto|]. exfalso. apply nth_error_None in E'.
        assert (i < length d)%nat by (apply nth_error_Some; congruence). lia. }
      rewrite <- (Hv i x c Hx Hc'). subst b'. split.
      + intros (u & Hu & Hn). apply OffProofs.some_inj in Hu. subst u. rewrite map2_nth, Hc' in Hn.
        destruct (nth_error b i) as [y|] eqn:Ey; [|discriminate]. apply OffProofs.some_inj in Hn. apply orb_true_iff in Hn.
        destruct Hn as [Hn|Hn]; [now right|]. left. exists b. split; [reflexivity | congruence].
      + intros H. exists (map2 orb v b). split; [reflexivity|]. rewrite map2_nth, Hc'.
        assert (exists y, nth_error b i = Some y) as [y Hy].
        { destruct (nth_error b i) eqn:E'; [eauto|]. exfalso. apply nth_error_None in E'.
          assert (i < length d)%nat by (apply nth_error_Some; congruence). lia. }
        rewrite Hy. f_equal. apply orb_true_iff. destruct H as [(u & Hu & Hn)| ->]; [right|now left].
        apply OffProofs.some_inj in Hu. congruence.
    - intros g i Hg. unfold cut_by. now rewrite (F g Hg). }
  destruct a as [[lo hi|l]|].
  - apply (W (map (one_range_mark lo hi) d)); [apply map_length | | now apply cut_parameter_one].
    intros i x c Hx Hc. rewrite nth_error_map, Hx in Hc. apply OffProofs.some_inj in Hc. subst c.
    unfold one_range_mark, outside. rewrite orb_true_iff. destruct lo as [lo|], hi as [hi|]; rewrite ?xle_spec;
      (split; [intros [H|H]; try discriminate H; eauto | intros [(v & E & H)|(v & E & H)]; try discriminate E; apply OffProofs.some_inj in E; subst; tauto]).
  - destruct HU as (Hl & HF). destruct (cut_parameter_ranges r d l n ws Hin Hl HF) as [v [E [Lv M]]].
    apply (W v Lv); [|exact E]. exact M.
  - exists ws. split; [reflexivity|]. split; [reflexivity|]. split; [|split]; try tauto. cbn. tauto.
Qed.

Lemma cut_all_ok r : WInv r -> forall l ws, NoDup (map fst l) ->
  Forall (fun e => registered r (fst e) /\ usable (snd (snd e)) /\ length (fst (snd e)) = length ws) l ->
  exists ws', cut_all r l ws = Some ws' /\ length ws' = length ws /\
    (forall n d a i x, In (n, (d, a)) l -> nth_error d i = Some x -> (cut_by r n ws' i <-> cut_by r n ws i \/ outside a x)) /\
    (forall g i, ~ In g (map fst l) -> (cut_by r g ws' i <-> cut_by r g ws i)) /\
    (forall h, category_codes r h ws' = category_codes r h ws).
Proof.
  intros HI. induction l as [|(n, (d, a)) l IH]; intros ws ND HF.
  - exists ws. split; [reflexivity|]. split; [reflexivity|]. split; [intros n d a i x []|]. split; [tauto | reflexivity].
  - inversion ND as [|? ? N1 N2]; subst. inversion HF as [|? ? (R & U & L) HF']; subst. cbn [fst snd] in *.
    destruct (step_ok r d a n ws HI R U L) as (ws1 & E1 & L1 & C1 & O1 & K1).
    destruct (IH ws1 N2) as (ws2 & E2 & L2 & C2 & O2 & K2).
    { eapply Forall_impl; [|exact HF']. intros e H. rewrite L1. exact H. }
    exists ws2. cbn [cut_all]. rewrite E1. split; [exact E2|]. split; [congruence|]. split; [|split].
    + intros m d' a' i x [E|Hin] Hx.
      * injection E as <- <- <-. rewrite (O2 n i N1). now apply C1.
      * rewrite (C2 _ _ _ _ _ Hin Hx). rewrite O1; [reflexivity|]. intros ->. apply N1. now apply (in_map fst) in Hin.
    + intros g i Hg. cbn [map fst] in Hg. rewrite O2 by (intros C; apply Hg; now right).
      apply O1. intros ->. apply Hg. now left.
    + intros h. now rewrite K2, K1.
Qed.

Lemma xdiff_length l : length (xdiff l) = (length l - 1)%nat.
Proof.
  induction l as [|x l IH]; [reflexivity|]. destruct l as [|y t]; [reflexivity|].
  change (xdiff (x :: y :: t)) with (xsub y x :: xdiff (y :: t)). cbn [length] in *. rewrite IH. lia.
Qed.
Lemma xdiff_nth l : forall j x y, nth_error l j = Some x -> nth_error l (S j) = Some y -> nth_error (xdiff l) j = Some (xsub y x).
Proof.
  induction l as [|z l IH]; intros j x y Hx Hy; [destruct j; discriminate|].
  destruct l as [|y' t]; [cbn in Hy; destruct j; discriminate|].
  change (xdiff (z :: y' :: t)) with (xsub y' z :: xdiff (y' :: t)). destruct j as [|j]; cbn [nth_error].
  - cbn in Hx, Hy. congruence.
  - now apply IH.
Qed.
Lemma map2_len {A B C} (f : A -> B -> C) l : forall l', length l = length l' -> length (map2 f l l') = length l.
Proof. induction l as [|a l IH]; intros [|b l'] E; try discriminate; cbn; [reflexivity|]. rewrite IH; [reflexivity | now injection E]. Qed.

Lemma nodup_plain : NoDup plain_fields.
Proof.
  unfold plain_fields.
  repeat (constructor; [cbn; intuition discriminate|]). constructor.
Qed.

(** Every quantity is the entry of one of the vectors. *)
Lemma quantity_entry tb p c i n a x : quantity tb p c i n a x ->
  exists d, In (n, (d, a)) (plain_cuts tb p c) /\ nth_error d i = Some x.
Proof.
  assert (M : forall (f : xval -> xval) l x, nth_error l i = Some x -> nth_error (map f l) i = Some (f x)) by
    (intros f l y H; rewrite nth_error_map, H; reflexivity).
  intros H; destruct H.
  - eexists. split; [apply (nth_error_In _ 0); reflexivity | assumption].
  - eexists. split; [apply (nth_error_In _ 1); reflexivity | assumption].
  - eexists. split; [apply (nth_error_In _ 2); reflexivity | assumption].
  - eexists. split; [apply (nth_error_In _ 3); reflexivity | now apply M].
  - eexists. split; [apply (nth_error_In _ 4); reflexivity | now apply M].
  - eexists. split; [apply (nth_error_In _ 5); reflexivity | assumption].
  - eexists. split; [apply (nth_error_In _ 6); reflexivity | assumption].
  - eexists. split; [apply (nth_error_In _ 7); reflexivity | assumption].
  - eexists. split; [apply (nth_error_In _ 8); reflexivity |]. rewrite map2_nth, H, H0. reflexivity.
  - eexists. split; [apply (nth_error_In _ 9); reflexivity | assumption].
  - subst i. eexists. split; [apply (nth_error_In _ 10); reflexivity | reflexivity].
  - subst i. eexists. split; [apply (nth_error_In _ 10); reflexivity |]. cbn [since_last nth_error]. now apply xdiff_nth.
  - subst i. eexists. split; [apply (nth_error_In _ 11); reflexivity | reflexivity].
  - subst i. eexists. split; [apply (nth_error_In _ 11); reflexivity |]. cbn [since_last nth_error].
    apply xdiff_nth; [now rewrite nth_error_map, H0 | now apply M].
Qed.

Lemma plain_ok r tb p c n : (forall f, In f plain_fields -> registered r f) -> usable_controls c -> sized p n -> (0 < n)%nat ->
  Forall (fun e => registered r (fst e) /\ usable (snd (snd e)) /\ length (fst (snd e)) = n) (plain_cuts tb p c).
Proof.
  intros HR (U1 & U2 & U3 & U4 & U5 & U6 & U7 & U8 & U9 & U10 & U11 & U12 & _) (S1 & S2 & S3 & S4 & S5 & S6 & S7 & S8 & S9 & S10 & S11) HN.
  assert (D : forall l, length l = n -> length (since_last l) = n) by (intros l E; cbn [since_last length]; rewrite xdiff_length; lia).
  unfold plain_cuts.
  repeat (constructor; [cbn [fst snd]; split; [apply HR; unfold plain_fields; cbn [In]; tauto|]; split; [assumption|];
    rewrite ?map_length; try assumption|]); [| | |constructor].
  - rewrite map2_len; congruence.
  - now apply D.
  - apply D. now rewrite map_length.
Qed.

Lemma nsorted_xleq l : ~ In NaN l -> nsorted l -> StronglySorted xleq l.
Proof.
  induction l as [|x t IH]; intros N S; [constructor|]. destruct S as (F & S). constructor.
  - apply IH; [intros C; apply N; now right | exact S].
  - rewrite Forall_forall in F |- *. intros y Hy. specialize (F y Hy). unfold nle, before in F.
    apply orb_false_iff in F as (F & _).
    assert (is_num x) by (intros ->; apply N; now left). assert (is_num y) by (intros ->; apply N; now right).
    repeat split; try assumption. intros C. apply (proj2 (xltb_spec _ _)) in C. congruence.
Qed.

Lemma xmedian_middle l : l <> [] -> middle l (xmedian l).
Proof.
  intros NE. unfold xmedian. destruct (existsb isnan l) eqn:E.
  - left. split; [|reflexivity]. apply existsb_exists in E as (x & Hx & Hn). destruct x; try discriminate. exact Hx.
  - assert (N : ~ In NaN l).
    { intros C. assert (existsb isnan l = true) by (apply existsb_exists; exists NaN; auto). congruence. }
    right. split; [exact N|]. exists (nsort l). split; [apply nsort_perm|].
    split; [apply nsorted_xleq; [|apply nsort_sorted]; intros C; apply N; eapply Permutation_in; [symmetry; apply nsort_perm | exact C]|].
    assert (0 < length (nsort l))%nat.
    { rewrite <- (Permutation_length (nsort_perm l)). destruct l; [congruence | cbn; lia]. }
    set (s := nsort l) in *. destruct (Nat.even (length s)) eqn:Ev.
    + right. split; [now apply Nat.even_spec|]. exists (nth (length s / 2 - 1) s NaN), (nth (length s / 2) s NaN).
      assert (length s / 2 < length s)%nat by (apply Nat.div_lt; lia).
      split; [apply nth_error_nth'; lia|]. split; [apply nth_error_nth'; lia | reflexivity].
    + left. split; [apply Nat.odd_spec; unfold Nat.odd; now rewrite Ev|].
      apply nth_error_nth'. apply Nat.div_lt; lia.
Qed.

Lemma where_picked {A} (P : nat -> Prop) g : forall k (l : list A), length g = length l ->
  (forall i c, nth_error g i = Some c -> (c = true <-> P (k + i)%nat)) -> picked P k l (where_true g l).
Proof.
  induction g as [|c g IH]; intros k [|x l] L H; try discriminate; [constructor|].
  assert (H0 := H 0%nat c eq_refl). rewrite Nat.add_0_r in H0. cbn [where_true].
  assert (K : picked P (S k) l (where_true g l)).
  { apply IH; [now injection L|]. intros i c' Hc. replace (S k + i)%nat with (k + S i)%nat by lia. now apply H. }
  destruct c; constructor; try assumption; [now apply H0|]. intros C. apply H0 in C. discriminate.
Qed.

Lemma picked_ext {A} (P Q : nat -> Prop) k (l m : list A) : (forall i, (k <= i < k + length l)%nat -> (P i <-> Q i)) -> picked P k l m -> picked Q k l m.
Proof.
  intros H K. induction K as [k|k x l m Pk K IH|k x l m Pk K IH]; [constructor| |];
    (constructor; [first [apply H; [cbn; lia | exact Pk] | intros C; apply Pk, H; [cbn; lia | exact C]] |
      apply IH; intros i Hi; apply H; cbn; lia]).
Qed.

Lemma good_vec r ws g : WInv r -> good r [] [] ws = Some g ->
  length g = length ws /\ forall i c, nth_error g i = Some c -> (c = true <-> is_good r ws i).
Proof.
  intros HI G. assert (B : bad r [] [] ws <> None).
  { intros C. apply good_bad_none in C. congruence. }
  destruct (bad r [] [] ws) as [b|] eqn:EB; [|congruence].
  destruct (good_bad_spec r [] [] ws g b HI G EB) as (L1 & L2 & s & Hs & K). split; [exact L1|].
  intros i c Hc.
  assert (exists w, nth_error ws i = Some w) as [w Hw].
  { destruct (nth_error ws i) eqn:E; [eauto|]. apply nth_error_None in E. assert (i < length g)%nat by (apply nth_error_Some; congruence). lia. }
  assert (Hsi : nth_error s i = Some true).
  { unfold select_category in Hs. cbn [select_bits] in Hs. apply OffProofs.some_inj in Hs. subst s. rewrite nth_error_map, Hw. cbn.
    now rewrite N.land_0_r. }
  destruct (K i w true Hw Hsi) as (gi & bi & Hg & _ & E & _). rewrite (is_good_passes r ws i w HI Hw).
  assert (gi = c) by congruence. subst. rewrite E. tauto.
Qed.

Lemma clear_ok r ws : WInv r -> exists ws', clear_cut r [] ws = Some ws' /\ length ws' = length ws /\
  (forall n i, registered r n -> ~ cut_by r n ws' i) /\ (forall h, category_codes r h ws' = category_codes r h ws).
Proof.
  intros HI. destruct (clear_cut r [] ws) as [ws'|] eqn:E; [|discriminate E].
  exists ws'. split; [reflexivity|]. destruct (clear_cut_spec r [] ws ws' HI E) as (L & P & _ & C & _).
  split; [exact L|]. split; [|exact C]. intros n i R (v & Hv & Hn).
  destruct (nth_error ws' i) as [w|] eqn:Hw.
  - assert (G : is_good r ws' i) by (apply (is_good_passes r ws' i w HI Hw), (P i w Hw)).
    apply (G n R). exists v. auto.
  - destruct (registered_bad_for r n ws' R) as (v' & Hv' & Lv). assert (v' = v) by congruence. subst v'.
    apply nth_error_None in Hw. assert (i < length v)%nat by (apply nth_error_Some; congruence). lia.
Qed.

(** The whole of apply_cuts. *)
Lemma apply_cuts_ok r tb p ctl clear ws :
  WInv r -> (forall f, In f (departure_field :: plain_fields) -> registered r f) -> ws <> [] -> sized p (length ws) ->
  let c := match ctl with Some c => c | None => standard_control end in
  usable_controls c ->
  exists ws', apply_cuts r tb p ctl clear ws = Some ws' /\ length ws' = length ws /\
    (forall i n a x, (i < length ws)%nat -> quantity tb p c i n a x ->
       (cut_by r n ws' i <-> (clear = false /\ cut_by r n ws i) \/ outside a x)) /\
    (exists l m, picked (good_before r clear ws ws') 0 (pretrig_mean p) l /\ (l <> [] -> middle l m) /\
       forall i x, nth_error (pretrig_mean p) i = Some x ->
       (cut_by r departure_field ws' i <->
        (clear = false /\ cut_by r departure_field ws i) \/ (l <> [] /\ outside (c_departure c) (xsub x m)))) /\
    (forall n i, registered r n -> ~ In n (departure_field :: plain_fields) ->
       (cut_by r n ws' i <-> clear = false /\ cut_by r n ws i)) /\
    (forall h, category_codes r h ws' = category_codes r h ws).
Proof.
  intros HI HR NE HS c HU.
  assert (HN : (0 < length ws)%nat) by (destruct ws; [congruence | cbn; lia]).
  unfold apply_cuts. rewrite (proj2 (Nat.eqb_neq _ _)) by lia.
  assert (exists ws0, (if clear then clear_cut r [] ws else Some ws) = Some ws0 /\ length ws0 = length ws /\
    (forall n i, registered r n -> (cut_by r n ws0 i <-> clear = false /\ cut_by r n ws i)) /\
    (forall h, category_codes r h ws0 = category_codes r h ws)) as (ws0 & E0 & L0 & C0 & K0).
  { destruct clear.
    - destruct (clear_ok r ws HI) as (ws0 & E & L & C & K). exists ws0. repeat split; try assumption.
      + exfalso. now apply C in H0.
      + now apply C in H0.
      + intros (H' & _). discriminate.
    - exists ws. repeat split; tauto. }
  rewrite E0. fold c.
  assert (PF : map fst (plain_cuts tb p c) = plain_fields) by reflexivity.
  destruct (cut_all_ok r HI (plain_cuts tb p c) ws0) as (ws1 & E1 & L1 & C1 & O1 & K1).
  { rewrite PF. apply nodup_plain. }
  { rewrite L0. apply plain_ok; try assumption. intros f Hf. apply HR. now right. }
  rewrite E1. rewrite PF in O1.
  assert (DP : ~ In departure_field plain_fields) by (unfold plain_fields, departure_field; cbn; intuition discriminate).
  assert (RD : registered r departure_field) by (apply HR; now left).
  assert (D1 : forall i, cut_by r departure_field ws1 i <-> clear = false /\ cut_by r departure_field ws i).
  { intros i. rewrite (O1 _ i DP). now apply C0. }
  assert (Q1 : forall i n a x, quantity tb p c i n a x -> (cut_by r n ws1 i <-> (clear = false /\ cut_by r n ws i) \/ outside a x)).
  { intros i n a x HQ. destruct (quantity_entry _ _ _ _ _ _ _ HQ) as (d & Hd & Hx).
    rewrite (C1 _ _ _ _ _ Hd Hx). rewrite C0; [tauto|]. apply HR. right. rewrite <- PF. exact (in_map fst _ _ Hd). }
  assert (QF : forall i n a x, quantity tb p c i n a x -> In n plain_fields).
  { intros i n a x HQ. destruct (quantity_entry _ _ _ _ _ _ _ HQ) as (d & Hd & Hx). rewrite <- PF. exact (in_map fst _ _ Hd). }
  (* [ws1] seen through the final masks *)
  assert (GB : forall ws', (forall n i, n <> departure_field -> (cut_by r n ws' i <-> cut_by r n ws1 i)) ->
     forall j, good_before r clear ws ws' j <-> is_good r ws1 j).
  { intros ws' Hsame j. unfold good_before, is_good. split.
    - intros (G1 & G2) n R. destruct (string_dec n departure_field) as [->|Hn].
      + rewrite D1. intros (A & B). destruct G2 as [G2|G2]; [congruence | tauto].
      + rewrite <- (Hsame n j Hn). now apply G1.
    - intros G. split.
      + intros n R Hn. rewrite (Hsame n j Hn). now apply G.
      + destruct clear; [now left|right]. intros C. apply (G _ RD). apply D1. auto. }
  assert (LM : length (pretrig_mean p) = length ws) by apply HS.
  assert (UD : usable (c_departure c)) by apply HU.
  destruct (good r [] [] ws1) as [g|] eqn:EG; [|discriminate EG].
  destruct (good_vec r ws1 g HI EG) as (Lg & Hg).
  set (l := where_true g (pretrig_mean p)).
  assert (PK : picked (is_good r ws1) 0 (pretrig_mean p) l).
  { apply where_picked; [congruence|]. intros i b Hb. now apply Hg. }
  assert (WN : l <> [] <-> existsb (fun b => b) g = true).
  { unfold l. clear -Lg LM L1 L0. assert (L : length g = length (pretrig_mean p)) by congruence. clear -L.
    revert L. generalize (pretrig_mean p). induction g as [|b g IH]; intros l L; [destruct l; [|discriminate]; cbn; split; congruence|].
    destruct l as [|x l]; [discriminate|]. cbn [where_true existsb]. destruct b; cbn [orb]; [split; congruence|].
    apply IH. now injection L. }
  assert (FIN : forall ws2, (forall n i, n <> departure_field -> (cut_by r n ws2 i <-> cut_by r n ws1 i)) -> length ws2 = length ws1 ->
    (forall i x, nth_error (pretrig_mean p) i = Some x ->
       (cut_by r departure_field ws2 i <-> cut_by r departure_field ws1 i \/ (l <> [] /\ outside (c_departure c) (xsub x (xmedian l))))) ->
    (forall h, category_codes r h ws2 = category_codes r h ws1) ->
    length ws2 = length ws /\
    (forall i n a x, (i < length ws)%nat -> quantity tb p c i n a x ->
       (cut_by r n ws2 i <-> (clear = false /\ cut_by r n ws i) \/ outside a x)) /\
    (exists l m, picked (good_before r clear ws ws2) 0 (pretrig_mean p) l /\ (l <> [] -> middle l m) /\
       forall i x, nth_error (pretrig_mean p) i = Some x ->
       (cut_by r departure_field ws2 i <->
        (clear = false /\ cut_by r departure_field ws i) \/ (l <> [] /\ outside (c_departure c) (xsub x m)))) /\
    (forall n i, registered r n -> ~ In n (departure_field :: plain_fields) ->
       (cut_by r n ws2 i <-> clear = false /\ cut_by r n ws i)) /\
    (forall h, category_codes r h ws2 = category_codes r h ws)).
  { intros ws2 Hsame L2 C2 K2. split; [congruence|]. split; [|split; [|split]].
    - intros i n b x Hi HQ. rewrite Hsame; [now apply Q1|]. intros ->. apply DP. apply (QF _ _ _ _ HQ).
    - exists l, (xmedian l). split; [|split].
      + eapply picked_ext; [|exact PK]. intros j _. symmetry. now apply GB.
      + apply xmedian_middle.
      + intros i x Hx. rewrite (C2 i x Hx), D1. tauto.
    - intros n i R Hn. rewrite Hsame by (intros ->; apply Hn; now left). rewrite O1 by (intros C; apply Hn; now right). now apply C0.
    - intros h. now rewrite K2, K1, K0. }
  destruct (c_departure c) as [a|] eqn:ED.
  - destruct (existsb (fun b => b) g) eqn:EX.
    + destruct (step_ok r (map (fun x => xsub x (xmedian l)) (pretrig_mean p)) (Some a) departure_field ws1 HI RD UD) as (ws2 & E2 & L2 & C2 & O2 & K2).
      { rewrite map_length. congruence. }
      exists ws2. split; [exact E2|]. apply FIN; try assumption.
      intros i x Hx. rewrite (C2 i (xsub x (xmedian l))) by (rewrite nth_error_map, Hx; reflexivity). tauto.
    + exists ws1. split; [reflexivity|]. apply FIN; try tauto. intros i x Hx. rewrite WN. intuition discriminate.
  - exists ws1. split; [reflexivity|]. apply FIN; try tauto. intros i x Hx. cbn [outside]. tauto.
Qed.

(** * auto_cuts *)

Lemma xleq_fin a b : xleq (Fin a) (Fin b) <-> (a <= b)%Q.
Proof.
  unfold xleq, is_num. cbn. split.
  - intros (_ & _ & H). now apply Qnot_lt_le.
  - intros H. repeat split; try discriminate. now apply Qle_not_lt.
Qed.

Lemma auto_usable l : usable_controls (auto_controls l).
Proof. unfold usable_controls, auto_controls. cbn. tauto. Qed.

Lemma quantity_values tb p c n i : sized p n -> (i < n)%nat -> forall f, In f plain_fields ->
  exists a x, quantity tb p c i f a x.
Proof.
  intros (S1 & S2 & S3 & S4 & S5 & S6 & S7 & S8 & S9 & S10 & S11) Hi f Hf.
  assert (V : forall l : list xval, length l = n -> exists x, nth_error l i = Some x).
  { intros l E. destruct (nth_error l i) eqn:E'; [eauto|]. apply nth_error_None in E'. lia. }
  unfold plain_fields in Hf. cbn [In] in Hf.
  destruct (V _ S1) as [x1 H1]. destruct (V _ S2) as [x2 H2]. destruct (V _ S3) as [x3 H3]. destruct (V _ S4) as [x4 H4].
  destruct (V _ S5) as [x5 H5]. destruct (V _ S6) as [x6 H6]. destruct (V _ S7) as [x7 H7]. destruct (V _ S8) as [x8 H8].
  destruct (V _ S9) as [x9 H9]. destruct (V _ S10) as [x10 H10]. destruct (V _ S11) as [x11 H11].
  assert (V' : forall l : list xval, length l = n -> forall j, i = S j -> exists x, nth_error l j = Some x).
  { intros l E j Ej. destruct (nth_error l j) eqn:E'; [eauto|]. apply nth_error_None in E'. lia. }
  repeat (destruct Hf as [<-|Hf]); try contradiction.
  - eexists _, _. eapply q_energy; eassumption.
  - eexists _, _. eapply q_rms; eassumption.
  - eexists _, _. eapply q_mean; eassumption.
  - eexists _, _. eapply q_peak_time; eassumption.
  - eexists _, _. eapply q_rise_time; eassumption.
  - eexists _, _. eapply q_deriv; eassumption.
  - eexists _, _. eapply q_average; eassumption.
  - eexists _, _. eapply q_peak; eassumption.
  - eexists _, _. eapply q_min; eassumption.
  - eexists _, _. eapply q_time; eassumption.
  - destruct i as [|j]; [eexists _, _; now apply q_time_diff0|]. destruct (V' _ S10 j eq_refl) as [y Hy].
    eexists _, _. eapply q_time_diff; [reflexivity | eassumption | eassumption].
  - destruct i as [|j]; [eexists _, _; now apply q_sub_diff0|]. destruct (V' _ S11 j eq_refl) as [y Hy].
    eexists _, _. eapply q_sub_diff; [reflexivity | eassumption | eassumption].
Qed.

(** A pulse is good after auto_cuts with clearing iff it is inside the four limits. *)
Lemma auto_cuts_ok r tb p l force s :
  WInv r -> (forall f, In f (departure_field :: plain_fields) -> registered r f) -> c_masks s <> [] -> sized p (length (c_masks s)) ->
  saved s = None \/ force = true ->
  exists s', auto_cuts r tb p (Some l) force true s = Some s' /\ length (c_masks s') = length (c_masks s) /\
    saved s' = Some (auto_controls l) /\
    (forall h, category_codes r h (c_masks s') = category_codes r h (c_masks s)) /\
    forall i pt rt rms dv, nth_error (peak_time p) i = Some (Fin pt) -> nth_error (rise_time p) i = Some (Fin rt) ->
      nth_error (pretrig_rms p) i = Some (Fin rms) -> nth_error (postpeak_deriv p) i = Some (Fin dv) ->
      (is_good r (c_masks s') i <->
       (0 < 1000 * pt < l_peak l)%Q /\ (0 < 1000 * rt < l_rise l)%Q /\ (rms < l_pt l)%Q /\ (dv < l_md l)%Q).
Proof.
  intros HI HR NE HS HF. unfold auto_cuts.
  destruct (clear_ok r (c_masks s) HI) as (ws0 & E0 & L0 & C0 & K0).
  assert (NE0 : ws0 <> []) by (intros ->; destruct (c_masks s); [congruence | discriminate]).
  destruct (apply_cuts_ok r tb p (Some (auto_controls l)) false ws0 HI HR NE0) as (ws1 & E1 & L1 & Q1 & D1 & O1 & K1).
  { now rewrite L0. }
  { apply auto_usable. }
  exists (mkChan ws1 (Some (auto_controls l)) (Some (upper (l_peak l), upper (l_rise l), upper (l_pt l), upper (l_md l)))).
  split; [|split; [|split; [|split]]].
  - assert (E : (if true then clear_cut r [] (c_masks s) else Some (c_masks s)) = Some ws0) by exact E0.
    cbn [save_auto_cuts]. rewrite E0, E1. unfold save_auto_cuts. cbn [auto_controls c_peak_time_ms c_rise_time_ms c_pretrigger_rms c_postpeak_deriv second c_masks].
    destruct HF as [->| ->]; [reflexivity|]. destruct (saved s); reflexivity.
  - cbn. congruence.
  - reflexivity.
  - intros h. cbn [c_masks]. now rewrite K1, K0.
  - intros i pt rt rms dv Hpt Hrt Hrms Hdv. cbn [c_masks].
    assert (Hi : (i < length ws0)%nat).
    { rewrite L0. destruct HS as (_ & E & _). rewrite <- E. apply nth_error_Some. congruence. }
    cbv zeta in Q1, D1. set (c := auto_controls l) in *.
    assert (A1 := Q1 i _ _ _ Hi (q_peak_time tb p c i _ Hpt)).
    assert (A2 := Q1 i _ _ _ Hi (q_rise_time tb p c i _ Hrt)).
    assert (A3 := Q1 i _ _ _ Hi (q_rms tb p c i _ Hrms)).
    assert (A4 := Q1 i _ _ _ Hi (q_deriv tb p c i _ Hdv)).
    assert (N0 : forall n, registered r n -> ~ (false = false /\ cut_by r n ws0 i)) by (intros n R (_ & H); now apply C0 in H).
    assert (R : forall f, In f plain_fields -> registered r f) by (intros f Hf; apply HR; now right).
    assert (B : forall lo hi x, outside (Some (OneRange lo hi)) (Fin x) <->
        (exists v, lo = Some v /\ xleq (Fin x) v) \/ (exists v, hi = Some v /\ xleq v (Fin x))) by (intros; reflexivity).
    assert (B0 : forall x h, outside (Some (OneRange (fin 0) (upper h))) (Fin x) <-> (x <= 0 \/ this h <= x)%Q).
    { intros x h. rewrite B. unfold fin, upper. split.
      - intros [(v & E & H)|(v & E & H)]; apply OffProofs.some_inj in E; subst v; apply xleq_fin in H; [now left | now right].
      - intros [H|H]; [left | right]; eexists; (split; [reflexivity|]); now apply xleq_fin. }
    assert (B1 : forall x h, outside (Some (OneRange None (upper h))) (Fin x) <-> (this h <= x)%Q).
    { intros x h. rewrite B. unfold upper. split.
      - intros [(v & E & H)|(v & E & H)]; [discriminate|]. apply OffProofs.some_inj in E. subst v. now apply xleq_fin in H.
      - intros H; right; eexists; (split; [reflexivity|]); now apply xleq_fin. }
    cbn [c auto_controls c_peak_time_ms c_rise_time_ms c_pretrigger_rms c_postpeak_deriv xscale] in A1, A2, A3, A4.
    rewrite B0 in A1, A2. rewrite B1 in A3, A4.
    split.
    + intros G. unfold is_good in G.
      assert (G1 := G _ (R "peak_time_ms"%string ltac:(unfold plain_fields; cbn [In]; tauto))).
      assert (G2 := G _ (R "rise_time_ms"%string ltac:(unfold plain_fields; cbn [In]; tauto))).
      assert (G3 := G _ (R "pretrigger_rms"%string ltac:(unfold plain_fields; cbn [In]; tauto))).
      assert (G4 := G _ (R "postpeak_deriv"%string ltac:(unfold plain_fields; cbn [In]; tauto))).
      rewrite A1 in G1. rewrite A2 in G2. rewrite A3 in G3. rewrite A4 in G4.
      repeat split; apply Qnot_le_lt; intros C; tauto.
    + intros ((P1 & P2) & (P3 & P4) & P5 & P6) n Rn.
      apply Qlt_not_le in P1, P2, P3, P4, P5, P6.
      destruct (in_dec string_dec n plain_fields) as [Hin|Hout].
      * destruct (string_dec n "peak_time_ms") as [->|N1]; [rewrite A1; specialize (N0 _ Rn); tauto|].
        destruct (string_dec n "rise_time_ms") as [->|N2]; [rewrite A2; specialize (N0 _ Rn); tauto|].
        destruct (string_dec n "pretrigger_rms") as [->|N3]; [rewrite A3; specialize (N0 _ Rn); tauto|].
        destruct (string_dec n "postpeak_deriv") as [->|N4]; [rewrite A4; specialize (N0 _ Rn); tauto|].
        destruct (quantity_values tb p c _ i HS ltac:(rewrite <- L0; exact Hi) n Hin) as (a & x & HQ).
        rewrite (Q1 i n a x Hi HQ). intros [H|H]; [now apply (N0 n Rn)|].
        destruct HQ; cbn in H; try contradiction; congruence.
      * destruct (string_dec n departure_field) as [->|ND].
        -- destruct D1 as (l' & m & _ & _ & D1).
           assert (exists x, nth_error (pretrig_mean p) i = Some x) as [x Hx].
           { destruct (nth_error (pretrig_mean p) i) eqn:E'; [eauto|]. apply nth_error_None in E'. destruct HS as (_ & _ & E & _). lia. }
           rewrite (D1 i x Hx). intros [H|(_ & H)]; [now apply (N0 _ Rn) | exact H].
        -- rewrite O1; [apply (N0 n Rn) | exact Rn |]. intros [C|C]; [congruence | contradiction].
Qed.

Lemma med_one v : med_madn [v] = Some (v, 0)%Qc.
Proof.
  assert (M : forall x, median [x] = Some x) by (intros x; reflexivity).
  unfold med_madn. rewrite M. cbn [map]. rewrite M. f_equal. f_equal.
  replace (v - v)%Qc with 0%Qc by ring. unfold qabs. replace (qltb 0 0) with false by reflexivity. ring.
Qed.

Lemma med_madn_ok l m k : med_madn l = Some (m, k) -> exists d, is_mad l m d /\ k = (d * mad_norm)%Qc.
Proof.
  unfold med_madn. destruct (median l) as [m'|] eqn:E; [|discriminate].
  destruct (median (map _ l)) as [d|] eqn:E2; [|discriminate]. intros H. injection H as -> <-.
  exists d. split; [|reflexivity]. split; now apply median_ok.
Qed.
Lemma med_madn_some l : l <> [] -> exists m k, med_madn l = Some (m, k).
Proof.
  intros N. unfold med_madn. destruct (median l) as [m|] eqn:E; [|now apply median_some in E].
  destruct (median (map _ l)) as [d|] eqn:E2; [eauto|]. apply median_some in E2; [contradiction|].
  destruct l; [congruence | discriminate].
Qed.

Definition default_deriv (d : list Qc) (v : Qc) : Prop := compute_max_deriv [d] 0 true DefaultKernel = Some [Some v].

(** The limits. *)
Lemma mad_norm_eq : mad_norm = Q2Qc (7413 # 5000).
Proof. apply Qc_is_canon; reflexivity. Qed.
Lemma auto_limits_ok std noise last npre ps np tb a b pctl : (7 <= length last)%nat ->
  exists l m d v, auto_limits std (noise ++ [last]) npre ps np tb a b pctl = Some l /\
    is_mad (map (fun r => std (firstn npre r)) (noise ++ [last])) m d /\
    default_deriv last v /\ l_md l = v /\
    l_pt l = match pctl with Some x => maxq (maxq 0 (m + d * Q2Qc (7413 # 5000) * a)) x | None => maxq 0 (m + d * Q2Qc (7413 # 5000) * a)%Qc end /\
    l_peak l = (Q2Qc (inject_Z (ps + 3 - np)) * tb * Q2Qc 1250)%Qc /\ l_rise l = (Q2Qc (inject_Z (ps + 3 - np)) * tb * Q2Qc 1100)%Qc.
Proof.
  intros L. unfold auto_limits. rewrite rev_app_distr. cbn [rev app].
  destruct (compute_max_deriv [last] 0 true DefaultKernel) as [[|[v|] [|x t]]|] eqn:E;
    try (exfalso; unfold compute_max_deriv in E; cbn [filter_coef map] in E; discriminate E).
  - rewrite med_one. destruct (med_madn_some (map (fun d => std (firstn npre d)) (noise ++ [last]))) as (m & k & EM).
    { rewrite map_app. cbn. intros C. apply app_eq_nil in C as (_ & C). discriminate. }
    rewrite EM. destruct (med_madn_ok _ _ _ EM) as (d & Hd & ->).
    eexists _, m, d, v. split; [reflexivity|]. split; [exact Hd|]. split; [exact E|]. cbn [l_md l_pt l_peak l_rise]. split; [ring|].
    split; [now rewrite <- mad_norm_eq|]. unfold XtModel.q. rewrite (Z.add_comm ps 3). split.
    + replace (Q2Qc 1250) with (Q2Qc (inject_Z 1000) * dq 125 100)%Qc by (apply Qc_is_canon; reflexivity). ring.
    + replace (Q2Qc 1100) with (Q2Qc (inject_Z 1000) * dq 110 100)%Qc by (apply Qc_is_canon; reflexivity). ring.
  - exfalso. unfold compute_max_deriv in E. cbn [filter_coef map skipn] in E. apply OffProofs.some_inj in E. injection E as E.
    unfold row_spike in E. rewrite (proj2 (Nat.ltb_ge _ _) L) in E.
    match type of E with context [fold_left ?f ?l ?s] => destruct (fold_left f l s) as [[[? ?] ?] ?] end. discriminate.
Qed.

Lemma is_mad_unique l m d m' d' : is_mad l m d -> is_mad l m' d' -> m = m' /\ d = d'.
Proof.
  intros (A & B) (A' & B'). assert (m = m') by apply (is_median_unique _ _ _ A A'). subst m'.
  split; [reflexivity | apply (is_median_unique _ _ _ B B')].
Qed.

Lemma is_median_perm l l' m : Permutation l l' -> is_median l m -> is_median l' m.
Proof.
  intros P (a & b & A & B & E). rewrite (Permutation_length P) in A, B.
  exists a, b. split; [now apply (order_statistic_perm _ l)|]. split; [now apply (order_statistic_perm _ l) | exact E].
Qed.
Lemma is_mad_perm l l' m d : Permutation l l' -> is_mad l m d -> is_mad l' m d.
Proof. intros P (A & B). split; [now apply (is_median_perm l)|]. eapply is_median_perm; [|exact B]. now apply Permutation_map. Qed.

Lemma limits_last std n1 d1 l1 npre ps np tb a b pctl :
  auto_limits std (n1 ++ [d1]) npre ps np tb a b pctl = Some l1 -> (7 <= length d1)%nat ->
  exists m d v, is_mad (map (fun r => std (firstn npre r)) (n1 ++ [d1])) m d /\ default_deriv d1 v /\ l_md l1 = v /\
    l_pt l1 = match pctl with Some x => maxq (maxq 0 (m + d * mad_norm * a)) x | None => maxq 0 (m + d * mad_norm * a)%Qc end.
Proof.
  intros E L. destruct (auto_limits_ok std n1 d1 npre ps np tb a b pctl L) as (l & m & d & v & E' & H1 & H2 & H3 & H4 & _).
  rewrite E in E'. apply OffProofs.some_inj in E'. subst l. exists m, d, v. rewrite mad_norm_eq. tauto.
Qed.

Lemma limits_permuted std noise noise' npre ps np tb a b pctl l l' :
  Permutation noise noise' -> Forall (fun r => 7 <= length r)%nat noise ->
  auto_limits std noise npre ps np tb a b pctl = Some l -> auto_limits std noise' npre ps np tb a b pctl = Some l' ->
  l_pt l = l_pt l'.
Proof.
  intros P F E E'.
  destruct (exists_last (l := noise)) as (n1 & d1 & ->); [intros ->; discriminate E|].
  destruct (exists_last (l := noise')) as (n2 & d2 & ->); [intros ->; discriminate E'|].
  rewrite Forall_forall in F.
  destruct (limits_last _ _ _ _ _ _ _ _ _ _ _ E) as (m & d & v & M & _ & _ & ->).
  { apply F. apply in_or_app. right. now left. }
  destruct (limits_last _ _ _ _ _ _ _ _ _ _ _ E') as (m' & d' & v' & M' & _ & _ & ->).
  { apply F. apply (Permutation_in _ (Permutation_sym P)), in_or_app. right. now left. }
  destruct (is_mad_unique _ _ _ _ _ (is_mad_perm _ _ _ _ (Permutation_map _ P) M) M') as (-> & ->). reflexivity.
Qed.

Lemma deriv_limit_last std std' n n' last npre npre' ps np tb a b pctl ps' np' tb' a' b' pctl' l l' :
  (7 <= length last)%nat ->
  auto_limits std (n ++ [last]) npre ps np tb a b pctl = Some l ->
  auto_limits std' (n' ++ [last]) npre' ps' np' tb' a' b' pctl' = Some l' -> l_md l = l_md l'.
Proof.
  intros L E E'. destruct (limits_last _ _ _ _ _ _ _ _ _ _ _ E L) as (m & d & v & _ & V & -> & _).
  destruct (limits_last _ _ _ _ _ _ _ _ _ _ _ E' L) as (m' & d' & v' & _ & V' & -> & _).
  unfold default_deriv in *. congruence.
Qed.

Lemma lim_eq a b c d a' b' c' d' : a = a' -> b = b' -> c = c' -> d = d' -> mkLim a b c d = mkLim a' b' c' d'.
Proof. congruence. Qed.

Definition rec_of (l : list Z) : list Qc := map XtModel.q l.

(** A noise file with a record whose derivative is 100 per sample gives the same limits as one without. *)
Lemma all_records_refuted : exists std noise noise' l,
  default_deriv (nth 0 noise' []) (XtModel.q 10) /\
  length noise = 2%nat /\ length noise' = 2%nat /\ nth 0 noise [] <> nth 0 noise' [] /\
  (forall npre, (npre <= 2)%nat -> map (fun d => std (firstn npre d)) noise = map (fun d => std (firstn npre d)) noise') /\
  (forall a b, auto_limits std noise 2 5 2 1 a b None = Some (l a) /\ auto_limits std noise' 2 5 2 1 a b None = Some (l a)) /\
  (forall a, l_md (l a) = 0%Qc).
Proof.
  exists (fun d => 0%Qc), [rec_of [0;0;0;0;0;0;0;0;0;0]; rec_of [0;0;0;0;0;0;0;0;0;0]]%Z,
    [rec_of [0;0;0;10;20;30;40;50;60;70]; rec_of [0;0;0;0;0;0;0;0;0;0]]%Z,
    (fun a => mkLim (XtModel.q 7500) (XtModel.q 6600) 0 0).
  split. { unfold default_deriv. vm_compute. reflexivity. }
  split; [reflexivity|]. split; [reflexivity|]. split; [vm_compute; discriminate|]. split; [intros npre _; reflexivity|].
  split; [|reflexivity].
  intros a b.
  assert (K : forall x : Qc, (0 + 0 * x = 0)%Qc) by (intros; ring).
  assert (MM : med_madn [0%Qc; 0%Qc] = Some (0, 0)%Qc).
  { vm_compute. apply f_equal. apply f_equal2; apply Qc_is_canon; reflexivity. }
  split; unfold auto_limits; cbn [rev app map];
    match goal with |- context [compute_max_deriv ?x 0 true DefaultKernel] =>
      let e := fresh in assert (e : compute_max_deriv x 0 true DefaultKernel = Some [Some 0%Qc]) by (vm_compute; apply f_equal; apply f_equal2; [apply f_equal; apply Qc_is_canon; reflexivity | reflexivity]); rewrite e end;
    rewrite med_one, MM, !K; vm_compute; apply f_equal; apply lim_eq; apply Qc_is_canon; reflexivity.
Qed.

Lemma reload_refuted : exists p l s s',
  auto_cuts init_registry 1 p (Some l) false true s = Some s' /\
  saved (load_auto_cuts s') <> saved s' /\
  exists w, apply_cuts init_registry 1 p (saved s') true (c_masks s) = Some (c_masks s') /\
            apply_cuts init_registry 1 p (saved (load_auto_cuts s')) true (c_masks s) = Some w /\
            is_good init_registry w 0 /\ ~ is_good init_registry (c_masks s') 0.
Proof.
  exists (mkQuant [Fin 0] [Fin 1] [Fin 0] [Fin (-1)] [Fin (1 # 1000)] [Fin 1] [Fin 1] [Fin 1] [Fin 1] [Fin 1] [Fin 1]),
    (mkLim (XtModel.q 5) (XtModel.q 4) (XtModel.q 10) (XtModel.q 10)), (mkChan [0%N] None None).
  eexists. split; [vm_compute; reflexivity|]. split; [discriminate|].
  eexists. split; [vm_compute; reflexivity|]. split; [vm_compute; reflexivity|].
  assert (HI : WInv init_registry) by (apply (run_winv [] _), init_winv).
  split.
  - apply (is_good_passes init_registry [0%N] 0 0%N HI eq_refl). intros p b _ _ _ _. apply N.bits_0.
  - intros G. cbn [c_masks] in G. apply (G "peak_time_ms"%string).
    + split; [|discriminate]. apply (proj1 (in_names_In _ _)). vm_compute. reflexivity.
    + eexists. split; vm_compute; reflexivity.
Qed.

(** The fields are there in every history that does not unregister them. *)
Lemma builtin_registered f : In f (departure_field :: plain_fields) -> registered init_registry f.
Proof.
  intros H. split.
  - apply (proj1 (in_names_In _ _)). unfold plain_fields, departure_field in H. cbn [In] in H.
    repeat (destruct H as [<-|H]; [vm_compute; reflexivity|]). contradiction.
  - intros ->. unfold plain_fields, departure_field in H. cbn [In] in H. repeat (destruct H as [H|H]; [discriminate|]). contradiction.
Qed.

(** * The default limits *)

Lemma outside_fin lo hi x :
  outside (Some (OneRange lo hi)) (Fin x) <->
  (exists v, lo = Some v /\ xleq (Fin x) v) \/ (exists v, hi = Some v /\ xleq v (Fin x)).
Proof. reflexivity. Qed.
Lemma outside_none x : ~ outside (Some (OneRange None None)) x.
Proof. destruct x; cbn; intros [(v & E & _)|(v & E & _)]; discriminate. Qed.
Lemma outside_below a x : outside (Some (OneRange (Some (Fin a)) None)) (Fin x) <-> (x <= a)%Q.
Proof.
  rewrite outside_fin. split.
  - intros [(v & E & H)|(v & E & H)]; [|discriminate]. apply OffProofs.some_inj in E. subst v. now apply xleq_fin in H.
  - intros H. left. eexists. split; [reflexivity|]. now apply xleq_fin.
Qed.
Lemma outside_above a x : outside (Some (OneRange None (Some (Fin a)))) (Fin x) <-> (a <= x)%Q.
Proof.
  rewrite outside_fin. split.
  - intros [(v & E & H)|(v & E & H)]; [discriminate|]. apply OffProofs.some_inj in E. subst v. now apply xleq_fin in H.
  - intros H. right. eexists. split; [reflexivity|]. now apply xleq_fin.
Qed.
Lemma outside_both a b x : outside (Some (OneRange (Some (Fin a)) (Some (Fin b)))) (Fin x) <-> (x <= a \/ b <= x)%Q.
Proof.
  rewrite outside_fin. split.
  - intros [(v & E & H)|(v & E & H)]; apply OffProofs.some_inj in E; subst v; apply xleq_fin in H; [now left | now right].
  - intros [H|H]; [left | right]; eexists; (split; [reflexivity|]); now apply xleq_fin.
Qed.

Lemma standard_ok r tb p ws :
  WInv r -> (forall f, In f (departure_field :: plain_fields) -> registered r f) -> ws <> [] -> sized p (length ws) ->
  exists ws' l m, apply_cuts r tb p None true ws = Some ws' /\ picked (good_before r true ws ws') 0 (pretrig_mean p) l /\
    (l <> [] -> middle l m) /\ standard_limits r p l m ws'.
Proof.
  intros HI HR NE HS.
  destruct (apply_cuts_ok r tb p None true ws HI HR NE HS) as (ws1 & E1 & L1 & Q1 & D1 & O1 & K1).
  { unfold usable_controls; cbn; tauto. }
  cbv zeta in Q1, D1. destruct D1 as (l & m & P & M & D). exists ws1, l, m. split; [exact E1|]. split; [exact P|]. split; [exact M|].
  assert (W : forall i n a x, quantity tb p standard_control i n a x -> (i < length ws)%nat -> (cut_by r n ws1 i <-> outside a x)).
  { intros i n a x Hq Hi. rewrite (Q1 _ _ _ _ Hi Hq). split; [intros [(C & _)|H]; [discriminate | exact H] | now right]. }
  assert (B : forall (A : Type) (v : list A) i x, length v = length ws -> nth_error v i = Some x -> (i < length ws)%nat).
  { intros A v i x EL EN. rewrite <- EL. apply nth_error_Some. congruence. }
  destruct HS as (S1 & S2 & S3 & S4 & S5 & S6 & S7 & S8 & S9 & S10 & S11).
  constructor.
  - intros i x Hx. rewrite (W i _ _ _ (q_rms _ _ _ _ _ Hx) (B _ _ _ _ S2 Hx)). apply outside_above.
  - intros i x Hx. rewrite (W i _ _ _ (q_peak_time _ _ _ _ _ Hx) (B _ _ _ _ S4 Hx)). apply outside_both.
  - intros i x Hx. rewrite (W i _ _ _ (q_rise_time _ _ _ _ _ Hx) (B _ _ _ _ S5 Hx)). apply outside_both.
  - intros i x Hx. rewrite (W i _ _ _ (q_deriv _ _ _ _ _ Hx) (B _ _ _ _ S6 Hx)). apply outside_above.
  - intros i x Hx. rewrite (W i _ _ _ (q_average _ _ _ _ _ Hx) (B _ _ _ _ S7 Hx)). apply outside_below.
  - intros i x Hx. rewrite (W i _ _ _ (q_peak _ _ _ _ _ Hx) (B _ _ _ _ S8 Hx)). apply outside_below.
  - intros i x y Hx Hy. rewrite (W i _ _ _ (q_min _ _ _ _ _ _ Hx Hy) (B _ _ _ _ S9 Hx)). apply outside_below.
  - intros f Hf i Hi. rewrite L1 in Hi.
    assert (Hpl : In f plain_fields) by (unfold plain_fields; cbn [In] in *; tauto).
    destruct (quantity_values tb p standard_control (length ws) i) with (f := f) as (a & x & Hq);
      [unfold sized; tauto | exact Hi | exact Hpl |].
    rewrite (W i _ _ _ Hq Hi). cbn [In] in Hf.
    destruct Hq; cbn [standard_control c_energy c_pretrigger_mean c_timestamp_sec c_timestamp_diff_sec c_subframecount_diff_sec];
      try (now intros []); try apply outside_none; exfalso; repeat (destruct Hf as [Hf|Hf]; [discriminate|]); exact Hf.
  - intros HL i x c Hx Hm. rewrite (D i _ Hx). rewrite Hm. cbn [standard_control c_departure xsub xneg xadd].
    rewrite (outside_both (-50 # 1) (50 # 1)). split; [intros [(C & _)|(_ & H)]; [discriminate | exact H] | intros H; right; split; [exact HL | exact H]].
Qed.

Lemma reload_ok r tb p l force s s' :
  WInv r -> (forall f, In f (departure_field :: plain_fields) -> registered r f) -> c_masks s <> [] -> sized p (length (c_masks s)) ->
  saved s = None \/ force = true -> auto_cuts r tb p (Some l) force true s = Some s' ->
  exists ws1, apply_cuts r tb p (saved (load_auto_cuts s')) true (c_masks s) = Some ws1 /\
    forall i pt rt rms dv, nth_error (peak_time p) i = Some (Fin pt) -> nth_error (rise_time p) i = Some (Fin rt) ->
      nth_error (pretrig_rms p) i = Some (Fin rms) -> nth_error (postpeak_deriv p) i = Some (Fin dv) ->
      (is_good r ws1 i <-> (1000 * pt < l_peak l)%Q /\ (1000 * rt < l_rise l)%Q /\ (rms < l_pt l)%Q /\ (dv < l_md l)%Q).
Proof.
  intros HI HR NE HS HF EA.
  set (c := mkCtl None (Some (OneRange None (upper (l_pt l)))) None (Some (OneRange None (upper (l_peak l)))) (Some (OneRange None (upper (l_rise l))))
              (Some (OneRange None (upper (l_md l)))) None None None None None None None).
  assert (EL : saved (load_auto_cuts s') = Some c).
  { unfold auto_cuts in EA. destruct (clear_ok r (c_masks s) HI) as (ws0 & E0 & L0 & C0 & K0).
    assert (NE0 : ws0 <> []) by (intros ->; destruct (c_masks s); [congruence | discriminate]).
    destruct (apply_cuts_ok r tb p (Some (auto_controls l)) false ws0 HI HR NE0) as (ws1 & E1 & _).
    { now rewrite L0. }
    { apply auto_usable. }
    rewrite E0, E1 in EA. unfold save_auto_cuts in EA.
    cbn [auto_controls c_peak_time_ms c_rise_time_ms c_pretrigger_rms c_postpeak_deriv second c_masks] in EA.
    destruct HF as [HF| ->]; [rewrite HF in EA | destruct (saved s)]; apply OffProofs.some_inj in EA; subst s'; reflexivity. }
  rewrite EL.
  destruct (apply_cuts_ok r tb p (Some c) true (c_masks s) HI HR NE HS) as (ws1 & E1 & L1 & Q1 & D1 & O1 & K1).
  { unfold usable_controls; cbn; tauto. }
  exists ws1. split; [exact E1|].
  intros i pt rt rms dv Hpt Hrt Hrms Hdv.
  assert (Hi : (i < length (c_masks s))%nat).
  { destruct HS as (_ & E & _). rewrite <- E. apply nth_error_Some. congruence. }
  cbv zeta in Q1, D1.
  assert (A1 := Q1 i _ _ _ Hi (q_peak_time tb p c i _ Hpt)).
  assert (A2 := Q1 i _ _ _ Hi (q_rise_time tb p c i _ Hrt)).
  assert (A3 := Q1 i _ _ _ Hi (q_rms tb p c i _ Hrms)).
  assert (A4 := Q1 i _ _ _ Hi (q_deriv tb p c i _ Hdv)).
  assert (N0 : forall n, ~ (true = false /\ cut_by r n (c_masks s) i)) by (intros n (C & _); discriminate).
  assert (R : forall f, In f plain_fields -> registered r f) by (intros f Hf; apply HR; now right).
  unfold c in A1, A2, A3, A4.
  cbn [c_peak_time_ms c_rise_time_ms c_pretrigger_rms c_postpeak_deriv xscale] in A1, A2, A3, A4.
  unfold upper in A1, A2, A3, A4. rewrite outside_above in A1, A2, A3, A4.
  split.
  - intros G. unfold is_good in G.
    assert (G1 := G _ (R "peak_time_ms"%string ltac:(unfold plain_fields; cbn [In]; tauto))).
    assert (G2 := G _ (R "rise_time_ms"%string ltac:(unfold plain_fields; cbn [In]; tauto))).
    assert (G3 := G _ (R "pretrigger_rms"%string ltac:(unfold plain_fields; cbn [In]; tauto))).
    assert (G4 := G _ (R "postpeak_deriv"%string ltac:(unfold plain_fields; cbn [In]; tauto))).
    rewrite A1 in G1. rewrite A2 in G2. rewrite A3 in G3. rewrite A4 in G4.
    repeat split; apply Qnot_le_lt; intros C; tauto.
  - intros (P2 & P4 & P5 & P6) n Rn.
    apply Qlt_not_le in P2, P4, P5, P6.
    destruct (in_dec string_dec n plain_fields) as [Hin|Hout].
    + destruct (string_dec n "peak_time_ms") as [->|N1]; [rewrite A1; specialize (N0 "peak_time_ms"%string); tauto|].
      destruct (string_dec n "rise_time_ms") as [->|N2]; [rewrite A2; specialize (N0 "rise_time_ms"%string); tauto|].
      destruct (string_dec n "pretrigger_rms") as [->|N3]; [rewrite A3; specialize (N0 "pretrigger_rms"%string); tauto|].
      destruct (string_dec n "postpeak_deriv") as [->|N4]; [rewrite A4; specialize (N0 "postpeak_deriv"%string); tauto|].
      destruct (quantity_values tb p c _ i HS Hi n Hin) as (a & x & HQ).
      rewrite (Q1 i n a x Hi HQ). intros [H|H]; [now apply (N0 n)|].
      destruct HQ; cbn in H; try contradiction; congruence.
    + destruct (string_dec n departure_field) as [->|ND].
      * destruct D1 as (l' & m & _ & _ & D1).
        assert (exists x, nth_error (pretrig_mean p) i = Some x) as [x Hx].
        { destruct (nth_error (pretrig_mean p) i) eqn:E'; [eauto|]. apply nth_error_None in E'. destruct HS as (_ & _ & E & _). lia. }
        rewrite (D1 i x Hx). intros [H|(_ & H)]; [now apply (N0 departure_field) | exact H].
      * rewrite O1; [apply (N0 n) | exact Rn |]. intros [C|C]; [congruence | contradiction].
Qed.
