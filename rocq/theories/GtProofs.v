From Coq Require Import ZArith Bool Lia QArith QArith.Qcanon String List.
From Verif Require Import QcPre LjhModel LjhSpec LjhProofs LjhEdit ArrModel ArrSpec GtModel GtSpec.
Import ListNotations.
Open Scope Z_scope.

(* ---- segments ---- *)
Lemma size_holds : forall o size per n, set_segment_size o size = Some (per, n) ->
  1 <= per /\ holds (Z.of_nat (pulse_size o)) size per.
Proof.
  intros o size per n. unfold set_segment_size.
  assert (P : 0 < Z.of_nat (pulse_size o)) by (unfold pulse_size; destruct (v22 o); lia).
  destruct (Z.ltb_spec (size / Z.of_nat (pulse_size o)) 1); [discriminate|]. intros H0. injection H0 as <- _.
  rewrite Z.div_mul by lia. split; [lia|]. unfold holds.
  pose proof (Z.div_mod size (Z.of_nat (pulse_size o)) ltac:(lia)). pose proof (Z.mod_pos_bound size (Z.of_nat (pulse_size o)) ltac:(lia)). nia.
Qed.
Lemma size_none : forall o size, set_segment_size o size = None <-> size < Z.of_nat (pulse_size o).
Proof.
  intros o size. unfold set_segment_size.
  assert (P : 0 < Z.of_nat (pulse_size o)) by (unfold pulse_size; destruct (v22 o); lia).
  destruct (Z.ltb_spec (size / Z.of_nat (pulse_size o)) 1).
  - split; [|reflexivity]. intros _. pose proof (Z.div_mod size (Z.of_nat (pulse_size o)) ltac:(lia)).
    pose proof (Z.mod_pos_bound size (Z.of_nat (pulse_size o)) ltac:(lia)). nia.
  - split; [discriminate|]. intros X. exfalso. pose proof (Z.div_lt_upper_bound size (Z.of_nat (pulse_size o)) 1 ltac:(lia)). lia.
Qed.
Lemma size_loop_spec : forall size files b, let '(m, l, r) := size_loop size files b in
  (r = true <-> exists o, In o files /\ size < Z.of_nat (pulse_size o)) /\
  (r = false -> Forall2 (fun o per => 1 <= per /\ holds (Z.of_nat (pulse_size o)) size per) files l /\ m = fold_left Z.max l b).
Proof.
  induction files as [|o files IH]; intros b; cbn [size_loop].
  - split; [split; [discriminate|intros (o & [] & _)]|]. intros _. split; [constructor|reflexivity].
  - destruct (set_segment_size o size) as [[per n]|] eqn:E.
    + specialize (IH (Z.max b per)). destruct (size_loop size files (Z.max b per)) as [[m l] r]. destruct IH as [I1 I2].
      assert (N : ~ size < Z.of_nat (pulse_size o)) by (intros X; apply size_none in X; congruence). split.
      * rewrite I1. split; [intros (x & Hx & L); exists x; split; [now right|exact L]|].
        intros (x & [<- | Hx] & L); [contradiction|]. exists x. auto.
      * intros R. destruct (I2 R) as [F M]. split; [|exact M]. constructor; [eapply size_holds; eassumption|exact F].
    + split; [|discriminate]. split; [|reflexivity]. intros _. exists o. split; [now left|]. now apply size_none.
Qed.
Lemma fold_max_const : forall l p b, forallb (Z.eqb p) l = true -> b <= p -> l <> [] -> fold_left Z.max l b = p.
Proof.
  induction l as [|x l IH]; intros p b H B NE; [congruence|]. simpl in *. apply andb_true_iff in H. destruct H as [H1 H2].
  apply Z.eqb_eq in H1. subst. destruct l as [|y l]; [simpl; lia|]. apply IH; [exact H2|lia|discriminate].
Qed.
Lemma holds_unique : forall r n k k', 0 < r -> holds r n k -> holds r n k' -> k = k'.
Proof. unfold holds. intros. nia. Qed.

(* ---- masks ---- *)
Lemma qle_true : forall x y, qle x y = true <-> (x <= y)%Qc.
Proof.
  intros x y. unfold qle. destruct (Qclt_le_dec y x) as [L|L]; split; auto; try discriminate. intros X. exfalso. qlra.
Qed.
Lemma mask_within : forall a b x, qle (qabs (x - half * (a + b))) (half * qabs (b - a)) = true <-> within a b x.
Proof.
  intros a b x. rewrite qle_true. unfold within, half, qabs.
  repeat match goal with |- context [Qclt_le_dec ?u ?v] => destruct (Qclt_le_dec u v) end.
  all: split; [intros H|intros [[H1 H2]|[H1 H2]]]; try (destruct (Qclt_le_dec a b); [left|right]; split); qlra.
Qed.
Lemma zip3_length : forall {A B C} (f : A -> B -> C) a b, List.length (zip3 f a b) = Nat.min (List.length a) (List.length b).
Proof. intros A B C f. induction a as [|x a IH]; intros [|y b]; simpl; auto. Qed.
Lemma zip3_nth : forall {A B C} (f : A -> B -> C) a b i,
  nth_error (zip3 f a b) i = match nth_error a i, nth_error b i with Some x, Some y => Some (f x y) | _, _ => None end.
Proof.
  intros A B C f. induction a as [|x a IH]; intros [|y b] [|i]; simpl; auto. now destruct (nth_error a i).
Qed.

(* ---- the report ---- *)
Lemma count_filter : forall g, List.length (filter (fun b => b) g) = count_occ Bool.bool_dec g true.
Proof. induction g as [|[] g IH]; simpl; auto. Qed.
Lemma select_nil : forall g {A : Type} (l : list A), List.length l = List.length g ->
  (select g l = [] <-> forall i, nth_error g i <> Some true).
Proof.
  induction g as [|b g IH]; intros A [|x l] L; simpl in *; try discriminate.
  - split; [intros _ i; destruct i; discriminate|reflexivity].
  - injection L as L. destruct b.
    + split; [discriminate|]. intros H. exfalso. apply (H 0%nat). reflexivity.
    + rewrite (IH A l L). split; [intros H [|i]; simpl; [discriminate|apply H]|intros H i; apply (H (Datatypes.S i))].
Qed.
Lemma select_first : forall g {A : Type} (l : list A) x t, List.length l = List.length g -> select g l = x :: t ->
  exists i, nth_error g i = Some true /\ nth_error l i = Some x /\ (forall k, nth_error g k = Some true -> (i <= k)%nat) /\ argmax g = i.
Proof.
  induction g as [|b g IH]; intros A [|y l] x t L H; simpl in *; try discriminate.
  injection L as L. destruct b.
  - injection H as -> _. exists 0%nat. repeat split; auto. intros. lia.
  - destruct (IH A l x t L H) as (i & G & E & M & AM). exists (Datatypes.S i). repeat split; auto.
    + intros [|k] Hk; [discriminate|]. simpl in Hk. apply M in Hk. lia.
    + replace (existsb (fun b => b) g) with true; [now rewrite AM|]. symmetry. apply existsb_exists. exists true.
      split; [eapply nth_error_In; eassumption|reflexivity].
Qed.
Lemma select_last : forall g {A : Type} (l : list A) x t, List.length l = List.length g -> rev (select g l) = x :: t ->
  exists i, nth_error g i = Some true /\ nth_error l i = Some x /\ forall k, nth_error g k = Some true -> (k <= i)%nat.
Proof.
  induction g as [|b g IH]; intros A [|y l] x t L H; simpl in *; try discriminate.
  injection L as L. destruct b.
  - simpl in H. destruct (rev (select g l)) as [|z t'] eqn:E.
    + simpl in H. injection H as -> _. exists 0%nat. repeat split; auto. intros [|k] Hk; [lia|]. exfalso.
      assert (X : select g l = []) by (rewrite <- (rev_involutive (select g l)), E; reflexivity).
      apply (proj1 (select_nil g l L) X k). exact Hk.
    + simpl in H. injection H as -> _. destruct (IH A l x t' L E) as (i & G & EL & M). exists (Datatypes.S i). repeat split; auto.
      intros [|k] Hk; [lia|]. apply M in Hk. lia.
  - destruct (IH A l x t L H) as (i & G & EL & M). exists (Datatypes.S i). repeat split; auto.
    intros [|k] Hk; [lia|]. apply M in Hk. lia.
Qed.
(* as many good pulses as places from i to j, at most *)
Lemma count_bound : forall g i j, good_from_to g i j ->
  (1 <= count_occ Bool.bool_dec g true <= j - i + 1)%nat /\
  (count_occ Bool.bool_dec g true = j - i + 1 <-> forall k, (i <= k <= j)%nat -> nth_error g k = Some true)%nat.
Proof.
  induction g as [|b g IH]; intros i j (G1 & G2 & G3).
  - destruct i; discriminate.
  - destruct (in_dec Bool.bool_dec true g) as [I|I].
    + (* there is a good one in the rest *)
      destruct b.
      * assert (i = 0%nat) by (specialize (G3 0%nat eq_refl); lia). subst i.
        assert (X : exists i', good_from_to g i' (Nat.pred j) /\ (0 < j)%nat).
        { apply In_nth_error in I. destruct I as [k Hk]. pose proof (G3 (Datatypes.S k) Hk) as B.
          assert (Y : exists i', nth_error g i' = Some true /\ forall k, nth_error g k = Some true -> (i' <= k)%nat).
          { clear - Hk. revert k Hk. induction g as [|c g IH]; intros [|k] Hk; try discriminate.
            - exists 0%nat. split; [exact Hk|intros; lia].
            - destruct c; [exists 0%nat; split; [reflexivity|intros; lia]|]. destruct (IH k Hk) as (i' & A & B).
              exists (Datatypes.S i'). split; [exact A|]. intros [|m] Hm; [discriminate|]. apply B in Hm. lia. }
          destruct Y as (i' & Y1 & Y2). exists i'. split; [|lia]. destruct j; [lia|]. simpl. repeat split; auto.
          intros. specialize (G3 (Datatypes.S k0) H). lia. }
        destruct X as (i' & GF & J). destruct (IH _ _ GF) as [C1 C2]. destruct GF as (F1 & F2 & F3).
        pose proof (F3 _ F1) as FB. destruct j as [|j]; [lia|]. simpl Nat.pred in *. cbn [count_occ].
        destruct (Bool.bool_dec true true); [|congruence]. split; [lia|]. split.
        -- intros E. assert (Z0 : i' = 0%nat) by lia. subst. intros [|k] Hk; [reflexivity|]. simpl.
           apply C2; lia.
        -- intros H. assert (Z0 : i' = 0%nat) by (specialize (F3 0%nat (H 1%nat ltac:(lia))); lia). subst.
           assert (count_occ Bool.bool_dec g true = j - 0 + 1)%nat; [|lia].
           apply C2. intros k Hk. apply (H (Datatypes.S k)). lia.
      * destruct i as [|i]; [discriminate|]. destruct j as [|j]; [discriminate|].
        assert (GF : good_from_to g i j).
        { repeat split; auto. all: intros; specialize (G3 (Datatypes.S k) H); lia. }
        destruct (IH _ _ GF) as [C1 C2]. cbn [count_occ]. destruct (Bool.bool_dec false true); [congruence|].
        split; [lia|]. change (Datatypes.S j - Datatypes.S i)%nat with (j - i)%nat. rewrite C2. split.
        -- intros H [|k] Hk; [lia|]. apply H. lia.
        -- intros H k Hk. apply (H (Datatypes.S k)). lia.
    + assert (Z0 : count_occ Bool.bool_dec g true = 0%nat) by now apply count_occ_not_In.
      destruct i as [|i]; [|exfalso; apply I; eapply nth_error_In; exact G1].
      destruct j as [|j]; [|exfalso; apply I; eapply nth_error_In; exact G2].
      simpl in G1. injection G1 as ->. cbn [count_occ]. destruct (Bool.bool_dec true true); [|congruence]. rewrite Z0.
      split; [lia|]. split; [|lia]. intros _ k Hk. assert (k = 0%nat) by lia. subst. reflexivity.
Qed.

(* ---- the header line ---- *)
Lemma after_last_none : forall h p l, ~ In h l -> after_last (h :: p) l = None.
Proof.
  induction l as [|x l IH]; intros H; [reflexivity|]. cbn [after_last].
  rewrite IH by (intros X; apply H; now right). cbn [starts].
  destruct (Z.eqb_spec h x); [exfalso; apply H; now left|reflexivity].
Qed.
Lemma starts_app : forall p r, starts p (p ++ r) = true.
Proof. induction p as [|x p IH]; intros r; simpl; [reflexivity|]. now rewrite Z.eqb_refl, IH. Qed.
Lemma skipn_app_length : forall (p r : bytes), skipn (List.length p) (p ++ r) = r.
Proof. induction p; simpl; auto. Qed.
Lemma after_last_app : forall h p x r, ~ In h p -> ~ In h r -> after_last (h :: p) (x ++ (h :: p) ++ r) = Some r.
Proof.
  intros h p x r Hp Hr. induction x as [|c x IH].
  - cbn [List.app after_last]. rewrite after_last_none.
    + change (h :: p ++ r) with ((h :: p) ++ r). rewrite starts_app. f_equal. apply skipn_app_length.
    + intros X. apply in_app_or in X. tauto.
  - cbn [List.app after_last]. change (h :: p ++ r) with ((h :: p) ++ r). rewrite IH. reflexivity.
Qed.
Lemma nrow_found : forall x g, ~ In 40 g -> nrow_text (x ++ bs "(nrow=" ++ g ++ [41; 10]) = Some g.
Proof.
  intros x g H. unfold nrow_text. change (bs "(nrow=") with (40 :: bs "nrow=").
  rewrite after_last_app.
  - rewrite rev_app_distr. simpl. now rewrite rev_involutive.
  - simpl. intuition; lia.
  - intros X. apply in_app_or in X. simpl in X. intuition; lia.
Qed.
Lemma nrow_missing : forall x, nth_error (rev x) 0 <> Some 41 -> nrow_text (x ++ [10]) = None.
Proof.
  intros x H. unfold nrow_text. destruct (after_last (bs "(nrow=") (x ++ [10])) as [r|] eqn:E; [|reflexivity].
  assert (X : exists y, x ++ [10] = y ++ bs "(nrow=" ++ r).
  { revert r E. generalize (x ++ [10]). induction l as [|c l IH]; intros r E; [discriminate|]. cbn [after_last] in E.
    destruct (after_last (bs "(nrow=") l) as [r'|] eqn:E'.
    - injection E as <-. destruct (IH r' eq_refl) as [y ->]. now exists (c :: y).
    - destruct (starts (bs "(nrow=") (c :: l)) eqn:ES; [|discriminate]. injection E as <-. exists []. simpl app.
      clear - ES. assert (G : forall p l, starts p l = true -> l = p ++ skipn (List.length p) l).
      { induction p as [|a p IH]; intros [|b l0] S0; try discriminate; auto. simpl in *. apply andb_true_iff in S0. destruct S0 as [S1 S2].
        apply Z.eqb_eq in S1. subst. f_equal. now apply IH. }
      exact (G _ _ ES). }
  destruct X as [y X]. apply (f_equal (@rev Z)) in X. rewrite rev_app_distr in X. simpl rev in X at 1.
  rewrite !rev_app_distr in X. destruct (rev r) as [|a t] eqn:ER.
  - reflexivity.
  - simpl in X. injection X as <- X. destruct t as [|b t]; [reflexivity|]. simpl in X.
    destruct (Z.eq_dec b 41) as [->|N]; [exfalso; apply H; rewrite X; reflexivity|].
    destruct b as [|p|p]; try reflexivity. repeat (destruct p as [p|p|]; try reflexivity). congruence.
Qed.
Lemma no_nrow : forall x, contains (bs "(nrow=") x = false -> nrow_text x = None.
Proof.
  intros x H. unfold nrow_text. replace (after_last (bs "(nrow=") x) with (@None bytes); [reflexivity|].
  symmetry. induction x as [|c x IH]; [reflexivity|]. cbn [contains] in H. apply orb_false_iff in H. destruct H as [H1 H2].
  cbn [after_last]. rewrite (IH H2), H1. reflexivity.
Qed.

(* ---- the numbers ---- *)
Lemma int64s_cons : forall a l, List.length a = 8%nat -> int64s (a ++ l) = int64 (le_value a) :: int64s l.
Proof.
  intros a l L. unfold int64s. rewrite app_length, L.
  replace ((8 + List.length l) / 8)%nat with (Datatypes.S (List.length l / 8)).
  2:{ replace (8 + List.length l)%nat with (List.length l + 1 * 8)%nat by lia. rewrite Nat.div_add by lia. lia. }
  cbn [seq map]. f_equal.
  - f_equal. f_equal. unfold field. cbn [Nat.mul]. rewrite skipn_O, firstn_app, L, Nat.sub_diag, firstn_O, app_nil_r.
    rewrite <- L. apply firstn_all.
  - rewrite <- seq_shift, map_map. apply map_ext. intros i. f_equal. f_equal. unfold field. f_equal.
    replace (8 * Datatypes.S i)%nat with (List.length a + 8 * i)%nat by lia. rewrite skipn_app.
    rewrite (skipn_all2 a) by lia. simpl. f_equal. lia.
Qed.
Lemma int64s_short : forall l, (List.length l < 8)%nat -> int64s l = [].
Proof. intros l H. unfold int64s. rewrite Nat.div_small by exact H. reflexivity. Qed.
Lemma int64s_encoded : forall xs tail, (List.length tail < 8)%nat -> Forall (fun x => - 2 ^ 63 <= x < 2 ^ 63) xs ->
  int64s (flat_map eight_bytes xs ++ tail) = xs.
Proof.
  intros xs tail T. induction xs as [|x xs IH]; intros F; [now apply int64s_short|].
  inversion F; subst. cbn [flat_map]. rewrite <- app_assoc, int64s_cons by reflexivity. rewrite IH by assumption. f_equal.
  unfold eight_bytes. rewrite <- le_bytes_spec, le_value_bytes. change (256 ^ Z.of_nat 8) with (2 ^ 64). now apply int64_mod.
Qed.

(* ---- timing ---- *)
Lemma nearest_min : forall ts p a u, ts <> [] -> (forall t, In t ts -> Z.abs (t - p) <= max_value) ->
  since_last max_value ts p a -> until_next max_value ts p u -> nearest_of ts p (Z.min a u).
Proof.
  intros ts p a u NE B [(t & It & Lt & Mt & ->) | [At ->]] [(v & Iv & Lv & Mv & ->) | [Av ->]]; split.
  - destruct (Z.le_ge_cases (p - t) (v - p)); [exists t|exists v]; split; auto; lia.
  - intros w Hw. destruct (Z.le_gt_cases w p); [specialize (Mt w Hw H)|specialize (Mv w Hw H)]; lia.
  - exists t. split; auto. specialize (B t It). lia.
  - intros w Hw. specialize (Av w Hw). specialize (Mt w Hw Av). lia.
  - exists v. split; auto. specialize (B v Iv). lia.
  - intros w Hw. specialize (At w Hw). specialize (Mv w Hw At). lia.
  - destruct ts as [|t ts]; [congruence|]. specialize (At t (or_introl eq_refl)). specialize (Av t (or_introl eq_refl)). lia.
  - intros w Hw. specialize (At w Hw). specialize (Av w Hw). lia.
Qed.
