From Coq Require Import PeanoNat ZArith List Bool Lia.
From Verif Require Import ArrModel ArrSpec.
Import ListNotations.
Local Open Scope Z_scope.

Lemma asc_cons x l : ascending (x :: l) <-> (forall y, In y l -> x <= y) /\ ascending l.
Proof.
  split.
  - intros H. split.
    + intros y Hy. apply In_nth_error in Hy as [j Hj]. apply (H 0%nat (S j)); [lia | reflexivity | exact Hj].
    + intros i j a b Hij Ha Hb. apply (H (S i) (S j)); [lia | exact Ha | exact Hb].
  - intros [H1 H2] [|i] [|j] a b Hij Ha Hb; cbn in *; try lia.
    + congruence || (injection Ha as <-; injection Hb as <-; lia).
    + injection Ha as <-. apply H1. eapply nth_error_In, Hb.
    + apply (H2 i j); [lia | exact Ha | exact Hb].
Qed.

Lemma asc_app_r l l' : ascending (l ++ l') -> ascending l'.
Proof. induction l as [|a l IH]; cbn; [auto|]. rewrite asc_cons. tauto. Qed.

(** Rows [e] answer the pulses [ps] w.r.t. triggers [ts]. *)
Definition row_ok (ts : list Z) (pt : Z) (row : Z * Z) : Prop :=
  since_last max_value ts pt (fst row) /\ until_next max_value ts pt (snd row).
Definition rows_ok (ts ps : list Z) (e : list (Z * Z)) : Prop := Forall2 (row_ok ts) ps e.

Lemma before_first_spec a ps e rst :
  before_first a ps = (e, rst) ->
  exists done, ps = done ++ rst /\ Forall2 (fun pt r => pt < a /\ r = (max_value, a - pt)) done e /\
  (forall x, hd_error rst = Some x -> a <= x).
Proof.
  revert e rst; induction ps as [|p ps IH]; intros e rst; cbn [before_first].
  - intros [= <- <-]. exists []. split; [reflexivity|]. split; [constructor | discriminate].
  - destruct (Z.ltb_spec p a) as [L|L].
    + destruct (before_first a ps) as [e' l'] eqn:E. intros [= <- <-].
      destruct (IH _ _ eq_refl) as [d [-> [H1 H2]]]. exists (p :: d). split; [reflexivity|]. split; [constructor; auto | exact H2].
    + intros [= <- <-]. exists []. split; [reflexivity|]. split; [constructor|]. cbn. intros x [= <-]. exact L.
Qed.

Lemma between_spec a b ps e rst :
  between a b ps = (e, rst) ->
  exists done, ps = done ++ rst /\ Forall2 (fun pt r => pt < b /\ r = (pt - a, b - pt)) done e /\
  (forall x, hd_error rst = Some x -> b <= x).
Proof.
  revert e rst; induction ps as [|p ps IH]; intros e rst; cbn [between].
  - intros [= <- <-]. exists []. split; [reflexivity|]. split; [constructor | discriminate].
  - destruct (Z.ltb_spec p b) as [L|L].
    + destruct (between a b ps) as [e' l'] eqn:E. intros [= <- <-].
      destruct (IH _ _ eq_refl) as [d [-> [H1 H2]]]. exists (p :: d). split; [reflexivity|]. split; [constructor; auto | exact H2].
    + intros [= <- <-]. exists []. split; [reflexivity|]. split; [constructor|]. cbn. intros x [= <-]. exact L.
Qed.

Lemma asc_hd l x : ascending l -> (forall y, hd_error l = Some y -> x <= y) -> forall y, In y l -> x <= y.
Proof.
  destruct l as [|a l]; [intros _ _ y []|]. rewrite asc_cons. intros [H1 H2] H y [<-|Hy].
  - apply H. reflexivity.
  - specialize (H a eq_refl). specialize (H1 y Hy). lia.
Qed.

Lemma Forall2_impl_in {A B} (P Q : A -> B -> Prop) l l' :
  (forall a b, In a l -> P a b -> Q a b) -> Forall2 P l l' -> Forall2 Q l l'.
Proof. intros H F. induction F; constructor; [apply H; cbn; auto | apply IHF; intros; apply H; cbn; auto]. Qed.

(** [pre] are the triggers at or before [a] (all below the remaining pulses). *)
Lemma scan_ok ts : forall pre a b ps,
  ascending (pre ++ a :: b :: ts) -> ascending ps -> (forall p, In p ps -> a <= p) ->
  rows_ok (pre ++ a :: b :: ts) ps (scan a b ts ps).
Proof.
  induction ts as [|t ts IH]; intros pre a b ps Hts Hps Ha; cbn [scan];
    destruct (between a b ps) as [e rst] eqn:E; apply between_spec in E as [dn [-> [H1 H2]]];
    pose proof (asc_app_r _ _ Hps) as Hleft; pose proof (asc_hd rst b Hleft H2) as Hbl;
    pose proof (asc_app_r _ _ Hts) as Htl.
  - assert (Hpre : forall u, In u pre -> u <= a).
    { clear -Hts. induction pre as [|x pre IHp]; [intros u []|]. cbn in Hts. apply asc_cons in Hts as [A B].
      intros u [<-|Hu]; [apply A, in_app_iff; cbn; auto | apply IHp; auto]. }
    apply asc_cons in Htl as [Hab Htl]. apply asc_cons in Htl as [Hbt Htl].
    assert (R1 : Forall2 (row_ok (pre ++ [a; b])) dn e).
    { eapply Forall2_impl_in; [|exact H1]. intros p r Hp [Hlt ->]. specialize (Ha p (in_or_app _ _ _ (or_introl Hp))). split; cbn [fst snd].
      - left. exists a. split; [apply in_app_iff; cbn; auto|]. split; [exact Ha|]. split; [|reflexivity].
        intros u Hu Hle. apply in_app_iff in Hu as [Hu|[<-|[<-|[]]]]; [auto | lia | lia].
      - left. exists b. split; [apply in_app_iff; cbn; auto|]. split; [exact Hlt|]. split; [|reflexivity].
        intros u Hu Hgt. apply in_app_iff in Hu as [Hu|[<-|[<-|[]]]]; [specialize (Hpre u Hu); lia | lia | lia]. }
    assert (R2 : Forall2 (row_ok (pre ++ [a; b])) rst (map (fun pt => (pt - b, max_value)) rst)).
    { clear -Hbl Hpre Hab. induction rst as [|p rst IHl]; cbn; constructor; [|apply IHl; intros; apply Hbl; cbn; auto].
      specialize (Hbl p (or_introl eq_refl)). specialize (Hab b (or_introl eq_refl)). split; cbn [fst snd].
      - left. exists b. split; [apply in_app_iff; cbn; auto|]. split; [exact Hbl|]. split; [|reflexivity].
        intros u Hu Hle. apply in_app_iff in Hu as [Hu|[<-|[<-|[]]]]; [specialize (Hpre u Hu); lia | lia | lia].
      - right. split; [|reflexivity]. intros u Hu. apply in_app_iff in Hu as [Hu|[<-|[<-|[]]]]; [specialize (Hpre u Hu); lia | lia | lia]. }
    destruct rst as [|p rst]; [rewrite app_nil_r; exact R1 | apply Forall2_app; assumption].
  - assert (Hpre : forall u, In u pre -> u <= a).
    { clear -Hts. induction pre as [|x pre IHp]; [intros u []|]. cbn in Hts. apply asc_cons in Hts as [A B].
      intros u [<-|Hu]; [apply A, in_app_iff; cbn; auto | apply IHp; auto]. }
    apply asc_cons in Htl as [Hab Htl]. pose proof Htl as Htl'. apply asc_cons in Htl as [Hbt Htl].
    assert (R1 : Forall2 (row_ok (pre ++ a :: b :: t :: ts)) dn e).
    { eapply Forall2_impl_in; [|exact H1]. intros p r Hp [Hlt ->]. specialize (Ha p (in_or_app _ _ _ (or_introl Hp))). split; cbn [fst snd].
      - left. exists a. split; [apply in_app_iff; cbn; auto|]. split; [exact Ha|]. split; [|reflexivity].
        intros u Hu Hle. apply in_app_iff in Hu as [Hu|[<-|[<-|Hu]]]; [auto | lia | lia |]. specialize (Hbt u Hu). lia.
      - left. exists b. split; [apply in_app_iff; cbn; auto|]. split; [exact Hlt|]. split; [|reflexivity].
        intros u Hu Hgt. apply in_app_iff in Hu as [Hu|[<-|[<-|Hu]]]; [specialize (Hpre u Hu); lia | lia | lia |]. apply Hbt, Hu. }
    destruct rst as [|p rst]; [rewrite app_nil_r; exact R1|]. apply Forall2_app; [exact R1|].
    specialize (IH (pre ++ [a]) b t (p :: rst)). rewrite <- app_assoc in IH. apply IH; [exact Hts | exact Hleft | exact Hbl].
Qed.

Lemma nearest_ok ps a b ts :
  ps <> [] -> ascending ps -> ascending (a :: b :: ts) ->
  exists rows, nearest_arrivals ps (a :: b :: ts) = Pair rows /\ rows_ok (a :: b :: ts) ps rows.
Proof.
  intros Hne Hps Hts. unfold nearest_arrivals. destruct ps as [|p0 ps0] eqn:EP; [congruence|]. rewrite <- EP in *. clear Hne.
  destruct (before_first a ps) as [e rst] eqn:E. apply before_first_spec in E as [dn [Eps [H1 H2]]].
  pose proof Hts as Hts'. apply asc_cons in Hts' as [Hab _].
  assert (R1 : Forall2 (row_ok (a :: b :: ts)) dn e).
  { eapply Forall2_impl_in; [|exact H1]. intros p r Hp [Hlt ->]. split; cbn [fst snd].
    - right. split; [|reflexivity]. intros t [<-|Ht]; [exact Hlt | specialize (Hab t Ht); lia].
    - left. exists a. split; [cbn; auto|]. split; [exact Hlt|]. split; [|reflexivity].
      intros u [<-|Hu] _; [lia | apply Hab, Hu]. }
  rewrite Eps in Hps. pose proof (asc_app_r _ _ Hps) as Hleft.
  destruct rst as [|p rst]; rewrite Eps; eexists; (split; [reflexivity|]).
  - rewrite app_nil_r. exact R1.
  - apply Forall2_app; [exact R1|]. apply (scan_ok ts [] a b); [exact Hts | exact Hleft | apply (asc_hd _ _ Hleft H2)].
Qed.

Lemma nearest_none ps : ps <> [] -> exists rows, nearest_arrivals ps [] = Pair rows /\ rows_ok [] ps rows.
Proof.
  intros Hne. destruct ps as [|p ps]; [congruence|]. eexists. split; [reflexivity|]. clear Hne.
  unfold rows_ok. generalize (p :: ps). intros l. induction l as [|x l IH]; cbn; constructor; [|exact IH].
  split; right; (split; [intros t []|reflexivity]).
Qed.

(** One trigger: right for pulses after the trigger. *)
Lemma nearest_one_after ps a :
  ps <> [] -> (forall p, In p ps -> a < p) ->
  exists rows, nearest_arrivals ps [a] = Pair rows /\ rows_ok [a] ps rows.
Proof.
  intros Hne H. destruct ps as [|p ps]; [congruence|]. eexists. split; [reflexivity|]. clear Hne.
  revert H. unfold rows_ok. generalize (p :: ps). intros l. induction l as [|x l IH]; intros H; cbn; constructor; [|apply IH; intros; apply H; cbn; auto].
  specialize (H x (or_introl eq_refl)). rewrite (proj2 (Z.ltb_lt a x) H). split; cbn [fst snd].
  - left. exists a. cbn. repeat split; auto; try lia; intros u [<-|[]] _; lia.
  - right. split; [|reflexivity]. intros t [<-|[]]. lia.
Qed.

Lemma nearest_one ps a : ps <> [] -> exists rows, nearest_arrivals ps [a] = Pair rows /\
  Forall2 (fun pt row =>
    (a < pt -> since_last max_value [a] pt (fst row) /\ until_next max_value [a] pt (snd row)) /\
    (pt <= a -> row = (max_value, 0))) ps rows.
Proof.
  intros Hne. destruct ps as [|p ps]; [congruence|]. eexists. split; [reflexivity|]. clear Hne.
  generalize (p :: ps). intros l. induction l as [|x l IH]; cbn [map]; constructor; [|exact IH].
  destruct (Z.ltb_spec a x) as [L|L]; split; intros H; try lia; [|reflexivity]. cbn [fst snd]. split.
  - left. exists a. cbn. repeat split; auto; try lia; intros u [<-|[]] _; lia.
  - right. split; [|reflexivity]. intros t [<-|[]]. lia.
Qed.

Lemma nearest_one_refuted : exists ps a rows, ascending ps /\
  nearest_arrivals ps [a] = Pair rows /\ ~ rows_ok [a] ps rows.
Proof.
  exists [1], 5, [(max_value, 0)]. split; [|split; [reflexivity|]].
  - intros [|i] [|j] x y _ Hx Hy; cbn in *; try (destruct i; discriminate); try (destruct j; discriminate). congruence || (injection Hx as <-; injection Hy as <-; lia).
  - intros H. inversion H as [|? ? ? ? [_ Hu] _]; subst. cbn in Hu. destruct Hu as [[t [[<-|[]] [_ [_ C]]]]|[C _]].
    + lia.
    + specialize (C 5 (or_introl eq_refl)). lia.
Qed.

(* ---------- the python version ---------- *)

(** Strictly before / at or after, None when there is none. *)
Definition since_strict (ts : list Z) (pt : Z) (d : option Z) : Prop :=
  (exists t, In t ts /\ t < pt /\ (forall u, In u ts -> u < pt -> u <= t) /\ d = Some (pt - t)) \/
  ((forall t, In t ts -> pt <= t) /\ d = None).
Definition until_weak (ts : list Z) (pt : Z) (d : option Z) : Prop :=
  (exists t, In t ts /\ pt <= t /\ (forall u, In u ts -> pt <= u -> t <= u) /\ d = Some (t - pt)) \/
  ((forall t, In t ts -> t < pt) /\ d = None).

Lemma searchsorted_split ts x :
  ascending ts -> exists l r, ts = l ++ r /\ length l = searchsorted ts x /\
    (forall t, In t l -> t < x) /\ (forall t, In t r -> x <= t).
Proof.
  induction ts as [|t ts IH]; intros H.
  - exists [], []. repeat split; intros u [].
  - apply asc_cons in H as [H1 H2]. unfold searchsorted. cbn [filter]. destruct (Z.ltb_spec t x) as [L|L].
    + destruct (IH H2) as [l [r [E [EL [A B]]]]]. exists (t :: l), r. cbn [length app]. split; [rewrite E; reflexivity|].
      split; [rewrite EL; reflexivity|]. split; [|exact B].
      intros u [<-|Hu]; auto.
    + exists [], (t :: ts). repeat split.
      * cbn. rewrite (proj2 (List.length_zero_iff_nil _)); [reflexivity|].
        assert (G : forall u, In u ts -> (u <? x) = false) by (intros u Hu; apply Z.ltb_ge; specialize (H1 u Hu); lia).
        clear -G. induction ts as [|u ts IH]; cbn; [reflexivity|]. rewrite (G u (or_introl eq_refl)). apply IH. intros v Hv. apply G. cbn; auto.
      * intros u [].
      * intros u [<-|Hu]; [exact L | specialize (H1 u Hu); lia].
Qed.

Lemma asc_app_le l r a b : ascending (l ++ r) -> In a l -> In b r -> a <= b.
Proof.
  induction l as [|x l IH]; [intros _ []|]. cbn. rewrite asc_cons. intros [A B] [<-|Ha] Hb; [apply A, in_app_iff; auto | auto].
Qed.

Lemma python_row_spec ts pt :
  ts <> [] -> ascending ts ->
  exists b a, python_row ts pt = Some (b, a) /\ since_strict ts pt b /\ until_weak ts pt a.
Proof.
  intros Hne H. destruct (searchsorted_split ts pt H) as [l [r [E [EL [A B]]]]].
  unfold python_row. rewrite <- EL.
  assert (Hb : exists b, (if Nat.ltb (length l) 1 then Some None else option_map (fun t => Some (pt - t)) (nth_error ts (length l - 1))) = Some b
               /\ since_strict ts pt b).
  { destruct (Nat.ltb_spec (length l) 1) as [L|L].
    - exists None. split; [reflexivity|]. right. split; [|reflexivity]. destruct l; [|cbn in L; lia]. cbn in E. subst r. exact B.
    - destruct (exists_last (l := l)) as [l' [t ->]]; [intros ->; cbn in L; lia|].
      exists (Some (pt - t)). rewrite app_length. cbn [length]. replace (length l' + 1 - 1)%nat with (length l') by lia. rewrite E, <- app_assoc, nth_error_app2, Nat.sub_diag by lia. cbn. split; [reflexivity|].
      left. exists t. split; [apply in_app_iff; cbn; auto|]. split; [apply A, in_app_iff; cbn; auto|]. split; [|reflexivity].
      intros u Hu Hlt. rewrite E, <- app_assoc in H. apply in_app_iff in Hu as [Hu|[<-|Hu]]; [|lia|specialize (B u Hu); lia].
      apply (asc_app_le l' (t :: r)); cbn; auto. }
  assert (Ha : exists a, (if Nat.leb (length ts) (length l) then Some None else option_map (fun t => Some (t - pt)) (nth_error ts (length l))) = Some a
               /\ until_weak ts pt a).
  { destruct r as [|t r].
    - rewrite app_nil_r in E. subst ts. rewrite Nat.leb_refl. exists None. split; [reflexivity|]. right. split; [exact A | reflexivity].
    - rewrite E. rewrite (proj2 (Nat.leb_gt _ _)) by (rewrite app_length; cbn; lia).
      rewrite nth_error_app2, Nat.sub_diag by lia. cbn. exists (Some (t - pt)). split; [reflexivity|].
      left. exists t. split; [apply in_app_iff; cbn; auto|]. split; [apply B; cbn; auto|]. split; [|reflexivity].
      intros u Hu Hge. apply in_app_iff in Hu as [Hu|[<-|Hu]]; [specialize (A u Hu); lia | lia |].
      rewrite E in H. apply asc_app_r in H. apply asc_cons in H as [H _]. auto. }
  destruct Hb as [b [-> Hb]], Ha as [a [-> Ha]]. exists b, a. auto.
Qed.

Lemma rows_agree ts pt row b a :
  ~ In pt ts -> row_ok ts pt row -> since_strict ts pt b -> until_weak ts pt a -> same_row max_value row (b, a).
Proof.
  intros Hn [H1 H2] Hb Ha. split; cbn [fst snd].
  - destruct H1 as [[t [Ht [Hle [Hm ->]]]]|[Hno ->]], Hb as [[t' [Ht' [Hlt' [Hm' ->]]]]|[Hno' ->]].
    + assert (t <> pt) by congruence. specialize (Hm t' Ht' ltac:(lia)). specialize (Hm' t Ht ltac:(lia)). lia.
    + specialize (Hno' t Ht). assert (t <> pt) by congruence. lia.
    + specialize (Hno t' Ht'). lia.
    + reflexivity.
  - destruct H2 as [[t [Ht [Hle [Hm ->]]]]|[Hno ->]], Ha as [[t' [Ht' [Hlt' [Hm' ->]]]]|[Hno' ->]].
    + assert (t' <> pt) by congruence. specialize (Hm t' Ht' ltac:(lia)). specialize (Hm' t Ht ltac:(lia)). lia.
    + specialize (Hno' t Ht). lia.
    + specialize (Hno t' Ht'). assert (t' <> pt) by congruence. lia.
    + reflexivity.
Qed.

Lemma versions_agree ps a b ts :
  ps <> [] -> ascending ps -> ascending (a :: b :: ts) -> (forall p, In p ps -> ~ In p (a :: b :: ts)) ->
  exists rows rows', nearest_arrivals ps (a :: b :: ts) = Pair rows /\
    python_nearest_arrivals ps (a :: b :: ts) = Some rows' /\ Forall2 (same_row max_value) rows rows'.
Proof.
  intros Hne Hps Hts Hno. destruct (nearest_ok ps a b ts Hne Hps Hts) as [rows [E HR]].
  assert (HP : forall l, exists rows', fold_right (fun pt acc => match python_row (a :: b :: ts) pt, acc with
                                      | Some r, Some l => Some (r :: l) | _, _ => None end) (Some []) l = Some rows' /\
            Forall2 (fun pt r => since_strict (a :: b :: ts) pt (fst r) /\ until_weak (a :: b :: ts) pt (snd r)) l rows').
  { induction l as [|p l [rows' [E' H']]]; [exists []; split; [reflexivity | constructor]|].
    cbn [fold_right]. rewrite E'. destruct (python_row_spec (a :: b :: ts) p ltac:(discriminate) Hts) as [x [y [-> [Hx Hy]]]].
    exists ((x, y) :: rows'). split; [reflexivity|]. constructor; auto. }
  destruct (HP ps) as [rows' [E' H']]. exists rows, rows'. split; [exact E|]. split.
  - unfold python_nearest_arrivals. destruct ps; [congruence|]. exact E'.
  - clear E E' HP Hne Hps. revert rows' H'. induction HR as [|p r ps rows Hr HR IH]; intros rows' H'; inversion H' as [|? r' ? rows'' [Hb Ha] H'']; subst; constructor.
    + destruct r' as [x y]. eapply rows_agree; eauto. apply Hno. cbn; auto.
    + apply IH; [|exact H'']. intros q Hq. apply Hno. cbn; auto.
Qed.

Lemma versions_differ : exists ps ts rows rows',
  ascending ps /\ ascending ts /\ (2 <= length ts)%nat /\
  nearest_arrivals ps ts = Pair rows /\ python_nearest_arrivals ps ts = Some rows' /\ ~ Forall2 (same_row max_value) rows rows'.
Proof.
  exists [1], [1; 2], [(0, 1)], [(None, Some 0)].
  assert (A1 : ascending [1]) by (apply asc_cons; split; [intros y [] | intros [|i] [|j] x y _ Hx; discriminate]).
  assert (A2 : ascending [1; 2]).
  { apply asc_cons; split; [intros y [<-|[]]; lia|]. apply asc_cons; split; [intros y [] | intros [|i] [|j] x y _ Hx; discriminate]. }
  repeat split; auto. intros H. inversion H as [|? ? ? ? [C _] _]; subst. cbn in C. discriminate.
Qed.
