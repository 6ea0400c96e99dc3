(** Proofs about the points of an EnergyCalibration. *)
From Coq Require Import Reals ZArith Bool Ascii Lia Lra Permutation Sorted String List.
From Verif Require Import EntModel SplModel SplEval DvModel EcModel EcSpec.
Import ListNotations.
Local Open Scope R_scope.
Local Open Scope list_scope.


Lemma point_eq p q : p_name p = p_name q -> p_ph p = p_ph q -> p_energy p = p_energy q -> p_dph p = p_dph q -> p_de p = p_de q -> p = q.
Proof. destruct p, q; simpl. intros; subst; reflexivity. Qed.

Lemma holds_unique c l : forall m, holds c l -> holds c m -> l = m.
Proof.
  intros m (A1 & A2 & A3 & A4 & A5 & _) (B1 & B2 & B3 & B4 & B5 & _). rewrite A1 in B1. rewrite A2 in B2. rewrite A3 in B3. rewrite A4 in B4. rewrite A5 in B5.
  clear A1 A2 A3 A4 A5. revert m B1 B2 B3 B4 B5. induction l as [|p l IH]; destruct m as [|q m]; intros B1 B2 B3 B4 B5; try discriminate; [reflexivity|].
  cbn [map] in *. inversion B1; inversion B2; inversion B3; inversion B4; inversion B5. f_equal; [apply point_eq; assumption | apply IH; assumption].
Qed.

Lemma set_nth_mid {A} (a : list A) q b v : set_nth (length a) v (a ++ q :: b) = a ++ v :: b.
Proof. induction a as [|x a IH]; simpl; [reflexivity | rewrite IH; reflexivity]. Qed.
Lemma without_mid {A} (a : list A) q b : without (length a) (a ++ q :: b) = a ++ b.
Proof. unfold without. induction a as [|x a IH]; [reflexivity|]. cbn [length app firstn skipn]. cbn [length app skipn] in IH. f_equal. exact IH. Qed.
Lemma map_mid {A B} (f : A -> B) a q b : map f (a ++ q :: b) = map f a ++ f q :: map f b.
Proof. rewrite map_app. reflexivity. Qed.
Lemma set_nth_map {A B} (f : A -> B) a q b v w : f v = w -> set_nth (length a) w (map f (a ++ q :: b)) = map f (a ++ v :: b).
Proof. intros <-. rewrite !map_mid. rewrite <- (map_length f a). apply set_nth_mid. Qed.
Lemma without_map {A B} (f : A -> B) a q b : without (length a) (map f (a ++ q :: b)) = map f (a ++ b).
Proof. rewrite map_mid, map_app, <- (map_length f a). apply without_mid. Qed.

Lemma index_of_some s l : forall i, index_of s (map p_name l) = Some i -> exists a q b, l = a ++ q :: b /\ length a = i /\ p_name q = s /\ ~ has_name a s.
Proof.
  induction l as [|p l IH]; intros i H; [discriminate|]. cbn [map index_of] in H. destruct (String.eqb_spec s (p_name p)) as [E | E].
  - apply some_inj in H. exists [], p, l. repeat split; [exact H | symmetry; exact E |]. intros (r & [] & _).
  - destruct (index_of s (map p_name l)) as [j|]; [|discriminate]. apply some_inj in H. destruct (IH j eq_refl) as (a & q & b & H1 & H2 & H3 & H4).
    exists (p :: a), q, b. repeat split; [rewrite H1; reflexivity | simpl; lia | exact H3 |]. intros (r & [R | R] & N); [subst r; congruence | apply H4; exists r; auto].
Qed.
Lemma index_of_none s l : index_of s (map p_name l) = None -> ~ has_name l s.
Proof.
  induction l as [|p l IH]; intros H (q & Hq & N); [destruct Hq|]. cbn [map index_of] in H. destruct (String.eqb_spec s (p_name p)) as [E | E]; [discriminate|].
  destruct (index_of s (map p_name l)) eqn:I; [discriminate|]. destruct Hq as [-> | Hq]; [congruence|]. apply (IH eq_refl). exists q; auto.
Qed.
Lemma has_name_dec l s : {has_name l s} + {~ has_name l s}.
Proof.
  destruct (index_of s (map p_name l)) as [i|] eqn:I; [left | right; apply index_of_none, I].
  destruct (index_of_some _ _ _ I) as (a & q & b & H & _ & N & _). exists q. split; [rewrite H; apply in_elt | exact N].
Qed.
Lemma nearest_some e l : forall i m, nearest e (map p_energy l) = Some (i, m) ->
  exists a q b, l = a ++ q :: b /\ length a = i /\ m = Rabs (e - p_energy q) /\ (forall r, In r a -> m < Rabs (e - p_energy r)) /\ (forall r, In r b -> m <= Rabs (e - p_energy r)).
Proof.
  induction l as [|p l IH]; intros i m H; [discriminate|]. cbn [map nearest] in H. destruct (nearest e (map p_energy l)) as [[j n]|] eqn:N.
  - destruct (IH j n eq_refl) as (a & q & b & H1 & H2 & H3 & H4 & H5). destruct (rleb (Rabs (e - p_energy p)) n) eqn:L.
    + apply rleb_true in L. inversion H; subst i m. exists [], p, l. repeat split; [intros r [] |]. intros r Hr. rewrite H1 in Hr. apply in_app_or in Hr. destruct Hr as [Hr | [<- | Hr]].
      * specialize (H4 r Hr). lra.
      * rewrite <- H3. exact L.
      * specialize (H5 r Hr). lra.
    + assert (L' : n < Rabs (e - p_energy p)) by (apply Rnot_le_lt; intro Q; apply rleb_true in Q; congruence). inversion H; subst i m.
      exists (p :: a), q, b. repeat split; [rewrite H1; reflexivity | simpl; lia | exact H3 | | exact H5]. intros r [<- | Hr]; [exact L' | apply H4, Hr].
  - destruct l as [|p' l']; [|cbn [map nearest] in N; destruct (nearest e (map p_energy l')) as [[? ?]|]; [destruct (rleb _ _) |]; discriminate]. inversion H; subst. exists [], p, [].
    repeat split; intros r [].
Qed.
Lemma nearest_none e l : nearest e (map p_energy l) = None -> l = [].
Proof. destruct l as [|p l]; [reflexivity|]. cbn [map nearest]. destruct (nearest e (map p_energy l)) as [[? ?]|]; [destruct (rleb _ _)|]; discriminate. Qed.

Lemma holds_length c l : holds c l -> length (phs c) = length l.
Proof. intros (_ & H & _). rewrite H. apply map_length. Qed.

(** * Adding *)
Lemma mid_split {A} (P : A -> Prop) (a b a' b' : list A) q q' : a ++ q :: b = a' ++ q' :: b' -> P q -> P q' -> (forall r, In r a -> ~ P r) -> (forall r, In r a' -> ~ P r) ->
  a = a' /\ q = q' /\ b = b'.
Proof.
  revert a'. induction a as [|x a IH]; intros [|x' a'] H Q Q' N N'; cbn [app] in H; inversion H; subst.
  - auto.
  - destruct (N' x' (or_introl eq_refl) Q).
  - destruct (N q' (or_introl eq_refl) Q').
  - destruct (IH a' H2 Q Q') as (-> & -> & ->); [intros r R; apply N; right; exact R | intros r R; apply N'; right; exact R | auto].
Qed.
Lemma put_unique l p m m' : put l p m -> put l p m' -> m = m'.
Proof.
  assert (E : forall a q b, l = a ++ q :: b -> p_name q = p_name p -> has_name l (p_name p)) by (intros a q b -> N; exists q; split; [apply in_elt | exact N]).
  intros [a q b H1 H2 H3 H4 | a q b H1 H2 H3 H4 H5 | H1 H2] [a' q' b' G1 G2 G3 G4 | a' q' b' G1 G2 G3 G4 G5 | G1 G2].
  - destruct (mid_split (fun r => p_name r = p_name p) a b a' b' q q') as (-> & _ & ->); [congruence | exact H3 | exact G3 | | | reflexivity].
    + intros r R N. apply H4. exists r; auto.
    + intros r R N. apply G4. exists r; auto.
  - destruct G2 as [G2 | G2]; [contradiction | destruct (G2 (E _ _ _ H1 H3))].
  - destruct G1 as [G1 | G1]; [contradiction | destruct (G1 (E _ _ _ H1 H3))].
  - destruct H2 as [H2 | H2]; [contradiction | destruct (H2 (E _ _ _ G1 G3))].
  - assert (D : a = a' /\ q = q' /\ b = b'); [|destruct D as (-> & -> & ->); reflexivity].
    assert (Q : In q' l) by (rewrite G1; apply in_elt). assert (Q' : In q l) by (rewrite H1; apply in_elt).
    assert (Qle : apart p q <= apart p q') by (rewrite H1 in Q; apply in_app_or in Q; destruct Q as [Q | [-> | Q]]; [apply Rlt_le, H4, Q | lra | apply H5, Q]).
    assert (Qge : apart p q' <= apart p q) by (rewrite G1 in Q'; apply in_app_or in Q'; destruct Q' as [Q' | [-> | Q']]; [apply Rlt_le, G4, Q' | lra | apply G5, Q']).
    apply (mid_split (fun r => apart p r <= apart p q)); [congruence | lra | exact Qge | |].
    + intros r R N. specialize (H4 r R). lra.
    + intros r R N. specialize (G4 r R). lra.
  - assert (Q : In q l) by (rewrite H1; apply in_elt). specialize (G2 q Q). lra.
  - destruct H1 as [H1 | H1]; [contradiction | destruct (H1 (E _ _ _ G1 G3))].
  - assert (Q : In q' l) by (rewrite G1; apply in_elt). specialize (H2 q' Q). lra.
  - reflexivity.
Qed.

Section World.
Variable argsort : list R -> list nat.
Variables parse features : string -> option R.
Variable smoothing : curvetype -> bool -> list R -> list R -> list R -> list R -> option curve.
Notation add_point := (add_point argsort parse features).

Lemma described_unique pht energy name pe ee p q : described parse features pht energy name pe ee p -> described parse features pht energy name pe ee q -> p = q.
Proof.
  intros (A & A1 & A2 & A3) (B & B1 & B2 & B3). assert (E : p_energy p = p_energy q /\ p_name p = p_name q).
  { destruct energy as [e | s]; [destruct A, B; split; congruence|]. destruct A as [(A & A') | (A & A' & A'')], B as [(B & B') | (B & B' & B'')]; split; congruence. }
  destruct E. apply point_eq; congruence.
Qed.

Definition agrees (c : cal) : bool := if list_eq_dec Nat.eq_dec (argsort (phs c)) (argsort (energies c)) then true else false.

Lemma add_known c l pht energy name pe ee ow p : holds c l -> described parse features pht energy name pe ee p ->
  exists c' b, add_point c pht energy name pe ee ow = (c', b) /\ fresh c' = false /\ settings_kept c c' /\
  ((ow = false /\ taken l p /\ holds c' l /\ b = false) \/
   ((ow = true \/ ~ taken l p) /\ (exists m, put l p m /\ holds c' m) /\ b = agrees c')).
Proof.
  intros H D. unfold EcModel.add_point.
  assert (K : match energy with
               | inl e => Some (e, name)
               | inr s => match parse s with
                          | Some e => Some (e, name)
                          | None => match features s with Some e => Some (e, s) | None => None end
                          end
               end = Some (p_energy p, p_name p)).
  { destruct D as (D & _). destruct energy as [e | s]; [destruct D as (-> & ->); reflexivity|]. destruct D as [(-> & ->) | (-> & -> & ->)]; reflexivity. }
  rewrite K. clear K. destruct D as (_ & D1 & D2 & D3).
  replace (match pe with Some x => x | None => pht * (1 / 1000) end) with (p_dph p) by (rewrite D2; destruct pe; [reflexivity | lra]).
  replace (match ee with Some x => x | None => 1 / 100 end) with (p_de p) by (rewrite D3; destruct ee; [reflexivity | lra]).
  clear D2 D3 pe ee energy name. subst pht. pose proof (holds_length _ _ H) as HL. pose proof H as HH. destruct H as (A1 & A2 & A3 & A4 & A5 & A6).
  assert (TK : forall a q b, l = a ++ q :: b -> p_name q = p_name q -> True) by trivial. clear TK.
  assert (UP : forall a q b v, l = a ++ q :: b -> p_name v = p_name q -> p_ph v = p_ph p -> p_energy v = p_energy p -> p_dph v = p_dph p -> p_de v = p_de p ->
    holds (with_points c (names c) (set_nth (length a) (p_ph p) (phs c)) (set_nth (length a) (p_energy p) (energies c))
             (set_nth (length a) (p_dph p) (dphs c)) (set_nth (length a) (p_de p) (des c)) (length (phs c)) false) (a ++ v :: b)).
  { intros a q b v L N1 N2 N3 N4 N5. unfold holds. cbn [names phs energies dphs des npts with_points]. rewrite HL. rewrite A1, A2, A3, A4, A5, L.
    split; [rewrite !map_mid, N1; reflexivity|]. rewrite (set_nth_map p_ph a q b v), (set_nth_map p_energy a q b v), (set_nth_map p_dph a q b v), (set_nth_map p_de a q b v) by assumption.
    repeat split. rewrite !app_length. reflexivity. }
  assert (NEW : holds (with_points c (names c ++ [p_name p]) (phs c ++ [p_ph p]) (energies c ++ [p_energy p]) (dphs c ++ [p_dph p]) (des c ++ [p_de p]) (S (length (phs c))) false) (l ++ [p])).
  { unfold holds. cbn [names phs energies dphs des npts with_points]. rewrite HL, A1, A2, A3, A4, A5, !map_app, app_length. simpl. repeat split. lia. }
  assert (KEEP : holds (stale c) l) by (unfold holds, stale, set_fresh; cbn [names phs energies dphs des npts with_points]; auto 10).
  set (found := if String.eqb (p_name p) "" then None else index_of (p_name p) (names c)).
  assert (F : match found with
              | Some i => exists a q b, l = a ++ q :: b /\ length a = i /\ p_name p <> ""%string /\ p_name q = p_name p /\ ~ has_name a (p_name p)
              | None => p_name p = ""%string \/ ~ has_name l (p_name p)
              end).
  { unfold found. destruct (String.eqb_spec (p_name p) "") as [E | E]; [left; exact E|]. rewrite A1. destruct (index_of (p_name p) (map p_name l)) as [i|] eqn:I.
    - destruct (index_of_some _ _ _ I) as (a & q & b & L1 & L2 & L3 & L4). exists a, q, b. auto 10.
    - right. apply index_of_none, I. }
  destruct found as [i|].
  - destruct F as (a & q & b & L1 & L2 & L3 & L4 & L5). subst i. destruct ow.
    + eexists. eexists. split; [reflexivity|]. split; [reflexivity|]. split; [repeat split|]. right. split; [left; reflexivity|]. split; [|reflexivity].
      exists (a ++ p :: b). split; [exact (put_named l p a q b L1 L3 L4 L5)|]. apply (UP a q b p); auto.
    + eexists. eexists. split; [reflexivity|]. split; [reflexivity|]. split; [repeat split|]. left. repeat split; try apply KEEP. left. split; [exact L3|]. exists q. split; [rewrite L1; apply in_elt | exact L4].
  - assert (N : (if (0 <? npts c)%nat then match nearest (p_energy p) (energies c) with Some (i, m) => if rleb m (p_de p) then Some i else None | None => None end else None) =
                match nearest (p_energy p) (map p_energy l) with Some (i, m) => if rleb m (p_de p) then Some i else None | None => None end).
    { rewrite A6, A3. destruct l; reflexivity. }
    rewrite N. clear N. destruct (nearest (p_energy p) (map p_energy l)) as [[i m]|] eqn:NE.
    + destruct (nearest_some _ _ _ _ NE) as (a & q & b & L1 & L2 & L3 & L4 & L5). subst i. destruct (rleb m (p_de p)) eqn:LE.
      * apply rleb_true in LE. rewrite L3 in LE. destruct ow.
        -- eexists. eexists. split; [reflexivity|]. split; [reflexivity|]. split; [repeat split|]. right. split; [left; reflexivity|]. split; [|reflexivity].
           exists (a ++ renamed p (p_name q) :: b). split; [|apply (UP a q b); auto]. apply (put_near l p a q b L1 F LE).
           ++ intros r R. unfold apart. rewrite <- L3. apply L4, R.
           ++ intros r R. unfold apart. rewrite <- L3. apply L5, R.
        -- eexists. eexists. split; [reflexivity|]. split; [reflexivity|]. split; [repeat split|]. left. repeat split; try apply KEEP. right. exists q. split; [rewrite L1; apply in_elt | exact LE].
      * assert (LE' : p_de p < m) by (apply Rnot_le_lt; intro Q; apply rleb_true in Q; congruence).
        assert (FAR : forall r, In r l -> p_de p < apart p r).
        { intros r R. rewrite L1 in R. unfold apart. apply in_app_or in R. destruct R as [R | [<- | R]]; [specialize (L4 r R); lra | lra | specialize (L5 r R); lra]. }
        eexists. eexists. split; [reflexivity|]. split; [reflexivity|]. split; [repeat split|]. right. split.
        -- right. intros [[T1 T2] | (r & R1 & R2)]; [destruct F; contradiction | specialize (FAR r R1); lra].
        -- split; [|reflexivity]. exists (l ++ [p]). split; [apply put_new; [exact F | exact FAR] | exact NEW].
    + apply nearest_none in NE. eexists. eexists. split; [reflexivity|]. split; [reflexivity|]. split; [repeat split|]. right. split.
      * right. intros [[T1 T2] | (r & R1 & R2)]; [destruct F; contradiction | rewrite NE in R1; destruct R1].
      * split; [|reflexivity]. exists (l ++ [p]). split; [apply put_new; [exact F | intros r R; rewrite NE in R; destruct R] | exact NEW].
Qed.
Lemma add_unknown c pht energy name pe ee ow : (forall p, ~ described parse features pht energy name pe ee p) ->
  add_point c pht energy name pe ee ow = (stale c, false).
Proof.
  intro N. unfold EcModel.add_point.
  assert (K : forall e n, match energy with
               | inl e => Some (e, name)
               | inr s => match parse s with
                          | Some e => Some (e, name)
                          | None => match features s with Some e => Some (e, s) | None => None end
                          end
               end = Some (e, n) -> False).
  { intros e n K. apply (N (mkPoint n pht e (match pe with Some x => x | None => pht / 1000 end) (match ee with Some x => x | None => / 100 end))). split; [|cbn; auto]. cbn [p_energy p_name].
    destruct energy as [x | s]; [inversion K; auto|]. destruct (parse s); [inversion K; auto|]. destruct (features s); [inversion K; auto | discriminate]. }
  destruct (match energy with inl e => _ | inr s => _ end) as [[e n]|]; [destruct (K e n eq_refl) | reflexivity].
Qed.
Lemma described_dec pht energy name pe ee : (exists p, described parse features pht energy name pe ee p) \/ (forall p, ~ described parse features pht energy name pe ee p).
Proof.
  set (q e n := mkPoint n pht e (match pe with Some x => x | None => pht / 1000 end) (match ee with Some x => x | None => / 100 end)).
  destruct energy as [e | s]; [left; exists (q e name); repeat split|]. destruct (parse s) as [e|] eqn:P; [left; exists (q e name); repeat split; left; auto|].
  destruct (features s) as [e|] eqn:F; [left; exists (q e s); repeat split; right; auto|]. right. intros p ([(A & _) | (_ & A & _)] & _); congruence.
Qed.
End World.
