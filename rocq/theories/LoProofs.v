(** Proofs about the conversion loops. *)
From Coq Require Import ZArith Ascii String Bool Lia List.
From Verif Require Import LjhModel LjhProofs LjhEdit NameModel MgModel MgProofs LoModel LoSpec.
Import ListNotations.
Open Scope Z_scope.

Lemma py_str_inj c d : py_str c = py_str d -> c = d.
Proof. intros E. pose proof (py_int_str c) as P. rewrite E, py_int_str in P. now injection P. Qed.

Lemma last_app (a : bytes) x y : last (a ++ x :: y) 0 = last (x :: y) 0.
Proof. induction a as [|z a IH]; auto. cbn [app]. destruct a; exact IH. Qed.

Lemma last_ext base c (ext : string) z (t : bytes) : bs ext = z :: t -> last (chan_file base c ext) 0 = last (z :: t) 0.
Proof. intros E. unfold chan_file. rewrite E, !app_assoc. apply last_app. Qed.

Lemma ljh_not_off b c o d : chan_file b c ".ljh" <> chan_file o d ".off".
Proof.
  intros E. pose proof (f_equal (fun l => last l 0) E) as L. cbv beta in L.
  rewrite (last_ext b c ".ljh" 46 [108; 106; 104] eq_refl), (last_ext o d ".off" 46 [111; 102; 102] eq_refl) in L.
  vm_compute in L. discriminate L.
Qed.

Lemma state_not_off b o d : state_path b <> chan_file o d ".off".
Proof.
  intros E. pose proof (f_equal (fun l => last l 0) E) as L. cbv beta in L.
  rewrite (last_ext o d ".off" 46 [111; 102; 102] eq_refl) in L. unfold state_path in L.
  change (bs "_experiment_state.txt") with (95 :: bs "experiment_state.txt") in L. rewrite last_app in L.
  vm_compute in L. discriminate L.
Qed.

Lemma state_not_ljh b o d : state_path b <> chan_file o d ".ljh".
Proof.
  intros E. pose proof (f_equal (fun l => last l 0) E) as L. cbv beta in L.
  rewrite (last_ext o d ".ljh" 46 [108; 106; 104] eq_refl) in L. unfold state_path in L.
  change (bs "_experiment_state.txt") with (95 :: bs "experiment_state.txt") in L. rewrite last_app in L.
  vm_compute in L. discriminate L.
Qed.

Lemma off_inj o c d : chan_file o c ".off" = chan_file o d ".off" -> c = d.
Proof. unfold chan_file. intros E. do 2 apply app_inv_head in E. apply app_inv_tail in E. now apply py_str_inj. Qed.

Lemma found_spec st bases c : existsb (is_file st) (map (fun b => ljh_path b c) bases) = true <-> found st bases c.
Proof.
  rewrite existsb_exists. split.
  - intros (p & I & F). apply in_map_iff in I. destruct I as (b & <- & I). exists b. split; auto.
    unfold is_file in F. change (ljh_path b c) with (chan_file b c ".ljh") in F.
    intros E. rewrite E in F. discriminate F.
  - intros (b & I & N). exists (ljh_path b c). split; [apply in_map_iff; now exists b|].
    unfold is_file. change (ljh_path b c) with (chan_file b c ".ljh"). now destruct (st _).
Qed.

Section Loop.
Variable conv : conversion.
Variables (bases : list bytes) (off_base : bytes) (max : Z).

Lemma loop_others chans : forall h st q, (forall c, In c chans -> q <> chan_file off_base c ".off") ->
  fst (off_loop conv bases off_base max h st chans) q = st q.
Proof.
  induction chans as [|c t IH]; intros h st q N; cbn [off_loop]; auto. cbv zeta.
  assert (Nt : forall d, In d t -> q <> chan_file off_base d ".off") by (intros d I; apply N; now right).
  destruct (existsb _ _); [|now apply IH].
  destruct (conv c _) as [r ok].
  assert (E : (match r with Some f => upd st (off_path off_base c) f | None => st end) q = st q).
  { destruct r; auto. apply upd_other. apply N. now left. }
  destruct ok; [|exact E]. destruct (h + 1 =? max); [exact E|].
  specialize (IH (h + 1) (match r with Some f => upd st (off_path off_base c) f | None => st end) q Nt).
  destruct (off_loop _ _ _ _ _ _ t) as [st2 l]. cbn [fst] in *. congruence.
Qed.

Definition same_ljh (st st' : fs) : Prop := forall b c, st' (chan_file b c ".ljh") = st (chan_file b c ".ljh").

Lemma same_found st st' c : same_ljh st st' -> found st bases c -> found st' bases c.
Proof. intros S (b & I & N). exists b. now rewrite S. Qed.

Definition room (h : Z) {A : Type} (l : list A) : list A := if max <=? h then l else firstn (Z.to_nat (max - h)) l.

Lemma loop_good chans : forall h st l,
  NoDup chans -> those (found st bases) chans l ->
  (forall c, In c (room h l) -> exists f, conv c (contents st bases c) = (Some f, true)) ->
  exists st', off_loop conv bases off_base max h st chans = (st', Some (map (names bases off_base) (room h l))) /\
    (forall c, In c (room h l) -> st' (chan_file off_base c ".off") = fst (conv c (contents st bases c))) /\
    (forall q, (forall c, In c (room h l) -> q <> chan_file off_base c ".off") -> st' q = st q).
Proof.
  induction chans as [|c t IH]; intros h st l Nd T G; inversion T; subst.
  - exists st. unfold room. rewrite firstn_nil. destruct (max <=? h); cbn; repeat split; auto; contradiction.
  - inversion Nd; subst. rename l0 into l. rename H3 into T'. rename H1 into F. rename H2 into Nin. rename H4 into Nd'.
    cbn [off_loop]. cbv zeta. assert (existsb (is_file st) (map (fun b => ljh_path b c) bases) = true) as ->
      by now apply found_spec.
    assert (Cn : map st (map (fun b => ljh_path b c) bases) = contents st bases c).
    { unfold contents. rewrite map_map. reflexivity. }
    rewrite Cn.
    assert (Hd : exists r, room h (c :: l) = c :: r /\ (h + 1 = max -> r = []) /\ (h + 1 <> max -> r = room (h + 1) l)).
    { unfold room. destruct (Z.leb_spec max h).
      - exists l. split; auto. split; [lia|]. intros _. destruct (Z.leb_spec max (h + 1)); auto. lia.
      - replace (Z.to_nat (max - h)) with (S (Z.to_nat (max - (h + 1)))) by lia. cbn [firstn].
        exists (firstn (Z.to_nat (max - (h + 1))) l). split; auto. split.
        + intros <-. replace (h + 1 - (h + 1)) with 0 by lia. reflexivity.
        + intros Ne. destruct (Z.leb_spec max (h + 1)); auto. lia. }
    destruct Hd as (r & Hr & Re & Rn). rewrite Hr in *.
    destruct (G c (or_introl eq_refl)) as [f Cf]. rewrite Cf.
    change (off_path off_base c) with (chan_file off_base c ".off") in *.
    change (map (fun b => ljh_path b c) bases, chan_file off_base c ".off") with (names bases off_base c).
    destruct (Z.eqb_spec (h + 1) max) as [E|E].
    + rewrite (Re E) in *. exists (upd st (chan_file off_base c ".off") f). split; [reflexivity|]. split.
      * intros d [<-|[]]. rewrite upd_same, Cf. reflexivity.
      * intros q N. apply upd_other. apply N. now left.
    + rewrite (Rn E) in *. set (st1 := upd st (chan_file off_base c ".off") f).
      assert (S1 : same_ljh st st1) by (intros b d; unfold st1; rewrite upd_other; auto; apply ljh_not_off).
      assert (C1 : forall d, contents st1 bases d = contents st bases d).
      { intros d. unfold contents. apply map_ext. intros b. apply S1. }
      destruct (IH (h + 1) st1 l) as (st' & O & V & U); auto.
      { clear - T' S1. induction T'; constructor; auto.
        - eapply same_found; eauto.
        - intros K. apply H. eapply same_found; [|exact K]. intros b d. symmetry. apply S1. }
      { intros d I. rewrite C1. apply G. now right. }
      assert (Nr : ~ In c (room (h + 1) l)).
      { intros I. apply Nin. assert (I' : In c l).
        { unfold room in I. destruct (max <=? h + 1); auto. rewrite <- (firstn_skipn (Z.to_nat (max - (h + 1))) l).
          apply in_or_app. now left. }
        clear - T' I'. induction T'; [contradiction| |right; auto]. destruct I' as [->|I']; [now left | right; auto]. }
      exists st'. rewrite O. split; [reflexivity|]. split.
      * intros d [<-|I].
        -- rewrite U; [unfold st1; rewrite upd_same, Cf; reflexivity|].
           intros e Ie X. apply off_inj in X. subst. contradiction.
        -- rewrite V, C1 by exact I. reflexivity.
      * intros q N. rewrite U by (intros d I; apply N; now right). unfold st1. apply upd_other. apply N. now left.
  - inversion Nd; subst. cbn [off_loop]. cbv zeta.
    destruct (existsb _ _) eqn:X; [apply found_spec in X; contradiction|]. now apply IH.
Qed.

(** The first conversion that fails ends the loop. *)
Lemma loop_fails chans : forall h st,
  snd (off_loop conv bases off_base max h st chans) = None ->
  exists c cs, In c chans /\ snd (conv c cs) = false.
Proof.
  induction chans as [|c t IH]; intros h st; cbn [off_loop]; [discriminate|]. cbv zeta.
  destruct (existsb _ _).
  - destruct (conv c _) as [r ok] eqn:C. destruct ok.
    + destruct (h + 1 =? max); [discriminate|].
      specialize (IH (h + 1) (match r with Some f => upd st (off_path off_base c) f | None => st end)).
      destruct (off_loop _ _ _ _ _ _ t) as [st2 [l|]]; [discriminate|]. intros _.
      destruct (IH eq_refl) as (d & cs & I & F). exists d, cs. split; [now right | exact F].
    + intros _. exists c, (map st (map (fun b => ljh_path b c) bases)). split; [now left | now rewrite C].
  - intros N. destruct (IH h st N) as (d & cs & I & F). exists d, cs. split; [now right | exact F].
Qed.
End Loop.

Lemma newlines_id l : ~ In 13 l -> newlines l = l.
Proof.
  induction l as [|c t IH]; intros N; auto. cbn [newlines]. destruct (Z.eqb_spec c 13) as [->|_].
  - exfalso. apply N. now left.
  - f_equal. apply IH. intros I. apply N. now right.
Qed.
