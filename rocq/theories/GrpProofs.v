(** Proofs about groups of channels. *)
From Coq Require Import ZArith Bool Lia List.
From Verif Require Import GrpModel GrpSpec.
Import ListNotations.
Open Scope Z_scope.

Lemma member_spec c l : existsb (Z.eqb c) l = true <-> In c l.
Proof.
  rewrite existsb_exists. split; [intros (x & H & E); apply Z.eqb_eq in E; now subst |].
  intros H. exists c. split; [exact H | apply Z.eqb_refl].
Qed.
Lemma member_false c l : existsb (Z.eqb c) l = false <-> ~ In c l.
Proof. rewrite <- member_spec. destruct (existsb (Z.eqb c) l); split; congruence. Qed.

Lemma dget_in {A : Type} (d : dict A) k : dget d k <> None <-> In k (map fst d).
Proof.
  induction d as [| [x v] d IH]; cbn [dget map fst In]; [tauto |].
  destruct (Z.eqb_spec x k); [split; [intros _; now left | discriminate] | rewrite IH; tauto].
Qed.
Lemma dget_none {A : Type} (d : dict A) k : dget d k = None <-> ~ In k (map fst d).
Proof. rewrite <- dget_in. destruct (dget d k); split; intros H; try congruence; exfalso; apply H; congruence. Qed.
Lemma dget_dset {A : Type} (d : dict A) k v j : dget (dset d k v) j = if k =? j then Some v else dget d j.
Proof.
  induction d as [| [x w] d IH]; cbn [dset dget]; [reflexivity |].
  destruct (Z.eqb_spec x k) as [-> | N]; cbn [dget]; [destruct (Z.eqb_spec k j); reflexivity |].
  rewrite IH. destruct (Z.eqb_spec x j) as [-> | M]; [| reflexivity].
  destruct (Z.eqb_spec k j); [congruence | reflexivity].
Qed.
Lemma dget_ddel {A : Type} (d : dict A) k j : dget (ddel d k) j = if k =? j then None else dget d j.
Proof.
  induction d as [| [x w] d IH]; cbn [ddel filter dget fst]; [now destruct (k =? j) |].
  fold (ddel d k). destruct (Z.eqb_spec x k) as [-> | N]; cbn [negb dget].
  - rewrite IH. destruct (Z.eqb_spec k j); reflexivity.
  - rewrite IH. destruct (Z.eqb_spec x j) as [-> | M]; [| reflexivity].
    destruct (Z.eqb_spec k j); [congruence | reflexivity].
Qed.
Lemma dset_new {A : Type} (d : dict A) k v : dget d k = None -> dset d k v = d ++ [(k, v)].
Proof.
  induction d as [| [x w] d IH]; cbn [dset dget app]; [reflexivity |].
  destruct (x =? k); [discriminate |]. intros H. now rewrite IH.
Qed.
Lemma dset_keys {A : Type} (d : dict A) k v : In k (map fst d) -> map fst (dset d k v) = map fst d.
Proof.
  induction d as [| [x w] d IH]; cbn [dset map fst In]; [tauto |].
  destruct (Z.eqb_spec x k) as [-> | N]; intros H; cbn [map fst]; [reflexivity |].
  f_equal. apply IH. tauto.
Qed.
(** Changing the value of a key. *)
Lemma dset_map {A : Type} (d : dict A) k v0 f : NoDup (map fst d) -> dget d k = Some v0 ->
  dset d k (f v0) = map (fun p => if fst p =? k then (fst p, f (snd p)) else p) d.
Proof.
  induction d as [| [x w] d IH]; cbn [dset dget map fst snd]; intros ND H; [discriminate H |].
  inversion ND as [| ? ? N1 N2]; subst. destruct (Z.eqb_spec x k) as [-> | N].
  - injection H as ->. f_equal. rewrite <- (map_id d) at 1. apply map_ext_in. intros [y u] Hy. cbn [fst snd].
    destruct (Z.eqb_spec y k) as [-> | M]; [| reflexivity]. exfalso. apply N1. apply in_map_iff. now exists (k, u).
  - now rewrite IH.
Qed.

(** * includeBad *)

Lemma at_channel_keys {C : Type} (cs : dict (chan C)) k f : map fst (at_channel cs k f) = map fst cs.
Proof. unfold at_channel. rewrite map_map. apply map_ext. intros p. now destruct (fst p =? k). Qed.

Lemma items_spec {C : Type} (g : group C) : items g = filter (fun p => incl g || negb (bad (snd p))) (chans g).
Proof.
  unfold items. destruct (incl g); cbn [orb]; [| reflexivity].
  symmetry. induction (chans g) as [| p l IH]; [reflexivity |]. cbn [filter]. now rewrite IH.
Qed.

Lemma mark_ok {C : Type} (g : group C) c f : NoDup (map fst (chans g)) ->
  match dget (chans g) c with
  | Some ch => existsb (Z.eqb c) (map fst (chans g)) = true /\ dset (chans g) c (f ch) = at_channel (chans g) c f
  | None => existsb (Z.eqb c) (map fst (chans g)) = false
  end.
Proof.
  intros ND. destruct (dget (chans g) c) as [ch |] eqn:E.
  - split; [apply member_spec, dget_in; congruence | now apply dset_map].
  - apply member_false, dget_none, E.
Qed.

Lemma exec_plain {C : Type} : forall p (g : group C), plain p -> NoDup (map fst (chans g)) ->
  let '(g1, o, r) := exec p g in
  ideal (incl g) p (chans g) = (chans g1, o, r) /\ incl g1 = incl g /\ NoDup (map fst (chans g1)).
Proof.
  induction p as [| p IHp q IHq | | | c why | c | x b IHb | | p IHp]; intros g P ND; cbn [exec ideal plain] in *; try contradiction.
  - tauto.
  - destruct P as [P1 P2]. specialize (IHp g P1 ND). destruct (exec p g) as [[g1 o1] r1]. destruct IHp as (E1 & I1 & N1).
    rewrite E1. destruct r1; [split; [reflexivity | tauto] |].
    specialize (IHq g1 P2 N1). destruct (exec q g1) as [[g2 o2] r2]. destruct IHq as (E2 & I2 & N2).
    rewrite <- I1, E2. split; [reflexivity | split; [congruence | exact N2]].
  - unfold keys. rewrite items_spec. tauto.
  - assert (M := mark_ok g c (fun ch => mark_bad ch why) ND). destruct (dget (chans g) c) as [ch |].
    + destruct M as [-> M]. cbn [chans incl]. rewrite M. split; [reflexivity |]. split; [reflexivity |]. now rewrite at_channel_keys.
    + rewrite M. tauto.
  - assert (M := mark_ok g c (fun ch => mark_good ch) ND). destruct (dget (chans g) c) as [ch |].
    + destruct M as [-> M]. cbn [chans incl]. rewrite M. split; [reflexivity |]. split; [reflexivity |]. now rewrite at_channel_keys.
    + rewrite M. tauto.
  - tauto.
  - specialize (IHp g P ND). destruct (exec p g) as [[g1 o1] r1]. destruct IHp as (E1 & I1 & N1). rewrite E1. tauto.
Qed.

Lemma exec_flat {C : Type} : forall p (g : group C), flat p -> NoDup (map fst (chans g)) -> incl g = false ->
  let '(g1, o, r) := exec p g in
  ideal false p (chans g) = (chans g1, o, r) /\ incl g1 = false /\ NoDup (map fst (chans g1)).
Proof.
  induction p as [| p IHp q IHq | | | c why | c | x b IHb | | p IHp]; intros g P ND I.
  1, 3, 5, 6, 8: (match goal with |- context [exec ?q ?h] => assert (E := exec_plain q h Logic.I ltac:(assumption)) end;
                 match goal with I : incl _ = false |- _ => rewrite I in E; exact E end).
  - cbn [exec ideal flat] in *. destruct P as [P1 P2]. specialize (IHp g P1 ND I). destruct (exec p g) as [[g1 o1] r1].
    destruct IHp as (E1 & I1 & N1). rewrite E1. destruct r1; [tauto |].
    specialize (IHq g1 P2 N1 I1). destruct (exec q g1) as [[g2 o2] r2]. destruct IHq as (E2 & I2 & N2). rewrite E2. tauto.
  - cbn [exec ideal]. unfold why_chan_bad. cbn. tauto.
  - cbn [exec ideal flat] in *. assert (E := exec_plain b (enter (include_bad g x)) P ND).
    destruct (exec b (enter (include_bad g x))) as [[g1 o] r]. destruct E as (E & _ & N). cbn in E |- *. rewrite E. tauto.
  - cbn [exec ideal flat] in *. specialize (IHp g P ND I). destruct (exec p g) as [[g1 o1] r1].
    destruct IHp as (E1 & I1 & N1). rewrite E1. tauto.
Qed.

(** * Loops *)

Lemma in_dget {A : Type} (d : dict A) k v : NoDup (map fst d) -> In (k, v) d -> dget d k = Some v.
Proof.
  induction d as [| [x w] d IH]; cbn [dget map fst In]; intros ND H; [contradiction |].
  inversion ND as [| ? ? N1 N2]; subst. destruct H as [H | H].
  - injection H as -> ->. now rewrite Z.eqb_refl.
  - destruct (Z.eqb_spec x k) as [-> | N]; [| now apply IH]. exfalso. apply N1, in_map_iff. now exists (k, v).
Qed.

Definition touched {A : Type} (todo : dict A) (k : Z) : bool := existsb (Z.eqb k) (map fst todo).

Lemma off_loop_ok {C V : Type} (method : chan C -> chan C * outcome V) fmt : forall todo cs vals,
  NoDup (map fst cs) -> NoDup (map fst todo) -> (forall k c, In (k, c) todo -> dget cs k = Some c) ->
  (forall k, In k (map fst todo) -> dget vals k = None) ->
  (forall k c, In (k, c) todo -> snd (method c) <> Interrupted) ->
  off_loop method fmt false todo cs vals =
  (map (fun p => if touched todo (fst p) then (fst p, after method fmt (snd p)) else p) cs,
   Completed (vals ++ flat_map (result method) todo)).
Proof.
  induction todo as [| [k c] t IH]; intros cs vals NC NT G GV NI; cbn [off_loop].
  - cbn [flat_map]. rewrite app_nil_r, map_id. reflexivity.
  - rewrite (G k c) by now left. cbn [map fst] in NT. inversion NT as [| ? ? T1 T2]; subst.
    assert (Hk : dget cs k = Some c) by (apply G; now left).
    assert (Step : forall c', after method fmt c = c' ->
      map (fun p => if touched t (fst p) then (fst p, after method fmt (snd p)) else p) (dset cs k c')
      = map (fun p => if touched ((k, c) :: t) (fst p) then (fst p, after method fmt (snd p)) else p) cs).
    { intros c' <-. rewrite (dset_map cs k c (after method fmt) NC Hk), map_map. apply map_ext.
      intros [x u]. unfold touched. cbn [fst snd map existsb].
      destruct (Z.eqb_spec x k) as [-> | N]; cbn [fst snd orb]; [| reflexivity].
      replace (existsb (Z.eqb k) (map fst t)) with false by (symmetry; now apply member_false). reflexivity. }
    assert (G' : forall c' k0 c0, In (k0, c0) t -> dget (dset cs k c') k0 = Some c0).
    { intros c' k0 c0 H. rewrite dget_dset. destruct (Z.eqb_spec k k0) as [<- | N]; [| apply G; now right].
      exfalso. apply T1, in_map_iff. now exists (k, c0). }
    assert (NC' : forall c', NoDup (map fst (dset cs k c'))).
    { intros c'. rewrite dset_keys; [exact NC |]. apply dget_in. congruence. }
    cbn [flat_map]. unfold result at 1. cbn [fst snd].
    assert (NIk := NI k c (or_introl eq_refl)).
    destruct (method c) as [c' [v | m |]] eqn:E; cbn [snd] in *; [| | congruence].
    + rewrite IH.
      * rewrite Step by (unfold after; rewrite E; reflexivity).
        rewrite dset_new by (apply GV; now left). now rewrite <- app_assoc.
      * apply NC'.
      * exact T2.
      * apply G'.
      * intros k0 H0. rewrite dget_dset. destruct (Z.eqb_spec k k0) as [<- | N]; [contradiction |]. apply GV. now right.
      * intros k0 c0 H0. apply (NI k0). now right.
    + rewrite IH.
      * rewrite Step by (unfold after; rewrite E; reflexivity). reflexivity.
      * apply NC'.
      * exact T2.
      * apply G'.
      * intros k0 H0. apply GV. now right.
      * intros k0 c0 H0. apply (NI k0). now right.
Qed.

Lemma filter_nodup_keys {A : Type} (f : Z * A -> bool) d : NoDup (map fst d) -> NoDup (map fst (filter f d)).
Proof.
  induction d as [| p d IH]; intros H; [constructor |]. cbn [map filter] in *. inversion H as [| ? ? N1 N2]; subst.
  destruct (f p); [| now apply IH]. cbn [map]. constructor; [| now apply IH].
  intros C. apply N1. apply in_map_iff in C. destruct C as (q & E & C). apply filter_In in C. apply in_map_iff. exists q. tauto.
Qed.

Lemma touched_items {C : Type} (g : group C) p : NoDup (map fst (chans g)) -> In p (chans g) ->
  touched (items g) (fst p) = incl g || negb (bad (snd p)).
Proof.
  intros ND Hp. rewrite items_spec. unfold touched.
  destruct (incl g || negb (bad (snd p))) eqn:E.
  - apply member_spec, in_map, filter_In. tauto.
  - apply member_false. intros D. apply in_map_iff in D. destruct D as ([k c] & E1 & D). apply filter_In in D. destruct D as [C1 C2].
    destruct p as [k' c']. cbn [fst snd] in *. subst k'.
    assert (c = c'). { apply in_dget in C1; [| exact ND]. apply in_dget in Hp; [| exact ND]. congruence. }
    subst. congruence.
Qed.

Lemma group_loop_ok {C V : Type} (method : chan C -> chan C * outcome V) fmt (g : group C) :
  NoDup (map fst (chans g)) -> (forall p, In p (items g) -> snd (method (snd p)) <> Interrupted) ->
  group_loop method fmt false g =
  (mkGroup (map (fun p => if incl g || negb (bad (snd p)) then (fst p, after method fmt (snd p)) else p) (chans g)) (incl g) (desired g),
   Completed (flat_map (result method) (items g))).
Proof.
  intros ND NI. unfold group_loop. rewrite off_loop_ok.
  - cbn [app]. do 2 f_equal. apply map_ext_in. intros p Hp. now rewrite touched_items.
  - exact ND.
  - rewrite items_spec. now apply filter_nodup_keys.
  - intros k c H. apply in_dget; [exact ND |]. rewrite items_spec in H. apply filter_In in H. tauto.
  - reflexivity.
  - intros k c H. exact (NI (k, c) H).
Qed.

Lemma without_map {A B : Type} j (f : Z * A -> Z * B) (d : dict A) : (forall p, fst (f p) = fst p) ->
  map f (without j d) = without j (map f d).
Proof.
  intros H. induction d as [| p d IH]; [reflexivity |]. cbn [without filter map]. fold (without j d) (without j (map f d)).
  rewrite H. destruct (negb (fst p =? j)); cbn [map]; now rewrite IH.
Qed.

Lemma without_filter {A : Type} j f (d : dict A) : filter f (without j d) = without j (filter f d).
Proof.
  induction d as [| p d IH]; [reflexivity |]. cbn [without filter]. fold (without j d).
  destruct (f p) eqn:E; cbn [without filter]; fold (without j (filter f d)); destruct (negb (fst p =? j)); cbn [filter];
    rewrite ?E, ?IH; reflexivity.
Qed.

Lemma without_results {C V : Type} (method : chan C -> chan C * outcome V) j d :
  flat_map (result method) (without j d) = without j (flat_map (result method) d).
Proof.
  induction d as [| p d IH]; [reflexivity |]. cbn [without filter flat_map]. fold (without j d).
  rewrite filter_app. fold (without j (flat_map (result method) d)). rewrite <- IH.
  assert (R : filter (fun q => negb (fst q =? j)) (result method p) = if negb (fst p =? j) then result method p else []).
  { unfold result. destruct (snd (method (snd p))); cbn [filter fst]; destruct (negb (fst p =? j)); reflexivity. }
  rewrite R. now destruct (negb (fst p =? j)).
Qed.

(** Re-raising: the loop stops at the first failure. *)
Lemma off_loop_rethrow {C V : Type} (method : chan C -> chan C * outcome V) fmt k c c' m : forall a b cs vals,
  NoDup (map fst cs) -> NoDup (map fst (a ++ (k, c) :: b)) -> (forall k0 c0, In (k0, c0) (a ++ (k, c) :: b) -> dget cs k0 = Some c0) ->
  (forall p, In p a -> exists v, snd (method (snd p)) = Returned v) -> method c = (c', Raised m) ->
  off_loop method fmt true (a ++ (k, c) :: b) cs vals =
  (map (fun p => if touched (a ++ [(k, c)]) (fst p) then (fst p, after method fmt (snd p)) else p) cs, Reraised m).
Proof.
  induction a as [| [k1 c1] a IH]; intros b cs vals NC NT G R E; cbn [app off_loop].
  - rewrite (G k c) by now left. rewrite E. f_equal.
    assert (Hk : dget cs k = Some c) by (apply G; now left).
    change (mark_bad c' (fmt m)) with (mkChan true (fmt m) (data c')).
    assert (Ec : after method fmt c = mkChan true (fmt m) (data c')) by (unfold after; now rewrite E).
    rewrite <- Ec, (dset_map cs k c (after method fmt) NC Hk). apply map_ext. intros [x u].
    unfold touched. cbn [fst snd map existsb]. now rewrite orb_false_r.
  - cbn [app map fst] in NT. inversion NT as [| ? ? T1 T2]; subst.
    assert (Hk : dget cs k1 = Some c1) by (apply G; now left). rewrite Hk.
    destruct (R (k1, c1) (or_introl eq_refl)) as [v Ev]. cbn [snd] in Ev.
    destruct (method c1) as [c1' o] eqn:E1. cbn [snd] in Ev. subst o. rewrite IH.
    + f_equal. assert (Ec : after method fmt c1 = c1') by (unfold after; now rewrite E1).
      rewrite <- Ec, (dset_map cs k1 c1 (after method fmt) NC Hk), map_map. apply map_ext. intros [x u].
      unfold touched. cbn [fst snd map existsb app]. destruct (Z.eqb_spec x k1) as [-> | N]; cbn [fst snd orb]; [| reflexivity].
      replace (existsb (Z.eqb k1) (map fst (a ++ [(k, c)]))) with false; [reflexivity |].
      symmetry. apply member_false. intros C0. apply T1. rewrite map_app in *. apply in_app_or in C0.
      apply in_or_app. destruct C0 as [C0 | C0]; [now left | right]. cbn in *. tauto.
    + rewrite dset_keys; [exact NC |]. apply dget_in. congruence.
    + exact T2.
    + intros k0 c0 H. rewrite dget_dset. destruct (Z.eqb_spec k1 k0) as [<- | N]; [| apply G; now right].
      exfalso. apply T1, in_map_iff. now exists (k1, c0).
    + intros p Hp. apply R. now right.
    + exact E.
Qed.

(** * Good and bad channels *)

Lemma maxlen_ub l t : In t l -> (length t <= maxlen l)%nat.
Proof. unfold maxlen. induction l as [| x l IH]; intros H; [contradiction |]. cbn. destruct H as [-> | H]; [lia |]. specialize (IH H). lia. Qed.
Lemma maxlen_pos l : (1 <= maxlen l)%nat.
Proof. unfold maxlen. induction l as [| x l IH]; cbn; lia. Qed.
Lemma maxlen_least l w : (1 <= w)%nat -> (forall t, In t l -> (length t <= w)%nat) -> (maxlen l <= w)%nat.
Proof.
  intros W H. unfold maxlen. induction l as [| x l IH]; cbn; [exact W |].
  assert (length x <= w)%nat by (apply H; now left). assert (fold_right Nat.max 1%nat (map (length (A:=Z)) l) <= w)%nat by (apply IH; intros t Ht; apply H; now right).
  lia.
Qed.

Lemma store_iff limit l : storable limit l <-> store limit l <> None.
Proof.
  unfold storable, store. split.
  - intros (A & w & W & B & S).
    replace (forallb _ l) with true.
    + replace (Nat.leb _ _) with true; [discriminate |]. symmetry. apply Nat.leb_le.
      assert (M := maxlen_least l w W B). nia.
    + symmetry. apply forallb_forall. intros t Ht. apply forallb_forall. intros c Hc. specialize (A t c Ht Hc).
      apply andb_true_iff. split; [apply Z.leb_le | apply Z.ltb_lt]; lia.
  - destruct (forallb (forallb (fun c => (0 <=? c) && (c <? 128))) l) eqn:F; [| intros H; now destruct H].
    destruct (Nat.leb (length l * maxlen l) limit) eqn:L; [intros _ | intros H; now destruct H].
    apply Nat.leb_le in L. rewrite forallb_forall in F. split.
    + intros t c Ht Hc. specialize (F t Ht). rewrite forallb_forall in F. specialize (F c Hc).
      apply andb_true_iff in F. destruct F as [F1 F2]. apply Z.leb_le in F1. apply Z.ltb_lt in F2. lia.
    + exists (maxlen l). split; [apply maxlen_pos |]. split; [apply maxlen_ub | exact L].
Qed.

Lemma store_padded limit l a : store limit l = Some a -> a = map (pad (maxlen l)) l.
Proof. 
  unfold store. destruct (forallb (forallb (fun c => (0 <=? c) && (c <? 128))) l); [| discriminate].
  destruct (Nat.leb (length l * maxlen l) limit); [| discriminate]. congruence.
 Qed.

Definition padded (l a : list text) : Prop :=
  length a = length l /\
  exists w, forall i, (i < length l)%nat -> exists n, nth i a [] = nth i l [] ++ repeat 0 n /\ length (nth i a []) = w.

Lemma store_spec limit l a : store limit l = Some a -> padded l a.
Proof.
  intros H. apply store_padded in H. subst a. split; [apply map_length |]. exists (maxlen l). intros i Hi.
  exists (maxlen l - length (nth i l []))%nat.
  rewrite (nth_indep _ [] (pad (maxlen l) [])) by (rewrite map_length; exact Hi). rewrite map_nth. unfold pad.
  split; [reflexivity |]. rewrite app_length, repeat_length. assert (M := maxlen_ub l _ (nth_In l [] Hi)). lia.
Qed.

Lemma strip_zeros_repeat n : strip_zeros (repeat 0 n) = [].
Proof. induction n as [| n IH]; [reflexivity |]. cbn [repeat strip_zeros]. now rewrite IH. Qed.
Lemma strip_zeros_pad t n : clean t -> strip_zeros (t ++ repeat 0 n) = t.
Proof.
  unfold clean. induction t as [| c t IH]; intros H; cbn [app strip_zeros]; [apply strip_zeros_repeat |].
  destruct t as [| d t].
  - cbn [app]. rewrite strip_zeros_repeat. cbn [last] in H. destruct (Z.eqb_spec c 0); [congruence | reflexivity].
  - rewrite IH by exact H. reflexivity.
Qed.

Lemma unstore_padded l a : padded l a -> (forall t, In t l -> clean t) -> unstore a = l.
Proof.
  intros [L [w H]] C. unfold unstore. apply nth_ext with (d := []) (d' := []); [now rewrite map_length |].
  intros i Hi. rewrite map_length in Hi. change ([] : text) with (strip_zeros []) at 1. rewrite map_nth.
  destruct (H i ltac:(lia)) as (n & E & _). rewrite E. apply strip_zeros_pad, C, nth_In. lia.
Qed.

(** The invariant behind [agree]. *)
Lemma agree_bad1 limit m s c s' : agree limit s -> bad1 limit m s c = (s', false) ->
  agree limit s' /\ members s' = members s /\ h5groups s' = h5groups s /\
  (forall j, dget (bads s') j = if c =? j then Some (noted s c ++ [m]) else dget (bads s) j).
Proof.
  intros (A1 & A2 & A3) H. unfold bad1 in H. fold (noted s c) in H. cbn [bads] in H.
  destruct (existsb (Z.eqb c) (h5groups s)) eqn:G; [| discriminate H].
  destruct (store limit (noted s c ++ [m])) as [a |] eqn:S; [| discriminate H]. injection H as <-. cbn [members h5groups bads].
  split; [| split; [reflexivity |]; split; [reflexivity |]; intros j; apply dget_dset].
  unfold agree. cbn [members h5groups bads attrs]. split; [exact A1 |]. split.
  - intros j l. rewrite !dget_dset. destruct (Z.eqb_spec c j) as [<- | N]; [| apply A2].
    intros E. injection E as <-. split; [intros C; now apply app_eq_nil in C |].
    split; [now apply member_spec |]. split; [apply store_iff; congruence |].
    exists a. split; [reflexivity |]. exact (store_spec _ _ _ S).
  - intros j Hj. rewrite !dget_dset. destruct (Z.eqb_spec c j); [discriminate |]. now apply A3.
Qed.

Lemma agree_good1 limit s c : agree limit s ->
  exists s', good1 s c = (s', false) /\ agree limit s' /\ members s' = members s /\ h5groups s' = h5groups s /\
  (forall j, dget (bads s') j = if c =? j then None else dget (bads s) j).
Proof.
  intros (A1 & A2 & A3). unfold good1. destruct (dget (bads s) c) as [l |] eqn:E.
  - destruct (A2 c l E) as (_ & G & _ & a & Ea & _). rewrite (proj2 (member_spec _ _) G), Ea.
    eexists. split; [reflexivity |]. cbn [members h5groups bads]. split; [| split; [reflexivity |]; split; [reflexivity |]; intros j; apply dget_ddel].
    unfold agree. cbn [members h5groups bads attrs]. split; [exact A1 |]. split.
    + intros j l'. rewrite !dget_ddel. destruct (Z.eqb_spec c j); [discriminate | apply A2].
    + intros j Hj. rewrite !dget_ddel. destruct (Z.eqb_spec c j); [reflexivity | now apply A3].
  - exists s. split; [reflexivity |]. split; [exact (conj A1 (conj A2 A3)) |]. split; [reflexivity |]. split; [reflexivity |].
    intros j. destruct (Z.eqb_spec c j) as [<- | N]; [exact E | reflexivity].
Qed.

Lemma each_good limit : forall l s, agree limit s ->
  exists s', each good1 s l = (s', false) /\ agree limit s' /\ members s' = members s /\ h5groups s' = h5groups s /\
  (forall j, dget (bads s') j = if member j l then None else dget (bads s) j).
Proof.
  induction l as [| c l IH]; intros s A; cbn [each].
  - exists s. split; [reflexivity |]. split; [exact A |]. split; [reflexivity |]. split; [reflexivity |]. intros j. reflexivity.
  - destruct (agree_good1 limit s c A) as (s1 & E1 & A1 & M1 & G1 & D1). rewrite E1.
    destruct (IH s1 A1) as (s2 & E2 & A2 & M2 & G2 & D2). exists s2. split; [exact E2 |]. split; [exact A2 |].
    split; [congruence |]. split; [congruence |]. intros j. rewrite D2, D1. unfold member. cbn [existsb].
    rewrite (Z.eqb_sym c j). destruct (Z.eqb_spec j c); cbn [orb]; [now destruct (existsb (Z.eqb j) l) | reflexivity].
Qed.

Lemma each_bad limit m : forall l s s', agree limit s -> NoDup l -> each (bad1 limit m) s l = (s', false) ->
  agree limit s' /\ members s' = members s /\ h5groups s' = h5groups s /\
  (forall j, dget (bads s') j = if member j l then Some (noted s j ++ [m]) else dget (bads s) j).
Proof.
  induction l as [| c l IH]; intros s s' A ND H; cbn [each] in H.
  - injection H as <-. split; [exact A |]. split; [reflexivity |]. split; [reflexivity |]. intros j. reflexivity.
  - inversion ND as [| ? ? N1 N2]; subst. destruct (bad1 limit m s c) as [s1 r] eqn:E1. destruct r; [discriminate H |].
    destruct (agree_bad1 limit m s c s1 A E1) as (A1 & M1 & G1 & D1).
    destruct (IH s1 s' A1 N2 H) as (A2 & M2 & G2 & D2). split; [exact A2 |]. split; [congruence |]. split; [congruence |].
    intros j. rewrite D2, D1. unfold member, noted. cbn [existsb]. rewrite !D1, !(Z.eqb_sym c j).
    destruct (Z.eqb_spec j c) as [-> | N]; cbn [orb]; [| reflexivity].
    replace (existsb (Z.eqb c) l) with false by (symmetry; now apply member_false). reflexivity.
Qed.

(** When marking bad succeeds. *)
Lemma each_bad_succeeds limit m : forall l s, NoDup l ->
  (forall c, In c l -> In c (h5groups s) /\ storable limit (noted s c ++ [m])) -> snd (each (bad1 limit m) s l) = false.
Proof.
  induction l as [| c l IH]; intros s ND H; [reflexivity |]. cbn [each]. inversion ND as [| ? ? N1 N2]; subst.
  destruct (H c (or_introl eq_refl)) as [G S]. apply store_iff in S.
  unfold bad1 at 1. fold (noted s c). rewrite (proj2 (member_spec _ _) G).
  destruct (store limit (noted s c ++ [m])) as [a |] eqn:E; [| congruence]. apply IH; [exact N2 |].
  intros j Hj. cbn [h5groups]. unfold noted. cbn [bads]. rewrite dget_dset.
  destruct (Z.eqb_spec c j) as [<- | N]; [contradiction |]. apply H. now right.
Qed.
Lemma each_bad_fails limit m : forall l s, NoDup l -> snd (each (bad1 limit m) s l) = false ->
  forall c, In c l -> In c (h5groups s) /\ storable limit (noted s c ++ [m]).
Proof.
  induction l as [| c l IH]; intros s ND H j Hj; [contradiction |]. cbn [each] in H. inversion ND as [| ? ? N1 N2]; subst.
  unfold bad1 at 1 in H. fold (noted s c) in H. destruct (existsb (Z.eqb c) (h5groups s)) eqn:G; [| discriminate H].
  destruct (store limit (noted s c ++ [m])) as [a |] eqn:E; [| discriminate H].
  destruct Hj as [<- | Hj].
  - split; [now apply member_spec | apply store_iff; congruence].
  - specialize (IH _ N2 H j Hj). cbn [h5groups] in IH. unfold noted in *. cbn [bads] in IH. rewrite dget_dset in IH.
    destruct (Z.eqb_spec c j) as [Ec | N]; [subst j; contradiction | exact IH].
Qed.

Definition entry (l : list text) : option (list text) := match l with [] => None | _ => Some l end.

Lemma noted_entry limit s c : agree limit s -> dget (bads s) c = entry (noted s c).
Proof.
  intros (_ & A2 & _). unfold noted. destruct (dget (bads s) c) as [l |] eqn:E; [| reflexivity].
  destruct (A2 c l E) as (N & _). now destruct l.
Qed.

Lemma command_ok limit s cmd s' : agree limit s -> sets cmd -> command1 limit s cmd = (s', false) ->
  agree limit s' /\ members s' = members s /\ h5groups s' = h5groups s /\ forall j, noted s' j = reasons [cmd] j (noted s j).
Proof.
  intros A S H. destruct cmd as [l | l m |]; cbn [command1 sets] in *.
  - destruct (each_good limit l s A) as (s1 & E & A1 & M & G & D). unfold set_chan_good in H. rewrite E in H. injection H as <-.
    split; [exact A1 |]. split; [exact M |]. split; [exact G |]. intros j. unfold noted at 1. rewrite D. cbn [reasons fold_left].
    now destruct (member j l).
  - destruct (each_bad limit m l s s' A S H) as (A1 & M & G & D).
    split; [exact A1 |]. split; [exact M |]. split; [exact G |]. intros j. unfold noted at 1. rewrite D. cbn [reasons fold_left].
    now destruct (member j l).
  - destruct (each_good limit (map fst (bads s)) s A) as (s1 & E & A1 & M & G & D). unfold set_all_chan_good in H. rewrite E in H. injection H as <-.
    split; [exact A1 |]. split; [exact M |]. split; [exact G |]. intros j. unfold noted at 1. rewrite D. cbn [reasons fold_left].
    destruct (member j (map fst (bads s))) eqn:Mj; [reflexivity |].
    apply member_false in Mj. apply dget_none in Mj. now rewrite Mj.
Qed.

Lemma commands_ok limit : forall h s s', agree limit s -> Forall sets h -> commands limit s h = Some s' ->
  agree limit s' /\ members s' = members s /\ h5groups s' = h5groups s /\ forall j, noted s' j = reasons h j (noted s j).
Proof.
  induction h as [| cmd h IH]; intros s s' A F H; cbn [commands] in H.
  - injection H as <-. split; [exact A |]. split; [reflexivity |]. split; [reflexivity |]. reflexivity.
  - inversion F as [| ? ? F1 F2]; subst. destruct (command1 limit s cmd) as [s1 r] eqn:E. destruct r; [discriminate H |].
    destruct (command_ok limit s cmd s1 A F1 E) as (A1 & M1 & G1 & D1).
    destruct (IH s1 s' A1 F2 H) as (A2 & M2 & G2 & D2).
    split; [exact A2 |]. split; [congruence |]. split; [congruence |]. intros j. rewrite D2, D1. reflexivity.
Qed.

Lemma reasons_clean j : forall h r, Forall clean_command h -> (forall t, In t r -> clean t) -> forall t, In t (reasons h j r) -> clean t.
Proof.
  induction h as [| cmd h IH]; intros r F R t Ht; cbn [reasons fold_left] in Ht; [now apply R |].
  inversion F as [| ? ? F1 F2]; subst. refine (IH _ F2 _ t Ht). intros u Hu.
  destruct cmd as [l | l m |]; [| | contradiction].
  - destruct (member j l); [contradiction | now apply R].
  - destruct (member j l); [| now apply R]. apply in_app_or in Hu. destruct Hu as [Hu | [<- | []]]; [now apply R | exact F1].
Qed.

Lemma good_ok limit s : agree limit s -> good_channels s = filter (fun c => match noted s c with [] => true | _ => false end) (members s).
Proof.
  intros A. unfold good_channels. apply filter_ext. intros c. unfold is_bad. rewrite (noted_entry limit s c A). now destruct (noted s c).
Qed.

Lemma reopen_bads s n : forall ms, NoDup ms -> forall j,
  dget (bads (reopen s ms n)) j = if member j ms then option_map unstore (dget (attrs s) j) else None.
Proof.
  cbn [reopen bads].
  assert (G : forall ms b j, NoDup ms ->
    dget (fold_left (fun b c => match dget (attrs s) c with Some a => dset b c (unstore a) | None => b end) ms b) j
    = if member j ms then match dget (attrs s) j with Some a => Some (unstore a) | None => dget b j end else dget b j).
  { induction ms as [| c ms IH]; intros b j ND; cbn [fold_left]; [reflexivity |]. inversion ND as [| ? ? N1 N2]; subst.
    rewrite IH by exact N2. unfold member. cbn [existsb]. destruct (Z.eqb_spec j c) as [-> | N]; cbn [orb].
    - replace (existsb (Z.eqb c) ms) with false by (symmetry; now apply member_false).
      destruct (dget (attrs s) c); [| reflexivity]. now rewrite dget_dset, Z.eqb_refl.
    - destruct (dget (attrs s) c); [| reflexivity]. rewrite dget_dset. destruct (Z.eqb_spec c j); [congruence |]. reflexivity. }
  intros ms ND j. rewrite G by exact ND. cbn [dget]. now destruct (member j ms), (dget (attrs s) j).
Qed.

Lemma reopen_ok limit s ms n : agree limit s -> NoDup ms -> (forall c, In c ms -> In c (members s)) ->
  (forall c t, In t (noted s c) -> clean t) ->
  agree limit (reopen s ms n) /\ forall c, In c ms -> noted (reopen s ms n) c = noted s c.
Proof.
  intros (A1 & A2 & A3) ND Sub Cl.
  assert (K : forall c, In c ms -> dget (bads (reopen s ms n)) c = dget (bads s) c).
  { intros c Hc. rewrite reopen_bads by exact ND. unfold member. rewrite (proj2 (member_spec _ _) Hc).
    destruct (dget (bads s) c) as [l |] eqn:E.
    - destruct (A2 c l E) as (_ & _ & _ & a & -> & P). cbn [option_map]. f_equal. apply unstore_padded; [exact P |].
      intros t Ht. apply (Cl c). unfold noted. now rewrite E.
    - rewrite (A3 c) by auto. reflexivity. }
  split.
  - split; [| split].
    + cbn [reopen members h5groups]. intros c Hc. apply in_or_app. left. apply A1, Sub, Hc.
    + intros c l H. assert (Hc : In c ms).
      { rewrite reopen_bads in H by exact ND. destruct (member c ms) eqn:E; [now apply member_spec | discriminate H]. }
      rewrite K in H by exact Hc. destruct (A2 c l H) as (N & G & S & R). split; [exact N |].
      split; [cbn [reopen h5groups]; apply in_or_app; now left |]. split; [exact S | exact R].
    + cbn [reopen members attrs]. intros c Hc H. apply A3; [now apply Sub |]. now rewrite <- K.
  - intros c Hc. unfold noted. now rewrite K.
Qed.

(** The loop of a TESGroup. *)
Definition fails {C V : Type} (method : C -> C * outcome V) (c : C) : option text :=
  match snd (method c) with Raised m => Some m | _ => None end.

Lemma core_loop_ok {C V : Type} limit (method : C -> C * outcome V) fmt : forall todo ds s,
  agree limit s -> NoDup todo -> NoDup (map fst ds) ->
  (forall k, In k todo -> In k (h5groups s) /\ exists c, dget ds k = Some c /\ snd (method c) <> Interrupted /\
     forall m, fails method c = Some m -> storable limit [fmt m]) ->
  exists s', core_loop limit method fmt false todo ds s =
    (map (fun p => if member (fst p) todo && negb (is_bad s (fst p)) then (fst p, fst (method (snd p))) else p) ds, s', Completed []) /\
    agree limit s' /\ members s' = members s /\
    (forall k, noted s' k = if member k todo && negb (is_bad s k)
                            then match dget ds k with
                                 | Some c => match fails method c with Some m => [fmt m] | None => noted s k end
                                 | None => noted s k
                                 end
                            else noted s k).
Proof.
  induction todo as [| k t IH]; intros ds s A NT ND H; cbn [core_loop].
  - exists s. split; [| split; [exact A | split; [reflexivity | reflexivity]]]. cbn. now rewrite map_id.
  - inversion NT as [| ? ? N1 N2]; subst. destruct (H k (or_introl eq_refl)) as (G & c & Hc & NI & St).
    assert (Nk : member k t = false) by now apply member_false.
    destruct (is_bad s k) eqn:B.
    + destruct (IH ds s A N2 ND ltac:(intros j Hj; apply H; now right)) as (s' & E & A' & M' & D'). exists s'. split; [| split; [exact A' | split; [exact M' |]]].
      * rewrite E. do 2 f_equal. apply map_ext. intros [x u]. unfold member. cbn [fst existsb].
        destruct (Z.eqb_spec x k) as [-> | N]; cbn [orb]; [| reflexivity]. rewrite B, !andb_false_r. reflexivity.
      * intros j. rewrite D'. unfold member. cbn [existsb]. destruct (Z.eqb_spec j k) as [-> | N]; cbn [orb]; [| reflexivity].
        rewrite B, !andb_false_r. reflexivity.
    + rewrite Hc.
      assert (Nt : noted s k = []).
      { unfold noted. unfold is_bad in B. now destruct (dget (bads s) k). }
      set (ds1 := dset ds k (fst (method c))).
      assert (ND1 : NoDup (map fst ds1)) by (unfold ds1; rewrite dset_keys; [exact ND | apply dget_in; congruence]).
      assert (D1 : forall j, j <> k -> dget ds1 j = dget ds j).
      { intros j N. unfold ds1. rewrite dget_dset. destruct (Z.eqb_spec k j); [congruence | reflexivity]. }
      assert (Step : forall s1, (forall j, j <> k -> is_bad s1 j = is_bad s j) ->
        map (fun p => if member (fst p) t && negb (is_bad s1 (fst p)) then (fst p, fst (method (snd p))) else p) ds1
        = map (fun p => if member (fst p) (k :: t) && negb (is_bad s (fst p)) then (fst p, fst (method (snd p))) else p) ds).
      { intros s1 Hs. unfold ds1. rewrite (dset_map ds k c (fun c => fst (method c)) ND Hc), map_map. apply map_ext.
        intros [x u]. cbn [fst snd]. unfold member at 2. cbn [existsb]. fold (member x t).
        destruct (Z.eqb_spec x k) as [-> | N]; cbn [fst snd orb]; [rewrite Nk, B; reflexivity | now rewrite Hs]. }
      assert (Rest : forall s1, agree limit s1 -> h5groups s1 = h5groups s -> members s1 = members s ->
        (forall j, j <> k -> dget (bads s1) j = dget (bads s) j) ->
        noted s1 k = match fails method c with Some m => [fmt m] | None => noted s k end ->
        exists s', core_loop limit method fmt false t ds1 s1 =
          (map (fun p => if member (fst p) (k :: t) && negb (is_bad s (fst p)) then (fst p, fst (method (snd p))) else p) ds, s', Completed []) /\
          agree limit s' /\ members s' = members s /\
          (forall j, noted s' j = if member j (k :: t) && negb (is_bad s j)
                            then match dget ds j with
                                 | Some c => match fails method c with Some m => [fmt m] | None => noted s j end
                                 | None => noted s j
                                 end
                            else noted s j)).
      { intros s1 A1 G1 M1 Same Nk1.
        destruct (IH ds1 s1 A1 N2 ND1) as (s' & E & A' & M' & D').
        { intros j Hj. destruct (Z.eq_dec j k) as [-> | N]; [contradiction |]. rewrite G1, D1 by exact N. apply H. now right. }
        exists s'. split; [rewrite E; do 2 f_equal; apply Step; intros j N; unfold is_bad; now rewrite Same |].
        split; [exact A' |]. split; [congruence |]. intros j. rewrite D'. unfold member at 2. cbn [existsb]. fold (member j t).
        destruct (Z.eqb_spec j k) as [-> | N]; cbn [orb andb].
        - rewrite Nk, B, Hc. cbn [andb negb]. exact Nk1.
        - rewrite D1 by exact N. unfold is_bad, noted. rewrite Same by exact N. reflexivity. }
      unfold fails in Rest, St. destruct (method c) as [c' [v | m |]] eqn:E; cbn [snd fst] in *; [| | congruence].
      * apply Rest; try reflexivity. exact A.
      * specialize (St m eq_refl).
        destruct (set_chan_bad limit s [k] (fmt m)) as [s1 r] eqn:Es.
        assert (Sr : r = false).
        { change r with (snd (s1, r)). rewrite <- Es. apply each_bad_succeeds; [repeat constructor; tauto |].
          intros j [<- | []]. split; [exact G |]. now rewrite Nt. }
        rewrite Sr in Es |- *.
        destruct (each_bad limit (fmt m) [k] s s1 A ltac:(repeat constructor; tauto) Es) as (A1 & M1 & G1 & D2).
        apply Rest; [exact A1 | exact G1 | exact M1 | |].
        -- intros j N. rewrite D2. unfold member. cbn [existsb]. destruct (Z.eqb_spec j k); [congruence | reflexivity].
        -- unfold noted at 1. rewrite D2. unfold member. cbn [existsb]. rewrite Z.eqb_refl. cbn [orb]. now rewrite Nt.
Qed.
