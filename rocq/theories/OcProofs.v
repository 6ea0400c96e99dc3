From Coq Require Import ZArith QArith Qcanon Qround Bool Lia String List.
From Verif Require Import QcPre LagModel DerModel ToepModel LocModel LocSpec LocProofs OcModel OcSpec.
Import ListNotations.
Local Open Scope Qc_scope.
Local Notation length := List.length.

Lemma qz_lt a b : (a < b)%Z -> qz a < qz b.
Proof. intros H. unfold Qclt, qz. rewrite !this_Q2Qc. rewrite <- Zlt_Qlt. exact H. Qed.
Lemma qz_le a b : (a <= b)%Z -> qz a <= qz b.
Proof. intros H. unfold Qcle, qz. rewrite !this_Q2Qc. rewrite <- Zle_Qle. exact H. Qed.
Lemma qz_succ a : qz (a + 1) = qz a + 1.
Proof. apply Qc_eq. rewrite this_add. unfold qz. rewrite !this_Q2Qc. rewrite inject_Z_plus. reflexivity. Qed.
Lemma qz_0 : qz 0 = 0. Proof. apply Qc_eq. reflexivity. Qed.
Lemma qz_1 : qz 1 = 1. Proof. apply Qc_eq. reflexivity. Qed.
Lemma qz_add a b : qz (a + b) = qz a + qz b.
Proof. apply Qc_eq. rewrite this_add. unfold qz. rewrite !this_Q2Qc. rewrite inject_Z_plus. reflexivity. Qed.
Lemma qz_lt_inv a b : qz a < qz b -> (a < b)%Z.
Proof. intros H. destruct (Z.lt_ge_cases a b) as [L|L]; [exact L|]. apply qz_le in L. exfalso. apply Qcle_not_lt in L. contradiction. Qed.
Lemma qz_le_inv a b : qz a <= qz b -> (a <= b)%Z.
Proof. intros H. destruct (Z.le_gt_cases a b) as [L|L]; [exact L|]. apply qz_lt in L. exfalso. apply Qclt_not_le in L. contradiction. Qed.

Lemma div_le x w a : 0 < w -> x / w <= a -> x <= a * w.
Proof.
  intros W H. assert (E : x = x / w * w) by (field; intro C; subst w; exact (Qlt_irrefl _ W)).
  rewrite E. apply Qcmult_le_compat_r; [exact H|]. now apply Qclt_le_weak.
Qed.
Lemma lt_div x w a : 0 < w -> a < x / w -> a * w < x.
Proof.
  intros W H. assert (E : x = x / w * w) by (field; intro C; subst w; exact (Qlt_irrefl _ W)).
  rewrite E. now apply Qcmult_lt_compat_r.
Qed.
Lemma mul_lt_div x w a : 0 < w -> a * w < x -> a < x / w.
Proof.
  intros W H. destruct (Qclt_le_dec a (x / w)) as [L|L]; [exact L|]. apply div_le in L; [|exact W].
  apply Qcle_not_lt in L. contradiction.
Qed.

(* ---------- np.arange ---------- *)
Lemma arange_stepped lo hi w : 0 < w -> exists e, arange lo hi w = Ret e /\ stepped lo hi w e.
Proof.
  intros W. unfold arange. destruct (Qc_eq_dec w 0) as [E|_]; [subst w; exfalso; exact (Qlt_irrefl _ W)|].
  eexists. split; [reflexivity|]. set (q := this ((hi - lo) / w)). set (n := Z.to_nat (Qceiling q)).
  assert (UP : (hi - lo) / w <= qz (Z.of_nat n)).
  { unfold Qcle, qz. rewrite this_Q2Qc. fold q. eapply Qle_trans; [apply Qle_ceiling|]. rewrite <- Zle_Qle. unfold n. lia. }
  split.
  - rewrite map_length, seq_length. intros i Hi. rewrite (nth_indep _ 0 (lo + qz (Z.of_nat 0) * w)) by now rewrite map_length, seq_length.
    rewrite (map_nth (fun i => lo + qz (Z.of_nat i) * w)), seq_nth by exact Hi. simpl plus. split; [reflexivity|].
    assert (L : qz (Z.of_nat i) < (hi - lo) / w).
    { unfold Qclt, qz. rewrite this_Q2Qc. fold q. apply Qnot_le_lt. intros C. 
      assert (D : (Qceiling q <= Z.of_nat i)%Z) by (rewrite <- (Qceiling_Z (Z.of_nat i)); now apply Qceiling_resp_le). unfold n in Hi. lia. }
    apply lt_div in L; [|exact W]. qlra.
  - rewrite map_length, seq_length. apply div_le in UP; [|exact W]. qlra.
Qed.
Lemma stepped_length lo hi w e k : 0 < w -> stepped lo hi w e -> lo + qz (Z.of_nat k) * w < hi -> (k < length e)%nat.
Proof.
  intros W [_ H] L. assert (P : qz (Z.of_nat k) * w < qz (Z.of_nat (length e)) * w) by qlra.
  destruct (Nat.lt_ge_cases k (length e)) as [C|C]; [exact C|]. exfalso.
  assert (Q : qz (Z.of_nat (length e)) * w <= qz (Z.of_nat k) * w) by (apply Qcmult_le_compat_r; [apply qz_le; lia|now apply Qclt_le_weak]).
  apply Qcle_not_lt in Q. contradiction.
Qed.

(* ---------- largest and smallest ---------- *)
Lemma fold_max l x : let m := fold_left (fun m y => if qltb m y then y else m) l x in (In m (x :: l)) /\ forall y, In y (x :: l) -> y <= m.
Proof.
  revert x. induction l as [|z l IH]; intros x; cbn [fold_left].
  - split; [now left|]. intros y [<-|[]]. apply Qcle_refl.
  - set (v := if qltb x z then z else x). destruct (IH v) as [I M]. cbv zeta in *. split.
    + destruct I as [I|I]; [|right; right; exact I]. rewrite <- I. unfold v. destruct (qltb x z); [right; left|left]; reflexivity.
    + assert (V : x <= v /\ z <= v).
      { unfold v. destruct (qltb x z) eqn:E; [apply qltb_lt in E|apply qltb_ge in E]; split; auto using Qcle_refl, Qclt_le_weak. }
      intros y [<-|[<-|H]].
      * eapply Qcle_trans; [apply V|]. apply M. now left.
      * eapply Qcle_trans; [apply V|]. apply M. now left.
      * apply M. now right.
Qed.
Lemma fold_min l x : let m := fold_left (fun m y => if qltb y m then y else m) l x in (In m (x :: l)) /\ forall y, In y (x :: l) -> m <= y.
Proof.
  revert x. induction l as [|z l IH]; intros x; cbn [fold_left].
  - split; [now left|]. intros y [<-|[]]. apply Qcle_refl.
  - set (v := if qltb z x then z else x). destruct (IH v) as [I M]. cbv zeta in *. split.
    + destruct I as [I|I]; [|right; right; exact I]. rewrite <- I. unfold v. destruct (qltb z x); [right; left|left]; reflexivity.
    + assert (V : v <= x /\ v <= z).
      { unfold v. destruct (qltb z x) eqn:E; [apply qltb_lt in E|apply qltb_ge in E]; split; auto using Qcle_refl, Qclt_le_weak. }
      intros y [<-|[<-|H]].
      * eapply Qcle_trans; [|apply V]. apply M. now left.
      * eapply Qcle_trans; [|apply V]. apply M. now left.
      * apply M. now right.
Qed.
Lemma qmax_iff l m : qmax l = Some m <-> largest l m.
Proof.
  split.
  - destruct l as [|x t]; [discriminate|]. simpl qmax. intros E. injection E as <-. exact (fold_max t x).
  - intros [I M]. destruct l as [|x t]; [destruct I|]. simpl qmax. f_equal. destruct (fold_max t x) as [J N]. apply Qcle_antisym; auto.
Qed.
Lemma qmin_iff l m : qmin l = Some m <-> smallest l m.
Proof.
  split.
  - destruct l as [|x t]; [discriminate|]. simpl qmin. intros E. injection E as <-. exact (fold_min t x).
  - intros [I M]. destruct l as [|x t]; [destruct I|]. simpl qmin. f_equal. destruct (fold_min t x) as [J N]. apply Qcle_antisym; auto.
Qed.
Lemma qmax_some l : l <> [] -> exists m, qmax l = Some m. Proof. destruct l; [congruence|]. simpl. eauto. Qed.
Lemma qmin_some l : l <> [] -> exists m, qmin l = Some m. Proof. destruct l; [congruence|]. simpl. eauto. Qed.

(* ---------- monadic lists ---------- *)
Lemma seqr_ret {A B} (f : A -> res B) l r : seqr (map f l) = Ret r <-> Forall2 (fun x y => f x = Ret y) l r.
Proof.
  revert r. induction l as [|x l IH]; intros r; cbn [map seqr].
  - split; [intros E; injection E as <-; constructor|]. intros F. inversion F. reflexivity.
  - destruct (f x) as [a|e] eqn:E; cbn [bind].
    + destruct (seqr (map f l)) as [t|e]; cbn [bind].
      * split.
        -- intros H. injection H as <-. constructor; [exact E|]. now apply IH.
        -- intros F. inversion F as [|? ? ? ? X Y]; subst. apply IH in Y. injection Y as <-. rewrite E in X. injection X as <-. reflexivity.
      * split; [discriminate|]. intros F. inversion F as [|? ? ? ? X Y]; subst. apply IH in Y. discriminate.
    + split; [discriminate|]. intros F. inversion F as [|? ? ? ? X Y]; subst. rewrite E in X. discriminate.
Qed.

(* ---------- searchsorted ---------- *)
Lemma filter_prefix (e : list Qc) x : increasing e -> exists k, (k <= length e)%nat /\ length (filter (fun y => qltb y x) e) = k /\
  (forall i, (i < k)%nat -> nth i e 0 < x) /\ (forall i, (k <= i < length e)%nat -> x <= nth i e 0).
Proof.
  induction e as [|a e IH]; intros I.
  - exists O. repeat split; simpl; auto; intros; lia.
  - assert (I' : increasing e). { intros i j H. apply (I (S i) (S j)). simpl. lia. }
    destruct (IH I') as (k & K1 & K2 & K3 & K4). simpl filter. destruct (qltb a x) eqn:E.
    + exists (S k). simpl. rewrite K2. repeat split; try lia.
      * intros [|i] H; [now apply qltb_lt|]. apply K3. lia.
      * intros [|i] H; [lia|]. apply K4. simpl in H. lia.
    + apply qltb_ge in E. assert (K0 : k = O).
      { destruct k; [reflexivity|]. exfalso. assert (L : (0 < length e)%nat) by lia. pose proof (K3 O ltac:(lia)) as P. pose proof (I 0%nat 1%nat ltac:(simpl; lia)) as Q. simpl in Q.
        apply Qcle_not_lt in E. apply E. eapply Qclt_trans; eassumption. }
      rewrite K0 in K2, K4. exists O. rewrite K2. repeat split; try (simpl; lia).
      intros [|i] H; [exact E|]. simpl. apply K4. simpl in H. lia.
Qed.
Lemma peak_ind_spec e x (i : nat) : increasing e -> (S i < length e)%nat ->
  (peak_ind e x = Z.of_nat i <-> nth i e 0 < x /\ x <= nth (S i) e 0).
Proof.
  intros I L. destruct (filter_prefix e x I) as (k & K1 & K2 & K3 & K4). unfold peak_ind. rewrite K2. split.
  - intros E. assert (k = S i) by lia. subst k. split; [apply K3; lia|apply K4; lia].
  - intros [A B]. assert (k = S i); [|lia].
    destruct (Nat.lt_trichotomy k (S i)) as [C|[C|C]]; [|exact C|].
    + pose proof (K4 i ltac:(lia)) as P. apply Qcle_not_lt in P. contradiction.
    + pose proof (K3 (S i) ltac:(lia)) as P. apply Qclt_not_le in P. contradiction.
Qed.
Lemma peak_ind_range e x : increasing e -> (-1 <= peak_ind e x < Z.of_nat (length e))%Z /\
  (forall i : nat, peak_ind e x = Z.of_nat i -> nth i e 0 < x /\ ((S i < length e)%nat -> x <= nth (S i) e 0)) /\
  (peak_ind e x = (-1)%Z -> (0 < length e)%nat -> x <= nth 0 e 0).
Proof.
  intros I. destruct (filter_prefix e x I) as (k & K1 & K2 & K3 & K4). unfold peak_ind. rewrite K2. repeat split; try lia.
  - apply K3. lia.
  - intros L. apply K4. lia.
  - intros H L. apply K4. lia.
Qed.

(* ---------- warping paths ---------- *)
Lemma warp_le p path r : warp p path r -> (fst p <= fst r /\ snd p <= snd r)%nat /\ forall q, In q path -> (fst p <= fst q <= fst r /\ snd p <= snd q <= snd r)%nat.
Proof.
  induction 1 as [p|p q path r S W IH].
  - split; [lia|]. intros q [<-|[]]. lia.
  - destruct IH as [A B]. assert (C : (fst p <= fst q /\ snd p <= snd q)%nat) by (destruct S as [-> | [-> | ->]]; simpl; lia).
    split; [lia|]. intros s [<-|H]; [lia|]. specialize (B s H). lia.
Qed.
Lemma warp_finds p path r a : warp p path r -> (fst p <= a <= fst r)%nat ->
  exists j, partner path (Z.of_nat a) = Some j /\ (snd p <= j <= snd r)%nat /\ In (a, j) path.
Proof.
  induction 1 as [p|p q path r S W IH]; intros H; unfold partner in *; cbn [find].
  - replace (Z.of_nat (fst p) =? Z.of_nat a)%Z with true by (symmetry; apply Z.eqb_eq; lia). exists (snd p). simpl. repeat split; auto.
    left. destruct p; simpl in *. f_equal; lia.
  - destruct (Z.of_nat (fst p) =? Z.of_nat a)%Z eqn:E.
    + apply Z.eqb_eq in E. exists (snd p). simpl. pose proof (warp_le _ _ _ (warp_more p q path r S W)) as [L _]. repeat split; auto; try lia.
      left. destruct p; simpl in *. f_equal; lia.
    + apply Z.eqb_neq in E. assert (C : (fst q <= a <= fst r)%nat) by (destruct S as [-> | [-> | ->]]; simpl in *; lia).
      destruct (IH C) as (j & J1 & J2 & J3). exists j. split; [exact J1|]. split; [|right; exact J3]. destruct S as [-> | [-> | ->]]; simpl in *; lia.
Qed.
Lemma warp_monotone p path r a b i j : warp p path r -> partner path (Z.of_nat a) = Some i -> partner path (Z.of_nat b) = Some j -> (a <= b)%nat -> (i <= j)%nat.
Proof.
  induction 1 as [p|p q path r S W IH]; unfold partner in *; cbn [find].
  - destruct (Z.of_nat (fst p) =? Z.of_nat a)%Z; destruct (Z.of_nat (fst p) =? Z.of_nat b)%Z; simpl; intros A B; try discriminate.
    injection A as <-. injection B as <-. lia.
  - destruct (Z.of_nat (fst p) =? Z.of_nat a)%Z eqn:E; destruct (Z.of_nat (fst p) =? Z.of_nat b)%Z eqn:F; intros A B H.
    + simpl in *. injection A as <-. injection B as <-. lia.
    + simpl in A. injection A as <-. apply Z.eqb_eq in E. apply Z.eqb_neq in F.
      destruct (find (fun p => (Z.of_nat (fst p) =? Z.of_nat b)%Z) path) as [s|] eqn:G; [|discriminate]. simpl in B. injection B as <-. apply find_some in G as [G _].
      pose proof (warp_le _ _ _ (warp_more p q path r S W)) as [_ L]. specialize (L s (or_intror G)). lia.
    + simpl in B. injection B as <-. apply Z.eqb_eq in F. apply Z.eqb_neq in E.
      destruct (find (fun p => (Z.of_nat (fst p) =? Z.of_nat a)%Z) path) as [s|] eqn:G; [|discriminate]. apply find_some in G as [G G']. apply Z.eqb_eq in G'.
      pose proof (warp_le _ _ _ (warp_more p q path r S W)) as [_ L]. specialize (L s (or_intror G)). lia.
    + now apply IH.
Qed.
Lemma partner_range n m path (a : Z) : (0 < n)%nat -> (0 < m)%nat -> warping n m path ->
  match partner path a with
  | Some j => (0 <= a < Z.of_nat n)%Z /\ (j < m)%nat
  | None => ~ (0 <= a < Z.of_nat n)%Z
  end.
Proof.
  intros N M W. destruct (partner path a) as [j|] eqn:E.
  - unfold partner in E. destruct (find _ path) as [s|] eqn:G; [|discriminate]. simpl in E. injection E as <-. apply find_some in G as [G G']. apply Z.eqb_eq in G'.
    destruct (warp_le _ _ _ W) as [_ L]. specialize (L s G). simpl in L. lia.
  - intros H. destruct (warp_finds _ _ _ (Z.to_nat a) W) as (j & J & _); [simpl; lia|]. rewrite Z2Nat.id in J by lia. congruence.
Qed.
Lemma partner_least p path r a j : warp p path r -> partner path (Z.of_nat a) = Some j ->
  In (a, j) path /\ forall j', In (a, j') path -> (j <= j')%nat.
Proof.
  induction 1 as [p|p q path r S W IH]; unfold partner in *; cbn [find].
  - destruct (Z.of_nat (fst p) =? Z.of_nat a)%Z eqn:E; simpl; [|discriminate]. intros H. injection H as <-. apply Z.eqb_eq in E. destruct p as [u v]. simpl in *.
    split; [left; f_equal; lia|]. intros j' [H|[]]. injection H as _ <-. lia.
  - destruct (Z.of_nat (fst p) =? Z.of_nat a)%Z eqn:E.
    + simpl. intros H. injection H as <-. apply Z.eqb_eq in E. destruct p as [u v]. simpl in *. split; [left; f_equal; lia|].
      intros j' H. pose proof (warp_le _ _ _ (warp_more (u, v) q path r S W)) as [_ L]. specialize (L (a, j') H). simpl in L. lia.
    + intros H. destruct (IH H) as [I L]. split; [right; exact I|]. intros j' [H'|H']; [|now apply L].
      subst p. simpl in E. rewrite Z.eqb_refl in E. discriminate.
Qed.

(* ---------- truncation ---------- *)
Lemma toward_zero_le a b : a <= b -> (toward_zero a <= toward_zero b)%Z.
Proof.
  intros H. unfold toward_zero. destruct (qltb a 0) eqn:A; destruct (qltb b 0) eqn:B.
  - assert (C : (Qfloor (this (- b)) <= Qfloor (this (- a)))%Z); [|lia]. apply Qfloor_resp_le. assert (D : - b <= - a) by qlra. exact D.
  - apply qltb_lt in A. apply qltb_ge in B. 
    assert (C : (0 <= Qfloor (this (- a)))%Z). { rewrite <- (Qfloor_Z 0). apply Qfloor_resp_le. assert (D : 0 <= - a) by qlra. exact D. }
    assert (E : (0 <= Qfloor (this b))%Z). { rewrite <- (Qfloor_Z 0). apply Qfloor_resp_le. exact B. }
    lia.
  - apply qltb_ge in A. apply qltb_lt in B. exfalso. assert (a < 0) by (eapply Qcle_lt_trans; eassumption). apply Qcle_not_lt in A. contradiction.
  - apply Qfloor_resp_le. exact H.
Qed.
Lemma toward_zero_qz i : (0 <= i)%Z -> toward_zero (qz i) = i.
Proof.
  intros H. unfold toward_zero. destruct (qltb (qz i) 0) eqn:E.
  - apply qltb_lt in E. rewrite <- qz_0 in E. apply qz_lt_inv in E. lia.
  - unfold qz. rewrite (Qfloor_comp _ (inject_Z i)) by apply this_Q2Qc. apply Qfloor_Z.
Qed.

(* ---------- bin centres ---------- *)
Lemma middles_length e : length (middles e) = (length e - 1)%nat.
Proof. induction e as [|x [|y t] IH]; [reflexivity|reflexivity|]. change (middles (x :: y :: t)) with ((y + x) / qz 2 :: middles (y :: t)). cbn [length] in *. rewrite IH. lia. Qed.
Lemma middles_nth e i : (S i < length e)%nat -> nth i (middles e) 0 = (nth i e 0 + nth (S i) e 0) / qz 2.
Proof.
  revert i. induction e as [|x [|y t] IH]; intros i H; [simpl in H; lia|simpl in H; lia|].
  change (middles (x :: y :: t)) with ((y + x) / qz 2 :: middles (y :: t)). destruct i as [|i].
  - cbn [nth]. f_equal. ring.
  - cbn [nth]. rewrite IH by (simpl in *; lia). reflexivity.
Qed.
Lemma py_nth_ok l i : (i < length l)%nat -> py_nth l (Z.of_nat i) = Ret (nth i l 0).
Proof.
  intros H. unfold py_nth. replace (Z.of_nat i <? 0)%Z with false by (symmetry; apply Z.ltb_ge; lia).
  replace (0 <=? Z.of_nat i)%Z with true by (symmetry; apply Z.leb_le; lia). replace (Z.of_nat i <? Z.of_nat (length l))%Z with true by (symmetry; apply Z.ltb_lt; lia).
  cbn [andb]. now rewrite Nat2Z.id.
Qed.

(* ---------- alignment ---------- *)
Lemma partners n path peaks : (0 < n)%nat -> warping n n path -> (forall a, In a peaks -> (0 <= a < Z.of_nat n)%Z) ->
  exists bs, Forall2 (fun a b => partner path a = Some b /\ (b < n)%nat) peaks bs.
Proof.
  intros N W. induction peaks as [|a t IH]; intros H; [exists []; constructor|].
  destruct IH as (bs & F); [intros; apply H; now right|]. pose proof (partner_range n n path a N N W) as P.
  destruct (partner path a) as [b|] eqn:E; [|exfalso; apply P; apply H; now left]. exists (b :: bs). constructor; [split; [exact E|apply P]|exact F].
Qed.
Lemma seqr_exc {A B} (f : A -> res B) l e : (exists x, In x l /\ f x = Exc e) -> (forall x e', In x l -> f x = Exc e' -> e' = e) -> seqr (map f l) = Exc e.
Proof.
  induction l as [|y l IH]; intros (x & I & X) H; [destruct I|]. cbn [map seqr]. destruct (f y) as [a|e'] eqn:E; cbn [bind].
  - rewrite IH; [reflexivity| |intros; eapply H; [right|]; eassumption].
    destruct I as [->|I]; [congruence|]. exists x. auto.
  - f_equal. apply (H y); [now left|exact E].
Qed.
Lemma same_peaks_outside e0 e1 rest ratio n path peaks a : (0 < n)%nat -> warping n n path -> In a peaks -> ~ (0 <= a < Z.of_nat n)%Z ->
  same_peaks (e0 :: e1 :: rest) ratio path peaks = Exc ValueErr.
Proof.
  intros N W I O. unfold same_peaks. rewrite seqr_exc with (e := ValueErr); [reflexivity| |].
  - exists a. split; [exact I|]. pose proof (partner_range n n path a N N W) as P. destruct (partner path a); [tauto|reflexivity].
  - intros x e' _. destruct (partner path x); [discriminate|]. intros E. injection E as <-. reflexivity.
Qed.
Lemma Forall2_map_r {A B C} (P : A -> C -> Prop) (f : B -> C) l r : Forall2 P l (map f r) <-> Forall2 (fun x y => P x (f y)) l r.
Proof.
  split.
  - revert r. induction l as [|x l IH]; intros [|y r] F; inversion F; subst; constructor; auto.
  - induction 1; constructor; auto.
Qed.
Lemma Forall2_map_l {A B C} (P : C -> B -> Prop) (f : A -> C) l r : Forall2 P (map f l) r <-> Forall2 (fun x y => P (f x) y) l r.
Proof.
  split.
  - revert r. induction l as [|x l IH]; intros [|y r] F; inversion F; subst; constructor; auto.
  - induction 1; constructor; auto.
Qed.
Lemma Forall2_impl {A B} (P Q : A -> B -> Prop) l r : (forall x y, P x y -> Q x y) -> Forall2 P l r -> Forall2 Q l r.
Proof. intros H. induction 1; constructor; auto. Qed.
Lemma same_peaks_ok e ratio path peaks bs : (2 <= length e)%nat -> ratio <> 0 -> nth 1 e 0 - nth 0 e 0 <> 0 ->
  Forall2 (fun a b => partner path a = Some b /\ (b < length e - 1)%nat) peaks bs ->
  same_peaks e ratio path peaks = Ret (map (fun b => toward_zero ((nth b e 0 / ratio - nth 0 e 0) / (nth 1 e 0 - nth 0 e 0))) bs).
Proof.
  intros L R D F. destruct e as [|e0 [|e1 rest]]; [simpl in L; lia|simpl in L; lia|]. unfold same_peaks.
  assert (J : seqr (map (fun a => match partner path a with Some j => Ret j | None => Exc ValueErr end) peaks) = Ret bs).
  { apply seqr_ret. revert F. apply Forall2_impl. intros a b [E _]. now rewrite E. }
  rewrite J. cbn [bind]. apply seqr_ret. apply Forall2_map_r. clear J.
  assert (B : Forall (fun b => (b < length (e0 :: e1 :: rest) - 1)%nat) bs) by (induction F as [|? ? ? ? [? ?] ? ?]; constructor; auto).
  clear F. induction B as [|b bs Hb B IH]; [constructor|]. constructor; [|exact IH].
  rewrite (nth_error_nth' (e0 :: e1 :: rest) 0) by lia. unfold qdiv. destruct (Qc_eq_dec ratio 0) as [E|_]; [contradiction|].
  cbn [nth] in D |- *. destruct (Qc_eq_dec (e1 - e0) 0) as [E|_]; [contradiction|]. reflexivity.
Qed.
Lemma cal_ok e as_ bs : length as_ = length bs -> Forall (fun a => (S a < length e)%nat) as_ -> Forall (fun b => (S b < length e)%nat) bs ->
  cal_b_to_a e (map Z.of_nat as_) (map Z.of_nat bs) =
  Ret (map (fun p => ((nth (snd p) e 0 + nth (S (snd p)) e 0) / qz 2, (nth (fst p) e 0 + nth (S (fst p)) e 0) / qz 2)) (combine as_ bs)).
Proof.
  intros L. unfold cal_b_to_a. revert bs L. induction as_ as [|a t IH]; intros [|b bs] L FA FB; simpl in L; try discriminate; [reflexivity|].
  inversion FA; inversion FB; subst. cbn [map combine seqr snd fst]. rewrite !py_nth_ok by (rewrite middles_length; lia). cbn [bind].
  rewrite IH by (auto; lia). cbn [bind]. rewrite !middles_nth by lia. reflexivity.
Qed.
Lemma inside_ind e x : increasing e -> (2 <= length e)%nat -> nth 0 e 0 < x -> x <= nth (length e - 1) e 0 ->
  exists a, peak_ind e x = Z.of_nat a /\ (S a < length e)%nat /\ nth a e 0 < x /\ x <= nth (S a) e 0.
Proof.
  intros I L A B. destruct (peak_ind_range e x I) as (R & P & Q).
  destruct (Z.eq_dec (peak_ind e x) (-1)) as [E|E].
  - specialize (Q E ltac:(lia)). apply Qcle_not_lt in Q. contradiction.
  - exists (Z.to_nat (peak_ind e x)). rewrite Z2Nat.id by lia. split; [reflexivity|].
    destruct (P (Z.to_nat (peak_ind e x)) ltac:(lia)) as [P1 P2].
    assert (S1 : (S (Z.to_nat (peak_ind e x)) < length e)%nat).
    { destruct (Nat.eq_dec (Z.to_nat (peak_ind e x)) (length e - 1)) as [C|C]; [|lia]. rewrite C in P1. apply Qcle_not_lt in B. contradiction. }
    auto.
Qed.
Lemma outside_ind e x : increasing e -> (2 <= length e)%nat -> x <= nth 0 e 0 \/ nth (length e - 1) e 0 < x -> ~ (0 <= peak_ind e x < Z.of_nat (length e - 1))%Z.
Proof.
  intros I L O R. destruct (peak_ind_range e x I) as (_ & P & _). destruct (P (Z.to_nat (peak_ind e x)) ltac:(lia)) as [P1 P2].
  specialize (P2 ltac:(lia)). destruct O as [O|O].
  - assert (C : nth 0 e 0 <= nth (Z.to_nat (peak_ind e x)) e 0).
    { destruct (Z.to_nat (peak_ind e x)) eqn:Z; [apply Qcle_refl|]. apply Qclt_le_weak. apply I. lia. }
    assert (D : x < x) by (eapply Qcle_lt_trans; [exact O|]; eapply Qcle_lt_trans; eassumption). exact (Qlt_irrefl _ D).
  - assert (C : nth (S (Z.to_nat (peak_ind e x))) e 0 <= nth (length e - 1) e 0).
    { destruct (Nat.eq_dec (S (Z.to_nat (peak_ind e x))) (length e - 1)) as [->|N]; [apply Qcle_refl|]. apply Qclt_le_weak. apply I. lia. }
    assert (D : x < x) by (eapply Qcle_lt_trans; [exact P2|]; eapply Qcle_lt_trans; eassumption). exact (Qlt_irrefl _ D).
Qed.

(* ---------- cumulated counts ---------- *)
Lemma running_length acc l : length (running acc l) = length l.
Proof. revert acc. induction l as [|x l IH]; intros acc; simpl; auto. Qed.
Lemma running_nth acc l k : (k < length l)%nat -> nth k (running acc l) O = (acc + list_sum (firstn (S k) l))%nat.
Proof.
  revert acc k. induction l as [|x l IH]; intros acc k H; [simpl in H; lia|]. destruct k as [|k].
  - simpl. lia.
  - cbn [running nth]. rewrite IH by (simpl in H; lia). simpl. lia.
Qed.
Lemma sum_firstn_le k l : (list_sum (firstn k l) <= list_sum l)%nat.
Proof. revert k. induction l as [|x l IH]; intros [|k]; simpl; auto; try lia. specialize (IH k). unfold list_sum in *. simpl. lia. Qed.
