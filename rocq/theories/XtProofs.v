(** Proofs about crosstalk. *)
From Coq Require Import ZArith QArith Qcanon Qround Bool Lia Permutation Sorting.Sorted List.
From Verif Require Import QcPre QSort Kept CutModel CutHistProofs OffProofs HistModel HistSpec HistProofs XtModel XtSpec.
Import ListNotations.
Local Open Scope Z_scope.

(** * Integer parts *)

Lemma this_q n : (this (q n) == inject_Z n)%Q. Proof. unfold q. apply this_Q2Qc. Qed.
Lemma q_le m n : (q m <= q n)%Qc <-> m <= n.
Proof. unfold Qcle. rewrite !this_q. rewrite (Zle_Qle m n). reflexivity. Qed.
Lemma q_lt m n : (q m < q n)%Qc <-> m < n.
Proof. unfold Qclt. rewrite !this_q. rewrite (Zlt_Qlt m n). reflexivity. Qed.
Lemma q_add m n : q (m + n) = (q m + q n)%Qc.
Proof. apply Qc_eq. rewrite this_add, !this_q, inject_Z_plus. reflexivity. Qed.
Lemma q_0 : q 0 = 0%Qc. Proof. apply Qc_is_canon. vm_compute. reflexivity. Qed.
Lemma q_1 : q 1 = 1%Qc. Proof. apply Qc_is_canon. vm_compute. reflexivity. Qed.

Lemma floor_part x : int_part x (Qfloor (this x)).
Proof.
  split.
  - unfold Qcle. rewrite this_q. apply Qfloor_le.
  - unfold Qclt. rewrite this_q. apply Qlt_floor.
Qed.
Lemma int_part_unique x m n : int_part x m -> int_part x n -> m = n.
Proof.
  intros [A B] [C D].
  assert (m < n + 1) by (apply q_lt; eapply Qcle_lt_trans; eassumption).
  assert (n < m + 1) by (apply q_lt; eapply Qcle_lt_trans; eassumption). lia.
Qed.
Lemma trunc_nonneg x : (0 <= x)%Qc -> int_part x (trunc x) /\ 0 <= trunc x.
Proof.
  intros H. unfold trunc. apply qleb_le in H as E. rewrite E. pose proof (floor_part x) as F. split; [exact F|].
  assert (0 < Qfloor (this x) + 1); [|lia]. apply q_lt. rewrite q_0. eapply Qcle_lt_trans; [exact H | apply F].
Qed.

(** * CrosstalkVeto *)

Lemma mapi_nth {A B : Type} (f : Z -> A -> B) l : forall i k,
  nth_error (mapi_from f i l) k = option_map (f (i + Z.of_nat k)) (nth_error l k).
Proof.
  induction l as [|x l IH]; intros i [|k]; cbn [mapi_from nth_error option_map]; try reflexivity.
  - now rewrite Z.add_0_r.
  - rewrite IH. now replace (i + 1 + Z.of_nat k) with (i + Z.of_nat (S k)) by lia.
Qed.
Lemma mapi_length {A B : Type} (f : Z -> A -> B) l : forall i, length (mapi_from f i l) = length l.
Proof. induction l as [|x l IH]; intros i; cbn; auto. Qed.

Lemma add_one_length h lo hi : length (add_one h lo hi) = length h.
Proof. apply mapi_length. Qed.
Lemma add_one_nth h lo hi k : 0 <= lo -> 0 <= hi ->
  nth_error (add_one h lo hi) k = option_map (fun x => if (lo <=? Z.of_nat k) && (Z.of_nat k <? hi) then wrap8 (x + 1) else x) (nth_error h k).
Proof.
  intros Hlo Hhi. unfold add_one. rewrite mapi_nth. rewrite Z.add_0_l.
  destruct (nth_error h k) as [x|] eqn:E; [|reflexivity]. cbn [option_map].
  assert (L : (k < length h)%nat) by (apply nth_error_Some; congruence).
  unfold bound. assert (lo <? 0 = false) as -> by lia. assert (hi <? 0 = false) as -> by lia.
  assert ((Z.min lo (Z.of_nat (length h)) <=? Z.of_nat k) = (lo <=? Z.of_nat k)) as -> by lia.
  assert ((Z.of_nat k <? Z.min hi (Z.of_nat (length h))) = (Z.of_nat k <? hi)) as -> by lia. reflexivity.
Qed.

Lemma wrap8_succ x : wrap8 (wrap8 x + 1) = wrap8 (x + 1).
Proof.
  unfold wrap8. replace ((x + 128) mod 256 - 128 + 1 + 128) with ((x + 128) mod 256 + 1) by lia.
  rewrite Zplus_mod_idemp_l. do 2 f_equal. lia.
Qed.
Lemma wrap8_small x : -128 <= x < 128 -> wrap8 x = x.
Proof. intros H. unfold wrap8. rewrite Z.mod_small; lia. Qed.

(** The array holds the counts [c]. *)
Definition holds (h : list Z) (c : nat -> nat) : Prop :=
  forall k, (k < length h)%nat -> nth_error h k = Some (wrap8 (Z.of_nat (c k))).

Definition between (lo hi : Z) (k : nat) : bool := (lo <=? Z.of_nat k) && (Z.of_nat k <? hi).

Lemma fold_add {A : Type} (lo hi : A -> Z) l : Forall (fun p => 0 <= lo p /\ 0 <= hi p) l -> forall h c, holds h c ->
  length (fold_left (fun h p => add_one h (lo p) (hi p)) l h) = length h /\
  holds (fold_left (fun h p => add_one h (lo p) (hi p)) l h) (fun k => (c k + count (fun p => between (lo p) (hi p) k) l)%nat).
Proof.
  induction 1 as [|p l [Hl Hh] F IH]; intros h c H; cbn [fold_left].
  - split; [reflexivity|]. intros k L. rewrite (H k L). unfold count. cbn. now rewrite Nat.add_0_r.
  - destruct (IH (add_one h (lo p) (hi p)) (fun k => (c k + (if between (lo p) (hi p) k then 1 else 0))%nat)) as [I1 I2].
    + intros k L. rewrite add_one_length in L. rewrite add_one_nth by assumption. rewrite (H k L). cbn [option_map].
      fold (between (lo p) (hi p) k). destruct (between (lo p) (hi p) k).
      * rewrite wrap8_succ. do 2 f_equal. lia.
      * do 2 f_equal. lia.
    + rewrite add_one_length in I1. split; [exact I1|].
      intros k L. rewrite (I2 k L). do 3 f_equal. unfold count. cbn [filter].
      destruct (between (lo p) (hi p) k); cbn [length]; lia.
Qed.

(** What a pulse adds in the model. *)
Definition hitb (a b : Z) (limit ms0 : Qc) (k : nat) (p : pulse) : bool :=
  ok p && (between (vetotime ms0 p + a) (vetotime ms0 p + (b + 1)) k
           || qltb limit (deriv p) && between (vetotime ms0 p + (b + 1)) (vetotime ms0 p + (b + 1) + 8) k).

Lemma count_filter {A : Type} (f g : A -> bool) l : count f (filter g l) = count (fun x => g x && f x) l.
Proof.
  unfold count. induction l as [|x l IH]; cbn [filter]; [reflexivity|].
  destruct (g x); cbn [filter andb]; [|exact IH]. destruct (f x); cbn [length]; now rewrite IH.
Qed.
Lemma count_or {A : Type} (f g h : A -> bool) l : (forall x, In x l -> h x = f x || g x /\ f x && g x = false) ->
  count h l = (count f l + count g l)%nat.
Proof.
  unfold count. intros H. induction l as [|x t IH]; [reflexivity|]. cbn [filter].
  specialize (IH (fun y K => H y (or_intror K))). destruct (H x (or_introl eq_refl)) as [E D]. rewrite E.
  destruct (f x), (g x); cbn in *; try discriminate; lia.
Qed.
Lemma count_app {A : Type} (f : A -> bool) l m : count f (l ++ m) = (count f l + count f m)%nat.
Proof. unfold count. now rewrite filter_app, app_length. Qed.

Lemma vetotime_nonneg ms0 p : 0 <= vetotime ms0 p. Proof. unfold vetotime. lia. Qed.

Lemma veto_channel_ok a b limit ms0 ds h c : a <= b + 1 ->
  Forall (fun p => 0 <= vetotime ms0 p + a) ds -> holds h c ->
  length (veto_channel a b limit ms0 h ds) = length h /\
  holds (veto_channel a b limit ms0 h ds) (fun k => (c k + count (hitb a b limit ms0 k) ds)%nat).
Proof.
  intros Hab F H. unfold veto_channel.
  assert (F1 : Forall (fun p => 0 <= vetotime ms0 p + a /\ 0 <= vetotime ms0 p + (b + 1)) (filter ok ds)).
  { apply Forall_forall. intros p I. apply filter_In in I. rewrite Forall_forall in F. specialize (F p (proj1 I)). lia. }
  assert (F2 : Forall (fun p => 0 <= vetotime ms0 p + (b + 1) /\ 0 <= vetotime ms0 p + (b + 1) + 8)
                      (filter (fun p => qltb limit (deriv p)) (filter ok ds))).
  { apply Forall_forall. intros p I. apply filter_In in I. rewrite Forall_forall in F1. specialize (F1 p (proj1 I)). lia. }
  destruct (fold_add (fun p => vetotime ms0 p + a) (fun p => vetotime ms0 p + (b + 1)) _ F1 h c H) as [L1 H1].
  destruct (fold_add (fun p => vetotime ms0 p + (b + 1)) (fun p => vetotime ms0 p + (b + 1) + 8) _ F2 _ _ H1) as [L2 H2].
  split; [congruence|]. intros k L. rewrite (H2 k L). do 3 f_equal.
  rewrite <- Nat.add_assoc. f_equal. rewrite !count_filter. symmetry. apply count_or.
  intros p _. unfold hitb. destruct (ok p); cbn [andb orb]; [|split; reflexivity].
  split; [reflexivity|]. unfold between.
  destruct (qltb limit (deriv p)); cbn [andb]; [|apply andb_false_r].
  destruct (vetotime ms0 p + a <=? Z.of_nat k) eqn:A, (Z.of_nat k <? vetotime ms0 p + (b + 1)) eqn:B,
    (vetotime ms0 p + (b + 1) <=? Z.of_nat k) eqn:C; cbn [andb]; try reflexivity; lia.
Qed.

Lemma veto_channels_ok a b limit ms0 dss : a <= b + 1 ->
  Forall (Forall (fun p => 0 <= vetotime ms0 p + a)) dss -> forall h c, holds h c ->
  length (fold_left (veto_channel a b limit ms0) dss h) = length h /\
  holds (fold_left (veto_channel a b limit ms0) dss h) (fun k => (c k + count (hitb a b limit ms0 k) (concat dss))%nat).
Proof.
  intros Hab. induction 1 as [|ds dss F Fs IH]; intros h c H; cbn [fold_left concat].
  - split; [reflexivity|]. intros k L. rewrite (H k L). unfold count. cbn. now rewrite Nat.add_0_r.
  - destruct (veto_channel_ok a b limit ms0 ds h c Hab F H) as [L1 H1]. destruct (IH _ _ H1) as [L2 H2].
    split; [congruence|]. intros k L. rewrite (H2 k L). do 3 f_equal. rewrite count_app. lia.
Qed.

Lemma hitb_spec a b limit ms0 k p : (ms0 <= ms (time p))%Qc ->
  (hit a b limit ms0 (Z.of_nat k) p <-> hitb a b limit ms0 k p = true).
Proof.
  intros H.
  assert (H' : (0 <= ms (time p) - ms0)%Qc) by qlra.
  destruct (trunc_nonneg _ H') as [P N].
  assert (V : vetotime ms0 p = trunc (ms (time p) - ms0)%Qc) by (unfold vetotime; lia).
  unfold hit, hitb, between. rewrite V. rewrite andb_true_iff, orb_true_iff, !andb_true_iff, qltb_lt, !Z.leb_le, !Z.ltb_lt.
  split.
  - intros (O & n & I & J). rewrite (int_part_unique _ _ _ P I). split; [exact O|].
    destruct J as [J | [J K]]; [left | right]; [lia | split; [exact J | lia]].
  - intros (O & J). split; [exact O|]. exists (trunc (ms (time p) - ms0)%Qc). split; [exact P|].
    destruct J as [J | [J K]]; [left | right]; [lia | split; [exact J | lia]].
Qed.

(** First and last times. *)
Lemma chrono_first p t x : chronological (p :: t) -> In x (p :: t) -> (time p <= time x)%Qc.
Proof.
  intros S [<- | I]; [apply Qcle_refl|]. inversion S as [|? ? ? F]; subst. rewrite Forall_forall in F. now apply F.
Qed.
Lemma chrono_last t : forall p x, chronological (p :: t) -> In x (p :: t) -> (time x <= time (last t p))%Qc.
Proof.
  induction t as [|r t IH]; intros p x S I.
  - destruct I as [<- | []]. apply Qcle_refl.
  - assert (E : last (r :: t) p = last t r).
    { clear. revert r p. induction t as [|s t IH]; intros r p; [reflexivity|]. exact (eq_trans (IH s p) (eq_sym (IH s r))). }
    rewrite E. inversion S as [|? ? S' F]; subst.
    destruct I as [<- | I]; [|now apply IH].
    apply Qcle_trans with (time r); [inversion F; assumption|]. apply IH; [exact S' | now left].
Qed.
Lemma last_in t (p : pulse) : In (last t p) (p :: t).
Proof.
  revert p. induction t as [|r t IH]; intros p; [now left|]. right.
  assert (E : last (r :: t) p = last t r).
  { clear. revert r p. induction t as [|s t IH]; intros r p; [reflexivity|]. exact (eq_trans (IH s p) (eq_sym (IH s r))). }
  rewrite E. apply IH.
Qed.

Lemma fold_qmin l : forall x, (fold_left qmin l x = x \/ In (fold_left qmin l x) l) /\ (fold_left qmin l x <= x)%Qc /\ Forall (fun y => fold_left qmin l x <= y)%Qc l.
Proof.
  induction l as [|y l IH]; intros x; cbn [fold_left].
  - split; [now left|]. split; [apply Qcle_refl | constructor].
  - destruct (IH (qmin x y)) as (A & B & F).
    assert (M : (qmin x y <= x)%Qc /\ (qmin x y <= y)%Qc /\ (qmin x y = x \/ qmin x y = y)).
    { unfold qmin. destruct (qleb x y) eqn:E.
      - apply qleb_le in E. repeat split; [apply Qcle_refl | exact E | now left].
      - apply qleb_gt in E. repeat split; [now apply Qclt_le_weak | apply Qcle_refl | now right]. }
    destruct M as (M1 & M2 & M3). split; [|split].
    + destruct A as [A | A]; [|right; now right]. rewrite A. destruct M3 as [-> | ->]; [now left | right; now left].
    + exact (Qcle_trans _ _ _ B M1).
    + constructor; [exact (Qcle_trans _ _ _ B M2) | exact F].
Qed.
Lemma fold_qmax l : forall x, (fold_left qmax l x = x \/ In (fold_left qmax l x) l) /\ (x <= fold_left qmax l x)%Qc /\ Forall (fun y => y <= fold_left qmax l x)%Qc l.
Proof.
  induction l as [|y l IH]; intros x; cbn [fold_left].
  - split; [now left|]. split; [apply Qcle_refl | constructor].
  - destruct (IH (qmax x y)) as (A & B & F).
    assert (M : (x <= qmax x y)%Qc /\ (y <= qmax x y)%Qc /\ (qmax x y = x \/ qmax x y = y)).
    { unfold qmax. destruct (qleb x y) eqn:E.
      - apply qleb_le in E. repeat split; [exact E | apply Qcle_refl | now right].
      - apply qleb_gt in E. repeat split; [apply Qcle_refl | now apply Qclt_le_weak | now left]. }
    destruct M as (M1 & M2 & M3). split; [|split].
    + destruct A as [A | A]; [|right; now right]. rewrite A. destruct M3 as [-> | ->]; [now left | right; now left].
    + exact (Qcle_trans _ _ _ M1 B).
    + constructor; [exact (Qcle_trans _ _ _ M2 B) | exact F].
Qed.

Lemma ends_spec dss : forall es, ends dss = Some es ->
  Forall2 (fun ds e => exists p t, ds = p :: t /\ e = (time p, time (last t p))) dss es.
Proof.
  induction dss as [|ds dss IH]; intros es H; cbn [ends] in H.
  - injection H as <-. constructor.
  - destruct ds as [|p t]; [discriminate|]. destruct (ends dss) as [l|]; [|discriminate].
    injection H as <-. constructor; [now exists p, t | now apply IH].
Qed.

Lemma ends_earliest dss f l es : Forall chronological dss -> ends dss = Some ((f, l) :: es) ->
  earliest dss (fold_left qmin (map fst es) f) /\ latest dss (fold_left qmax (map snd es) l).
Proof.
  intros C H. apply ends_spec in H.
  assert (P : forall e, In e ((f, l) :: es) -> exists ds p t, In ds dss /\ ds = p :: t /\ e = (time p, time (last t p))).
  { clear C. revert H. generalize ((f, l) :: es). intros el H. induction H as [|ds e dss el (p & t & E1 & E2) F IH]; intros e' I; [contradiction|].
    destruct I as [<- | I].
    - exists ds, p, t. split; [now left | now split].
    - destruct (IH e' I) as (ds' & p' & t' & I' & E). exists ds', p', t'. split; [now right | exact E]. }
  assert (Q : forall ds, In ds dss -> exists p t, ds = p :: t /\ In (time p, time (last t p)) ((f, l) :: es)).
  { clear C P. revert H. generalize ((f, l) :: es). intros el H. induction H as [|ds e dss el (p & t & E1 & E2) F IH]; intros ds' I; [contradiction|].
    destruct I as [<- | I].
    - exists p, t. split; [exact E1|]. left. exact E2.
    - destruct (IH ds' I) as (p' & t' & E & I'). exists p', t'. split; [exact E | now right]. }
  rewrite Forall_forall in C.
  destruct (fold_qmin (map fst es) f) as (A1 & A2 & A3). destruct (fold_qmax (map snd es) l) as (B1 & B2 & B3).
  rewrite Forall_forall in A3, B3. split; split.
  - assert (X : exists e, In e ((f, l) :: es) /\ fst e = fold_left qmin (map fst es) f).
    { destruct A1 as [A1 | A1]; [exists (f, l); split; [now left | now rewrite A1]|].
      apply in_map_iff in A1. destruct A1 as [e [E I]]. exists e. split; [now right | exact E]. }
    destruct X as [e [I E]]. destruct (P e I) as (ds & p & t & Id & -> & ->). cbn in E.
    exists (p :: t), p. split; [exact Id|]. split; [now left | exact E].
  - intros ds x Id Ix. destruct (Q ds Id) as (p & t & -> & I). apply Qcle_trans with (time p).
    + destruct I as [I | I]; [injection I as <- _; exact A2|]. apply A3. apply in_map_iff. now exists (time p, time (last t p)).
    + apply (chrono_first p t x); [now apply C | exact Ix].
  - assert (X : exists e, In e ((f, l) :: es) /\ snd e = fold_left qmax (map snd es) l).
    { destruct B1 as [B1 | B1]; [exists (f, l); split; [now left | now rewrite B1]|].
      apply in_map_iff in B1. destruct B1 as [e [E I]]. exists e. split; [now right | exact E]. }
    destruct X as [e [I E]]. destruct (P e I) as (ds & p & t & Id & -> & ->). cbn in E.
    exists (p :: t), (last t p). split; [exact Id|]. split; [apply last_in | exact E].
  - intros ds x Id Ix. destruct (Q ds Id) as (p & t & -> & I). apply Qcle_trans with (time (last t p)).
    + apply (chrono_last t p x); [now apply C | exact Ix].
    + destruct I as [I | I]; [injection I as _ <-; exact B2|]. apply B3. apply in_map_iff. now exists (time p, time (last t p)).
Qed.

Lemma ms_le x y : (x <= y)%Qc -> (ms x <= ms y)%Qc.
Proof. intros H. unfold ms. assert (0 < q 1000)%Qc by reflexivity. qnra. Qed.

Lemma repeat_holds n : holds (repeat 0 n) (fun _ => O).
Proof.
  intros k L. rewrite repeat_length in L. revert k L. induction n as [|n IH]; intros [|k] L; try lia; [reflexivity|].
  cbn [repeat nth_error]. apply IH. lia.
Qed.

Lemma veto_init_ok a b limit dss v : a <= 0 -> a <= b + 1 -> Forall chronological dss -> veto_init a b limit dss = Some v ->
  exists e l, earliest dss e /\ latest dss l /\ time0 v = (ms e + q a)%Qc /\
    (int_part (ms l + q b - time0 v + 1)%Qc (Z.of_nat (length (nhits v))) \/ (ms l + q b - time0 v + 1 < 1)%Qc) /\
    holds (nhits v) (fun k => count (hitb a b limit (time0 v) k) (concat dss)) /\
    forall p, In p (concat dss) -> (time0 v - q a <= ms (time p))%Qc.
Proof.
  intros Ha Hab C H. unfold veto_init in H. destruct (ends dss) as [[|[f l] es]|] eqn:E; try discriminate.
  destruct (ends_earliest dss f l es C E) as [M1 M2]. remember (fold_left qmin (map fst es) f) as e0 eqn:E0.
  remember (fold_left qmax (map snd es) l) as l0 eqn:El. remember (ms e0 + q a)%Qc as ms0 eqn:Ems.
  destruct (trunc (ms l0 + q b - ms0 + 1)%Qc <? 0) eqn:N; [discriminate|]. apply some_inj in H. subst v.
  exists e0, l0. split; [exact M1|]. split; [exact M2|]. cbn [time0 nhits]. split; [exact Ems|].
  assert (G : forall p, In p (concat dss) -> (ms0 - q a <= ms (time p))%Qc).
  { intros p I. apply in_concat in I. destruct I as [ds [I J]]. rewrite Ems. replace (ms e0 + q a - q a)%Qc with (ms e0) by ring.
    apply ms_le. now apply (proj2 M1 ds p). }
  assert (Fv : Forall (Forall (fun p => 0 <= vetotime ms0 p + a)) dss).
  { apply Forall_forall. intros ds I. apply Forall_forall. intros p J.
    assert (K : (ms0 - q a <= ms (time p))%Qc) by (apply G, in_concat; now exists ds).
    assert (Qa : (q a <= 0)%Qc) by (rewrite <- q_0; now apply q_le).
    assert (X : (0 <= ms (time p) - ms0)%Qc) by qlra.
    destruct (trunc_nonneg _ X) as [[_ T1] T2]. unfold vetotime. rewrite Z.max_r by exact T2.
    set (n := trunc (ms (time p) - ms0)%Qc) in *.
    assert (W : (q (- a) < q (n + 1))%Qc).
    { replace (q (- a)) with (- q a)%Qc; [qlra|]. assert (R : (q (- a) + q a = 0)%Qc) by (rewrite <- q_add, Z.add_opp_diag_l; apply q_0). 
      replace (q (- a)) with (q (- a) + q a - q a)%Qc by ring. rewrite R. ring. }
    apply (proj1 (q_lt _ _)) in W. lia. }
  destruct (veto_channels_ok a b limit ms0 dss Hab Fv _ _ (repeat_holds (Z.to_nat (trunc (ms l0 + q b - ms0 + 1)%Qc)))) as [L1 L2].
  split.
  - rewrite L1, repeat_length. apply Z.ltb_ge in N. rewrite Z2Nat.id by exact N.
    destruct (qleb 0 (ms l0 + q b - ms0 + 1)%Qc) eqn:B.
    + left. apply qleb_le in B. now apply trunc_nonneg.
    + right. apply qleb_gt in B. eapply Qclt_trans; [exact B | reflexivity].
  - split; [exact L2 | exact G].
Qed.

Lemma veto_hits_ok a b limit dss v t j : a <= 0 -> a <= b + 1 -> Forall chronological dss -> veto_init a b limit dss = Some v ->
  int_part (ms t - time0 v + Q2Qc (1 # 2))%Qc j -> 0 <= j < Z.of_nat (length (nhits v)) ->
  exists n, tally (hit a b limit (time0 v) j) (concat dss) n /\ veto v t = Some (1 <? wrap8 (Z.of_nat n)).
Proof.
  intros Ha Hab C H P J. destruct (veto_init_ok a b limit dss v Ha Hab C H) as (e & l & _ & _ & _ & _ & Hh & G).
  exists (count (hitb a b limit (time0 v) (Z.to_nat j)) (concat dss)). split.
  - apply kept_tally. intros p I. rewrite <- hitb_spec; [now rewrite Z2Nat.id by lia|].
    specialize (G p I). assert (Qa : (q a <= 0)%Qc) by (rewrite <- q_0; now apply q_le). qlra.
  - unfold veto. assert (T : trunc (ms t - time0 v + Q2Qc (1 # 2))%Qc = j).
    { assert (X : (0 <= ms t - time0 v + Q2Qc (1 # 2))%Qc).
      { apply Qcle_trans with (q j); [|apply P]. rewrite <- q_0. now apply q_le. }
      eapply int_part_unique; [|exact P]. now apply trunc_nonneg. }
    rewrite T. unfold at_index. assert (j <? 0 = false) as -> by lia.
    assert (Z.of_nat (length (nhits v)) <=? j = false) as -> by lia. assert (j <? 0 = false) as -> by lia. cbn [orb].
    rewrite Hh by lia. reflexivity.
Qed.

Lemma half_ceil x n j : int_part x n -> int_part (x + Q2Qc (1 # 2))%Qc j -> n <= j <= n + 1.
Proof.
  intros [A B] [C D].
  assert (Hh : (0 < Q2Qc (1 # 2) /\ Q2Qc (1 # 2) < 1)%Qc) by (split; reflexivity).
  rewrite q_add, q_1 in B, D. destruct Hh as [H1 H2].
  assert (q n < q (j + 1))%Qc by (rewrite q_add, q_1; qlra).
  assert (q j < q (n + 1 + 1))%Qc by (rewrite !q_add, q_1; qlra).
  apply (proj1 (q_lt _ _)) in H. apply (proj1 (q_lt _ _)) in H0. lia.
Qed.

Lemma kept_one {A : Type} (P : A -> Prop) l1 x l2 n : P x -> tally P (l1 ++ x :: l2) n -> exists m, n = S m /\ tally P (l1 ++ l2) m.
Proof.
  intros Px. revert n. induction l1 as [|y l1 IH]; intros n T; cbn [app] in *.
  - apply tally_cons in T. destruct T as [[_ T] | [T _]]; [exact T | contradiction].
  - apply tally_cons in T. destruct T as [[Py [m [-> T]]] | [Py T]].
    + destruct (IH m T) as [k [-> K]]. exists (S k). split; [reflexivity | now apply tally_yes].
    + destruct (IH n T) as [k [-> K]]. exists k. split; [reflexivity | now apply tally_no].
Qed.
Lemma tally_pos {A : Type} (P : A -> Prop) l n : tally P l n -> ((0 < n)%nat <-> exists x, In x l /\ P x).
Proof.
  intros (r & K & <-). split.
  - destruct r as [|x r]; [cbn; lia|]. intros _. exists x. destruct (kept_in P l (x :: r) x K (or_introl eq_refl)). now split.
  - intros (x & I & Px). pose proof (in_kept P l r x K I Px) as J. destruct r; [contradiction | cbn; lia].
Qed.

(** A good pulse closes its own millisecond, once. *)
Lemma own_hit a b limit ms0 p j : a <= 0 -> 1 <= b -> ok p = true ->
  int_part (ms (time p) - ms0 + Q2Qc (1 # 2))%Qc j -> hit a b limit ms0 j p.
Proof.
  intros Ha Hb O P. split; [exact O|]. exists (Qfloor (this (ms (time p) - ms0)%Qc)).
  pose proof (floor_part (ms (time p) - ms0)%Qc) as F. split; [exact F|]. left.
  pose proof (half_ceil _ _ _ F P). lia.
Qed.

Lemma pulse_index a b limit dss v p : a <= 0 -> 1 <= b -> Forall chronological dss -> veto_init a b limit dss = Some v ->
  In p (concat dss) -> exists j, int_part (ms (time p) - time0 v + Q2Qc (1 # 2))%Qc j /\ 0 <= j < Z.of_nat (length (nhits v)).
Proof.
  intros Ha Hb C H I. destruct (veto_init_ok a b limit dss v Ha ltac:(lia) C H) as (e & l & Me & Ml & T0 & L & _ & G).
  specialize (G p I). assert (Qa : (q a <= 0)%Qc) by (rewrite <- q_0; now apply q_le).
  assert (Qb : (1 <= q b)%Qc) by (rewrite <- q_1; now apply q_le).
  assert (Hh : (0 < Q2Qc (1 # 2) /\ Q2Qc (1 # 2) < 1)%Qc) by (split; reflexivity). destruct Hh as [H1 H2].
  assert (U : (ms (time p) <= ms l)%Qc).
  { apply ms_le. apply in_concat in I. destruct I as [ds [I J]]. now apply (proj2 Ml ds p). }
  assert (F : exists j, int_part (ms (time p) - time0 v + Q2Qc (1 # 2))%Qc j) by (eexists; apply floor_part).
  destruct F as [j F]. exists j. split; [exact F|]. destruct F as [F1 F2].
  assert (X : (0 < q (j + 1))%Qc) by qlra.
  rewrite <- q_0 in X. apply (proj1 (q_lt _ _)) in X. split; [lia|].
  destruct L as [[L1 L2] | L].
  - set (n := Z.of_nat (length (nhits v))) in *.
    assert (Y : (q j < q n)%Qc) by (rewrite q_add, q_1 in L2; qlra).
    now apply (proj1 (q_lt _ _)) in Y.
  - exfalso. qlra.
Qed.

Lemma veto_pulse_ok a b limit dss v l1 p l2 n j : a <= 0 -> 1 <= b -> Forall chronological dss -> veto_init a b limit dss = Some v ->
  concat dss = l1 ++ p :: l2 -> ok p = true ->
  int_part (ms (time p) - time0 v + Q2Qc (1 # 2))%Qc j ->
  tally (hit a b limit (time0 v) j) (concat dss) n -> (n < 128)%nat ->
  exists x, veto v (time p) = Some x /\ (x = true <-> exists r, In r (l1 ++ l2) /\ hit a b limit (time0 v) j r).
Proof.
  intros Ha Hb C H E O P T N.
  destruct (pulse_index a b limit dss v p Ha Hb C H) as (j' & P' & J).
  { rewrite E. apply in_or_app. right. now left. }
  rewrite (int_part_unique _ _ _ P' P) in J. clear j' P'.
  destruct (veto_hits_ok a b limit dss v (time p) j Ha ltac:(lia) C H P J) as (n' & T' & V).
  rewrite (tally_unique _ _ _ _ T' T) in V. clear n' T'.
  rewrite E in T. apply kept_one in T; [|now apply own_hit]. destruct T as [m [-> T]].
  eexists. split; [exact V|]. rewrite wrap8_small by lia. rewrite Z.ltb_lt.
  rewrite <- (tally_pos _ _ _ T). lia.
Qed.

(** Windows in time, to within the resolution. *)
Lemma half_facts : (Q2Qc (1 # 2) + Q2Qc (1 # 2) = 1)%Qc. Proof. apply Qc_is_canon. vm_compute. reflexivity. Qed.
Lemma window_time a b limit ms0 p r j : ok r = true -> int_part (ms (time p) - ms0 + Q2Qc (1 # 2))%Qc j ->
  let d := (ms (time p) - ms (time r))%Qc in
  ((q a - Q2Qc (1 # 2) <= d)%Qc -> (d <= q b - Q2Qc (1 # 2))%Qc -> hit a b limit ms0 j r) /\
  (~ (limit < deriv r)%Qc -> hit a b limit ms0 j r -> (q a - 1 - Q2Qc (1 # 2) < d)%Qc /\ (d < q b + Q2Qc (1 # 2))%Qc).
Proof.
  intros O [P1 P2] d. pose proof half_facts as Hf. rewrite q_add, q_1 in P2.
  assert (F : exists n, int_part (ms (time r) - ms0)%Qc n) by (eexists; apply floor_part).
  destruct F as [n F]. pose proof F as [F1 F2]. rewrite q_add, q_1 in F2. split.
  - intros H1 H2. split; [exact O|]. exists n. split; [exact F|]. left. unfold d in *. split.
    + assert (X : (q (n + a) < q (j + 1))%Qc) by (rewrite !q_add, q_1; qlra). apply (proj1 (q_lt _ _)) in X. lia.
    + assert (X : (q j < q (n + b + 1))%Qc) by (rewrite !q_add, q_1; qlra). apply (proj1 (q_lt _ _)) in X. lia.
  - intros N (_ & m & I & [J | [J _]]); [|contradiction]. rewrite <- (int_part_unique _ _ _ F I) in J. destruct J as [J1 J2].
    apply (proj2 (q_le _ _)) in J1. apply (proj2 (q_le _ _)) in J2. rewrite q_add in J1, J2. unfold d. split; qlra.
Qed.

(** * flag_crosstalking_pulses *)

Lemma xv_before x y : before (xv x) (xv y) = qltb x y.
Proof. unfold before, xv. cbn. rewrite orb_false_r. reflexivity. Qed.
Lemma xv_leq x y : xleq (xv x) (xv y) <-> (x <= y)%Qc.
Proof.
  unfold xleq, xv, is_num. cbn. split.
  - intros (_ & _ & H). now apply Qcnot_lt_le.
  - intros H. repeat split; try discriminate. now apply Qcle_not_lt.
Qed.
Lemma xv_lt x y : xlt (xv x) (xv y) <-> (x < y)%Qc. Proof. reflexivity. Qed.

Lemma ninsert_xv x l : ninsert (xv x) (map xv l) = map xv (qinsert x l).
Proof.
  induction l as [|y l IH]; [reflexivity|]. cbn [map ninsert qinsert]. rewrite xv_before.
  unfold qltb. fold (qleb x y). destruct (qleb x y); cbn [negb map]; [reflexivity | now rewrite IH].
Qed.
Lemma nsort_xv l : nsort (map xv l) = map xv (qsort l).
Proof. unfold nsort. induction l as [|x l IH]; [reflexivity|]. cbn [map fold_right qsort]. rewrite IH. apply ninsert_xv. Qed.

Lemma qsorted_unique l m : qsorted l -> qsorted m -> Permutation l m -> l = m.
Proof.
  intros S T P. apply (nth_ext l m 0%Qc 0%Qc (Permutation_length P)). intros k L.
  apply (order_statistic_unique k m).
  - apply (order_statistic_perm k l m _ P). now apply sorted_order_statistic.
  - apply sorted_order_statistic; [exact T|]. now rewrite <- (Permutation_length P).
Qed.

Definition interleave (prior post : Qc) (ps : list Qc) : list Qc := flat_map (fun p => [p - prior; p + post]%Qc) ps.

Lemma interleave_perm prior post ps :
  Permutation (map (fun p => p - prior)%Qc ps ++ map (fun p => p + post)%Qc ps) (interleave prior post ps).
Proof.
  induction ps as [|p ps IH]; [constructor|]. cbn [map app interleave flat_map].
  apply perm_skip. rewrite <- Permutation_middle. now apply perm_skip.
Qed.
Lemma interleave_nth prior post ps : forall k p, nth_error ps k = Some p ->
  nth_error (interleave prior post ps) (2 * k) = Some (p - prior)%Qc /\ nth_error (interleave prior post ps) (S (2 * k)) = Some (p + post)%Qc.
Proof.
  induction ps as [|x ps IH]; intros [|k] p H; try discriminate.
  - cbn in H. injection H as ->. split; reflexivity.
  - replace (2 * S k)%nat with (S (S (2 * k))) by lia. exact (IH k p H).
Qed.
Lemma interleave_length prior post ps : length (interleave prior post ps) = (2 * length ps)%nat.
Proof. induction ps as [|x ps IH]; [reflexivity|]. cbn [interleave flat_map app length] in *. fold (interleave prior post ps) in *. lia. Qed.

Lemma interleave_sorted prior post ps : (0 <= prior + post)%Qc -> separated ps prior post -> qsorted (interleave prior post ps).
Proof.
  intros W S. induction ps as [|x ps IH]; [exact I|].
  assert (IH' : qsorted (interleave prior post ps)).
  { apply IH. intros i y z H K. exact (S (Datatypes.S i) y z H K). }
  change (interleave prior post (x :: ps)) with ((x - prior)%Qc :: (x + post)%Qc :: interleave prior post ps).
  assert (A : forall y, In y (interleave prior post ps) -> (x + post <= y)%Qc).
  { clear IH. revert x S. induction ps as [|z ps IHp]; intros x S y Iy; [contradiction|].
    assert (Z : (x + post <= z - prior)%Qc) by exact (S O x z eq_refl eq_refl).
    destruct Iy as [<- | [<- | Iy]]; [exact Z | qlra |].
    apply Qcle_trans with (z + post)%Qc; [qlra|].
    apply IHp; [| |exact Iy].
    - exact (proj2 (proj2 IH')).
    - intros i u w Hu Hw. exact (S (Datatypes.S i) u w Hu Hw). }
  split; [|split].
  - intros y [<- | Iy]; [qlra|]. specialize (A y Iy). qlra.
  - exact A.
  - exact IH'.
Qed.

Lemma combined_edges_separated ps prior post : (0 <= prior + post)%Qc -> separated ps prior post ->
  combined_edges ps prior post = map xv (interleave prior post ps).
Proof.
  intros W S. unfold combined_edges.
  replace (map (fun p => xv (p - prior)%Qc) ps ++ map (fun p => xv (p + post)%Qc) ps)
    with (map xv (map (fun p => p - prior)%Qc ps ++ map (fun p => p + post)%Qc ps)) by (now rewrite map_app, !map_map).
  rewrite nsort_xv. f_equal. apply qsorted_unique.
  - apply qsort_sorted.
  - now apply interleave_sorted.
  - rewrite <- qsort_perm. apply interleave_perm.
Qed.

Lemma qsorted_ordered l : qsorted l -> ordered (map xv l).
Proof.
  intros S. split.
  - apply Forall_forall. intros x I. apply in_map_iff in I. destruct I as [y [<- _]]. discriminate.
  - intros i a b H K. rewrite nth_error_map in H, K.
    destruct (nth_error l i) as [x|] eqn:Ex; [|discriminate]. destruct (nth_error l (Datatypes.S i)) as [y|] eqn:Ey; [|discriminate].
    injection H as <-. injection K as <-. apply xv_leq.
    pose proof (qsorted_nth l S i (Datatypes.S i)) as Q.
    rewrite (nth_error_nth l i 0%Qc Ex), (nth_error_nth l (Datatypes.S i) 0%Qc Ey) in Q. apply Q.
    assert (Datatypes.S i < length l)%nat by (apply nth_error_Some; congruence). lia.
Qed.

Lemma combined_edges_ordered ps prior post : ordered (combined_edges ps prior post).
Proof.
  unfold combined_edges.
  replace (map (fun p => xv (p - prior)%Qc) ps ++ map (fun p => xv (p + post)%Qc) ps)
    with (map xv (map (fun p => p - prior)%Qc ps ++ map (fun p => p + post)%Qc ps)) by (now rewrite map_app, !map_map).
  rewrite nsort_xv. apply qsorted_ordered, qsort_sorted.
Qed.

Lemma evens_nth {A : Type} : forall k (l : list A), nth_error (evens l) k = nth_error l (2 * k).
Proof.
  induction k as [|k IH]; intros l.
  - destruct l as [|x [|y t]]; reflexivity.
  - replace (2 * S k)%nat with (S (S (2 * k))) by lia. destruct l as [|x [|y t]]; cbn [evens nth_error]; [reflexivity | now destruct k | apply IH].
Qed.
Lemma evens_length_odd {A : Type} n : forall l : list A, length l = (2 * n - 1)%nat -> length (evens l) = n.
Proof.
  induction n as [|n IH]; intros l L.
  - destruct l; [reflexivity | discriminate].
  - destruct l as [|x [|y t]]; cbn [evens length] in *; [lia | lia|]. rewrite IH; [reflexivity | lia].
Qed.

Lemma channel_times_in others c l : NoDup (map fst others) -> (channel_times others c = Some l <-> In (c, l) others).
Proof.
  induction others as [|[k m] t IH]; intros N; cbn [channel_times].
  - split; [discriminate | contradiction].
  - cbn in N. inversion N as [|? ? H K]; subst. destruct (Z.eqb_spec k c) as [E | E].
    + subst. split.
      * intros X. injection X as <-. now left.
      * intros [X | X]; [now injection X as ->|]. exfalso. apply H. apply in_map_iff. now exists (c, l).
    + rewrite IH by exact K. split; [now right|]. intros [X | X]; [congruence | exact X].
Qed.

Lemma times_in others channels t : NoDup (map fst others) ->
  (In t (flat_map (fun c => match channel_times others c with Some l => l | None => [] end) channels) <-> pulse_of others channels t).
Proof.
  intros N. rewrite in_flat_map. split.
  - intros (c & Ic & It). destruct (channel_times others c) as [l|] eqn:E; [|contradiction].
    exists c, l. split; [exact Ic|]. split; [now apply channel_times_in | exact It].
  - intros (c & l & Ic & Il & It). exists c. split; [exact Ic|]. apply channel_times_in in Il; [|exact N]. now rewrite Il.
Qed.

Lemma flagging_loop_general ps prior post others channels : NoDup (map fst others) ->
  exists fl, flagging_loop (combined_edges ps prior post) others channels = Some fl /\ length fl = length ps /\
    forall k b, nth_error fl k = Some b ->
      (b = true <-> exists t, pulse_of others channels t /\ in_bin (combined_edges ps prior post) (2 * k) (xv t)).
Proof.
  intros N. unfold flagging_loop. set (ts := flat_map _ channels).
  destruct (histogram_ok (map xv ts) (combined_edges ps prior post) (combined_edges_ordered ps prior post)) as (h & -> & L & T).
  eexists. split; [reflexivity|].
  assert (Le : length (combined_edges ps prior post) = (2 * length ps)%nat).
  { unfold combined_edges. rewrite <- (Permutation_length (nsort_perm _)), app_length, !map_length. lia. }
  split.
  - rewrite map_length. apply evens_length_odd. rewrite L, Le. lia.
  - intros k b H. rewrite nth_error_map, evens_nth in H. destruct (nth_error h (2 * k)) as [n|] eqn:E; [|discriminate].
    cbn [option_map] in H. apply some_inj in H. subst b. rewrite Nat.ltb_lt. rewrite (tally_pos _ _ _ (T _ _ E)). split.
    + intros (v & Iv & B). apply in_map_iff in Iv. destruct Iv as [t [<- It]]. exists t. split; [now apply times_in | exact B].
    + intros (t & P & B). exists (xv t). split; [|exact B]. apply in_map. now apply times_in.
Qed.

Lemma flagging_loop_ok ps prior post others channels : NoDup (map fst others) -> (0 <= prior + post)%Qc -> separated ps prior post ->
  exists fl, flagging_loop (combined_edges ps prior post) others channels = Some fl /\ length fl = length ps /\
    forall k p b, nth_error ps k = Some p -> nth_error fl k = Some b ->
      (b = true <-> exists t, pulse_of others channels t /\ (p - prior <= t)%Qc /\
                     ((t < p + post)%Qc \/ (S k = length ps /\ t = p + post)%Qc)).
Proof.
  intros N W S. destruct (flagging_loop_general ps prior post others channels N) as (fl & H & L & F).
  exists fl. split; [exact H|]. split; [exact L|]. intros k p b Hp Hb. rewrite (F k b Hb).
  rewrite (combined_edges_separated ps prior post W S).
  destruct (interleave_nth prior post ps k p Hp) as [I1 I2].
  assert (Kl : (k < length ps)%nat) by (apply nth_error_Some; congruence).
  split.
  - intros (t & P & x & y & E1 & E2 & B1 & B2). rewrite nth_error_map, I1 in E1. rewrite nth_error_map, I2 in E2.
    cbn [option_map] in E1, E2. apply some_inj in E1. apply some_inj in E2. subst x y.
    exists t. split; [exact P|]. apply xv_leq in B1. split; [exact B1|].
    destruct B2 as [B2 | [B2 B3]]; [left; now apply xv_lt|]. apply xv_leq in B3.
    rewrite map_length, interleave_length in B2.
    destruct (Qc_dec t (p + post)%Qc) as [[D | D] | D]; [now left | exfalso; revert D; now apply Qcle_not_lt | right]. split; [lia | exact D].
  - intros (t & P & B1 & B2). exists t. split; [exact P|]. exists (xv (p - prior)%Qc), (xv (p + post)%Qc).
    rewrite !nth_error_map, I1, I2. split; [reflexivity|]. split; [reflexivity|]. split; [now apply xv_leq|].
    destruct B2 as [B2 | [B2 B3]]; [left; now apply xv_lt | right]. rewrite map_length, interleave_length.
    split; [lia|]. apply xv_leq. rewrite B3. apply Qcle_refl.
Qed.

Lemma zinsert_in x l y : In y (zinsert x l) <-> y = x \/ In y l.
Proof.
  induction l as [|z l IH]; cbn [zinsert In].
  - intuition congruence.
  - destruct (z <? x); cbn [In]; [rewrite IH; tauto|]. destruct (Z.eqb_spec z x) as [E | E]; cbn [In]; [subst; intuition congruence | intuition congruence].
Qed.
Lemma unique_in l y : In y (unique l) <-> In y l.
Proof. unfold unique. induction l as [|x l IH]; cbn [fold_right]; [tauto|]. rewrite zinsert_in, IH. cbn. intuition congruence. Qed.
Lemma select_in distances l c : In c (select distances l) <-> exists d2 n, In (c, d2, n) l /\ In n distances.
Proof.
  unfold select. rewrite in_map_iff. split.
  - intros ([[c' d2] n] & E & I). cbn in E. subst c'. apply filter_In in I. destruct I as [I X]. cbn in X.
    apply existsb_exists in X. destruct X as (m & Im & Em). apply Z.eqb_eq in Em. subst m. now exists d2, n.
  - intros (d2 & n & I & X). exists (c, d2, n). split; [reflexivity|]. apply filter_In. split; [exact I|].
    cbn. apply existsb_exists. exists n. split; [exact X | apply Z.eqb_refl].
Qed.
Lemma neighbours_in distances cs : forall acc c,
  In c (fold_left (fun acc x => unique (acc ++ select distances (snd x))) cs acc) <-> In c acc \/ neighbour cs distances c.
Proof.
  induction cs as [|[k l] cs IH]; intros acc c; cbn [fold_left].
  - split; [now left|]. intros [H | (k & l & d & n & [] & _)]. exact H.
  - rewrite IH, unique_in, in_app_iff, select_in. cbn [snd]. split.
    + intros [[H | (d & n & H)] | (k' & l' & d & n & I & H)].
      * now left.
      * right. exists k, l, d, n. split; [now left | exact H].
      * right. exists k', l', d, n. split; [now right | exact H].
    + intros [H | (k' & l' & d & n & [I | I] & H)].
      * left. now left.
      * injection I as <- <-. left. right. now exists d, n.
      * right. exists k', l', d, n. split; assumption.
Qed.

Lemma combined_ok any ps others cs prior post ds force f f' :
  flag_crosstalking any ps others (Some cs) prior post true ds force f = Some f' ->
  f' = f \/ (per_category f' = per_category f /\ exists ns, (forall c, In c ns <-> neighbour cs ds c) /\
    flagging_loop (combined_edges ps (prior / q 1000)%Qc (post / q 1000)%Qc) others ns = Some (combined f')).
Proof.
  unfold flag_crosstalking. destruct (_ || force); [|intros H; apply some_inj in H; now left].
  destruct (rev cs) as [|[k l] t]; [discriminate|]. destruct (any _ _); [|intros H; apply some_inj in H; now left].
  set (ns := fold_left _ cs []). destruct (flagging_loop _ others ns) as [v|] eqn:E; [|discriminate].
  intros H. apply some_inj in H. subst f'. right. split; [reflexivity|]. exists ns. split; [|exact E].
  intros c. unfold ns. rewrite neighbours_in. cbn [In]. tauto.
Qed.

Lemma view_false ks sel : any_member_view ks sel = false.
Proof.
  unfold any_member_view, isin_view. cbn. rewrite orb_false_r. induction sel as [|x l IH]; [reflexivity | exact IH].
Qed.
Lemma category_loop_view e others ds cs f : category_loop any_member_view e others ds cs f = Some f.
Proof. induction cs as [|[k l] cs IH]; [reflexivity|]. cbn [category_loop]. rewrite view_false. exact IH. Qed.
Lemma never_flags ps others cs prior post comb ds force f :
  flag_crosstalking any_member_view ps others cs prior post comb ds force f = Some f \/
  flag_crosstalking any_member_view ps others cs prior post comb ds force f = None.
Proof.
  unfold flag_crosstalking. destruct cs as [cs|]; [|now left]. destruct (_ || force); [|now left].
  destruct comb; [|left; apply category_loop_view]. destruct (rev cs) as [|[k l] t]; [now right|].
  rewrite view_false. now left.
Qed.

(** Counting sorted numbers up to a limit. *)
Lemma sorted_count_le l t : qsorted l -> forall k x, nth_error l k = Some x -> (t < x)%Qc -> (qcount (fun e => qleb e t) l <= k)%nat.
Proof.
  induction l as [|y l IH]; intros S k x H L; [destruct k; discriminate|]. destruct S as [Sy Sl].
  rewrite qcount_cons. destruct k as [|k].
  - cbn in H. injection H as ->. rewrite (proj2 (qleb_gt x t) L). rewrite qcount_none; [lia|].
    intros a Ia. apply qleb_gt. exact (Qclt_le_trans _ _ _ L (Sy a Ia)).
  - specialize (IH Sl k x H L). destruct (qleb y t); lia.
Qed.
Lemma sorted_count_ge l t : qsorted l -> forall k x, nth_error l k = Some x -> (x <= t)%Qc -> (S k <= qcount (fun e => qleb e t) l)%nat.
Proof.
  induction l as [|y l IH]; intros S k x H L; [destruct k; discriminate|]. destruct S as [Sy Sl].
  rewrite qcount_cons. destruct k as [|k].
  - cbn in H. injection H as ->. rewrite (proj2 (qleb_le x t) L). lia.
  - specialize (IH Sl k x H L). assert (Hy : (y <= t)%Qc).
    { apply Qcle_trans with x; [|exact L]. apply Sy. exact (nth_error_In l k H). }
    rewrite (proj2 (qleb_le y t) Hy). lia.
Qed.

Lemma qsorted_shift c l : qsorted l -> qsorted (map (fun p => p + c)%Qc l).
Proof.
  induction l as [|y l IH]; [tauto|]. intros [Sy Sl]. split; [|now apply IH].
  intros z I. apply in_map_iff in I. destruct I as [w [<- I]]. specialize (Sy w I). qlra.
Qed.

Lemma combined_bin ps prior post k p t : qsorted ps -> (0 <= prior + post)%Qc -> nth_error ps k = Some p ->
  in_bin (combined_edges ps prior post) (2 * k) (xv t) -> (p - prior <= t)%Qc /\ (t <= p + post)%Qc.
Proof.
  intros Sp W Hp (x & y & E1 & E2 & B1 & B2). unfold combined_edges in E1, E2, B2.
  replace (map (fun p => xv (p - prior)%Qc) ps ++ map (fun p => xv (p + post)%Qc) ps)
    with (map xv (map (fun p => p - prior)%Qc ps ++ map (fun p => p + post)%Qc ps)) in * by (now rewrite map_app, !map_map).
  rewrite nsort_xv in *. remember (map (fun p => p - prior)%Qc ps) as A eqn:EA. remember (map (fun p => p + post)%Qc ps) as B eqn:EB.
  rewrite nth_error_map in E1, E2. destruct (nth_error (qsort (A ++ B)) (2 * k)) as [e|] eqn:N1; [|discriminate].
  destruct (nth_error (qsort (A ++ B)) (S (2 * k))) as [e'|] eqn:N2; [|discriminate].
  cbn [option_map] in E1, E2. apply some_inj in E1. apply some_inj in E2. subst x y. apply xv_leq in B1.
  assert (SA : qsorted A) by (rewrite EA; exact (qsorted_shift (- prior)%Qc ps Sp)).
  assert (SB : qsorted B) by (rewrite EB; now apply qsorted_shift).
  assert (HA : nth_error A k = Some (p - prior)%Qc) by (rewrite EA, nth_error_map, Hp; reflexivity).
  assert (HB : nth_error B k = Some (p + post)%Qc) by (rewrite EB, nth_error_map, Hp; reflexivity).
  assert (CT : qcount (fun e => qleb e t) (qsort (A ++ B)) = (qcount (fun e => qleb e t) A + qcount (fun e => qleb e t) B)%nat).
  { rewrite <- (qcount_perm _ _ _ (qsort_perm (A ++ B))). apply qcount_app. }
  split.
  - apply Qcnot_lt_le. intros L.
    pose proof (sorted_count_ge _ t (qsort_sorted (A ++ B)) _ _ N1 B1) as G.
    pose proof (sorted_count_le A t SA k _ HA L) as L1.
    assert (LB : (t < p + post)%Qc) by qlra.
    pose proof (sorted_count_le B t SB k _ HB LB) as L2. lia.
  - destruct B2 as [B2 | [B2 B3]].
    + apply (proj1 (xv_lt _ _)) in B2. apply Qcnot_lt_le. intros L.
      pose proof (sorted_count_le _ t (qsort_sorted (A ++ B)) _ _ N2 B2) as G.
      assert (LA : (p - prior <= t)%Qc) by qlra. assert (LB : (p + post <= t)%Qc) by qlra.
      pose proof (sorted_count_ge A t SA k _ HA LA) as L1.
      pose proof (sorted_count_ge B t SB k _ HB LB) as L2. lia.
    + apply xv_leq in B3. apply Qcle_trans with e'; [exact B3|].
      rewrite map_length, qsort_length, app_length in B2. rewrite EA, EB, !map_length in B2.
      assert (I : In e' (A ++ B)) by (apply qsort_in; now apply nth_error_In in N2).
      assert (M : forall r, In r ps -> (r <= p)%Qc).
      { intros r Ir. apply In_nth_error in Ir. destruct Ir as [i Ir].
        assert (i < length ps)%nat by (apply nth_error_Some; congruence).
        pose proof (qsorted_nth ps Sp i k) as Q. rewrite (nth_error_nth ps i 0%Qc Ir), (nth_error_nth ps k 0%Qc Hp) in Q.
        apply Q. lia. }
      apply in_app_or in I. rewrite EA, EB in I. destruct I as [I | I]; apply in_map_iff in I; destruct I as [r [<- Ir]]; specialize (M r Ir); qlra.
Qed.

Lemma flagging_loop_sound ps prior post others channels : NoDup (map fst others) -> (0 <= prior + post)%Qc -> qsorted ps ->
  exists fl, flagging_loop (combined_edges ps prior post) others channels = Some fl /\ length fl = length ps /\
    forall k p, nth_error ps k = Some p -> nth_error fl k = Some true ->
      exists t, pulse_of others channels t /\ (p - prior <= t)%Qc /\ (t <= p + post)%Qc.
Proof.
  intros N W S. destruct (flagging_loop_general ps prior post others channels N) as (fl & H & L & F).
  exists fl. split; [exact H|]. split; [exact L|]. intros k p Hp Hb. apply F in Hb. destruct (proj1 Hb eq_refl) as (t & P & B).
  exists t. split; [exact P|]. exact (combined_bin ps prior post k p t S W Hp B).
Qed.

(** * Times before the first millisecond *)

Lemma trunc_neg x : (x < 0)%Qc -> int_part (- x)%Qc (- trunc x).
Proof.
  intros H. unfold trunc. apply qleb_gt in H as E. rewrite E. replace (- - Qfloor (this (- x)%Qc)) with (Qfloor (this (- x)%Qc)) by lia.
  apply floor_part.
Qed.

Lemma veto_before_ok v t j : (ms t - time0 v + Q2Qc (1 # 2) < 0)%Qc ->
  int_part (- (ms t - time0 v + Q2Qc (1 # 2)))%Qc j -> (0 < length (nhits v))%nat -> j <= Z.of_nat (length (nhits v)) ->
  veto v t = option_map (fun h => 1 <? h)
    (nth_error (nhits v) (if (j =? 0)%Z then 0 else length (nhits v) - Z.to_nat j)%nat).
Proof.
  intros N P L J. pose proof (trunc_neg _ N) as T. pose proof (int_part_unique _ _ _ T P) as E.
  assert (J0 : 0 <= j).
  { assert (0 < j + 1); [|lia]. apply q_lt. rewrite q_0. eapply Qclt_trans; [|apply P]. qlra. }
  unfold veto, at_index. replace (trunc _) with (- j) by lia.
  destruct (Z.eqb_spec j 0) as [-> | D].
  - cbn [Z.opp Z.ltb Z.compare]. change (0 <? 0) with false. cbn [orb].
    destruct (Z.leb_spec (Z.of_nat (length (nhits v))) 0); [lia | reflexivity].
  - destruct (Z.ltb_spec (- j) 0) as [_|]; [|lia].
    destruct (Z.ltb_spec (- j + Z.of_nat (length (nhits v))) 0); [lia|].
    destruct (Z.leb_spec (Z.of_nat (length (nhits v))) (- j + Z.of_nat (length (nhits v)))); [lia|].
    cbn [orb]. f_equal. f_equal. lia.
Qed.

(** * Categories one by one *)

Lemma nth_or a : forall b k, length a = length b ->
  (nth_error (map2 orb a b) k = Some true <-> nth_error a k = Some true \/ nth_error b k = Some true).
Proof.
  induction a as [|x a IH]; intros [|y b] k L; try discriminate.
  - cbn. destruct k; cbn; split; try tauto; intros [H|H]; exact H.
  - injection L as L. destruct k as [|k]; cbn [map2 nth_error]; [|now apply IH].
    destruct x, y; cbn; split; intros H; try (now left); try (now right); try reflexivity; try discriminate; destruct H; congruence.
Qed.

Fixpoint category_flags (l : list (String.string * list bool)) (k : String.string) : option (list bool) :=
  match l with [] => None | (x, v) :: t => if String.eqb x k then Some v else category_flags t k end.
Lemma set_flags_get l k v k' : category_flags (set_category_flags l k v) k' = if String.eqb k k' then Some v else category_flags l k'.
Proof.
  induction l as [|[x w] l IH]; cbn [set_category_flags category_flags]; [destruct (String.eqb k k'); reflexivity|].
  destruct (String.eqb_spec x k) as [-> | D]; cbn [category_flags].
  - destruct (String.eqb k k'); reflexivity.
  - destruct (String.eqb_spec x k') as [-> | D']; [|exact IH].
    destruct (String.eqb_spec k k') as [-> |]; [contradiction | reflexivity].
Qed.

Lemma category_loop_ok any ps prior post others ds : NoDup (map fst others) -> forall cs f f',
  NoDup (map fst cs) -> length (combined f) = length ps ->
  category_loop any (combined_edges ps prior post) others ds cs f = Some f' ->
  length (combined f') = length ps /\
  (forall k, nth_error (combined f') k = Some true <->
     nth_error (combined f) k = Some true \/
     exists c l v, In (c, l) cs /\ any (map fst others) (select ds l) = true /\
       flagging_loop (combined_edges ps prior post) others (select ds l) = Some v /\ nth_error v k = Some true) /\
  (forall c l, In (c, l) cs -> any (map fst others) (select ds l) = true ->
     category_flags (per_category f') c = flagging_loop (combined_edges ps prior post) others (select ds l)) /\
  (forall c, (forall l, In (c, l) cs -> any (map fst others) (select ds l) = false) ->
     category_flags (per_category f') c = category_flags (per_category f) c).
Proof.
  intros No. induction cs as [|[c l] cs IH]; intros f f' Nc Lf H; cbn [category_loop] in H.
  - apply some_inj in H. subst f'. split; [exact Lf|]. split; [|split; [contradiction | reflexivity]].
    intros k. split; [now left|]. intros [K|(c & l & v & I & _)]; [exact K | contradiction].
  - cbn in Nc. inversion Nc as [|? ? Nin Nd]; subst.
    destruct (any (map fst others) (select ds l)) eqn:EA.
    + destruct (flagging_loop_general ps prior post others (select ds l) No) as (v & EV & LV & _). rewrite EV in H.
      apply IH in H; [|exact Nd|cbn; rewrite HistProofs.map2_length; congruence].
      destruct H as (H1 & H2 & H3 & H4). cbn [combined per_category] in *. split; [exact H1|]. split; [|split].
      * intros k. rewrite H2, nth_or by congruence. split.
        -- intros [[K|K]|(c' & l' & v' & I & K)]; [now left | right | right].
           ++ exists c, l, v. split; [now left|]. now repeat split.
           ++ exists c', l', v'. split; [now right | exact K].
        -- intros [K|(c' & l' & v' & [I|I] & K1 & K2 & K3)]; [now left; left | | ].
           ++ injection I as <- <-. rewrite EV in K2. apply some_inj in K2. subst v'. now left; right.
           ++ right. exists c', l', v'. now repeat split.
      * intros c' l' [I|I] A.
        -- injection I as <- <-. rewrite H4, set_flags_get, String.eqb_refl, EV; [reflexivity|].
           intros l' I. exfalso. apply Nin. apply in_map_iff. exists (c, l'). now split.
        -- now apply H3.
      * intros c' N. rewrite H4.
        -- rewrite set_flags_get. destruct (String.eqb_spec c c') as [-> |]; [|reflexivity].
           rewrite (N l (or_introl eq_refl)) in EA. discriminate.
        -- intros l' I. apply N. now right.
    + apply IH in H; [|exact Nd|exact Lf]. destruct H as (H1 & H2 & H3 & H4). split; [exact H1|]. split; [|split].
      * intros k. rewrite H2. split; (intros [K|(c' & l' & v' & I & K1 & K2 & K3)]; [now left | right; exists c', l', v']).
        -- split; [now right | now repeat split].
        -- destruct I as [I|I]; [injection I as <- <-; congruence|]. now repeat split.
      * intros c' l' [I|I] A; [injection I as <- <-; congruence | now apply H3].
      * intros c' N. apply H4. intros l' I. apply N. now right.
Qed.

Lemma categories_ok any ps others cs prior post ds force f f' : NoDup (map fst others) -> NoDup (map fst cs) ->
  length (combined f) = length ps ->
  flag_crosstalking any ps others (Some cs) prior post false ds force f = Some f' ->
  let flagged c l v := In (c, l) cs /\ any (map fst others) (select ds l) = true /\
      flagging_loop (combined_edges ps (prior / q 1000)%Qc (post / q 1000)%Qc) others (select ds l) = Some v in
  if existsb (fun x => x) (combined f) && negb force then f' = f
  else (forall k, nth_error (combined f') k = Some true <->
         nth_error (combined f) k = Some true \/ exists c l v, flagged c l v /\ nth_error v k = Some true) /\
       (forall c l v, flagged c l v -> category_flags (per_category f') c = Some v) /\
       (forall c, (forall l v, ~ flagged c l v) -> category_flags (per_category f') c = category_flags (per_category f) c).
Proof.
  intros No Nc L H flagged. unfold flag_crosstalking in H.
  assert (E : negb (existsb (fun x => x) (combined f)) || force = negb (existsb (fun x => x) (combined f) && negb force)).
  { destruct (existsb _ _), force; reflexivity. }
  rewrite E in H. destruct (_ && _); cbn [negb] in H; [now apply some_inj in H|].
  apply category_loop_ok in H; [|assumption..]. destruct H as (_ & H2 & H3 & H4). split; [|split].
  - intros k. rewrite H2. split; (intros [K|(c & l & v & K)]; [now left | right; exists c, l, v; unfold flagged in *; tauto]).
  - intros c l v (I & A & V). now rewrite (H3 c l I A).
  - intros c N. apply H4. intros l I. destruct (any _ _) eqn:A; [|reflexivity]. exfalso.
    destruct (flagging_loop_general ps (prior / q 1000)%Qc (post / q 1000)%Qc others (select ds l) No) as (v & EV & _).
    apply (N l v). now repeat split.
Qed.
