(** Proofs about rates, summaries and peaks. *)
From Coq Require Import ZArith NArith QArith Qround Qcanon Bool Arith Lia Lqa String List.
From Verif Require Import Kept CutModel CutHistProofs HistModel HistSpec HistProofs CmModel CmSpec.
From Verif Require NoiModel.
Import ListNotations.
Local Open Scope nat_scope.

(** * Rates *)
Lemma ordered_fin e : (forall i a b, nth_error e i = Some a -> nth_error e (S i) = Some b -> (a <= b)%Q) -> ordered (map Fin e).
Proof.
  intros H. split; [apply Forall_forall; intros x I; apply in_map_iff in I; destruct I as (q & <- & _); discriminate|].
  intros i a b A B. rewrite nth_error_map in A, B. destruct (nth_error e i) as [p|] eqn:P; [|discriminate]. destruct (nth_error e (S i)) as [q|] eqn:Q; [|discriminate]. injection A as <-. injection B as <-. split; [discriminate|]. split; [discriminate|]. cbn. apply Qle_not_lt. exact (H i p q P Q).
Qed.
Lemma removelast_nth {A : Type} (l : list A) i : S i < length l -> nth_error (removelast l) i = nth_error l i.
Proof. revert i. induction l as [|x l IH]; intros i L; [cbn in L; lia|]. destruct l as [|y l]; [cbn in L; lia|]. destruct i; [reflexivity|]. cbn [removelast nth_error]. apply IH. cbn in *. lia. Qed.
Lemma removelast_length {A : Type} (l : list A) : length (removelast l) = length l - 1.
Proof. induction l as [|x [|y l] IH]; [reflexivity|reflexivity|]. cbn [removelast length] in *. lia. Qed.
Lemma regular_ordered t0 w n e : (0 <= w)%Q -> regular t0 w n e -> ordered (map Fin e).
Proof.
  intros W [L R]. apply ordered_fin. intros i a b A B. assert (Li : S i < n) by (rewrite <- L; apply nth_error_Some; congruence). destruct (R i ltac:(lia)) as (a' & A' & Ea). destruct (R (S i) Li) as (b' & B' & Eb). rewrite A in A'. rewrite B in B'. injection A' as <-. injection B' as <-. rewrite Ea, Eb. rewrite Nat2Z.inj_succ, <- Z.add_1_r, inject_Z_plus. change (inject_Z 1) with 1%Q. nra.
Qed.
Lemma with_edges_regular t0 w n e ts : (0 < w)%Q -> regular t0 w (S n) e -> 1 <= n -> exists c r, with_edges ts e = Some (c, r) /\ rates_of t0 w n ts c r.
Proof.
  intros W R N. pose proof (regular_ordered t0 w (S n) e ltac:(lra) R) as O. destruct (histogram_ok (map Fin ts) (map Fin e) O) as (counts & H & Lc & T). unfold with_edges. rewrite H. pose proof R as [L RN]. destruct e as [|e0 [|e1 e]]; [cbn in L; lia|cbn in L; lia|].
  assert (E : (e1 - e0 == w)%Q).
  { destruct (RN 0 ltac:(lia)) as (a & A & Ea). destruct (RN 1 ltac:(lia)) as (b & B & Eb). cbn in A, B. injection A as <-. injection B as <-. rewrite Ea, Eb. change (inject_Z (Z.of_nat 1)) with 1%Q. change (inject_Z (Z.of_nat 0)) with 0%Q. ring. }
  eexists. eexists. split; [reflexivity|]. exists (e0 :: e1 :: e). split; [exact R|]. rewrite !map_length in *. split; [rewrite removelast_length, L; lia|]. split; [rewrite Lc, L; lia|]. intros i Li.
  destruct (RN i ltac:(lia)) as (a & A & Ea). destruct (nth_error counts i) as [k|] eqn:K; [|apply nth_error_None in K; rewrite Lc, L in K; lia].
  exists (a + (1 # 2) * (e1 - e0))%Q, (inject_Z (Z.of_nat k) / (e1 - e0))%Q, k. split; [rewrite nth_error_map, removelast_nth by (rewrite L; lia); now rewrite A|]. split; [rewrite nth_error_map, K; reflexivity|]. split; [rewrite E, Ea; ring|]. split; [rewrite E; field; lra|].
  specialize (T i k K). destruct T as (r & KR & LR).
  clear - KR LR. assert (G : forall ts r, kept (in_bin (map Fin (e0 :: e1 :: e)) i) (map Fin ts) r -> exists r', kept (fun t => in_bin (map Fin (e0 :: e1 :: e)) i (Fin t)) ts r' /\ length r' = length r).
  { clear. induction ts as [|t ts IH]; intros r K; cbn [map] in K; inversion K; subst; [exists []; split; [constructor|reflexivity]| |]; destruct (IH _ H3) as (r' & K' & L') || destruct (IH _ H2) as (r' & K' & L').
    - exists (t :: r'). split; [now constructor|cbn; congruence].
    - exists r'. split; [now constructor|exact L']. }
  destruct (G _ _ KR) as (r' & K' & L'). exists r'. split; [exact K'|]. congruence.
Qed.
Lemma arange_regular t0 t1 w : (0 < w)%Q -> exists e, arange t0 t1 w = Some e /\ regular t0 w (Z.to_nat (Qceiling ((t1 - t0) / w))) e.
Proof.
  intros W. unfold arange. destruct (Qeq_bool w 0) eqn:E; [apply Qeq_bool_iff in E; lra|]. eexists. split; [reflexivity|]. split; [now rewrite map_length, seq_length|]. intros k K. exists (t0 + inject_Z (Z.of_nat k) * w)%Q. split; [|reflexivity]. rewrite nth_error_map. rewrite (nth_error_nth' _ 0) by (rewrite seq_length; exact K). rewrite seq_nth by exact K. reflexivity.
Qed.
Lemma with_edges_few ts e : length e < 2 -> with_edges ts e = None.
Proof. intros L. unfold with_edges. destruct (histogram _ _); [|reflexivity]. destruct e as [|a [|b e]]; [reflexivity|reflexivity|cbn in L; lia]. Qed.
Lemma ceiling_two x : (x <= 1)%Q -> Z.to_nat (Qceiling x) < 2.
Proof. intros H. assert (Qceiling x <= 1)%Z by (change 1%Z with (Qceiling 1); now apply Qceiling_resp_le). lia. Qed.
Lemma ceiling_ge x : (1 < x)%Q -> 2 <= Z.to_nat (Qceiling x).
Proof. intros H. pose proof (Qle_ceiling x) as L. assert (G : (1 < inject_Z (Qceiling x))%Q) by (eapply Qlt_le_trans; eassumption). change 1%Q with (inject_Z 1) in G. rewrite <- Zlt_Qlt in G. lia. Qed.
Lemma last_edge_before t0 t1 w k : (0 < w)%Q -> k < Z.to_nat (Qceiling ((t1 - t0) / w)) -> (t0 + inject_Z (Z.of_nat k) * w < t1)%Q.
Proof.
  intros W K. set (x := ((t1 - t0) / w)%Q) in *. pose proof (Qceiling_lt x) as L. assert (E : (x * w == t1 - t0)%Q) by (unfold x; field; lra). assert (Kx : (inject_Z (Z.of_nat k) < x)%Q).
  { eapply Qle_lt_trans; [|exact L]. rewrite <- Zle_Qle. lia. }
  nra.
Qed.
(** * Most common values *)
Lemma often_times x l : times_in x l = often x l.
Proof. unfold times_in. induction l as [|y l IH]; cbn; [reflexivity|]. destruct (Nat.eqb_spec x y); destruct (Nat.eq_dec x y); try congruence; cbn; now rewrite IH. Qed.
Lemma often_in x l : In x l <-> 0 < often x l.
Proof. induction l as [|y l IH]; cbn; [lia|]. destruct (Nat.eq_dec x y) as [->|N]; [split; [lia|now left]|]. rewrite <- IH. cbn. split; [intros [E|I]; [congruence|exact I]|now right]. Qed.
Section Mode.
Variable f : nat -> nat.
Definition better (m v : nat) : Prop := f v < f m \/ (f v = f m /\ m <= v).
Lemma better_trans a b c : better a b -> better b c -> better a c.
Proof. unfold better. lia. Qed.
Definition choose (m v : nat) : nat := if (f m <? f v) || ((f v =? f m) && (v <? m)) then v else m.
Lemma choose_better m v : better (choose m v) m /\ better (choose m v) v /\ (choose m v = m \/ choose m v = v).
Proof.
  unfold choose, better. destruct (Nat.ltb_spec (f m) (f v)); cbn [orb]; [lia|]. destruct (Nat.eqb_spec (f v) (f m)); cbn [andb]; [destruct (Nat.ltb_spec v m); lia|lia].
Qed.
Lemma fold_better l m : let r := fold_left choose l m in better r m /\ (forall v, In v l -> better r v) /\ (r = m \/ In r l).
Proof.
  revert m. induction l as [|x l IH]; intros m; cbn; [split; [right; lia|split; [intros v []|now left]]|]. destruct (IH (choose m x)) as (A & B & C). destruct (choose_better m x) as (D & E & F). cbv zeta in *. split; [eapply better_trans; eassumption|]. split.
  - intros v [<-|I]; [eapply better_trans; eassumption|now apply B].
  - destruct C as [C|C]; [rewrite C; destruct F as [-> | ->]; [now left|right; now left]|right; now right].
Qed.
End Mode.
Lemma mode_common l m : mode l = Some m -> most_common l m.
Proof.
  unfold mode. destruct l as [|x l0] eqn:E; [discriminate|]. rewrite <- E. intros H. assert (H' : fold_left (choose (fun v => times_in v l)) l x = m) by (injection H as H; exact H). destruct (fold_better (fun v => times_in v l) l x) as (A & B & C). cbv zeta in *. rewrite H' in *.
  assert (I : In m l) by (destruct C as [-> |C]; [rewrite E; now left|exact C]). split; [exact I|]. intros v. rewrite <- !often_times. destruct (in_dec Nat.eq_dec v l) as [J|J].
  - specialize (B v J). unfold better in B. lia.
  - assert (Z : times_in v l = 0) by (rewrite often_times; apply Nat.le_0_r, Nat.nlt_ge; intros X; apply J; now apply often_in). apply often_in in I. rewrite <- often_times in I. lia.
Qed.
Lemma mode_some l : l <> [] -> mode l <> None.
Proof. destruct l; [easy|]. intros _. discriminate. Qed.
Lemma argmax_from_spec l : forall pre best at_ k, k = length pre -> nth_error pre at_ = Some best -> (forall j y, nth_error pre j = Some y -> (y <= best)%Z /\ (j < at_ -> (y < best)%Z)) -> first_largest (pre ++ l) (argmax_from best at_ k l).
Proof.
  induction l as [|x l IH]; intros pre best at_ k K A B; cbn [argmax_from].
  - rewrite app_nil_r. exists best. split; assumption.
  - assert (AL : at_ < length pre) by (apply nth_error_Some; congruence).
    replace (pre ++ x :: l) with ((pre ++ [x]) ++ l) by (rewrite <- app_assoc; reflexivity). destruct (Z.ltb_spec best x) as [L|L]; apply IH; try (rewrite app_length; cbn; lia).
    + rewrite nth_error_app2 by lia. rewrite K, Nat.sub_diag. reflexivity.
    + intros j y J. destruct (Nat.lt_ge_cases j (length pre)) as [Lj|Lj].
      * rewrite nth_error_app1 in J by exact Lj. destruct (B j y J). lia.
      * rewrite nth_error_app2 in J by exact Lj. destruct (j - length pre) as [|m] eqn:D; [injection J as <-; lia|destruct m; discriminate].
    + now rewrite nth_error_app1 by exact AL.
    + intros j y J. destruct (Nat.lt_ge_cases j (length pre)) as [Lj|Lj].
      * rewrite nth_error_app1 in J by exact Lj. exact (B j y J).
      * rewrite nth_error_app2 in J by exact Lj. destruct (j - length pre) as [|m] eqn:D; [injection J as <-; lia|destruct m; discriminate].
Qed.
Lemma argmax_first l k : argmax l = Some k -> first_largest l k.
Proof.
  destruct l as [|x l]; [discriminate|]. intros [= <-]. apply (argmax_from_spec l [x] x 0 1 eq_refl eq_refl). intros [|[|j]] y J; try discriminate. injection J as <-. lia.
Qed.
Lemma all_ok_spec {A : Type} (l : list (option A)) : match all_ok l with Some r => l = map Some r | None => In None l end.
Proof. induction l as [|[a|] l IH]; cbn; [reflexivity| |now left]. destruct (all_ok l); cbn; [now rewrite IH|now right]. Qed.

(** * Summaries *)
Lemma field_bad r ws c : In c (boolean_fields r) -> exists b, bad r [c] [] ws = Some b /\ length b = length ws.
Proof.
  unfold boolean_fields. rewrite filter_In, negb_true_iff. intros [I N]. unfold bad, bool_bit_mask. assert (E : forallb (fun n => existsb (fun p => negb (String.eqb (fst p) "") && String.eqb (fst p) n) (bdesc r)) [c] = true).
  { cbn. rewrite andb_true_r. apply existsb_exists. apply in_map_iff in I. destruct I as (p & <- & I). exists p. split; [exact I|]. now rewrite N, String.eqb_refl. }
  rewrite E. eexists. split; [reflexivity|]. apply map_length.
Qed.
Lemma all_ok_some {A : Type} (l : list A) : all_ok (map Some l) = Some l.
Proof. induction l as [|a l IH]; cbn; [reflexivity|]. now rewrite IH. Qed.
Lemma tally_nth l : tally (fun k => nth_error l k = Some true) (seq 0 (length l)) (tally_ l).
Proof.
  assert (G : forall l s, length (filter (fun k => nth (k - s) l false) (seq s (length l))) = tally_ l).
  { clear. induction l as [|b l IH]; intros s; [reflexivity|]. cbn [length seq filter]. rewrite Nat.sub_diag. cbn [nth]. unfold tally_. cbn [filter]. assert (E : length (filter (fun k => nth (k - s) (b :: l) false) (seq (S s) (length l))) = tally_ l).
    { rewrite <- (IH (S s)). f_equal. apply filter_ext_in. intros k I. apply in_seq in I. replace (k - s) with (S (k - S s)) by lia. reflexivity. }
    destruct b; cbn [length]; [f_equal|]; exact E. }
  rewrite <- (G l 0). apply (kept_tally (fun k => nth_error l k = Some true) (fun k => nth (k - 0) l false)). intros k I. rewrite Nat.sub_0_r. apply in_seq in I. split; [apply nth_error_nth|]. intros H. rewrite (nth_error_nth' l false) by lia. congruence.
Qed.
Lemma nth_map2 (f : bool -> bool -> bool) a b k : length a = length b -> nth_error (map2 f a b) k = match nth_error a k, nth_error b k with Some x, Some y => Some (f x y) | _, _ => None end.
Proof. revert b k. induction a as [|x a IH]; intros [|y b] [|k] L; try discriminate; cbn; try reflexivity. apply IH. now injection L. Qed.
Lemma map2_len (f : bool -> bool -> bool) a b : length a = length b -> length (map2 f a b) = length a.
Proof. revert b. induction a as [|x a IH]; intros [|y b] L; try discriminate; cbn; [reflexivity|]. f_equal. apply IH. now injection L. Qed.
Lemma others_length {B : Type} (g : nat * string -> B) (f : list string) : forall s i, s <= i < s + length f -> length (flat_map (fun c2 => if i =? fst c2 then [] else [g c2]) (combine (seq s (length f)) f)) = length f - 1.
Proof.
  assert (OUT : forall f s i, i < s -> length (flat_map (fun c2 : nat * string => if i =? fst c2 then [] else [g c2]) (combine (seq s (length f)) f)) = length f).
  { clear. induction f as [|x f IH]; intros s i L; [reflexivity|]. cbn [length seq combine flat_map fst]. destruct (Nat.eqb_spec i s); [lia|]. rewrite app_length. rewrite IH by lia. reflexivity. }
  induction f as [|x f IH]; intros s i L; [cbn in L; lia|]. cbn [length seq combine flat_map fst]. destruct (Nat.eqb_spec i s) as [->|N].
  - rewrite app_length. cbn [length]. rewrite OUT by lia. lia.
  - rewrite app_length. cbn [length] in *. rewrite IH by lia. lia.
Qed.
Lemma in_numbered f i c : In (i, c) (numbered f) <-> nth_error f i = Some c.
Proof.
  unfold numbered. assert (G : forall s, In (i, c) (combine (seq s (length f)) f) <-> s <= i /\ nth_error f (i - s) = Some c).
  { induction f as [|x f IH]; intros s; cbn [length seq combine In]; [split; [intros []|intros [_ H]; destruct (i - s); discriminate]|]. rewrite IH. split.
    - intros [[= -> ->]|[L H]]; [rewrite Nat.sub_diag; split; [lia|reflexivity]|]. split; [lia|]. replace (i - s) with (S (i - S s)) by lia. exact H.
    - intros [L H]. destruct (Nat.eq_dec i s) as [->|N]; [rewrite Nat.sub_diag in H; injection H as ->; now left|]. right. split; [lia|]. replace (i - s) with (S (i - S s)) in H by lia. exact H. }
  rewrite G, Nat.sub_0_r. split; [tauto|]. intros H. split; [lia|exact H].
Qed.
