(** Rise times. *)
From Coq Require Import ZArith QArith Qround Qcanon List Bool Lia.
From Verif Require Import QcPre LagModel LagProofs FluxModel FluxProofs DerModel DerProofs SumModel SumSpec SumProofs SumRow SumPy SumSeg.
Import ListNotations.
Local Open Scope Z_scope.

Lemma trunc_lt q z : (0 <= q)%Qc -> (trunc q < z <-> (q < qz z)%Qc).
Proof.
  intros H. destruct (trunc_spec q H) as [[A B] _]. split; intros L.
  - assert (L' : trunc q + 1 <= z) by lia. apply qz_le in L'. rewrite qz_add in L'. change (qz 1) with 1%Qc in L'. qlra.
  - assert (Q : (qz (trunc q) < qz z)%Qc) by qlra. rewrite qz_lt in Q. exact Q.
Qed.
Lemma tenth_eq : (qd 1 10 = qz 1 / qz 10)%Qc. Proof. apply Qc_is_canon. reflexivity. Qed.
Lemma ninth_eq : (qd 9 10 = qz 9 / qz 10)%Qc. Proof. apply Qc_is_canon. reflexivity. Qed.

Lemma first_above_spec th l : match first_above th l with
  | Some i => (exists v, nth_error l i = Some v /\ th < v) /\ forall j v, (j < i)%nat -> nth_error l j = Some v -> v <= th
  | None => forall v, In v l -> v <= th
  end.
Proof.
  induction l as [|x l IH]; cbn [first_above]; [intros v []|]. destruct (Z.ltb_spec th x) as [L|L].
  - split; [exists x; split; [reflexivity|exact L]|intros j v Hj; lia].
  - destruct (first_above th l) as [i|]; cbn [option_map].
    + destruct IH as [[v [E Lv]] F]. split; [exists v; split; [exact E|exact Lv]|]. intros [|j] w Hj Ew; cbn in Ew; [injection Ew as <-; exact L|]. apply (F j); [lia|exact Ew].
    + intros v [<-|Hv]; [exact L|apply IH, Hv].
Qed.
Lemma crossing_above x from level : (0 <= level)%Qc ->
  match first_above (trunc level) (skipn from x) with
  | Some i => first_crossing x from level (from + i)
  | None => forall k, ~ first_crossing x from level k
  end.
Proof.
  intros H. pose proof (first_above_spec (trunc level) (skipn from x)) as S. destruct (first_above (trunc level) (skipn from x)) as [i|].
  - destruct S as [[v [E L]] F]. rewrite nth_error_skipn in E. split; [lia|]. split; [exists v; split; [exact E|apply trunc_lt; assumption]|].
    intros j w Hj Ew. specialize (F (j - from)%nat w). rewrite nth_error_skipn in F. replace (from + (j - from))%nat with j in F by lia.
    specialize (F ltac:(lia) Ew). destruct (qltb level (qz w)) eqn:Q; [|apply qltb_ge; exact Q]. apply qltb_lt in Q. apply (trunc_lt _ _ H) in Q. lia.
  - intros k [Hk [[v [E L]] _]]. apply (trunc_lt _ _ H) in L. specialize (S v). assert (In v (skipn from x)); [|specialize (S H0); lia].
    apply (nth_error_In _ (k - from)). rewrite nth_error_skipn. replace (from + (k - from))%nat with k by lia. exact E.
Qed.
Lemma crossing_unique x from level k k' : first_crossing x from level k -> first_crossing x from level k' -> k = k'.
Proof.
  intros [A [[v [E L]] B]] [A' [[v' [E' L']] B']]. destruct (Nat.lt_trichotomy k k') as [C|[C|C]]; [|exact C|].
  - specialize (B' k v ltac:(lia) E). exfalso. qlra.
  - specialize (B k' v' ltac:(lia) E'). exfalso. qlra.
Qed.
Lemma edge_unique x from b h k1 k2 v1 v2 k1' k2' v1' v2' : rising_edge x from b h k1 k2 v1 v2 -> rising_edge x from b h k1' k2' v1' v2' -> k1 = k1' /\ k2 = k2' /\ v1 = v1' /\ v2 = v2'.
Proof.
  intros [A [B [C D]]] [A' [B' [C' D']]]. pose proof (crossing_unique _ _ _ _ _ A A') as <-. pose proof (crossing_unique _ _ _ _ _ B B') as <-.
  rewrite C in C'. rewrite D in D'. injection C' as <-. injection D' as <-. repeat split; reflexivity.
Qed.

Definition low_enough (m : Qc) (peak : Z) : Prop := (qz 9 / qz 10 * qz peak + m < qz 65536)%Qc.

(** The rise time in terms of the two crossings. *)
Lemma rise_time_eq timebase npre pulse m peak : (1 <= npre < length pulse)%nat -> (0 <= m)%Qc -> 0 <= peak -> low_enough m peak ->
  exists t, rise_time timebase npre pulse m peak = Some t /\
  ((exists k1 k2 v1 v2, rising_edge pulse npre m (qz peak) k1 k2 v1 v2 /\ v1 < v2 /\
     (t * qz (v2 - v1) = timebase * (qz (Z.of_nat k2) - 1 - qz (Z.of_nat k1)) * qz peak)%Qc) \/
   (forall k1 k2 v1 v2, rising_edge pulse npre m (qz peak) k1 k2 v1 v2 -> v2 <= v1) /\ t = timebase).
Proof.
  intros HN Hm Hp HE. unfold rise_time.
  assert (P0 : (0 <= qz peak)%Qc) by (apply qz_le in Hp; exact Hp).
  assert (T1 : (0 < qd 1 10)%Qc) by reflexivity. assert (T9 : (qd 1 10 < qd 9 10)%Qc) by reflexivity.
  assert (Q1 : (0 <= qd 1 10 * qz peak)%Qc) by (set (a := qd 1 10) in *; clearbody a; set (p := qz peak) in *; clearbody p; clear -P0 T1; qnra).
  assert (Q9 : (qd 1 10 * qz peak <= qd 9 10 * qz peak)%Qc) by (set (a := qd 1 10) in *; set (b := qd 9 10) in *; clearbody a b; set (p := qz peak) in *; clearbody p; clear -P0 T9; qnra).
  unfold low_enough in HE. rewrite <- ninth_eq in HE.
  set (low := (qd 1 10 * qz peak + m)%Qc). set (high := (qd 9 10 * qz peak + m)%Qc).
  assert (L0 : (0 <= low)%Qc) by (unfold low; clear -Q1 Hm; set (u := (qd 1 10 * qz peak)%Qc) in *; clearbody u; qlra).
  assert (H0 : (low <= high)%Qc) by (unfold low, high; clear -Q9; set (u := (qd 1 10 * qz peak)%Qc) in *; set (w := (qd 9 10 * qz peak)%Qc) in *; clearbody u w; qlra).
  assert (HH : (0 <= high)%Qc) by qlra. assert (LL : (low < qz 65536)%Qc) by (fold high in HE; qlra).
  rewrite (proj2 (Z.leb_gt 65536 (trunc low))), (proj2 (Z.leb_gt 65536 (trunc high))); [|apply trunc_lt; assumption|apply trunc_lt; assumption]. cbn [orb].
  assert (LV : low = (m + qz 1 / qz 10 * qz peak)%Qc) by (unfold low; rewrite tenth_eq; ring).
  assert (HV : high = (m + qz 9 / qz 10 * qz peak)%Qc) by (unfold high; rewrite ninth_eq; ring).
  assert (NE : skipn npre pulse <> []) by (intro C; apply (f_equal (@length Z)) in C; rewrite skipn_length in C; cbn in C; lia).
  pose proof (crossing_above pulse npre low L0) as C1. unfold rising_edge. rewrite <- LV, <- HV. clear LV HV. clearbody low high.
  destruct (skipn npre pulse) as [|z0 l0] eqn:SK; [contradiction|]. clear NE.
  rewrite <- SK in C1 |- *. destruct (first_above (trunc low) (skipn npre pulse)) as [i|].
  - rewrite skipn_add. pose proof (crossing_above pulse (npre + i) high HH) as C2. destruct (first_above (trunc high) (skipn (npre + i) pulse)) as [j|].
    + pose proof C1 as C1'. destruct C1 as [_ [[v1 [E1 LV1]] F1]].
      rewrite (nth_error_nth _ _ 0 E1).
      assert (KL : (npre + i + j < length pulse)%nat) by (destruct C2 as [_ [[w [Ew _]] _]]; apply nth_error_Some; rewrite Ew; discriminate).
      destruct (nth_error pulse (npre + i + j - 1)) as [v2|] eqn:E2; [|apply nth_error_None in E2; lia]. rewrite (nth_error_nth _ _ 0 E2).
      destruct (Z.ltb_spec v1 v2) as [LT|GE].
      * eexists. split; [reflexivity|]. left. exists (npre + i)%nat, (npre + i + j)%nat, v1, v2. split; [split; [exact C1'|split; [exact C2|split; [exact E1|exact E2]]]|]. split; [exact LT|].
        assert (N : (qz (v2 - v1) <> 0)%Qc) by (apply qz_neq; lia). replace (qz (Z.of_nat j - 1)) with (qz (Z.of_nat (npre + i + j)) - 1 - qz (Z.of_nat (npre + i)))%Qc; [field; exact N|].
        change 1%Qc with (qz 1). rewrite <- !qz_sub. f_equal. lia.
      * eexists. split; [reflexivity|]. right. split; [|reflexivity]. intros k1 k2 w1 w2 [A [B [C D]]].
        pose proof (crossing_unique _ _ _ _ _ A C1') as ->. pose proof (crossing_unique _ _ _ _ _ B C2) as ->. rewrite E1 in C. rewrite E2 in D. injection C as <-. injection D as <-. exact GE.
    + eexists. split; [reflexivity|]. right. split; [|reflexivity]. intros k1 k2 w1 w2 [A [B _]]. pose proof (crossing_unique _ _ _ _ _ A C1) as ->. destruct (C2 k2 B).
  - eexists. split; [reflexivity|]. right. split; [|reflexivity]. intros k1 k2 w1 w2 [A _]. destruct (C1 k1 A).
Qed.

(** The sign of a rise time. *)
Lemma edge_places x from b h k1 k2 v1 v2 : (0 <= h)%Qc -> (1 <= from)%nat -> rising_edge x from b h k1 k2 v1 v2 -> v1 < v2 ->
  (S k1 < k2)%nat \/ k1 = from /\ k2 = from /\ exists w, nth_error x from = Some v1 /\ nth_error x (from - 1) = Some v2 /\ w = v1 /\ (b + qz 9 / qz 10 * h < qz w)%Qc.
Proof.
  intros Hh Hf [[A1 [[w1 [Ew1 Lw1]] A2]] [[B1 [[w2 [Ew2 Lw2]] B2]] [C D]]] L.
  destruct (Nat.eq_dec k2 k1) as [->|N].
  - right. destruct (Nat.eq_dec k1 from) as [->|N1].
    + split; [reflexivity|]. split; [reflexivity|]. exists v1. split; [exact C|]. split; [exact D|]. split; [reflexivity|]. rewrite C in Ew2. injection Ew2 as <-. exact Lw2.
    + exfalso. specialize (A2 (k1 - 1)%nat v2 ltac:(lia) D). rewrite C in Ew1. injection Ew1 as <-. assert (qz v2 < qz v1)%Qc by qlra. rewrite qz_lt in H. lia.
  - left. destruct (Nat.eq_dec k2 (S k1)) as [->|N2]; [|lia]. exfalso. replace (S k1 - 1)%nat with k1 in D by lia. rewrite C in D. injection D as <-. lia.
Qed.
Lemma quotient_sign t a b : (0 < a)%Qc -> (t * a = b)%Qc -> ((0 < b)%Qc -> (0 < t)%Qc) /\ ((b < 0)%Qc -> (t < 0)%Qc).
Proof.
  intros Ha E. split; intros Hb.
  - destruct (Qclt_le_dec 0 t) as [L|L]; [exact L|]. exfalso. subst b. qnra.
  - destruct (Qclt_le_dec t 0) as [L|L]; [exact L|]. exfalso. subst b. qnra.
Qed.
Lemma rise_time_sign timebase npre pulse m peak t : (1 <= npre < length pulse)%nat -> (0 <= m)%Qc -> 0 < peak -> low_enough m peak -> (0 < timebase)%Qc ->
  rise_time timebase npre pulse m peak = Some t ->
  ((t < 0)%Qc /\ (exists v w, nth_error pulse npre = Some v /\ nth_error pulse (npre - 1) = Some w /\ v < w /\ (m + qz 9 / qz 10 * qz peak < qz v)%Qc)) \/
  ((0 < t)%Qc /\ ~ (exists v w, nth_error pulse npre = Some v /\ nth_error pulse (npre - 1) = Some w /\ v < w /\ (m + qz 9 / qz 10 * qz peak < qz v)%Qc)).
Proof.
  intros HN Hm Hp HE Ht R. destruct (rise_time_eq timebase npre pulse m peak HN Hm ltac:(lia) HE) as [t' [R' S]]. rewrite R in R'. apply some_eq in R'. subst t'.
  assert (PQ : (0 < qz peak)%Qc) by (apply qz_pos, Hp).
  assert (LOW : forall v, (m + qz 9 / qz 10 * qz peak < qz v)%Qc -> (m + qz 1 / qz 10 * qz peak < qz v)%Qc).
  { intros v H. rewrite <- tenth_eq, <- ninth_eq in *. assert (T9 : (qd 1 10 < qd 9 10)%Qc) by reflexivity. set (a := qd 1 10) in *. set (c := qd 9 10) in *. clearbody a c. set (p := qz peak) in *. clearbody p. set (q := qz v) in *. clearbody q. clear -H T9 PQ. qnra. }
  assert (AT : forall v w, nth_error pulse npre = Some v -> nth_error pulse (npre - 1) = Some w -> (m + qz 9 / qz 10 * qz peak < qz v)%Qc -> rising_edge pulse npre m (qz peak) npre npre v w).
  { intros v w Ev Ew H. split; [|split; [|split; assumption]].
    - split; [lia|]. split; [exists v; split; [exact Ev|apply LOW, H]|]. intros j u Hj. lia.
    - split; [lia|]. split; [exists v; split; [exact Ev|exact H]|]. intros j u Hj. lia. }
  destruct S as [[k1 [k2 [v1 [v2 [E [L EQ]]]]]]|[S ->]].
  - assert (D : (0 < qz (v2 - v1))%Qc) by (apply qz_pos; lia). destruct (quotient_sign _ _ _ D EQ) as [SP SN].
    destruct (edge_places _ _ _ _ _ _ _ _ (Qclt_le_weak _ _ PQ) (proj1 HN) E L) as [K|[-> [-> [w [E1 [E2 [-> LH]]]]]]].
    + right. split.
      * apply SP. assert (KQ : (0 < qz (Z.of_nat k2 - 1 - Z.of_nat k1))%Qc) by (apply qz_pos; lia). rewrite !qz_sub in KQ. change (qz 1) with 1%Qc in KQ.
        set (d := (qz (Z.of_nat k2) - 1 - qz (Z.of_nat k1))%Qc) in *. clearbody d. set (p := qz peak) in *. clearbody p. clear -KQ PQ Ht. assert (0 < timebase * d)%Qc by qnra. qnra.
      * intros [v [w [Ev [Ew [Lw Hw]]]]]. destruct (edge_unique _ _ _ _ _ _ _ _ _ _ _ _ E (AT v w Ev Ew Hw)) as [-> [-> _]]. lia.
    + left. split; [|exists v1, v2; repeat (split; [assumption|]); assumption].
      apply SN. replace (qz (Z.of_nat npre) - 1 - qz (Z.of_nat npre))%Qc with (- (1))%Qc by ring. set (p := qz peak) in *. clearbody p. clear -PQ Ht. assert (0 < timebase * p)%Qc by qnra. assert (X : (timebase * - (1) * p = - (timebase * p))%Qc) by ring. rewrite X. qlra.
  - right. split; [exact Ht|]. intros [v [w [Ev [Ew [Lw Hw]]]]]. specialize (S _ _ _ _ (AT v w Ev Ew Hw)). lia.
Qed.
(** A straight rising edge. *)
Lemma rise_time_line timebase npre pulse m peak t k1 k2 v1 v2 (slope : Z) : (1 <= npre < length pulse)%nat -> (0 <= m)%Qc -> 0 < peak -> low_enough m peak ->
  rising_edge pulse npre m (qz peak) k1 k2 v1 v2 -> (S k1 < k2)%nat -> 0 < slope -> v2 = v1 + slope * (Z.of_nat k2 - 1 - Z.of_nat k1) ->
  rise_time timebase npre pulse m peak = Some t -> (t * qz slope = timebase * qz peak)%Qc.
Proof.
  intros HN Hm Hp HE E K HS EV R. destruct (rise_time_eq timebase npre pulse m peak HN Hm ltac:(lia) HE) as [t' [R' S]]. rewrite R in R'. apply some_eq in R'. subst t'.
  assert (0 < Z.of_nat k2 - 1 - Z.of_nat k1) by lia.
  destruct S as [[k1' [k2' [v1' [v2' [E' [L EQ]]]]]]|[S _]].
  - destruct (edge_unique _ _ _ _ _ _ _ _ _ _ _ _ E E') as [<- [<- [<- <-]]]. rewrite EV in EQ. replace (v1 + slope * (Z.of_nat k2 - 1 - Z.of_nat k1) - v1) with (slope * (Z.of_nat k2 - 1 - Z.of_nat k1)) in EQ by lia.
    rewrite qz_mul, !qz_sub in EQ. change (qz 1) with 1%Qc in EQ. assert (N : (qz (Z.of_nat k2) - 1 - qz (Z.of_nat k1) <> 0)%Qc).
    { change 1%Qc with (qz 1). rewrite <- !qz_sub. apply qz_neq. lia. }
    set (d := (qz (Z.of_nat k2) - 1 - qz (Z.of_nat k1))%Qc) in *. clearbody d. apply (f_equal (fun q => q / d)%Qc) in EQ.
    transitivity (t * (qz slope * d) / d)%Qc; [field; exact N|]. rewrite EQ. field. exact N.
  - specialize (S _ _ _ _ E). nia.
Qed.

(** The rise time in a summary. *)
Lemma row_rise timebase peak_sample (ignore npre : nat) pulse r :
  (ignore < npre < length pulse)%nat -> Z.of_nat npre + 8 < 65536 -> Z.of_nat (length pulse) <= 65535 -> Forall sample pulse ->
  summarize_row timebase peak_sample (Z.of_nat ignore) (Z.of_nat npre) pulse = Some r -> 0 < peak_value r ->
  rise r = rise_time timebase npre pulse (pretrig_mean r) (peak_value r) /\ (0 <= pretrig_mean r)%Qc /\ low_enough (pretrig_mean r) (peak_value r).
Proof.
  intros HN H8 HL HS EC HP. assert (HN2 : (ignore < npre <= length pulse)%nat) by lia. split.
  - destruct (summarize_row_eq timebase peak_sample ignore npre pulse HN2 H8 HL) as [x [Ex R]]. cbv zeta in R. destruct R as [_ R]. rewrite EC in R.
    destruct (qltb _ _) in R; [destruct (_ =? 0) in R; [discriminate|]|]; apply some_eq in R; subst r; [reflexivity|cbn in HP; lia].
  - pose proof (row_statistics timebase peak_sample ignore npre pulse r HN2 H8 HL HS EC) as [B1 [B2 [_ [_ [_ [_ [i [v [FM B7]]]]]]]]].
    assert (M0 : (0 <= pretrig_mean r)%Qc).
    { apply (mean_ge _ _ 0 B1). intros y Hy. pose proof (firstn_Forall _ (npre - ignore) _ HS) as F. rewrite Forall_forall in F. apply F, Hy. }
    split; [exact M0|]. destruct B7 as [[B7 [_ [_ [[N1 N2] _]]]]|[_ [_ [C _]]]]; [|lia].
    assert (VS : sample v) by (rewrite Forall_forall in HS; destruct FM as [F1 _]; apply HS; eapply nth_error_In; exact F1). destruct VS as [_ VS].
    apply qz_le in VS. rewrite qz_sub in *. unfold low_enough. rewrite <- ninth_eq. rewrite <- half_eq in *.
    assert (T9 : (qd 9 10 = 1 - qd 1 10)%Qc) by (apply Qc_is_canon; reflexivity). assert (T1 : (0 < qd 1 10)%Qc) by reflexivity. assert (HH : (qd 1 2 < 1)%Qc) by reflexivity.
    apply Z.lt_le_incl, qz_le in HP. change (qz 0) with 0%Qc in HP. assert (E6 : qz 65536 = (qz 65535 + 1)%Qc) by (apply Qc_is_canon; reflexivity). rewrite E6, T9.
    set (a := qd 1 10) in *. set (h := qd 1 2) in *. set (p := qz (peak_value r)) in *. set (m := pretrig_mean r) in *. set (w := qz v) in *. set (c := qz 65535) in *. clearbody a h p m w c.
    clear - N1 N2 VS T1 HH HP B7. assert (0 <= a * p)%Qc by qnra. qlra.
Qed.

(* ---------- estimateRiseTime ---------- *)

Lemma first_over_spec th l : match first_over th l with
  | Some i => (exists v, nth_error l i = Some v /\ (th < v)%Qc) /\ forall j v, (j < i)%nat -> nth_error l j = Some v -> (v <= th)%Qc
  | None => forall v, In v l -> (v <= th)%Qc
  end.
Proof.
  induction l as [|x l IH]; cbn [first_over]; [intros v []|]. destruct (qltb th x) eqn:L; [apply qltb_lt in L|apply qltb_ge in L].
  - split; [exists x; split; [reflexivity|exact L]|intros j v Hj; lia].
  - destruct (first_over th l) as [i|]; cbn [option_map].
    + destruct IH as [[v [E Lv]] F]. split; [exists v; split; [exact E|exact Lv]|]. intros [|j] w Hj Ew; cbn in Ew; [injection Ew as <-; exact L|]. apply (F j); [lia|exact Ew].
    + intros v [<-|Hv]; [exact L|apply IH, Hv].
Qed.
Lemma scaled_lt th b h v : (0 < h)%Qc -> ((th < (v - b) / h)%Qc <-> (b + th * h < v)%Qc).
Proof.
  intros H. assert (N : (h <> 0)%Qc) by (intro C; subst h; qlra). assert (E : ((v - b) / h * h = v - b)%Qc) by (field; exact N). set (q := ((v - b) / h)%Qc) in *. clearbody q. split; intros L.
  - assert (th * h < q * h)%Qc by (clear E; qnra). qlra.
  - destruct (Qclt_le_dec th q) as [C|C]; [exact C|]. exfalso. assert (q * h <= th * h)%Qc by (clear E L; qnra). qlra.
Qed.
Lemma nth_error_slice {A} a b (l : list A) j : nth_error (slice a b l) j = if (j <? b - a)%nat then nth_error l (a + j) else None.
Proof.
  unfold slice. destruct (Nat.ltb_spec j (b - a)) as [L|L].
  - rewrite nth_error_firstn by exact L. apply nth_error_skipn.
  - apply nth_error_None. rewrite firstn_length. lia.
Qed.
Lemma crossing_over x npre upto b h th k : (0 < h)%Qc -> first_crossing x npre (b + th * h)%Qc k -> (k < upto)%nat ->
  first_over th (map (fun v => ((qz v - b) / h)%Qc) (slice npre upto x)) = Some (k - npre)%nat.
Proof.
  intros Hh [K [[v [E L]] F]] HU. set (r := map _ _). pose proof (first_over_spec th r) as S.
  assert (NR : forall j w, nth_error r j = Some w <-> (j < upto - npre)%nat /\ exists u, nth_error x (npre + j) = Some u /\ w = ((qz u - b) / h)%Qc).
  { intros j w. unfold r. rewrite nth_error_map, nth_error_slice. destruct (Nat.ltb_spec j (upto - npre)) as [Lj|Lj]; [|split; [discriminate|intros [C _]; lia]].
    split.
    - intros H. split; [exact Lj|]. destruct (nth_error x (npre + j)) as [u|]; [|discriminate]. cbn in H. apply some_eq in H. exists u. split; [reflexivity|symmetry; exact H].
    - intros [_ [u [-> ->]]]. reflexivity. }
  assert (AK : nth_error r (k - npre) = Some ((qz v - b) / h)%Qc) by (apply NR; split; [lia|]; exists v; split; [replace (npre + (k - npre))%nat with k by lia; exact E|reflexivity]).
  destruct (first_over th r) as [i|].
  - destruct S as [[w [Ew Lw]] G]. f_equal. destruct (Nat.lt_trichotomy i (k - npre)) as [C|[C|C]]; [|exact C|].
    + apply NR in Ew as [Hi [u [Eu ->]]]. apply scaled_lt in Lw; [|exact Hh]. specialize (F (npre + i)%nat u ltac:(lia) Eu). exfalso. qlra.
    + specialize (G _ _ C AK). apply scaled_lt in L; [|exact Hh]. exfalso. qlra.
  - apply scaled_lt in L; [|exact Hh]. specialize (S _ (nth_error_In _ _ AK)). exfalso. qlra.
Qed.

(** One record whose 10% and 90% crossings are at different samples. *)
Lemma rise_row_value timebase npre upto b h x k1 k2 v1 v2 : (0 < timebase)%Qc -> (0 < h)%Qc ->
  first_crossing x npre (b + qz 1 / qz 10 * h)%Qc k1 -> first_crossing x npre (b + qz 9 / qz 10 * h)%Qc k2 ->
  (k1 < k2 < upto)%nat -> nth_error x k1 = Some v1 -> nth_error x (k2 - 1) = Some v2 ->
  exists t, rise_row timebase npre upto b h x = Some t /\
    ((timebase <= (qz v2 - qz v1) / h)%Qc /\ (t * (qz v2 - qz v1) = timebase * (qz (Z.of_nat k2) - 1 - qz (Z.of_nat k1)) * h)%Qc \/
     ((qz v2 - qz v1) / h < timebase)%Qc /\ t = (qz (Z.of_nat k2) - 1 - qz (Z.of_nat k1))%Qc).
Proof.
  intros Ht Hh C1 C2 K E1 E2. assert (N : (h <> 0)%Qc) by (intro C; subst h; qlra). unfold rise_row. destruct (Qc_eq_dec h 0) as [C|_]; [contradiction|].
  rewrite <- tenth_eq in C1. rewrite <- ninth_eq in C2. unfold argmax_over. rewrite (crossing_over x npre upto b h _ k1 Hh C1), (crossing_over x npre upto b h _ k2 Hh C2) by lia.
  assert (F1 : (npre <= k1)%nat) by apply C1.
  set (r := map _ _).
  assert (NR : forall j u, (j < upto)%nat -> (npre <= j)%nat -> nth_error x j = Some u -> nth (j - npre) r 0%Qc = ((qz u - b) / h)%Qc).
  { intros j u Hj Hj' Eu. apply nth_error_nth. unfold r. rewrite nth_error_map, nth_error_slice. rewrite (proj2 (Nat.ltb_lt _ _)) by lia. replace (npre + (j - npre))%nat with j by lia. rewrite Eu. reflexivity. }
  rewrite (proj2 (Nat.leb_gt (k2 - npre) (k1 - npre))) by lia.
  assert (LR : (k2 - npre < length r)%nat).
  { unfold r. rewrite map_length. unfold slice. rewrite firstn_length, skipn_length. destruct C2 as [_ [[w [Ew _]] _]]. assert (k2 < length x)%nat by (apply nth_error_Some; rewrite Ew; discriminate). lia. }
  rewrite (proj2 (Nat.eqb_neq (k2 - npre - 1) (length r))) by lia.
  replace (k2 - npre - 1)%nat with (k2 - 1 - npre)%nat by lia. rewrite (NR k1 v1), (NR (k2 - 1)%nat v2) by (assumption || lia). clear NR LR. clearbody r.
  assert (Y : ((qz v2 - b) / h - (qz v1 - b) / h = (qz v2 - qz v1) / h)%Qc) by (field; exact N). rewrite Y.
  assert (D : qz (Z.of_nat (k2 - 1 - npre) - Z.of_nat (k1 - npre)) = (qz (Z.of_nat k2) - 1 - qz (Z.of_nat k1))%Qc).
  { change 1%Qc with (qz 1). rewrite <- !qz_sub. f_equal. lia. }
  rewrite D. clear D. set (d := (qz (Z.of_nat k2) - 1 - qz (Z.of_nat k1))%Qc). clearbody d.
  destruct (qltb ((qz v2 - qz v1) / h)%Qc timebase) eqn:Q; [apply qltb_lt in Q|apply qltb_ge in Q].
  - assert (T0 : qleb timebase 0 = false) by (apply qleb_gt; exact Ht). rewrite T0. eexists. split; [reflexivity|]. right. split; [exact Q|]. field. intro C. subst timebase. qlra.
  - assert (T0 : qleb ((qz v2 - qz v1) / h) 0 = false) by (apply qleb_gt; qlra). rewrite T0. eexists. split; [reflexivity|]. left. split; [exact Q|].
    assert (N2 : (qz v2 - qz v1 <> 0)%Qc). { intro C. rewrite C in Q. assert (Z0 : (0 / h = 0)%Qc) by (field; exact N). rewrite Z0 in Q. clear -Q Ht. qlra. }
    field. split; assumption.
Qed.

Lemma map_opt_nth {A B} (f : A -> option B) l r k x : map_opt f l = Some r -> nth_error l k = Some x -> exists y, f x = Some y /\ nth_error r k = Some y.
Proof.
  intros H E. apply map_opt_spec in H. assert (E' : nth_error (map f l) k = Some (f x)) by (rewrite nth_error_map, E; reflexivity). rewrite H, nth_error_map in E'.
  destruct (nth_error r k) as [y|]; [|discriminate]. exists y. cbn in E'. apply some_eq in E'. split; [symmetry; exact E'|reflexivity].
Qed.
Lemma opt_max_ge l n : In n l -> (n <= opt_max l)%nat.
Proof. induction l as [|a l IH]; intros H; [destruct H|]. cbn. destruct H as [->|H]; [lia|]. specialize (IH H). unfold opt_max in *. lia. Qed.
Lemma nth_error_combine {A B} (l : list A) (l' : list B) k x y : nth_error l k = Some x -> nth_error l' k = Some y -> nth_error (combine l l') k = Some (x, y).
Proof. revert l' k. induction l as [|a l IH]; intros [|b l'] [|k] E E'; try discriminate; cbn in *; [injection E as <-; injection E' as <-; reflexivity|apply IH; assumption]. Qed.
Lemma estimate_nth timebase np rows out k x : estimate_rise timebase np rows = Some out -> nth_error rows k = Some x ->
  exists b v i upto, baseline np x = Some b /\ first_maximum x i v /\ (i < upto)%nat /\
    nth_error out k = Some (if Nat.leb upto (if Nat.leb 4 np then np else O) then Some (qd (-99) 10000000) else rise_row timebase (if Nat.leb 4 np then np else O) upto b (qz v - b)%Qc x).
Proof.
  unfold estimate_rise. destruct (map_opt (baseline np) rows) as [bs|] eqn:EB; [|discriminate]. destruct (map_opt zmax rows) as [ms|] eqn:EM; [|discriminate]. destruct (map_opt argmax rows) as [idx|] eqn:EI; [|discriminate].
  intros H E. apply some_eq in H. subst out. destruct (map_opt_nth _ _ _ _ _ EB E) as [b [B1 B2]]. destruct (map_opt_nth _ _ _ _ _ EM E) as [v [V1 V2]]. destruct (map_opt_nth _ _ _ _ _ EI E) as [i [I1 I2]].
  exists b, v, i, (S (opt_max idx)). split; [exact B1|]. split; [exact (argmax_first _ _ _ V1 I1)|]. split; [pose proof (opt_max_ge _ _ (nth_error_In _ _ I2)); lia|].
  rewrite nth_error_map, (nth_error_combine _ _ _ _ _ E (nth_error_combine _ _ _ _ _ B2 V2)). reflexivity.
Qed.

(** The rise time of one of several records. *)
Lemma estimate_value timebase np rows out k x b i v k1 k2 v1 v2 :
  let npre := if Nat.leb 4 np then np else O in
  (0 < timebase)%Qc -> estimate_rise timebase np rows = Some out -> nth_error rows k = Some x ->
  baseline np x = Some b -> first_maximum x i v -> (npre <= i)%nat -> (b < qz v)%Qc ->
  rising_edge x npre b (qz v - b)%Qc k1 k2 v1 v2 -> (k1 < k2)%nat ->
  exists t, nth_error out k = Some (Some t) /\
    ((timebase <= (qz v2 - qz v1) / (qz v - b))%Qc /\ (t * (qz v2 - qz v1) = timebase * (qz (Z.of_nat k2) - 1 - qz (Z.of_nat k1)) * (qz v - b))%Qc \/
     ((qz v2 - qz v1) / (qz v - b) < timebase)%Qc /\ t = (qz (Z.of_nat k2) - 1 - qz (Z.of_nat k1))%Qc).
Proof.
  intros npre Ht EO EX EB FM Hi Hb [C1 [C2 [E1 E2]]] K. destruct (estimate_nth _ _ _ _ _ _ EO EX) as [b' [v' [i' [upto [EB' [FM' [HU EN]]]]]]].
  rewrite EB in EB'. apply some_eq in EB'. subst b'. destruct (first_maximum_unique _ _ _ _ _ FM FM') as [<- <-]. fold npre in EN.
  rewrite (proj2 (Nat.leb_gt upto npre)) in EN by lia. rewrite EN.
  assert (Hh : (0 < qz v - b)%Qc) by qlra. set (h := (qz v - b)%Qc) in *.
  assert (LV : forall u, (qz u <= b + qz 1 / qz 10 * h)%Qc -> (qz u <= b + qz 9 / qz 10 * h)%Qc).
  { intros u H. rewrite <- tenth_eq, <- ninth_eq in *. assert (T9 : (qd 1 10 < qd 9 10)%Qc) by reflexivity. set (a := qd 1 10) in *. set (c := qd 9 10) in *. clearbody a c h. set (q := qz u) in *. clearbody q. clear -H T9 Hh. qnra. }
  assert (C2' : first_crossing x npre (b + qz 9 / qz 10 * h)%Qc k2).
  { destruct C1 as [A1 [_ A2]], C2 as [B1 [B2 B3]]. split; [lia|]. split; [exact B2|]. intros j w Hj Ew. destruct (Nat.lt_ge_cases j k1) as [L|L]; [apply LV, (A2 j); [lia|exact Ew]|apply (B3 j); [lia|exact Ew]]. }
  assert (K2 : (k2 <= i)%nat).
  { destruct (Nat.lt_ge_cases i k2) as [L|L]; [|exact L]. exfalso. destruct C2' as [_ [_ B3]]. destruct FM as [F1 _]. specialize (B3 i v ltac:(lia) F1).
    rewrite <- ninth_eq in B3. assert (T9 : (qd 9 10 < 1)%Qc) by reflexivity. assert (V : qz v = (b + h)%Qc) by (unfold h; ring). rewrite V in B3. set (c := qd 9 10) in *. clearbody c h. clear -B3 T9 Hh. qnra. }
  destruct (rise_row_value timebase npre upto b h x k1 k2 v1 v2 Ht Hh C1 C2' ltac:(lia) E1 E2) as [t [R S]]. exists t. split; [f_equal; exact R|exact S].
Qed.
