(** C69-C72: pulse summaries. *)
From Coq Require Import ZArith QArith Qround Qcanon List Bool Lia.
From Verif Require Import QcPre LagModel LagProofs FluxModel FluxProofs DerModel DerSpec DerProofs SumModel SumSpec SumProofs SumRow SumPy SumSeg SumRise.
Import ListNotations.
Local Open Scope Z_scope.

(** C69: the numbers in a summary are the statistics they are named after. *)
Theorem summary_statistics : forall timebase peak_sample (ignore npre : nat) pulse r,
  (ignore < npre <= length pulse)%nat -> Z.of_nat npre + 8 < 65536 -> Z.of_nat (length pulse) <= 65535 -> Forall sample pulse ->
  summarize_row timebase peak_sample (Z.of_nat ignore) (Z.of_nat npre) pulse = Some r ->
  mean_is (firstn (npre - ignore) pulse) (pretrig_mean r) /\
  mean_square_is (firstn (npre - ignore) pulse) (pretrig_mean r) (pretrig_ms r) /\
  (shift1 r = true <-> exists x, nth_error pulse (npre - 1) = Some x /\ rises_early x (pretrig_mean r) (pretrig_ms r)) /\
  least pulse (min_value r) /\
  mean_is (skipn (npre - 1) pulse) (pulse_average r + pretrig_mean r)%Qc /\
  mean_square_is (skipn (npre - 1) pulse) (pretrig_mean r) (pulse_ms r) /\
  exists i v, first_maximum pulse i v /\
    ((pretrig_mean r < qz v)%Qc /\ peak_index r = Z.of_nat i /\ 0 < peak_value r /\ nearest (pretrig_mean r) (v - peak_value r) /\
     ((promptness r * qz (peak_value r) + pretrig_mean r) * qz 6 =
      total (map qz (firstn 6 (skipn (if shift1 r then npre + 1 else npre + 2) pulse))))%Qc
     \/ (qz v <= pretrig_mean r)%Qc /\ peak_index r = 0 /\ peak_value r = 0 /\ promptness r = 0%Qc).
Proof. exact row_statistics. Qed.
Print Assumptions summary_statistics.

(** The arguments of the square roots are not negative. *)
Theorem summary_rms_defined : forall timebase peak_sample (ignore npre : nat) pulse r,
  (ignore < npre <= length pulse)%nat -> Z.of_nat npre + 8 < 65536 -> Z.of_nat (length pulse) <= 65535 -> Forall sample pulse ->
  summarize_row timebase peak_sample (Z.of_nat ignore) (Z.of_nat npre) pulse = Some r ->
  (0 <= pretrig_ms r)%Qc /\ (0 <= pulse_ms r)%Qc /\
  ((pretrig_ms r = 0)%Qc <-> forall x, In x (firstn (npre - ignore) pulse) -> qz x = pretrig_mean r).
Proof.
  intros timebase peak_sample ignore npre pulse r HN H8 HL HS HR. destruct (row_statistics _ _ _ _ _ _ HN H8 HL HS HR) as [_ [A [_ [_ [_ [B _]]]]]].
  assert (SQ : forall l c, (0 <= total (map (fun x => (qz x - c) * (qz x - c)) l))%Qc /\ ((total (map (fun x => (qz x - c) * (qz x - c)) l) = 0)%Qc <-> forall x, In x l -> qz x = c)).
  { intros l c. induction l as [|x l [IH1 IH2]]; [split; [cbn; apply Qcle_refl|split; [intros _ x []|reflexivity]]|]. unfold total. cbn [map fold_right]. fold (total (map (fun x => ((qz x - c) * (qz x - c))%Qc) l)).
    set (t := total _) in *. clearbody t. set (d := (qz x - c)%Qc) in *. assert (D : (0 <= d * d)%Qc) by (clearbody d; clear; qnra). split; [clear -D IH1; set (u := (d * d)%Qc) in *; clearbody u; qlra|]. split.
    - intros E. assert (D0 : (d * d = 0)%Qc) by (clear -E D IH1; set (u := (d * d)%Qc) in *; clearbody u; qlra). assert (T0 : (t = 0)%Qc) by (rewrite D0 in E; clear -E; qlra).
      apply Qcmult_integral in D0. assert (d = 0)%Qc as D1 by tauto. intros y [<-|Hy]; [unfold d in D1; clear -D1; qlra|apply (proj1 IH2 T0), Hy].
    - intros H. rewrite (proj2 IH2) by (intros; apply H; right; assumption). unfold d. rewrite (H x (or_introl eq_refl)). ring. }
  assert (NN : forall l c v, mean_square_is l c v -> (0 <= v)%Qc).
  { intros l c v [Hne E]. destruct (SQ l c) as [S _]. rewrite <- E in S. assert (P : (0 < qz (Z.of_nat (length l)))%Qc) by (apply qz_pos; destruct l; [contradiction|cbn; lia]).
    set (n := qz _) in *. clearbody n. clear -S P. destruct (Qclt_le_dec v 0) as [L|L]; [exfalso; qnra|exact L]. }
  split; [exact (NN _ _ _ A)|]. split; [exact (NN _ _ _ B)|]. destruct A as [Hne E]. rewrite <- (proj2 (SQ _ _)), <- E. split.
  - intros ->. ring.
  - intros H. apply Qcmult_integral in H. destruct H as [H|H]; [exact H|]. destruct (qz_len _ Hne H).
Qed.
Print Assumptions summary_rms_defined.

(** It raises when the largest sample is above the mean of the baseline by no more than a half. *)
Theorem summary_raises : forall timebase peak_sample (ignore npre : nat) pulse,
  (ignore < npre <= length pulse)%nat -> Z.of_nat npre + 8 < 65536 -> Z.of_nat (length pulse) <= 65535 -> Forall sample pulse ->
  (summarize_row timebase peak_sample (Z.of_nat ignore) (Z.of_nat npre) pulse = None <->
   exists m i v, mean_is (firstn (npre - ignore) pulse) m /\ first_maximum pulse i v /\ (m < qz v)%Qc /\ nearest m v).
Proof. exact row_raises. Qed.
Print Assumptions summary_raises.

(** Records that can be summarized: some sample is more than a half above the mean, or none is above it. *)
Theorem summary_always_refuted : exists timebase peak_sample (ignore npre : nat) pulse,
  (ignore < npre <= length pulse)%nat /\ Forall sample pulse /\
  summarize_row timebase peak_sample (Z.of_nat ignore) (Z.of_nat npre) pulse = None.
Proof.
  exists (qd 1 1000), 6, 1%nat, 4%nat, [7; 8; 8; 7; 7; 7; 7; 7; 7; 7; 7; 7; 7; 8]. split; [cbn; lia|]. split; [repeat (apply Forall_cons; [unfold sample; lia|]); apply Forall_nil|]. vm_compute. reflexivity.
Qed.
Print Assumptions summary_always_refuted.

Definition record : list Z := [10; 12; 11; 10; 13; 30; 50; 64; 61; 55; 50; 45; 40; 35; 30; 28].
Lemma record_ok : Forall sample record.
Proof. unfold record. repeat (apply Forall_cons; [unfold sample; lia|]); apply Forall_nil. Qed.
Example summary_statistics_case : exists r, summarize_row (qd 1 1000) 7 1 4 record = Some r /\
  peak_index r = 7 /\ peak_value r = 53 /\ min_value r = 10 /\ shift1 r = false /\ pretrig_mean r = qz 11.
Proof. eexists. split; [vm_compute; reflexivity|]. split; [reflexivity|]. split; [reflexivity|]. split; [reflexivity|]. split; [reflexivity|]. apply Qc_is_canon. reflexivity. Qed.

(** C70: what the Python version computes. *)
Theorem python_statistics : forall (npre ignore ps : nat) pulse p, Forall sample pulse ->
  python_summary 0 0 npre ignore ps pulse = Some p ->
  (ignore < npre < length pulse)%nat /\
  mean_is (firstn (npre - ignore) pulse) (py_mean p) /\
  mean_square_is (firstn (npre - ignore) pulse) (py_mean p) (py_ms p) /\
  (py_shift1 p = true <-> exists x, nth_error pulse (npre - 1) = Some x /\ rises_early x (py_mean p) (py_ms p)) /\
  least pulse (py_min p) /\
  mean_is (skipn npre pulse) (py_average p + py_mean p)%Qc /\
  mean_square_is (skipn npre pulse) (py_mean p) (py_pulse_ms p) /\
  exists i v b, first_maximum (skipn npre pulse) i v /\ integer_part (py_mean p) b /\
    py_peak_index p = Z.of_nat (npre + i) /\ py_peak_value p = (v - b) mod 65536 /\
    (py_peak_value p <> 0 -> forall d, py_promptness p = Some d <->
      mean_is (firstn ((npre + 2 + ps) / 2 - (npre + 2)) (skipn (if py_shift1 p then npre + 1 else npre + 2) pulse)) (d * qz (py_peak_value p) + py_mean p)%Qc).
Proof.
  intros npre ignore ps pulse p HS EP. destruct (python_row _ _ _ _ _ HS EP) as [H [A1 [A2 [A3 [A4 [A5 [A6 [j [w [b [A7 [A8 [A9 [A10 [_ A12]]]]]]]]]]]]]]].
  repeat (split; [assumption|]). exists j, w, b. repeat (split; [assumption|]). exact A12.
Qed.
Print Assumptions python_statistics.
Theorem python_defined : forall (npre ignore ps : nat) pulse,
  (exists p, python_summary 0 0 npre ignore ps pulse = Some p) <-> (ignore < npre < length pulse)%nat.
Proof.
  intros npre ignore ps pulse. split; [|apply python_total]. intros [p EP]. unfold python_summary in EP. cbn zeta in EP.
  destruct (Nat.ltb npre (ignore + 1) || (length pulse <? 0)%nat || (ps <? 0)%nat || (length pulse <? npre)%nat) eqn:G; [discriminate|].
  apply orb_false_iff in G as [G G2]. apply orb_false_iff in G as [G _]. apply orb_false_iff in G as [G1 _]. apply Nat.ltb_ge in G1, G2.
  destruct (Nat.eq_dec npre (length pulse)) as [E|N]; [|lia]. exfalso. revert EP. unfold slice. subst npre. rewrite skipn_all, firstn_nil. unfold argmax. cbn [zmax]. destruct (mean _); [|discriminate]. destruct (variance _); discriminate.
Qed.
Print Assumptions python_defined.

(** Where the two versions agree, and how the averages and the peak values differ. *)
Theorem versions_agree : forall timebase (ignore npre ps : nat) pulse c p,
  (npre <= length pulse)%nat -> Z.of_nat npre + 8 < 65536 -> Z.of_nat (length pulse) <= 65535 -> Forall sample pulse ->
  summarize_row timebase (Z.of_nat ps) (Z.of_nat ignore) (Z.of_nat npre) pulse = Some c ->
  python_summary 0 0 npre ignore ps pulse = Some p ->
  py_mean p = pretrig_mean c /\ py_ms p = pretrig_ms c /\ py_shift1 p = shift1 c /\ py_min p = min_value c /\
  ((ps + 7 <= length pulse)%nat -> py_postpeak p = postpeak_deriv c /\ exists d, py_postpeak p = Some d) /\
  (exists x, nth_error pulse (npre - 1) = Some x /\
    (pulse_average c * qz (Z.of_nat (length pulse - npre + 1)) = py_average p * qz (Z.of_nat (length pulse - npre)) + (qz x - pretrig_mean c))%Qc /\
    (pulse_ms c * qz (Z.of_nat (length pulse - npre + 1)) = py_pulse_ms p * qz (Z.of_nat (length pulse - npre)) + (qz x - pretrig_mean c) * (qz x - pretrig_mean c))%Qc) /\
  forall i v, first_maximum pulse i v -> (npre <= i)%nat -> (pretrig_mean c < qz v)%Qc ->
    py_peak_index p = peak_index c /\
    ((exists b, integer_part (pretrig_mean c) b /\ (pretrig_mean c < qz b + qz 1 / qz 2)%Qc) /\ py_peak_value p = peak_value c \/
     (exists b, integer_part (pretrig_mean c) b /\ (qz b + qz 1 / qz 2 <= pretrig_mean c)%Qc) /\ py_peak_value p = peak_value c + 1).
Proof. exact versions. Qed.
Print Assumptions versions_agree.

(** The derivative after the peak is the largest of the lesser of two slopes, two samples apart. *)
(** Before the record begins there is nothing to read; nor near its end. *)
Theorem postpeak_undefined : forall ps n pulse, (ps < 0 \/ Z.of_nat (length pulse) < ps + 6)%Z -> postpeak ps n pulse = None.
Proof.
  intros ps n pulse H. unfold postpeak. destruct (Z.ltb_spec ps 0); [reflexivity|]. destruct H as [H|H]; [lia|]. assert (L : (length (skipn (Z.to_nat ps) pulse) < 6)%nat) by (rewrite skipn_length; lia).
  destruct (skipn (Z.to_nat ps) pulse) as [|s0 [|s1 [|s2 [|s3 [|s4 [|s5 r]]]]]]; try reflexivity. cbn in L. lia.
Qed.
Print Assumptions postpeak_undefined.
Example postpeak_undefined_case : postpeak 2 8 [1; 2; 3; 4; 5; 6; 7]%Z = None /\ postpeak (-1) 8 [1; 2; 3; 4; 5; 6; 7]%Z = None.
Proof. split; apply postpeak_undefined; cbn; lia. Qed.
Theorem postpeak_value : forall (ps : nat) pulse, (ps + 7 <= length pulse)%nat -> Forall sample pulse ->
  exists m, postpeak (Z.of_nat ps) (length pulse) pulse = Some m /\
    largest (length (skipn ps pulse) - 6)
      (fun j => lesser (slope [qd 2 10; qd 1 10; 0%Qc; qd (-1) 10; qd (-2) 10] (map qz (skipn ps pulse)) j)
                       (slope [qd 2 10; qd 1 10; 0%Qc; qd (-1) 10; qd (-2) 10] (map qz (skipn ps pulse)) (j + 2))) m.
Proof. exact postpeak_largest. Qed.
Print Assumptions postpeak_value.

(** Neither the averages nor the peak values agree in general. *)
Theorem versions_agree_refuted : exists timebase (ignore npre ps : nat) pulse c p,
  (ignore < npre <= length pulse)%nat /\ Forall sample pulse /\
  summarize_row timebase (Z.of_nat ps) (Z.of_nat ignore) (Z.of_nat npre) pulse = Some c /\
  python_summary 0 0 npre ignore ps pulse = Some p /\
  py_average p <> pulse_average c /\ py_peak_value p <> peak_value c.
Proof.
  exists (qd 1 1000), 1%nat, 4%nat, 7%nat, [10; 11; 11; 10; 13; 30; 50; 64; 61; 55; 50; 45; 40; 35; 30; 28].
  destruct (summarize_row (qd 1 1000) (Z.of_nat 7) (Z.of_nat 1) (Z.of_nat 4) [10; 11; 11; 10; 13; 30; 50; 64; 61; 55; 50; 45; 40; 35; 30; 28]) as [c|] eqn:C; [|vm_compute in C; discriminate].
  destruct (python_summary 0 0 4 1 7 [10; 11; 11; 10; 13; 30; 50; 64; 61; 55; 50; 45; 40; 35; 30; 28]) as [p|] eqn:P; [|vm_compute in P; discriminate].
  exists c, p. split; [cbn; lia|]. split; [repeat (apply Forall_cons; [unfold sample; lia|]); apply Forall_nil|]. split; [reflexivity|]. split; [reflexivity|].
  apply (f_equal (fun o => match o with Some s => (this (pulse_average s), peak_value s) | None => (0%Q, 0) end)) in C.
  apply (f_equal (fun o => match o with Some s => (this (py_average s), py_peak_value s) | None => (0%Q, 0) end)) in P. cbv beta iota in C, P.
  vm_compute in C, P. injection C as C1 C2. injection P as P1 P2. split.
  - intros E. change (373 # 12 = this (py_average p))%Q in P1. rewrite E in P1. change (1117 # 39 = this (pulse_average c))%Q in C1. congruence.
  - unfold py_peak_value, peak_value. rewrite <- C2, <- P2. discriminate.
Qed.
Print Assumptions versions_agree_refuted.

(** A record that falls after the trigger: the Python version gives a peak value near 65536. *)
Theorem python_peak_refuted : exists (npre ignore ps : nat) pulse p,
  Forall sample pulse /\ python_summary 0 0 npre ignore ps pulse = Some p /\
  (forall x, In x pulse -> x <= 102) /\ 65530 <= py_peak_value p.
Proof.
  exists 4%nat, 1%nat, 7%nat, [100; 101; 102; 100; 99; 98; 97; 96; 95; 95; 95; 95; 95; 95; 95; 95]. eexists. split; [repeat (apply Forall_cons; [unfold sample; lia|]); apply Forall_nil|].
  split; [vm_compute; reflexivity|]. split; [intros x Hx; cbn in Hx; repeat (destruct Hx as [<-|Hx]; [lia|]); destruct Hx|]. cbn [py_peak_value]. lia.
Qed.
Print Assumptions python_peak_refuted.

Example versions_case : exists c p, summarize_row (qd 1 1000) 7 1 4 record = Some c /\ python_summary 0 0 4 1 7 record = Some p /\
  first_maximum record 7 64 /\ peak_index c = 7 /\ py_peak_index p = 7 /\ peak_value c = 53 /\ py_peak_value p = 53 /\
  option_map this (postpeak_deriv c) = option_map this (py_postpeak p).
Proof.
  eexists. eexists. split; [vm_compute; reflexivity|]. split; [vm_compute; reflexivity|]. split.
  { split; [reflexivity|]. split; [intros x Hx; cbn in Hx; repeat (destruct Hx as [<-|Hx]; [lia|]); destruct Hx|].
    intros j x Hj. do 7 (destruct j as [|j]; [cbn; intros E; injection E as <-; lia|]). lia. }
  repeat split; reflexivity.
Qed.

(** C71: the rise time of a summary. *)
Theorem rise_time_value : forall timebase peak_sample (ignore npre : nat) pulse r,
  (ignore < npre < length pulse)%nat -> Z.of_nat npre + 8 < 65536 -> Z.of_nat (length pulse) <= 65535 -> Forall sample pulse ->
  summarize_row timebase peak_sample (Z.of_nat ignore) (Z.of_nat npre) pulse = Some r -> 0 < peak_value r ->
  exists t, rise r = Some t /\
  ((exists k1 k2 v1 v2, rising_edge pulse npre (pretrig_mean r) (qz (peak_value r)) k1 k2 v1 v2 /\ v1 < v2 /\
     (t * qz (v2 - v1) = timebase * (qz (Z.of_nat k2) - 1 - qz (Z.of_nat k1)) * qz (peak_value r))%Qc) \/
   (forall k1 k2 v1 v2, rising_edge pulse npre (pretrig_mean r) (qz (peak_value r)) k1 k2 v1 v2 -> v2 <= v1) /\ t = timebase).
Proof.
  intros timebase peak_sample ignore npre pulse r HN H8 HL HS EC HP. destruct (row_rise timebase peak_sample ignore npre pulse r HN H8 HL HS EC HP) as [-> [M0 LE]].
  apply rise_time_eq; [lia|exact M0|lia|exact LE].
Qed.
Print Assumptions rise_time_value.

(** It is positive, but for records that are above 90% at the trigger and higher still one sample before. *)
Theorem rise_time_positive : forall timebase peak_sample (ignore npre : nat) pulse r t,
  (ignore < npre < length pulse)%nat -> Z.of_nat npre + 8 < 65536 -> Z.of_nat (length pulse) <= 65535 -> Forall sample pulse ->
  summarize_row timebase peak_sample (Z.of_nat ignore) (Z.of_nat npre) pulse = Some r -> 0 < peak_value r -> (0 < timebase)%Qc -> rise r = Some t ->
  (t < 0)%Qc /\ (exists v w, nth_error pulse npre = Some v /\ nth_error pulse (npre - 1) = Some w /\ v < w /\ (pretrig_mean r + qz 9 / qz 10 * qz (peak_value r) < qz v)%Qc) \/
  (0 < t)%Qc /\ ~ (exists v w, nth_error pulse npre = Some v /\ nth_error pulse (npre - 1) = Some w /\ v < w /\ (pretrig_mean r + qz 9 / qz 10 * qz (peak_value r) < qz v)%Qc).
Proof.
  intros timebase peak_sample ignore npre pulse r t HN H8 HL HS EC HP Ht ER. destruct (row_rise timebase peak_sample ignore npre pulse r HN H8 HL HS EC HP) as [E [M0 LE]]. rewrite E in ER.
  apply (rise_time_sign timebase npre pulse _ _ t); [lia|exact M0|exact HP|exact LE|exact Ht|exact ER].
Qed.
Print Assumptions rise_time_positive.

(** On a straight edge it is the time from the baseline to the peak along the line. *)
Theorem rise_time_of_line : forall timebase peak_sample (ignore npre : nat) pulse r t k1 k2 v1 v2 slope,
  (ignore < npre < length pulse)%nat -> Z.of_nat npre + 8 < 65536 -> Z.of_nat (length pulse) <= 65535 -> Forall sample pulse ->
  summarize_row timebase peak_sample (Z.of_nat ignore) (Z.of_nat npre) pulse = Some r -> 0 < peak_value r -> rise r = Some t ->
  rising_edge pulse npre (pretrig_mean r) (qz (peak_value r)) k1 k2 v1 v2 -> (S k1 < k2)%nat -> 0 < slope -> v2 = v1 + slope * (Z.of_nat k2 - 1 - Z.of_nat k1) ->
  (t * qz slope = timebase * qz (peak_value r))%Qc.
Proof.
  intros timebase peak_sample ignore npre pulse r t k1 k2 v1 v2 slope HN H8 HL HS EC HP ER E K HSl EV. destruct (row_rise timebase peak_sample ignore npre pulse r HN H8 HL HS EC HP) as [E' [M0 LE]]. rewrite E' in ER.
  apply (rise_time_line timebase npre pulse (pretrig_mean r) (peak_value r) t k1 k2 v1 v2 slope); try assumption. lia.
Qed.
Print Assumptions rise_time_of_line.

Theorem rise_time_positive_refuted : exists timebase peak_sample (ignore npre : nat) pulse r t,
  (ignore < npre < length pulse)%nat /\ Forall sample pulse /\ (0 < timebase)%Qc /\
  summarize_row timebase peak_sample (Z.of_nat ignore) (Z.of_nat npre) pulse = Some r /\ rise r = Some t /\ (t < 0)%Qc.
Proof.
  exists (qd 1 1000), 6, 1%nat, 4%nat, [10; 10; 10; 100; 99; 80; 70; 60; 50; 40; 30; 20; 15; 12]. eexists. eexists.
  split; [cbn; lia|]. split; [repeat (apply Forall_cons; [unfold sample; lia|]); apply Forall_nil|]. split; [reflexivity|]. split; [vm_compute; reflexivity|]. split; [reflexivity|]. reflexivity.
Qed.
Print Assumptions rise_time_positive_refuted.

(** Its baseline: the mean before the trigger, if there are more than three samples there; else the smallest sample. *)
Theorem rise_baseline : forall np x b, baseline np x = Some b ->
  ((3 < np)%nat -> (np <= length x)%nat -> (b * qz (Z.of_nat np) = qz (fold_right Z.add 0%Z (firstn np x)))%Qc) /\
  ((np <= 3)%nat -> exists z, b = qz z /\ In z x /\ forall v, In v x -> z <= v).
Proof.
  intros np x b H. unfold baseline in H. destruct (Nat.leb_spec 4 np) as [G|S].
  - split; [|lia]. intros _ L. unfold mean, slice in H. cbn [skipn] in H. rewrite Nat.sub_0_r in H. assert (LL : length (firstn np x) = np) by (rewrite firstn_length; lia). destruct (firstn np x) as [|a t] eqn:E; [cbn in LL; lia|]. apply (f_equal (fun o => match o with Some q => q | None => b end)) in H. cbv beta iota in H. rewrite LL in H. rewrite <- H. unfold zsum. field. intros Q. apply (f_equal this) in Q. assert (Q' : (this (qz (Z.of_nat np)) == 0)%Q) by (rewrite Q; reflexivity). unfold qz in Q'. rewrite this_Q2Qc in Q'. unfold Qeq, inject_Z in Q'. cbn in Q'. lia.
  - split; [lia|]. intros _. destruct x as [|a t]; [discriminate|]. cbn [zmin option_map] in H. injection H as <-.
    assert (G : forall l a, In (fold_left Z.min l a) (a :: l) /\ forall v, In v (a :: l) -> fold_left Z.min l a <= v).
    { induction l as [|c l IH]; intros e; cbn [fold_left]; [split; [now left|intros v [<- | []]; lia]|]. destruct (IH (Z.min e c)) as (I & M). split.
      - destruct I as [I|I]; [|right; right; exact I]. destruct (Z.min_spec e c) as [[_ Q]|[_ Q]]; rewrite Q in I at 1; [left|right; left]; exact I.
      - intros v [<- | [<- | V]]; [| |apply M; now right]; (etransitivity; [apply M; left; reflexivity|lia]). }
    destruct (G t a) as (I & M). exists (fold_left Z.min t a). auto.
Qed.
Print Assumptions rise_baseline.
Example rise_baseline_case : baseline 3 [4; 2; 9]%Z = Some (qz 2) /\ exists b, baseline 4 [4; 2; 9; 1; 7]%Z = Some b /\ this b = 4%Q.
Proof. split; [reflexivity|]. eexists. split; [reflexivity|]. vm_compute. reflexivity. Qed.

(** The Python function, for one of several records: nothing in the result depends on the others when the record passes
    10% and 90% of its height at different samples and its largest sample is not before the trigger. *)
Theorem estimate_rise_value : forall timebase np rows out k x b i v k1 k2 v1 v2,
  let npre := if Nat.leb 4 np then np else O in
  (0 < timebase)%Qc -> estimate_rise timebase np rows = Some out -> nth_error rows k = Some x ->
  baseline np x = Some b -> first_maximum x i v -> (npre <= i)%nat -> (b < qz v)%Qc ->
  rising_edge x npre b (qz v - b)%Qc k1 k2 v1 v2 -> (k1 < k2)%nat ->
  exists t, nth_error out k = Some (Some t) /\
    ((timebase <= (qz v2 - qz v1) / (qz v - b))%Qc /\ (t * (qz v2 - qz v1) = timebase * (qz (Z.of_nat k2) - 1 - qz (Z.of_nat k1)) * (qz v - b))%Qc \/
     ((qz v2 - qz v1) / (qz v - b) < timebase)%Qc /\ t = (qz (Z.of_nat k2) - 1 - qz (Z.of_nat k1))%Qc).
Proof. exact estimate_value. Qed.
Print Assumptions estimate_rise_value.

(** For other records it does depend on them. *)
Theorem estimate_rise_independent_refuted : exists timebase np x rows out rows' out' t t',
  (0 < timebase)%Qc /\ estimate_rise timebase np (x :: rows) = Some out /\ estimate_rise timebase np (x :: rows') = Some out' /\
  nth_error out 0 = Some (Some t) /\ nth_error out' 0 = Some (Some t') /\ t <> t'.
Proof.
  exists (qd 1 1000), 4%nat, [10; 10; 10; 10; 10; 100; 95; 90; 80; 70], [], [Some (Q2Qc 0)], [[10; 10; 10; 10; 10; 20; 60; 100; 95; 90]], [Some (qd 1 1); Some (qd 9 4000)], (Q2Qc 0), (qd 1 1).
  split; [reflexivity|].
  assert (EQ : forall l l' : list (option Qc), map (option_map this) l = map (option_map this) l' -> l = l').
  { induction l as [|a l IH]; intros [|b l'] H; try discriminate; [reflexivity|]. cbn [map] in H. injection H as H1 H2. f_equal; [|apply IH, H2]. destruct a, b; try discriminate; [|reflexivity]. cbn in H1. injection H1 as H1. f_equal. apply Qc_is_canon. rewrite H1. reflexivity. }
  assert (EO : forall (o : option (list (option Qc))) l, option_map (map (option_map this)) o = Some (map (option_map this) l) -> o = Some l).
  { intros [o|] l H; [|discriminate]. cbn in H. injection H as H. f_equal. apply EQ, H. }
  split; [apply EO; vm_compute; reflexivity|]. split; [apply EO; vm_compute; reflexivity|]. split; [reflexivity|]. split; [reflexivity|]. intro C. apply (f_equal this) in C. discriminate C.
Qed.
Print Assumptions estimate_rise_independent_refuted.

Example rise_time_case : exists r t, summarize_row (qd 1 1000) 7 1 4 record = Some r /\ rise r = Some t /\ this t = this (qd 53 20000) /\
  rising_edge record 4 (pretrig_mean r) (qz (peak_value r)) 5 7 30 50.
Proof.
  eexists. eexists. split; [vm_compute; reflexivity|]. split; [reflexivity|]. split; [reflexivity|].
  split; [|split; [|split; reflexivity]].
  - split; [lia|]. split; [exists 30; split; reflexivity|]. intros j v Hj E. assert (j = 4%nat) as -> by lia. cbn in E. injection E as <-. intro C. discriminate C.
  - split; [lia|]. split; [exists 64; split; reflexivity|]. intros j v Hj E. assert (j = 5 \/ j = 6)%nat as [-> | ->] by lia; cbn in E; injection E as <-; intro C; discriminate C.
Qed.

(** C72: the summaries of a file do not depend on how it is read. *)
Theorem segments_do_not_matter : forall timebase peak_sample ignore npre (per_seg n : nat) rows r,
  Z.of_nat per_seg <= 65535 -> (length rows <= n * per_seg)%nat ->
  (summarize_data timebase peak_sample ignore npre per_seg n rows = Some r <->
   map (summarize_row timebase peak_sample ignore npre) rows = map Some r).
Proof. intros timebase peak_sample ignore npre per_seg n rows r HP HL. rewrite data_short by assumption. apply map_opt_spec. Qed.
Print Assumptions segments_do_not_matter.

Theorem long_segments_raise : forall timebase peak_sample ignore npre (per_seg n : nat) rows i,
  (i < n)%nat -> 65536 <= Z.of_nat (length (firstn per_seg (skipn (i * per_seg) rows))) ->
  Z.of_nat (length (firstn per_seg (skipn (i * per_seg) rows))) mod 65536 <> 1 ->
  summarize_data timebase peak_sample ignore npre per_seg n rows = None.
Proof. intros timebase peak_sample ignore npre per_seg n rows i Hi H1 H2. exact (data_long timebase peak_sample ignore npre per_seg n rows i Hi H1 H2). Qed.
Print Assumptions long_segments_raise.

(** With 65537 records in a segment every record gets the summary of the first. *)
Theorem long_segment_repeats : forall timebase peak_sample ignore npre (per_seg : nat) x rows s,
  Z.of_nat (length rows) = 65536 -> (length (x :: rows) <= per_seg)%nat ->
  summarize_row timebase peak_sample ignore npre x = Some s ->
  summarize_data timebase peak_sample ignore npre per_seg 1 (x :: rows) = Some (map (fun _ => s) (x :: rows)).
Proof. exact data_repeats. Qed.
Print Assumptions long_segment_repeats.

Theorem segments_do_not_matter_refuted : exists timebase peak_sample ignore npre (per_seg n : nat) rows r r',
  (0 < per_seg)%nat /\ (length rows <= n * per_seg)%nat /\
  summarize_data timebase peak_sample ignore npre per_seg n rows = Some r /\
  map (summarize_row timebase peak_sample ignore npre) rows = map Some r' /\ r <> r'.
Proof.
  set (x := record). set (y := 9 :: tl record).
  destruct (summarize_row (qd 1 1000) 7 1 4 x) as [sx|] eqn:Ex; [|vm_compute in Ex; discriminate].
  destruct (summarize_row (qd 1 1000) 7 1 4 y) as [sy|] eqn:Ey; [|vm_compute in Ey; discriminate].
  set (rows := repeat y (Z.to_nat 65536)). assert (LR : length rows = Z.to_nat 65536) by apply repeat_length.
  assert (RY : rows = repeat y (Z.to_nat 65536)) by reflexivity. clearbody rows.
  exists (qd 1 1000), 7, 1, 4, (length (x :: rows)), 1%nat, (x :: rows), (map (fun _ => sx) (x :: rows)), (sx :: repeat sy (Z.to_nat 65536)).
  split; [cbn [length]; lia|]. split; [lia|]. split; [apply data_repeats; [rewrite LR; lia|lia|exact Ex]|]. split.
  - cbn [map]. rewrite Ex. f_equal. rewrite RY. generalize (Z.to_nat 65536). intros n. induction n as [|n IH]; [reflexivity|]. cbn [repeat map]. rewrite Ey. f_equal. exact IH.
  - intro C. rewrite RY in C. destruct (Z.to_nat 65536) as [|n] eqn:N; [lia|]. cbn [map repeat] in C. injection C as C _.
    apply (f_equal (option_map min_value)) in Ex. apply (f_equal (option_map min_value)) in Ey. vm_compute in Ex, Ey. rewrite C in Ex. rewrite <- Ey in Ex. discriminate Ex.
Qed.
Print Assumptions segments_do_not_matter_refuted.

Example segments_case : exists r, summarize_data (qd 1 1000) 7 1 4 2 2 [record; record; record] = Some r /\ length r = 3%nat.
Proof. eexists. split; [vm_compute; reflexivity|reflexivity]. Qed.
