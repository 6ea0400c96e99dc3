(** The summary of one record. *)
From Coq Require Import ZArith QArith Qround Qcanon List Bool Lia.
From Verif Require Import QcPre LagModel LagProofs FluxModel FluxProofs DerModel SumModel SumSpec SumProofs.
Import ListNotations.
Local Open Scope Z_scope.

(* ---------- maxima and minima ---------- *)

Lemma peaks_spec l : forall k p i, 0 <= k -> k + Z.of_nat (length l) <= 65536 ->
  let q := peaks k l p i in
  (q = (p, i) /\ forall x, In x l -> x <= p) \/
  (exists j, nth_error l j = Some (fst q) /\ snd q = k + Z.of_nat j /\ p < fst q /\
     (forall x, In x l -> x <= fst q) /\ forall j' x, (j' < j)%nat -> nth_error l j' = Some x -> x < fst q).
Proof.
  induction l as [|x l IH]; intros k p i H0 Hk; cbn [peaks]; [left; split; [reflexivity|intros x []]|]. cbn [length] in Hk.
  destruct (Z.ltb_spec p x) as [L|L].
  - destruct (IH (k + 1) x (ushort k)) as [[E A]|[j [E [Ei [Ep [A B]]]]]]; [lia|lia| |]; cbv zeta.
    + right. exists O. rewrite E. cbn [fst snd nth_error]. split; [reflexivity|]. split; [unfold ushort; rewrite Z.mod_small; lia|]. split; [exact L|]. split.
      * intros y [<-|Hy]; [lia|apply A, Hy].
      * intros j' y Hj. lia.
    + right. exists (S j). cbn [nth_error]. split; [exact E|]. split; [rewrite Ei; lia|]. split; [lia|]. split.
      * intros y [<-|Hy]; [lia|apply A, Hy].
      * intros [|j'] y Hj Hy; cbn [nth_error] in Hy; [injection Hy as <-; exact Ep|]. apply (B j'); [lia|exact Hy].
  - destruct (IH (k + 1) p i) as [[E A]|[j [E [Ei [Ep [A B]]]]]]; [lia|lia| |]; cbv zeta.
    + left. split; [exact E|]. intros y [<-|Hy]; [exact L|apply A, Hy].
    + right. exists (S j). cbn [nth_error]. split; [exact E|]. split; [rewrite Ei; lia|]. split; [exact Ep|]. split.
      * intros y [<-|Hy]; [lia|apply A, Hy].
      * intros [|j'] y Hj Hy; cbn [nth_error] in Hy; [injection Hy as <-; lia|]. apply (B j'); [lia|exact Hy].
Qed.
Lemma peaks_first l : l <> [] -> Forall sample l -> Z.of_nat (length l) <= 65536 ->
  exists i, first_maximum l i (fst (peaks 0 l 0 0)) /\ snd (peaks 0 l 0 0) = Z.of_nat i.
Proof.
  intros Hne HF HL. rewrite Forall_forall in HF. destruct (peaks_spec l 0 0 0) as [[E A]|[j [E [Ei [Ep [A B]]]]]]; [lia|lia| |].
  - exists O. rewrite E. cbn [fst snd]. split; [|reflexivity]. split; [|split].
    + destruct l as [|x l]; [contradiction|]. cbn. f_equal. pose proof (HF x (or_introl eq_refl)) as [? ?]. specialize (A x (or_introl eq_refl)). lia.
    + exact A.
    + intros j x Hj. lia.
  - exists j. split; [|exact Ei]. split; [exact E|]. split; [exact A|exact B].
Qed.
Lemma fold_min_spec l : forall m, (fold_left Z.min l m = m \/ In (fold_left Z.min l m) l) /\ fold_left Z.min l m <= m /\ forall x, In x l -> fold_left Z.min l m <= x.
Proof.
  induction l as [|a l IH]; intros m; cbn [fold_left]; [split; [left; reflexivity|split; [lia|intros x []]]|].
  destruct (IH (Z.min m a)) as [A [B C]]. split; [|split].
  - destruct A as [A|A]; [|right; right; exact A]. destruct (Z.min_spec m a) as [[_ M]|[_ M]]; rewrite M in *; [left; exact A|right; left; symmetry; exact A].
  - lia.
  - intros x [<-|Hx]; [lia|apply C, Hx].
Qed.
Lemma fold_min_least l : l <> [] -> Forall sample l -> least l (fold_left Z.min l 65535).
Proof.
  intros Hne HF. rewrite Forall_forall in HF. destruct (fold_min_spec l 65535) as [A [B C]]. split; [|exact C].
  destruct A as [A|A]; [|exact A]. destruct l as [|x l]; [contradiction|]. left.
  pose proof (HF x (or_introl eq_refl)) as [? ?]. pose proof (C x (or_introl eq_refl)). lia.
Qed.
Lemma first_maximum_unique l i v i' v' : first_maximum l i v -> first_maximum l i' v' -> i = i' /\ v = v'.
Proof.
  intros [A [B C]] [A' [B' C']]. assert (v = v') by (pose proof (B v' (nth_error_In _ _ A')); pose proof (B' v (nth_error_In _ _ A)); lia). subst v'. split; [|reflexivity].
  destruct (Nat.lt_trichotomy i i') as [L|[L|L]]; [pose proof (C' _ _ L A); lia|exact L|pose proof (C _ _ L A'); lia].
Qed.

(* ---------- means ---------- *)

Lemma mean_quot l m : mean_is l m <-> l <> [] /\ m = (qz (zsum l) / qz (Z.of_nat (length l)))%Qc.
Proof.
  unfold mean_is. rewrite total_zsum. split; intros [H E]; (split; [exact H|]).
  - rewrite <- E. field. apply qz_len, H.
  - subst m. field. apply qz_len, H.
Qed.
Lemma mean_unique l m m' : mean_is l m -> mean_is l m' -> m = m'.
Proof. rewrite !mean_quot. intros [_ ->] [_ ->]. reflexivity. Qed.
Lemma mean_square_quot l c v : mean_square_is l c v <-> l <> [] /\
  v = ((qz (zsum (squares l)) - c * qz 2 * qz (zsum l)) / qz (Z.of_nat (length l)) + c * c)%Qc.
Proof.
  unfold mean_square_is. rewrite total_deviations. split; intros [H E]; (split; [exact H|]).
  - assert (N := qz_len l H). apply (f_equal (fun q => q / qz (Z.of_nat (length l)))%Qc) in E.
    transitivity (v * qz (Z.of_nat (length l)) / qz (Z.of_nat (length l)))%Qc; [field; exact N|]. rewrite E. field. exact N.
  - subst v. field. apply qz_len, H.
Qed.
Lemma qinv_pos n : (0 < n)%Qc -> (0 < / n)%Qc.
Proof. unfold Qclt. rewrite this_inv. change (this 0) with 0%Q. apply Qinv_lt_0_compat. Qed.
Lemma qdiv_nonneg q n : (0 < n)%Qc -> (0 <= q)%Qc -> (0 <= q / n)%Qc.
Proof. intros H H0. apply qinv_pos in H. unfold Qcdiv. set (i := (/ n)%Qc) in *. clearbody i. qnra. Qed.
Lemma mean_le l m v : mean_is l m -> (forall x, In x l -> x <= v) -> (m <= qz v)%Qc.
Proof.
  rewrite mean_quot. intros [Hne ->] H. apply Qcle_minus_iff.
  assert (zsum l <= v * Z.of_nat (length l)).
  { clear Hne. induction l as [|x l IH]; [cbn; lia|]. cbn [zsum fold_right length]. fold (zsum l).
    pose proof (H x (or_introl eq_refl)). assert (zsum l <= v * Z.of_nat (length l)) by (apply IH; intros; apply H; right; assumption). lia. }
  assert (L : 0 < Z.of_nat (length l)) by (destruct l; [contradiction|cbn; lia]).
  apply qz_pos in L. apply qz_le in H0. rewrite qz_mul in H0. set (n := qz (Z.of_nat (length l))) in *. set (t := qz (zsum l)) in *. clearbody n t.
  assert (E : (qz v + - (t / n) = (qz v * n - t) / n)%Qc) by (field; intro C; subst n; qlra).
  rewrite E. apply Qcle_minus_iff in H0. replace (qz v * n + - t)%Qc with (qz v * n - t)%Qc in H0 by ring.
  apply qdiv_nonneg; assumption.
Qed.
Lemma mean_ge l m v : mean_is l m -> (forall x, In x l -> v <= x) -> (qz v <= m)%Qc.
Proof.
  intros Hm H. assert (M : mean_is (map Z.opp l) (- m)%Qc).
  { destruct Hm as [Hne E]. split; [destruct l; [contradiction|discriminate]|]. rewrite map_length, map_map. rewrite total_zsum in E.
    transitivity (- (m * qz (Z.of_nat (length l))))%Qc; [ring|]. rewrite E, <- qz_opp. clear. induction l as [|x l IH]; [reflexivity|]. cbn [map total fold_right zsum]. fold (total (map (fun x => qz (- x)) l)) (zsum l). rewrite <- IH, <- qz_add. f_equal. lia. }
  apply (mean_le _ _ (- v)) in M.
  - rewrite qz_opp in M. qlra.
  - intros x Hx. apply in_map_iff in Hx as [y [<- Hy]]. specialize (H y Hy). lia.
Qed.

(* ---------- rounding ---------- *)

Lemma trunc_spec q : (0 <= q)%Qc -> integer_part q (trunc q) /\ 0 <= trunc q.
Proof.
  intros H. unfold trunc, integer_part. split; [split|].
  - unfold Qcle, qz. rewrite this_Q2Qc. apply Qfloor_le.
  - unfold Qclt, qz. rewrite this_add, this_Q2Qc. change (this 1) with (inject_Z 1). rewrite <- inject_Z_plus. apply Qlt_floor.
  - change 0 with (Qfloor 0). apply Qfloor_resp_le. exact H.
Qed.
Lemma trunc_unique q z : integer_part q z -> trunc q = z.
Proof.
  intros [A B]. unfold trunc. unfold Qcle, qz in A. unfold Qclt, qz in B. rewrite this_Q2Qc in A. rewrite this_add, this_Q2Qc in B. change (this 1) with (inject_Z 1) in B. rewrite <- inject_Z_plus in B.
  pose proof (Qfloor_le (this q)). pose proof (Qlt_floor (this q)).
  assert (inject_Z z < inject_Z (Qfloor (this q) + 1))%Q by (eapply Qle_lt_trans; eassumption).
  assert (inject_Z (Qfloor (this q)) < inject_Z (z + 1))%Q by (eapply Qle_lt_trans; eassumption).
  rewrite <- Zlt_Qlt in *. lia.
Qed.
Lemma half_sum : (qd 1 2 + qd 1 2 = 1)%Qc. Proof. apply Qc_is_canon. reflexivity. Qed.
Lemma half_eq : (qd 1 2 = qz 1 / qz 2)%Qc. Proof. apply Qc_is_canon. reflexivity. Qed.
Lemma trunc_nearest q : (0 <= q)%Qc -> nearest q (trunc (q + qd 1 2)) /\ 0 <= trunc (q + qd 1 2)%Qc.
Proof.
  intros H. assert (HH : (0 <= qd 1 2)%Qc) by (intro C; discriminate C).
  destruct (trunc_spec (q + qd 1 2)%Qc) as [[A B] C]; [qlra|]. split; [|exact C]. unfold nearest. rewrite <- half_eq. pose proof half_sum. split; qlra.
Qed.
Lemma nearest_unique q z z' : nearest q z -> nearest q z' -> z = z'.
Proof.
  intros [A B] [A' B']. pose proof half_sum as H. rewrite <- half_eq in *. clear -A B A' B' H. set (h := qd 1 2) in *. clearbody h.
  assert (qz z < qz (z' + 1))%Qc by (rewrite qz_add; change (qz 1) with 1%Qc; qlra).
  assert (qz z' < qz (z + 1))%Qc by (rewrite qz_add; change (qz 1) with 1%Qc; qlra).
  rewrite qz_lt in *. lia.
Qed.

Lemma nearest_below m b v : nearest m b -> (m < qz v)%Qc -> b <= v.
Proof.
  intros [A _] L. rewrite <- half_eq in A. assert (HH : (qd 1 2 < 1)%Qc) by reflexivity. set (h := qd 1 2) in *. clearbody h.
  assert (H : (qz b < qz (v + 1))%Qc) by (rewrite qz_add; change (qz 1) with 1%Qc; qlra). rewrite qz_lt in H. lia.
Qed.

Lemma shifted_spec x base ms : shifted x base ms = true <-> rises_early x base ms.
Proof.
  unfold shifted, rises_early. rewrite andb_true_iff, !qltb_lt. assert (E : (qd 43 10 = qz 43 / qz 10)%Qc) by (apply Qc_is_canon; reflexivity). rewrite E.
  split; intros [A B]; (split; [qlra|exact B]).
Qed.

(* ---------- one record ---------- *)

Lemma split_at {A} (l : list A) k : (k < length l)%nat -> exists x, nth_error l k = Some x /\ l = firstn k l ++ x :: skipn (S k) l /\ skipn k l = x :: skipn (S k) l.
Proof.
  revert k. induction l as [|a l IH]; intros k H; [cbn in H; lia|]. destruct k as [|k]; [exists a; repeat split; reflexivity|].
  cbn in H. destruct (IH k) as [x [E [F G]]]; [lia|]. exists x. cbn [nth_error firstn skipn app]. split; [exact E|]. split; [f_equal; exact F|exact G].
Qed.
Lemma skipn_add {A} (l : list A) a b : skipn b (skipn a l) = skipn (a + b) l.
Proof. revert l. induction a as [|a IH]; intros l; [reflexivity|]. destruct l; [cbn; apply skipn_nil|]. cbn [skipn Nat.add]. apply IH. Qed.
Lemma some_eq {A} (a b : A) : Some a = Some b -> a = b.
Proof. intros H. injection H as ->. reflexivity. Qed.
Lemma ushort_id z : 0 <= z < 65536 -> ushort z = z.
Proof. apply Z.mod_small. Qed.

(** The closed form of a summary, in terms of the parts of the record. *)
Lemma summarize_row_eq timebase peak_sample (ignore npre : nat) pulse : (ignore < npre <= length pulse)%nat -> Z.of_nat npre + 8 < 65536 -> Z.of_nat (length pulse) <= 65535 ->
  exists x, nth_error pulse (npre - 1) = Some x /\
  let base := firstn (npre - ignore) pulse in
  let e := qz (Z.of_nat (length base)) in
  let ptm := (qz (zsum base) / e)%Qc in
  let var := (qz (zsum (squares base)) / e - ptm * ptm)%Qc in
  let s := shifted x ptm var in
  let rest := skipn (npre - 1) pulse in
  let c := qz (Z.of_nat (length rest)) in
  let avg := (qz (zsum rest) / c - ptm)%Qc in
  let ms := (qz (zsum (squares rest)) / c - ptm * avg * qz 2 - ptm * ptm)%Qc in
  let v := fst (peaks 0 pulse 0 0) in
  let window := firstn 6 (skipn (if s then npre + 1 else npre + 2) pulse) in
  let mn := fold_left Z.min pulse 65535 in
  length base = (npre - ignore)%nat /\
  summarize_row timebase peak_sample (Z.of_nat ignore) (Z.of_nat npre) pulse =
    if qltb ptm (qz v) then
      let peak := ushort (v - ushort (trunc (ptm + qd 1 2)%Qc)) in
      if peak =? 0 then None
      else Some (mkSum ptm var s (snd (peaks 0 pulse 0 0)) peak ((qz (zsum window) / qz 6 - ptm) / qz peak)%Qc mn avg ms
                   (rise_time timebase npre pulse ptm peak) (postpeak peak_sample (length pulse) pulse))
    else Some (mkSum ptm var s 0 0 0%Qc mn avg ms (rise_time timebase npre pulse ptm v) (postpeak peak_sample (length pulse) pulse)).
Proof.
  intros HN H8 HL. destruct (split_at pulse (npre - 1)) as [x [E [F G]]]; [lia|]. exists x. split; [exact E|]. cbv zeta.
  assert (LB : length (firstn (npre - ignore) pulse) = (npre - ignore)%nat) by (apply firstn_length_le; lia). split; [exact LB|].
  unfold summarize_row. rewrite (ushort_id (Z.of_nat (length pulse))) by lia. rewrite Nat2Z.id, firstn_all.
  assert (LE : ushort (Z.of_nat npre - Z.of_nat ignore) = Z.of_nat (npre - ignore)) by (rewrite ushort_id; lia). rewrite LE.
  assert (L1 : Z.of_nat (length (firstn (npre - 1) pulse)) = Z.of_nat npre - 1) by (rewrite firstn_length_le; lia).
  assert (SN : S (npre - 1) = npre) by lia. rewrite SN in *.
  pose proof (scan_record (Z.of_nat npre) (Z.of_nat (npre - ignore)) _ x (skipn npre pulse) L1 H8) as SR. rewrite <- F in SR. rewrite SR. clear SR.
  rewrite (proj2 (Z.eqb_neq (Z.of_nat (npre - ignore)) 0)) by lia. cbv zeta.
  assert (K : keep (fun i => i <? Z.of_nat (npre - ignore)) 0 (firstn (npre - 1) pulse ++ [x]) = firstn (npre - ignore) pulse).
  { pose proof (keep_lt (npre - ignore) (firstn (npre - 1) pulse ++ [x]) 0) as K. cbn [Nat.add] in K. change (Z.of_nat 0) with 0 in K. rewrite K.
    transitivity (firstn (npre - ignore) (firstn npre pulse)).
    - f_equal. rewrite F at 2. rewrite firstn_app. rewrite firstn_length_le by lia. replace (npre - (npre - 1))%nat with 1%nat by lia. cbn [firstn].
      f_equal. rewrite firstn_firstn. f_equal. lia.
    - rewrite firstn_firstn. f_equal. lia. }
  rewrite K, LB.
  set (ptm := (qz (zsum (firstn (npre - ignore) pulse)) / qz (Z.of_nat (npre - ignore)))%Qc).
  set (var := (qz (zsum (squares (firstn (npre - ignore) pulse))) / qz (Z.of_nat (npre - ignore)) - ptm * ptm)%Qc).
  set (s := shifted x ptm var).
  assert (KW : keep (fun i => (Z.of_nat npre + 2 - (if s then 1 else 0) <=? i) && (i <? Z.of_nat npre + 8 - (if s then 1 else 0))) (Z.of_nat npre) (skipn npre pulse)
             = firstn 6 (skipn (if s then npre + 1 else npre + 2) pulse)).
  { transitivity (firstn 6 (skipn (if s then 1 else 2) (skipn npre pulse))).
    - rewrite <- (keep_between (if s then 1 else 2)%nat 6 _ npre).
      assert (EX : forall p q l k, (forall i, p i = q i) -> keep p k l = keep q k l).
      { intros p q l. induction l as [|y l IH]; intros k Hpq; [reflexivity|]. cbn [keep]. rewrite Hpq, (IH (k + 1)) by exact Hpq. reflexivity. }
      apply EX. intros i. f_equal; f_equal; destruct s; lia.
    - destruct s; rewrite skipn_add; reflexivity. }
  rewrite KW. cbn [a_peak a_index a_min a_pre a_pre2 a_prompt a_from a_to a_pulse a_pulse2 a_base].
  rewrite (proj2 (Z.eqb_neq (Z.of_nat (length pulse) - Z.of_nat npre + 1) 0)) by lia.
  replace (Z.of_nat (length (skipn (npre - 1) pulse))) with (Z.of_nat (length pulse) - Z.of_nat npre + 1) by (rewrite skipn_length; lia).
  rewrite <- G, Nat2Z.id. reflexivity.
Qed.

(** What a summary says of a record. *)
Theorem row_statistics timebase peak_sample (ignore npre : nat) pulse r :
  (ignore < npre <= length pulse)%nat -> Z.of_nat npre + 8 < 65536 -> Z.of_nat (length pulse) <= 65535 -> Forall sample pulse ->
  summarize_row timebase peak_sample (Z.of_nat ignore) (Z.of_nat npre) pulse = Some r ->
  mean_is (firstn (npre - ignore) pulse) (pretrig_mean r) /\
  mean_square_is (firstn (npre - ignore) pulse) (pretrig_mean r) (pretrig_ms r) /\
  (shift1 r = true <-> exists x, nth_error pulse (npre - 1) = Some x /\ rises_early x (pretrig_mean r) (pretrig_ms r)) /\
  least pulse (min_value r) /\
  mean_is (skipn (npre - 1) pulse) (pulse_average r + pretrig_mean r)%Qc /\
  mean_square_is (skipn (npre - 1) pulse) (pretrig_mean r) (pulse_ms r) /\
  exists i v, first_maximum pulse i v /\
    ((pretrig_mean r < qz v)%Qc /\ peak_index r = Z.of_nat i /\ 0 < peak_value r /\ nearest (pretrig_mean r) (v - peak_value r) /\
     ((promptness r * qz (peak_value r) + pretrig_mean r) * qz 6 =
      total (map qz (firstn 6 (skipn (if shift1 r then npre + 1 else npre + 2) pulse))))%Qc
     \/ (qz v <= pretrig_mean r)%Qc /\ peak_index r = 0 /\ peak_value r = 0 /\ promptness r = 0%Qc).
Proof.
  intros HN H8 HL HS HR. destruct (summarize_row_eq timebase peak_sample ignore npre pulse HN H8 HL) as [x [Ex R]]. cbv zeta in R. destruct R as [LB R]. rewrite HR in R. clear HR.
  set (base := firstn (npre - ignore) pulse) in *. set (rest := skipn (npre - 1) pulse) in *.
  assert (B0 : base <> []) by (intro C; rewrite C in LB; cbn in LB; lia).
  assert (R0 : rest <> []) by (intro C; apply (f_equal (@length Z)) in C; unfold rest in C; rewrite skipn_length in C; cbn in C; lia).
  assert (P0 : pulse <> []) by (intro C; subst pulse; cbn in HN; lia).
  destruct (peaks_first pulse P0 HS) as [i [FM FI]]; [lia|].
  set (v := fst (peaks 0 pulse 0 0)) in *. set (ptm := (qz (zsum base) / qz (Z.of_nat (length base)))%Qc) in *.
  set (var := (qz (zsum (squares base)) / qz (Z.of_nat (length base)) - ptm * ptm)%Qc) in *.
  set (avg := (qz (zsum rest) / qz (Z.of_nat (length rest)) - ptm)%Qc) in *.
  set (ms := (qz (zsum (squares rest)) / qz (Z.of_nat (length rest)) - ptm * avg * qz 2 - ptm * ptm)%Qc) in *.
  assert (M1 : mean_is base ptm) by (apply mean_quot; split; [exact B0|reflexivity]).
  assert (M2 : mean_square_is base ptm var).
  { apply mean_square_quot. split; [exact B0|]. unfold var. pose proof (qz_len base B0) as N.
    assert (EQ : (qz (zsum base) = ptm * qz (Z.of_nat (length base)))%Qc) by (unfold ptm; field; exact N). rewrite EQ. clearbody ptm. change (qz 2) with (1 + 1)%Qc. field. exact N. }
  assert (M3 : mean_is rest (avg + ptm)%Qc) by (apply mean_quot; split; [exact R0|unfold avg; ring]).
  assert (M4 : mean_square_is rest ptm ms).
  { apply mean_square_quot. split; [exact R0|]. unfold ms. pose proof (qz_len rest R0) as N.
    assert (EQ : (qz (zsum rest) = (avg + ptm) * qz (Z.of_nat (length rest)))%Qc) by (unfold avg; field; exact N). rewrite EQ. clearbody ptm avg. change (qz 2) with (1 + 1)%Qc. field. exact N. }
  assert (PT : (0 <= ptm)%Qc).
  { rewrite Forall_forall in HS. apply (mean_ge base ptm 0 M1). intros y Hy. apply HS. unfold base in Hy. rewrite <- (firstn_skipn (npre - ignore) pulse). apply in_or_app. left. exact Hy. }
  assert (ML : least pulse (fold_left Z.min pulse 65535)) by (apply fold_min_least; assumption).
  assert (SH : shifted x ptm var = true <-> exists x0, nth_error pulse (npre - 1) = Some x0 /\ rises_early x0 ptm var).
  { rewrite shifted_spec. split; [intros H; exists x; split; [exact Ex|exact H]|]. intros [x0 [E0 H]]. rewrite Ex in E0. injection E0 as <-. exact H. }
  destruct (qltb ptm (qz v)) eqn:EP.
  - apply qltb_lt in EP. destruct (trunc_nearest ptm PT) as [NR N0].
    assert (VS : sample v) by (rewrite Forall_forall in HS; destruct FM as [FM _]; apply HS; eapply nth_error_In; exact FM). destruct VS as [V0 V1].
    assert (BV : trunc (ptm + qd 1 2)%Qc <= v) by (exact (nearest_below _ _ _ NR EP)).
    rewrite (ushort_id (trunc (ptm + qd 1 2)%Qc)) in R by lia. rewrite ushort_id in R by lia.
    destruct (Z.eqb_spec (v - trunc (ptm + qd 1 2)%Qc) 0) as [Z0|Z0]; [discriminate|]. apply some_eq in R. subst r. cbn [pretrig_mean pretrig_ms shift1 peak_index peak_value promptness min_value pulse_average pulse_ms].
    repeat (split; [assumption|]). exists i, v. split; [exact FM|]. left. split; [exact EP|]. split; [exact FI|]. split; [lia|]. split.
    + replace (v - (v - trunc (ptm + qd 1 2)%Qc)) with (trunc (ptm + qd 1 2)%Qc) by lia. exact NR.
    + rewrite total_zsum. set (pk := v - trunc (ptm + qd 1 2)%Qc) in *. assert (qz pk <> 0)%Qc by (apply qz_neq; exact Z0).
      set (w := firstn 6 _). clearbody w pk. set (t := qz (zsum w)). clearbody t. assert (qz 6 <> 0)%Qc by (apply qz_neq; lia).
      transitivity (t / qz 6 * qz 6)%Qc; [|field; assumption]. f_equal. field. split; assumption.
  - apply qltb_ge in EP. apply some_eq in R. subst r. cbn [pretrig_mean pretrig_ms shift1 peak_index peak_value promptness min_value pulse_average pulse_ms].
    repeat (split; [assumption|]). exists i, v. split; [exact FM|]. right. split; [exact EP|]. repeat split; reflexivity.
Qed.

(** When it raises. *)
Theorem row_raises timebase peak_sample (ignore npre : nat) pulse :
  (ignore < npre <= length pulse)%nat -> Z.of_nat npre + 8 < 65536 -> Z.of_nat (length pulse) <= 65535 -> Forall sample pulse ->
  (summarize_row timebase peak_sample (Z.of_nat ignore) (Z.of_nat npre) pulse = None <->
   exists m i v, mean_is (firstn (npre - ignore) pulse) m /\ first_maximum pulse i v /\ (m < qz v)%Qc /\ nearest m v).
Proof.
  intros HN H8 HL HS. destruct (summarize_row_eq timebase peak_sample ignore npre pulse HN H8 HL) as [x [Ex R]]. cbv zeta in R. destruct R as [LB R]. rewrite R. clear R.
  set (base := firstn (npre - ignore) pulse) in *.
  assert (B0 : base <> []) by (intro C; rewrite C in LB; cbn in LB; lia).
  assert (P0 : pulse <> []) by (intro C; subst pulse; cbn in HN; lia).
  destruct (peaks_first pulse P0 HS) as [i [FM FI]]; [lia|].
  set (v := fst (peaks 0 pulse 0 0)) in *. set (ptm := (qz (zsum base) / qz (Z.of_nat (length base)))%Qc) in *.
  assert (M1 : mean_is base ptm) by (apply mean_quot; split; [exact B0|reflexivity]).
  assert (PT : (0 <= ptm)%Qc).
  { rewrite Forall_forall in HS. apply (mean_ge base ptm 0 M1). intros y Hy. apply HS. unfold base in Hy. rewrite <- (firstn_skipn (npre - ignore) pulse). apply in_or_app. left. exact Hy. }
  assert (VS : sample v) by (rewrite Forall_forall in HS; pose proof FM as [FM' _]; apply HS; eapply nth_error_In; exact FM'). destruct VS as [V0 V1].
  destruct (trunc_nearest ptm PT) as [NR N0].
  split.
  - intros R. destruct (qltb ptm (qz v)) eqn:EP; [|discriminate]. apply qltb_lt in EP.
    assert (BV : trunc (ptm + qd 1 2)%Qc <= v) by (exact (nearest_below _ _ _ NR EP)).
    rewrite (ushort_id (trunc (ptm + qd 1 2)%Qc)) in R by lia. rewrite ushort_id in R by lia.
    destruct (Z.eqb_spec (v - trunc (ptm + qd 1 2)%Qc) 0) as [Z0|Z0]; [|discriminate].
    exists ptm, i, v. split; [exact M1|]. split; [exact FM|]. split; [exact EP|]. replace v with (trunc (ptm + qd 1 2)%Qc) by lia. exact NR.
  - intros [m [i' [v' [Mm [FM' [L NR']]]]]]. pose proof (mean_unique _ _ _ Mm M1) as ->. destruct (first_maximum_unique _ _ _ _ _ FM FM') as [<- <-].
    rewrite (proj2 (qltb_lt _ _) L). pose proof (nearest_unique _ _ _ NR NR') as EV.
    rewrite (ushort_id (trunc (ptm + qd 1 2)%Qc)) by lia. rewrite EV, Z.sub_diag. reflexivity.
Qed.
