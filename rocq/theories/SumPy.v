(** The compiled and the Python version of the summary. *)
From Coq Require Import ZArith QArith Qround Qcanon List Bool Lia.
From Verif Require Import QcPre LagModel LagProofs FluxModel FluxProofs DerModel DerSpec DerProofs SumModel SumSpec SumProofs SumRow.
Import ListNotations.
Local Open Scope Z_scope.

(* ---------- the largest derivative after the peak ---------- *)

Definition kat (q : list Z) (j : nat) : Z := kernel5 (nth j q 0) (nth (j + 1) q 0) (nth (j + 3) q 0) (nth (j + 4) q 0).
Definition last7 {A B C D E F G} (s : A * B * C * D * E * F * G) : G := let '(_, _, _, _, _, _, m) := s in m.

Lemma deriv_fold rest : forall a b c d e f m,
  let q := a :: b :: c :: d :: e :: f :: rest in
  let m' := last7 (fold_left deriv_step rest (c, d, e, f, kernel5 a b d e, kernel5 b c e f, m)) in
  m <= m' /\ (forall j, (j < length rest)%nat -> Z.min (kat q j) (kat q (j + 2)) <= m') /\
  (m' = m \/ exists j, (j < length rest)%nat /\ m' = Z.min (kat q j) (kat q (j + 2))).
Proof.
  induction rest as [|x rest IH]; intros a b c d e f m q m'; subst q m'.
  - cbn [fold_left last7 length]. split; [lia|]. split; [intros j Hj; lia|]. left. reflexivity.
  - cbn [fold_left deriv_step length].
    destruct (IH b c d e f x (let t3 := if kernel5 c d f x <? kernel5 a b d e then kernel5 c d f x else kernel5 a b d e in if m <? t3 then t3 else m)) as [H1 [H2 H3]]. cbv zeta in H1, H2, H3.
    set (m' := last7 _) in *. clearbody m'.
    set (q := a :: b :: c :: d :: e :: f :: x :: rest).
    assert (KS : forall j, kat (b :: c :: d :: e :: f :: x :: rest) j = kat q (S j)) by reflexivity.
    assert (K0 : kat q 0 = kernel5 a b d e) by reflexivity. assert (K2 : kat q 2 = kernel5 c d f x) by reflexivity.
    assert (T : (if kernel5 c d f x <? kernel5 a b d e then kernel5 c d f x else kernel5 a b d e) = Z.min (kat q 0) (kat q 2)).
    { rewrite K0, K2. destruct (Z.ltb_spec (kernel5 c d f x) (kernel5 a b d e)); lia. }
    rewrite T in *. clear T. assert (M : (if m <? Z.min (kat q 0) (kat q 2) then Z.min (kat q 0) (kat q 2) else m) = Z.max m (Z.min (kat q 0) (kat q 2))).
    { destruct (Z.ltb_spec m (Z.min (kat q 0) (kat q 2))); lia. }
    rewrite M in *. clear M. split; [lia|]. split.
    + intros [|j] Hj; [cbn [Nat.add]; lia|]. specialize (H2 j). rewrite !KS in H2. apply H2. lia.
    + destruct H3 as [H3|[j [Hj H3]]].
      * destruct (Z.max_spec m (Z.min (kat q 0) (kat q 2))) as [[_ E]|[_ E]]; [right; exists O; split; [lia|]; rewrite H3, E; reflexivity|left; lia].
      * right. exists (S j). split; [lia|]. rewrite !KS in H3. exact H3.
Qed.

Lemma nth_map_qz l j : nth j (map qz l) 0%Qc = qz (nth j l 0).
Proof. rewrite <- (map_nth qz l 0 j). f_equal. Qed.
Lemma slope_kat q j : slope [qd 2 10; qd 1 10; 0%Qc; qd (-1) 10; qd (-2) 10] (map qz q) j = (qd 1 10 * qz (kat q j))%Qc.
Proof.
  unfold slope, kat, kernel5. cbn [length qsum nth Nat.sub Nat.add]. rewrite !nth_map_qz.
  replace (j + 0)%nat with j by lia.
  rewrite !qz_add, !qz_mul. assert (E2 : qd 2 10 = (qd 1 10 * qz 2)%Qc) by (apply Qc_is_canon; reflexivity).
  assert (E1 : qd (-1) 10 = (qd 1 10 * qz (-1))%Qc) by (apply Qc_is_canon; reflexivity).
  assert (E3 : qd (-2) 10 = (qd 1 10 * qz (-2))%Qc) by (apply Qc_is_canon; reflexivity). rewrite E1, E2, E3. change (qz 1) with 1%Qc. ring.
Qed.
Lemma lesser_tenth a b : lesser (qd 1 10 * qz a)%Qc (qd 1 10 * qz b)%Qc = (qd 1 10 * qz (Z.min a b))%Qc.
Proof.
  unfold lesser. assert (P : (0 < qd 1 10)%Qc) by reflexivity. destruct (qleb (qd 1 10 * qz a)%Qc (qd 1 10 * qz b)%Qc) eqn:E.
  - apply qleb_le in E. assert (qz a <= qz b)%Qc by (set (t := qd 1 10) in *; clearbody t; set (u := qz a) in *; set (w := qz b) in *; clearbody u w; qnra). rewrite qz_le in H. rewrite Z.min_l by exact H. reflexivity.
  - apply qleb_gt in E. assert (qz b < qz a)%Qc by (set (t := qd 1 10) in *; clearbody t; set (u := qz a) in *; set (w := qz b) in *; clearbody u w; qnra). rewrite qz_lt in H. rewrite Z.min_r by lia. reflexivity.
Qed.
Lemma nth_sample q j : Forall sample q -> 0 <= nth j q 0 <= 65535.
Proof.
  intros H. destruct (Nat.lt_ge_cases j (length q)) as [L|L].
  - rewrite Forall_forall in H. apply H, nth_In, L.
  - rewrite nth_overflow by exact L. lia.
Qed.
Lemma kat_bound q j : Forall sample q -> - 2 ^ 63 < kat q j.
Proof. intros H. unfold kat, kernel5. pose proof (nth_sample q j H). pose proof (nth_sample q (j + 1) H). pose proof (nth_sample q (j + 3) H). pose proof (nth_sample q (j + 4) H). lia. Qed.
Lemma skipn_Forall {A} (P : A -> Prop) n l : Forall P l -> Forall P (skipn n l).
Proof. intros H. rewrite Forall_forall in *. intros x Hx. apply H. rewrite <- (firstn_skipn n l). apply in_or_app. right. exact Hx. Qed.
Lemma firstn_Forall {A} (P : A -> Prop) n l : Forall P l -> Forall P (firstn n l).
Proof. intros H. rewrite Forall_forall in *. intros x Hx. apply H. rewrite <- (firstn_skipn n l). apply in_or_app. left. exact Hx. Qed.

Lemma postpeak_largest (p : nat) pulse : (p + 7 <= length pulse)%nat -> Forall sample pulse ->
  exists m, postpeak (Z.of_nat p) (length pulse) pulse = Some m /\
    largest (length (skipn p pulse) - 6) (fun j => lesser (slope [qd 2 10; qd 1 10; 0%Qc; qd (-1) 10; qd (-2) 10] (map qz (skipn p pulse)) j)
                                                      (slope [qd 2 10; qd 1 10; 0%Qc; qd (-1) 10; qd (-2) 10] (map qz (skipn p pulse)) (j + 2))) m.
Proof.
  intros HL HS. unfold postpeak. rewrite (proj2 (Z.ltb_ge (Z.of_nat p) 0)) by lia. rewrite Nat2Z.id.
  apply (skipn_Forall _ p) in HS. assert (LQ : length (skipn p pulse) = (length pulse - p)%nat) by apply skipn_length.
  destruct (skipn p pulse) as [|a [|b [|c [|d [|e [|f rest]]]]]] eqn:Q; cbn [length] in LQ; try lia.
  rewrite (firstn_all2 rest) by lia. pose proof (deriv_fold rest a b c d e f (- 2 ^ 63)) as D. cbv zeta in D.
  set (q := a :: b :: c :: d :: e :: f :: rest) in *.
  set (s := fold_left deriv_step rest _) in *. destruct s as [[[[[[s1 s2] s3] s4] s5] s6] m]. cbn [last7] in D. destruct D as [D1 [D2 D3]].
  exists (qd 1 10 * qz m)%Qc. split; [reflexivity|]. cbn [length]. replace (S (S (S (S (S (S (length rest)))))) - 6)%nat with (length rest) by lia.
  assert (P : (0 < qd 1 10)%Qc) by reflexivity. change (length q - 6)%nat with (length rest - 0)%nat. rewrite Nat.sub_0_r. split.
  - destruct D3 as [D3|[j [Hj D3]]].
    + assert (0 < length rest)%nat as H0 by lia. specialize (D2 O H0). pose proof (kat_bound q 0 HS). pose proof (kat_bound q (0 + 2) HS). lia.
    + exists j. split; [exact Hj|]. rewrite !slope_kat, lesser_tenth, D3. reflexivity.
  - intros j Hj. rewrite !slope_kat, lesser_tenth. specialize (D2 j Hj). apply qz_le in D2. set (u := qz m) in *. set (w := qz (Z.min _ _)) in *. clearbody u w. set (t := qd 1 10) in *. clearbody t. qnra.
Qed.

Lemma postpeak_python (p : nat) pulse : (p + 7 <= length pulse)%nat -> Forall sample pulse ->
  postpeak (Z.of_nat p) (length pulse) pulse = row_spike (qd 2 10) (qd 1 10) 0 (qd (-1) 10) (qd (-2) 10) (skipn p (map qz pulse)).
Proof.
  intros HL HS. destruct (postpeak_largest p pulse HL HS) as [m [E L]]. rewrite E. rewrite skipn_map.
  destruct (row_spike_ok (qd 2 10) (qd 1 10) 0 (qd (-1) 10) (qd (-2) 10) (map qz (skipn p pulse))) as [m' [E' L']].
  { rewrite map_length, skipn_length. lia. }
  rewrite E'. f_equal. rewrite map_length in L'. exact (largest_unique _ _ _ _ L L').
Qed.

(* ---------- numpy reductions ---------- *)

Lemma fold_max_spec l : forall m, (fold_left Z.max l m = m \/ In (fold_left Z.max l m) l) /\ m <= fold_left Z.max l m /\ forall x, In x l -> x <= fold_left Z.max l m.
Proof.
  induction l as [|a l IH]; intros m; cbn [fold_left]; [split; [left; reflexivity|split; [lia|intros x []]]|].
  destruct (IH (Z.max m a)) as [A [B C]]. split; [|split].
  - destruct A as [A|A]; [|right; right; exact A]. destruct (Z.max_spec m a) as [[_ M]|[_ M]]; rewrite M in *; [right; left; symmetry; exact A|left; exact A].
  - lia.
  - intros x [<-|Hx]; [lia|apply C, Hx].
Qed.
Lemma zmax_spec l v : zmax l = Some v -> In v l /\ forall x, In x l -> x <= v.
Proof.
  destruct l as [|a l]; [discriminate|]. cbn [zmax]. intros H. apply some_eq in H. subst v. destruct (fold_max_spec l a) as [A [B C]]. split.
  - destruct A as [A|A]; [left; symmetry; exact A|right; exact A].
  - intros x [<-|Hx]; [exact B|apply C, Hx].
Qed.
Lemma zmin_least l v : zmin l = Some v -> least l v.
Proof.
  destruct l as [|a l]; [discriminate|]. cbn [zmin]. intros H. apply some_eq in H. subst v. destruct (fold_min_spec l a) as [A [B C]]. split.
  - destruct A as [A|A]; [left; symmetry; exact A|right; exact A].
  - intros x [<-|Hx]; [exact B|apply C, Hx].
Qed.
Lemma least_unique l v v' : least l v -> least l v' -> v = v'.
Proof. intros [A B] [A' B']. specialize (B v' A'). specialize (B' v A). lia. Qed.
Lemma index_of_spec v l : In v l -> nth_error l (index_of v l) = Some v /\ forall j x, (j < index_of v l)%nat -> nth_error l j = Some x -> x <> v.
Proof.
  induction l as [|a l IH]; intros H; [destruct H|]. cbn [index_of]. destruct (Z.eqb_spec a v) as [->|N]; [split; [reflexivity|intros j x Hj; lia]|].
  destruct H as [H|H]; [congruence|]. destruct (IH H) as [A B]. split; [exact A|]. intros [|j] x Hj E; cbn in E; [congruence|]. apply (B j); [lia|exact E].
Qed.
Lemma argmax_first l v i : zmax l = Some v -> argmax l = Some i -> first_maximum l i v.
Proof.
  intros E A. unfold argmax in A. rewrite E in A. apply some_eq in A. subst i. destruct (zmax_spec l v E) as [I M]. destruct (index_of_spec v l I) as [N F].
  split; [exact N|]. split; [exact M|]. intros j x Hj Ej. specialize (F j x Hj Ej). specialize (M x (nth_error_In _ _ Ej)). lia.
Qed.
Lemma mean_some l m : mean l = Some m <-> mean_is l m.
Proof.
  rewrite mean_quot. destruct l as [|a l]; [split; [discriminate|intros [H _]; contradiction]|]. unfold mean. split.
  - intros H. apply some_eq in H. split; [discriminate|symmetry; exact H].
  - intros [_ ->]. reflexivity.
Qed.
Lemma variance_some l m v : mean_is l m -> (variance l = Some v <-> mean_square_is l m v).
Proof.
  intros H. unfold variance. rewrite (proj2 (mean_some l m) H). destruct H as [Hne _]. pose proof (qz_len l Hne) as N. unfold mean_square_is. fold (total (map (fun x => ((qz x - m) * (qz x - m))%Qc) l)).
  set (t := total _). clearbody t. split.
  - intros E. apply some_eq in E. subst v. split; [exact Hne|]. field. exact N.
  - intros [_ E]. f_equal. rewrite <- E. field. exact N.
Qed.
Lemma mean_square_unique l c v v' : mean_square_is l c v -> mean_square_is l c v' -> v = v'.
Proof. rewrite !mean_square_quot. intros [_ ->] [_ ->]. reflexivity. Qed.

(* ---------- the Python version ---------- *)

Definition pyeq (npre ignore ps : nat) (x : list Z) (p : pysum) : Prop :=
  mean_is (firstn (npre - ignore) x) (py_mean p) /\
  mean_square_is (firstn (npre - ignore) x) (py_mean p) (py_ms p) /\
  (py_shift1 p = true <-> exists s, nth_error x (npre - 1) = Some s /\ rises_early s (py_mean p) (py_ms p)) /\
  least x (py_min p) /\
  mean_is (skipn npre x) (py_average p + py_mean p)%Qc /\
  mean_square_is (skipn npre x) (py_mean p) (py_pulse_ms p) /\
  exists i v b, first_maximum (skipn npre x) i v /\ integer_part (py_mean p) b /\
    py_peak_index p = Z.of_nat (npre + i) /\ py_peak_value p = (v - b) mod 65536 /\
    py_postpeak p = row_spike (qd 2 10) (qd 1 10) 0 (qd (-1) 10) (qd (-2) 10) (skipn ps (map qz x)) /\
    (py_peak_value p <> 0 -> forall d, py_promptness p = Some d <->
      mean_is (firstn ((npre + 2 + ps) / 2 - (npre + 2)) (skipn (if py_shift1 p then npre + 1 else npre + 2) x)) (d * qz (py_peak_value p) + py_mean p)%Qc).

Lemma python_row npre ignore ps x p : Forall sample x -> python_summary 0 0 npre ignore ps x = Some p ->
  (ignore < npre < length x)%nat /\ pyeq npre ignore ps x p.
Proof.
  intros HS. unfold python_summary. cbn zeta.
  destruct (Nat.ltb npre (ignore + 1) || (length x <? 0)%nat || (ps <? 0)%nat || (length x <? npre)%nat) eqn:G; [discriminate|].
  apply orb_false_iff in G as [G G2]. apply orb_false_iff in G as [G _]. apply orb_false_iff in G as [G1 _]. apply Nat.ltb_ge in G1, G2.
  unfold slice at 1 2. cbn [skipn]. rewrite !Nat.sub_0_r. unfold slice. cbn [skipn]. rewrite !Nat.sub_0_r.
  rewrite (firstn_all x). rewrite (firstn_all2 (skipn npre x)) by (rewrite skipn_length; lia).
  set (base := firstn (npre - ignore) x). set (post := skipn npre x).
  destruct (mean base) as [ptm|] eqn:EM; [|discriminate]. destruct (variance base) as [var|] eqn:EV; [|discriminate].
  destruct (argmax post) as [ipk|] eqn:EA; [|discriminate]. destruct (zmax post) as [pk|] eqn:EP; [|discriminate].
  destruct (zmin x) as [mn|] eqn:EN; [|discriminate]. destruct (mean post) as [av|] eqn:EAV; [|discriminate].
  destruct (mean (squares post)) as [av2|] eqn:EA2; [|discriminate].
  intros R. apply some_eq in R. subst p.
  apply mean_some in EM. apply (variance_some _ _ _ EM) in EV. pose proof (argmax_first _ _ _ EP EA) as FM. apply mean_some in EAV, EA2. apply zmin_least in EN.
  assert (LN : (npre < length x)%nat).
  { destruct FM as [FM _]. assert (S : (ipk < length post)%nat) by (apply nth_error_Some; rewrite FM; discriminate). unfold post in S. rewrite skipn_length in S. lia. }
  split; [lia|]. unfold pyeq. cbn [py_mean py_ms py_shift1 py_peak_index py_peak_value py_promptness py_min py_average py_pulse_ms py_postpeak].
  split; [exact EM|]. split; [exact EV|]. split.
  { destruct (split_at x (npre - 1)) as [s [Es _]]; [lia|]. rewrite (nth_error_nth _ _ 0 Es), shifted_spec. split.
    - intros H. exists s. split; [exact Es|exact H].
    - intros [s' [E' H]]. rewrite Es in E'. injection E' as <-. exact H. }
  split; [exact EN|]. split; [replace (av - ptm + ptm)%Qc with av by ring; exact EAV|]. split.
  { fold post. apply mean_square_quot. apply mean_quot in EAV as [P0 EAV], EA2 as [_ EA2]. split; [exact P0|]. unfold squares at 2 in EA2. rewrite map_length in EA2. pose proof (qz_len post P0) as N.
    subst av av2. change (qz 2) with (1 + 1)%Qc. field. exact N. }
  assert (PT : (0 <= ptm)%Qc).
  { apply (mean_ge base ptm 0 EM). intros y Hy. pose proof (firstn_Forall _ (npre - ignore) _ HS) as F. rewrite Forall_forall in F. apply F, Hy. }
  assert (PB : (ptm <= qz 65535)%Qc).
  { apply (mean_le base ptm 65535 EM). intros y Hy. pose proof (firstn_Forall _ (npre - ignore) _ HS) as F. rewrite Forall_forall in F. apply F, Hy. }
  destruct (trunc_spec ptm PT) as [IP T0].
  exists ipk, pk, (trunc ptm). split; [exact FM|]. split; [exact IP|]. split; [f_equal; lia|]. split; [|split; [reflexivity|]].
  2: { intros PK d. set (s := shifted _ _ _) in *. set (peak := ushort _) in *. clearbody s peak.
    assert (W : (if s then slice (npre + 1) ((npre + 2 + ps) / 2 - 1) x else slice (npre + 2) ((npre + 2 + ps) / 2) x) = firstn ((npre + 2 + ps) / 2 - (npre + 2)) (skipn (if s then npre + 1 else npre + 2) x)).
    { unfold slice. destruct s; [|reflexivity]. f_equal. lia. }
    unfold slice in W. rewrite W. set (win := firstn _ _). pose proof (qz_neq _ PK) as QP.
    rewrite <- mean_some. destruct (mean win) as [m|]; [|split; discriminate]. rewrite (proj2 (Z.eqb_neq _ _) PK). split; intros E; apply some_eq in E; f_equal; [subst d|subst m]; field; exact QP. }
  unfold ushort. rewrite (Z.mod_small (trunc ptm)); [reflexivity|]. destruct IP as [IP _].
  assert (qz (trunc ptm) <= qz 65535)%Qc by qlra. rewrite qz_le in H. lia.
Qed.

Lemma python_total npre ignore ps x : (ignore < npre < length x)%nat -> exists p, python_summary 0 0 npre ignore ps x = Some p.
Proof.
  intros H. unfold python_summary. cbn zeta.
  rewrite (proj2 (Nat.ltb_ge npre (ignore + 1))), (proj2 (Nat.ltb_ge (length x) 0)), (proj2 (Nat.ltb_ge ps 0)), (proj2 (Nat.ltb_ge (length x) npre)) by lia. cbn [orb].
  unfold slice. cbn [skipn]. rewrite !Nat.sub_0_r. rewrite (firstn_all x). rewrite (firstn_all2 (skipn npre x)) by (rewrite skipn_length; lia).
  set (base := firstn (npre - ignore) x). set (post := skipn npre x).
  assert (B0 : base <> []) by (intro C; apply (f_equal (@length Z)) in C; unfold base in C; rewrite firstn_length_le in C; cbn in C; lia).
  assert (P0 : post <> []) by (intro C; apply (f_equal (@length Z)) in C; unfold post in C; rewrite skipn_length in C; cbn in C; lia).
  assert (X0 : x <> []) by (intro C; subst x; cbn in H; lia).
  unfold variance, argmax. destruct base as [|b0 base]; [contradiction|]. destruct post as [|p0 post]; [contradiction|]. destruct x as [|x0 x]; [contradiction|].
  cbn [mean zmax zmin squares map]. eexists. reflexivity.
Qed.

(** Where the two versions agree. *)
Lemma versions timebase (ignore npre ps : nat) pulse c p :
  (npre <= length pulse)%nat -> Z.of_nat npre + 8 < 65536 -> Z.of_nat (length pulse) <= 65535 -> Forall sample pulse ->
  summarize_row timebase (Z.of_nat ps) (Z.of_nat ignore) (Z.of_nat npre) pulse = Some c ->
  python_summary 0 0 npre ignore ps pulse = Some p ->
  py_mean p = pretrig_mean c /\ py_ms p = pretrig_ms c /\ py_shift1 p = shift1 c /\ py_min p = min_value c /\
  ((ps + 7 <= length pulse)%nat -> py_postpeak p = postpeak_deriv c /\ exists d, py_postpeak p = Some d) /\
  (exists x, nth_error pulse (npre - 1) = Some x /\
    (pulse_average c * qz (Z.of_nat (length pulse - npre + 1)) = py_average p * qz (Z.of_nat (length pulse - npre)) + (qz x - pretrig_mean c))%Qc /\
    (pulse_ms c * qz (Z.of_nat (length pulse - npre + 1)) = py_pulse_ms p * qz (Z.of_nat (length pulse - npre)) + (qz x - pretrig_mean c) * (qz x - pretrig_mean c))%Qc) /\
  forall i v, first_maximum pulse i v -> (npre <= i)%nat -> (pretrig_mean c < qz v)%Qc ->
    py_peak_index p = peak_index c /\
    ((exists b, integer_part (pretrig_mean c) b /\ (pretrig_mean c < qz b + qz 1 / qz 2)%Qc) /\ py_peak_value p = peak_value c \/
     (exists b, integer_part (pretrig_mean c) b /\ (qz b + qz 1 / qz 2 <= pretrig_mean c)%Qc) /\ py_peak_value p = peak_value c + 1).
Proof.
  intros HN H8 HL HS EC EP. destruct (python_row _ _ _ _ _ HS EP) as [HN' [A1 [A2 [A3 [A4 [A5 [A6 [j [w [b [A7 [A8 [A9 [A10 [A11 _]]]]]]]]]]]]]]].
  assert (HN2 : (ignore < npre <= length pulse)%nat) by lia.
  pose proof (row_statistics timebase (Z.of_nat ps) ignore npre pulse c HN2 H8 HL HS EC) as [B1 [B2 [B3 [B4 [B5 [B6 B7]]]]]].
  assert (E1 : py_mean p = pretrig_mean c) by exact (mean_unique _ _ _ A1 B1). rewrite E1 in *.
  assert (E2 : py_ms p = pretrig_ms c) by exact (mean_square_unique _ _ _ _ A2 B2). rewrite E2 in *.
  split; [reflexivity|]. split; [reflexivity|]. split.
  { rewrite <- B3 in A3. destruct (py_shift1 p), (shift1 c); try reflexivity; [destruct A3 as [A3 _]; symmetry; apply A3; reflexivity|destruct A3 as [_ A3]; apply A3; reflexivity]. }
  split; [exact (least_unique _ _ _ A4 B4)|].
  assert (PPK : postpeak_deriv c = postpeak (Z.of_nat ps) (length pulse) pulse).
  { destruct (summarize_row_eq timebase (Z.of_nat ps) ignore npre pulse HN2 H8 HL) as [x [Ex R]]. cbv zeta in R. destruct R as [_ R]. rewrite EC in R.
    destruct (qltb _ _) in R; [destruct (_ =? 0) in R; [discriminate|]|]; apply some_eq in R; subst c; reflexivity. }
  split.
  { intros H7. rewrite A11, PPK. split; [symmetry; apply postpeak_python; assumption|]. rewrite <- postpeak_python by assumption. destruct (postpeak_largest ps pulse H7 HS) as [d [Ed _]]. exists d. exact Ed. }
  destruct (split_at pulse (npre - 1)) as [x [Ex [Fx Gx]]]; [lia|]. replace (S (npre - 1)) with npre in * by lia.
  split.
  { exists x. split; [exact Ex|]. rewrite Gx in B5, B6. destruct A5 as [_ A5], B5 as [_ B5], A6 as [_ A6], B6 as [_ B6]. cbn [map length] in B5, B6. rewrite skipn_length in *.
    unfold total in B5, B6. cbn [fold_right] in B5, B6. fold (total (map qz (skipn npre pulse))) in B5. fold (total (map (fun y => ((qz y - pretrig_mean c) * (qz y - pretrig_mean c))%Qc) (skipn npre pulse))) in B6.
    rewrite <- A5 in B5. rewrite <- A6 in B6. rewrite qz_S in B5, B6. replace (length pulse - npre + 1)%nat with (S (length pulse - npre)) by lia. rewrite qz_S. split.
    - set (k := qz (Z.of_nat (length pulse - npre))) in *. clearbody k. apply (f_equal (fun q => (q - pretrig_mean c * (k + 1))%Qc)) in B5.
      transitivity ((pulse_average c + pretrig_mean c) * (k + 1) - pretrig_mean c * (k + 1))%Qc; [ring|]. rewrite B5. ring.
    - rewrite B6. ring. }
  intros i v FM Hi Hv. destruct B7 as [i' [v' [FM' B7]]]. destruct (first_maximum_unique _ _ _ _ _ FM FM') as [<- <-].
  destruct B7 as [[_ [B7 [B8 [B9 _]]]]|[B7 _]]; [|exfalso; clear - Hv B7; qlra].
  assert (FM2 : first_maximum (skipn npre pulse) (i - npre) v).
  { destruct FM as [F1 [F2 F3]]. split; [rewrite nth_error_skipn; replace (npre + (i - npre))%nat with i by lia; exact F1|]. split.
    - intros y Hy. apply F2. rewrite <- (firstn_skipn npre pulse). apply in_or_app. right. exact Hy.
    - intros k y Hk Ek. rewrite nth_error_skipn in Ek. apply (F3 (npre + k)%nat); [lia|exact Ek]. }
  destruct (first_maximum_unique _ _ _ _ _ FM2 A7) as [<- <-]. split; [rewrite A9, B7; f_equal; lia|].
  assert (VS : sample v) by (rewrite Forall_forall in HS; destruct FM as [F1 _]; apply HS; eapply nth_error_In; exact F1).
  assert (M0 : (0 <= pretrig_mean c)%Qc).
  { apply (mean_ge _ _ 0 B1). intros y Hy. pose proof (firstn_Forall _ (npre - ignore) _ HS) as F. rewrite Forall_forall in F. apply F, Hy. }
  assert (BB : 0 <= b <= v).
  { destruct A8 as [A8 A8']. split.
    - assert (qz 0 < qz (b + 1))%Qc by (rewrite qz_add; change (qz 1) with 1%Qc; change (qz 0) with 0%Qc; qlra). rewrite qz_lt in H. lia.
    - assert (qz b < qz v)%Qc by qlra. rewrite qz_lt in H. lia. }
  rewrite Z.mod_small in A10 by (destruct VS; lia).
  destruct (qltb (pretrig_mean c) (qz b + qz 1 / qz 2)%Qc) eqn:Q; [apply qltb_lt in Q|apply qltb_ge in Q]; [left|right]; (split; [exists b; split; assumption|]).
  - assert (NB : nearest (pretrig_mean c) b) by (destruct A8 as [A8 A8']; split; [rewrite <- half_eq; assert ((0 < qd 1 2)%Qc) by reflexivity; set (h := qd 1 2) in *; clearbody h; qlra|exact Q]).
    pose proof (nearest_unique _ _ _ NB B9). lia.
  - assert (NB : nearest (pretrig_mean c) (b + 1)).
    { destruct A8 as [A8 A8']. unfold nearest. rewrite qz_add. change (qz (1)) with 1%Qc. change (1 / qz 2)%Qc with (qz 1 / qz 2)%Qc. rewrite <- half_eq in *. pose proof half_sum as HH. set (h := qd 1 2) in *. assert ((0 < h)%Qc) by reflexivity. clearbody h. split; qlra. }
    pose proof (nearest_unique _ _ _ NB B9). lia.
Qed.
