From Coq Require Import ZArith QArith Qcanon Bool Lia List.
From Verif Require Import QcPre LagModel LagProofs FluxProofs ToepModel ToepProofs OptModel OptProofs Kept NoiModel NoiSpec.
Import ListNotations.
Open Scope Z_scope.

(** * Padding *)

Lemma round_exact q b : 0 < b -> round_even (b * q) b = q.
Proof.
  intros B. unfold round_even. rewrite (Z.mul_comm b q), Z.div_mul by lia.
  replace (q * b - b * q) with 0 by lia. cbn [Z.mul].
  destruct (Z.ltb_spec 0 b); [reflexivity | lia].
Qed.

Lemma pow_between j k : 0 <= j -> 0 <= k -> 2 ^ j < 2 ^ k -> 2 * 2 ^ j <= 2 ^ k.
Proof.
  intros J K L. assert (j < k) by (apply (Z.pow_lt_mono_r_iff 2); lia).
  rewrite <- Z.pow_succ_r by lia. apply Z.pow_le_mono_r; lia.
Qed.

Lemma padded_ok n : 1 <= n ->
  n <= padded_length n < 2 * n /\ good_length (padded_length n) /\
  forall m, good_length m -> n <= m -> padded_length n <= m.
Proof.
  intros N. unfold padded_length. cbv zeta.
  destruct (Z.eq_dec n 1) as [->|N1].
  { cbn. split; [lia|]. split; [exists 0; cbn; lia|]. lia. }
  assert (S := Z.log2_up_spec n ltac:(lia)). assert (K := Z.log2_up_pos n ltac:(lia)).
  set (k := Z.log2_up n) in *. clearbody k.
  assert (P : 2 ^ k = 2 * 2 ^ (Z.pred k)) by (rewrite <- Z.pow_succ_r by lia; f_equal; lia).
  set (h := 2 ^ Z.pred k) in *. assert (H0 : 0 < h) by (unfold h; apply Z.pow_pos_nonneg; lia).
  assert (G : forall m, good_length m -> n <= m -> m < 2 * h ->
    exists j, 0 <= j /\ ((m = 3 * 2 ^ j /\ 2 * h = 4 * 2 ^ j) \/ (m = 5 * 2 ^ j /\ 2 * h = 8 * 2 ^ j))).
  { intros m [j (J & M)] L U. exists j. split; [exact J|].
    assert (J0 : 0 < 2 ^ j) by (apply Z.pow_pos_nonneg; lia).
    destruct M as [M | [M | M]].
    - exfalso. rewrite M, <- P in U. apply pow_between in U; lia.
    - left. split; [exact M|]. 
      assert (2 ^ j < h) by lia. unfold h in H. apply pow_between in H; [|lia|lia]. fold h in H.
      assert (~ 2 * 2 ^ j < h); [|lia]. intros Q. rewrite <- Z.pow_succ_r in Q by lia. unfold h in Q.
      apply pow_between in Q; [|lia|lia]. fold h in Q. rewrite Z.pow_succ_r in Q by lia. lia.
    - right. split; [exact M|].
      assert (2 ^ j < h) by lia. unfold h in H. apply pow_between in H; [|lia|lia]. fold h in H.
      assert (Q : 2 ^ Z.succ j < h) by (rewrite Z.pow_succ_r by lia; lia). unfold h in Q.
      apply pow_between in Q; [|lia|lia]. fold h in Q. rewrite Z.pow_succ_r in Q by lia.
      assert (~ 4 * 2 ^ j < h); [|lia]. intros R.
      assert (R' : 2 ^ Z.succ (Z.succ j) < h) by (rewrite !Z.pow_succ_r by lia; lia). unfold h in R'.
      apply pow_between in R'; [|lia|lia]. fold h in R'. rewrite !Z.pow_succ_r in R' by lia. lia. }
  rewrite P. fold h.
  assert (GP : good_length (2 * h)) by (exists k; split; [lia | left; rewrite P; reflexivity]).
  destruct (Z.eqb_spec n (2 * h)) as [E|E].
  { split; [lia|]. split; [now rewrite E | lia]. }
  destruct (Z.ltb_spec (3 * (2 * h)) (4 * n)) as [A|A].
  { split; [lia|]. split; [exact GP|]. intros m M L. destruct (Z_lt_le_dec m (2 * h)) as [U|U]; [|exact U].
    destruct (G m M L U) as [j (J & D)]. lia. }
  (* now n <= 3/4 pow2, so pow2 >= 4 *)
  assert (H2 : 2 <= k).
  { assert (k <> 1); [|lia]. intros ->. cbn in h. subst h. lia. }
  assert (h = 2 * 2 ^ (k - 2)).
  { unfold h. rewrite <- Z.pow_succ_r by lia. f_equal. lia. }
  set (q := 2 ^ (k - 2)) in *. assert (Q0 : 0 < q) by (unfold q; apply Z.pow_pos_nonneg; lia).
  destruct (Z.ltb_spec (5 * (2 * h)) (8 * n)) as [B|B].
  { replace (3 * (2 * h)) with (4 * (3 * q)) by lia. rewrite round_exact by lia.
    split; [lia|]. split; [exists (k - 2); split; [lia | right; left; reflexivity]|].
    intros m M L. destruct (Z_lt_le_dec m (2 * h)) as [U|U]; [|lia].
    destruct (G m M L U) as [j (J & D)]. lia. }
  assert (H3 : 3 <= k).
  { assert (k <> 2); [|lia]. intros ->. cbn in q. subst q. lia. }
  assert (q = 2 * 2 ^ (k - 3)).
  { unfold q. rewrite <- Z.pow_succ_r by lia. f_equal. lia. }
  set (e := 2 ^ (k - 3)) in *. 
  replace (5 * (2 * h)) with (8 * (5 * e)) by lia. rewrite round_exact by lia.
  split; [lia|]. split; [exists (k - 3); split; [lia | right; right; reflexivity]|].
  intros m M L. destruct (Z_lt_le_dec m (2 * h)) as [U|U]; [|lia].
  destruct (G m M L U) as [j (J & D)]. lia.
Qed.

(** * Sums *)

Lemma chunks_pieces {A : Type} size n : forall (l : list A),
  chunks n size l = map (fun j => firstn size (skipn (j * size) l)) (seq 0 n).
Proof.
  induction n as [|n IH]; intros l; [reflexivity|]. cbn [chunks seq map Nat.mul skipn]. f_equal.
  rewrite IH, <- seq_shift, map_map. apply map_ext. intros j. f_equal.
  rewrite skipn_add. reflexivity.
Qed.

Lemma chunks_eq {A : Type} size (l : list A) : chunks (length l / size) size l = pieces size l.
Proof. apply chunks_pieces. Qed.

Lemma piece_length {A : Type} size (l : list A) p : In p (pieces size l) -> size <> 0%nat -> length p = size.
Proof.
  unfold pieces. rewrite in_map_iff. intros [j (<- & J)] S. apply in_seq in J.
  rewrite firstn_length, skipn_length. 
  assert (length l / size * size <= length l)%nat by (rewrite Nat.mul_comm; apply Nat.mul_div_le, S). nia.
Qed.

Local Open Scope Qc_scope.

Lemma vsum_nth n ls : forall acc i, (i < n)%nat -> length acc = n ->
  nth i (fold_left (fun acc l => map (fun i => nth i acc 0 + nth i l 0) (seq 0 n)) ls acc) 0 =
  nth i acc 0 + qsum (length ls) (fun j => nth i (nth j ls []) 0).
Proof.
  induction ls as [|l ls IH]; intros acc i I L; cbn [fold_left length].
  - cbn [qsum]. ring.
  - rewrite IH by (try exact I; now rewrite map_length, seq_length).
    rewrite nth_map_seq by exact I. rewrite qsum_S_l. cbn [nth]. ring.
Qed.

Lemma vsum_spec n ls i : (i < n)%nat -> nth i (vsum n ls) 0 = qsum (length ls) (fun j => nth i (nth j ls []) 0).
Proof.
  intros I. unfold vsum. rewrite vsum_nth by (try exact I; apply repeat_length).
  rewrite nth_repeat. ring.
Qed.

Lemma nth_map_in {A B : Type} (f : A -> B) l i a b : (i < length l)%nat -> nth i (map f l) b = f (nth i l a).
Proof. intros I. rewrite (nth_indep _ b (f a)) by now rewrite map_length. apply map_nth. Qed.

(** The average of the normalised entries, as both estimators compute it. *)
Lemma averaged n (g : list Qc -> nat -> Qc) (d : nat -> Qc) used k : (k < n)%nat ->
  nth k (vsum n (map (fun c => map (g c) (seq 0 n)) used)) 0 / qn (length used) / d k =
  average (map (fun c => g c k / d k) used).
Proof.
  intros K. rewrite vsum_spec by exact K. unfold average. rewrite !map_length.
  unfold Qcdiv. rewrite <- Qcmult_assoc, (Qcmult_comm (/ qn _)), Qcmult_assoc. f_equal.
  rewrite <- qsum_scale_r. apply qsum_ext. intros i I.
  rewrite (nth_map_in _ used i [] []) by exact I.
  rewrite (nth_map_in (fun c => g c k * / d k) used i [] 0) by exact I.
  rewrite nth_map_seq by exact K. reflexivity.
Qed.

Lemma centred_length l : length (centred l) = length l. Proof. apply map_length. Qed.
Lemma centred_nth l i : (i < length l)%nat -> nth i (centred l) 0 = nth i l 0 - average l.
Proof. intros I. unfold centred. rewrite nth_map_q by exact I. reflexivity. Qed.

Lemma qn_neq n : n <> 0%nat -> qn n <> 0.
Proof. intros N. apply qz_neq. lia. Qed.

Lemma qsum_const n c : qsum n (fun _ => c) = qn n * c.
Proof.
  induction n as [|n IH]; cbn [qsum]; [unfold qn; change (qz (Z.of_nat 0)) with 0; ring|].
  rewrite IH. unfold qn. rewrite Nat2Z.inj_succ. unfold Z.succ.
  rewrite qz_add. change (qz 1) with 1. ring.
Qed.

Lemma centred_total l : l <> [] -> total (centred l) = 0.
Proof.
  intros N. unfold total. rewrite centred_length.
  rewrite (qsum_ext _ _ (fun i => nth i l 0 - average l)) by (intros i I; now apply centred_nth).
  rewrite qsum_sub, qsum_const. unfold average. 
  assert (L : qn (length l) <> 0) by (apply qn_neq; destruct l; [contradiction | discriminate]).
  field. exact L.
Qed.

Lemma total_app a b : total (a ++ b) = total a + total b.
Proof.
  unfold total. rewrite app_length, qsum_split. f_equal; apply qsum_ext; intros i I.
  - now rewrite app_nth1.
  - now rewrite app_nth2_plus.
Qed.
Lemma total_zeros n : total (repeat 0 n) = 0.
Proof. unfold total. apply qsum_zero. intros i _. apply nth_repeat. Qed.

(** With enough zeros the circular autocorrelation is the linear one. *)
Lemma circular_linear l z k : l <> [] -> (k <= z)%nat -> (k < length l)%nat ->
  circular (centred l ++ repeat 0 z) k =
  qsum (length l - k) (fun i => (nth i l 0 - average l) * (nth (i + k) l 0 - average l)).
Proof.
  intros N Z K. unfold circular. rewrite total_app, total_zeros, centred_total by exact N.
  rewrite app_length, centred_length, repeat_length.
  set (x := centred l ++ repeat 0 z).
  assert (X0 : forall i, (length l <= i)%nat -> nth i x 0 = 0).
  { intros i I. unfold x. rewrite app_nth2 by now rewrite centred_length. apply nth_repeat. }
  assert (X1 : forall i, (i < length l)%nat -> nth i x 0 = nth i l 0 - average l).
  { intros i I. unfold x. rewrite app_nth1 by now rewrite centred_length. now apply centred_nth. }
  rewrite (qsum_pad (length l - k) (length l + z)).
  - rewrite (qsum_ext _ _ (fun i => (nth i l 0 - average l) * (nth (i + k) l 0 - average l))).
    + ring_simplify. unfold Qcdiv. ring.
    + intros i I. rewrite Nat.mod_small by lia. rewrite !X1 by lia. reflexivity.
  - lia.
  - intros i I. destruct (Nat.lt_ge_cases i (length l)).
    + rewrite Nat.mod_small by lia. rewrite (X0 (i + k)%nat) by lia. ring.
    + rewrite (X0 i) by lia. ring.
Qed.

Lemma linear_centred l k : linear (centred l) k =
  qsum (length l - k) (fun i => (nth i l 0 - average l) * (nth (i + k) l 0 - average l)).
Proof.
  unfold linear. rewrite centred_length. apply qsum_ext. intros i I.
  rewrite !centred_nth by lia. ring.
Qed.

Lemma qabs_le x a : qltb x (qabs a) = false <-> a <= x /\ - a <= x.
Proof.
  rewrite qltb_ge. unfold qabs. destruct (qltb a 0) eqn:E.
  - apply qltb_lt in E. split; [intros H; split; [qlra | exact H] | tauto].
  - apply qltb_ge in E. split; [intros H; split; [exact H | qlra] | tauto].
Qed.

Lemma quiet_bool x c z : c <> [] ->
  quiet x c <-> negb (existsb (fun v => qltb x (qabs v)) (centred c ++ repeat 0 z)) = true.
Proof.
  intros N. rewrite negb_true_iff, <- not_true_iff_false, existsb_exists. split.
  - intros Q [v (V & E)]. apply in_app_or in V.
    assert (A : forall u, In u (centred c) -> qltb x (qabs u) = false).
    { intros u U. unfold centred in U. apply in_map_iff in U. destruct U as [w (<- & W)].
      apply qabs_le. destruct (Q w W) as [A B]. change (mean c) with (average c). split; [exact A | qlra]. }
    destruct V as [V | V]; [rewrite (A v V) in E; discriminate E|].
    apply repeat_spec in V. subst v. destruct c as [|w c]; [contradiction|].
    specialize (A (w - mean (w :: c)) (or_introl eq_refl)).
    apply qabs_le in A. destruct A as [A1 A2]. assert (B : 0 <= x) by qlra.
    assert (C : qltb x (qabs 0) = false) by (apply qabs_le; split; qlra). congruence.
  - intros H v V. 
    assert (A : qltb x (qabs (v - average c)) = false).
    { apply not_true_is_false. intros E. apply H. exists (v - average c). split; [|exact E].
      apply in_or_app. left. unfold centred. apply in_map_iff. exists v. split; [reflexivity | exact V]. }
    apply qabs_le in A. destruct A. split; [assumption | qlra].
Qed.

Lemma small_range_bool x r : r <> [] -> small_range x r <->
  match lmax r, lmin r with Some hi, Some lo => negb (qltb x (hi - lo)) | _, _ => false end = true.
Proof.
  intros N. destruct (lmax r) as [hi|] eqn:H; [|destruct r; [contradiction | discriminate H]].
  destruct (lmin r) as [lo|] eqn:L; [|destruct r; [contradiction | discriminate L]].
  apply lmax_ok in H. apply lmin_ok in L. destruct H as [H1 H2], L as [L1 L2].
  rewrite negb_true_iff, qltb_ge. split.
  - intros S. now apply S.
  - intros E u v U V. specialize (H2 u U). specialize (L2 v V). qlra.
Qed.

Lemma good_even m : (16 <= m)%Z -> good_length m -> Z.even m = true.
Proof.
  intros M [k (K & D)]. assert (k <> 0)%Z by (intros ->; cbn in D; lia).
  assert (2 ^ k = 2 * 2 ^ (k - 1))%Z by (rewrite <- Z.pow_succ_r by lia; f_equal; lia).
  apply Z.even_spec. destruct D as [-> | [-> | ->]]; rewrite H0;
    [exists (2 ^ (k - 1))%Z | exists (3 * 2 ^ (k - 1))%Z | exists (5 * 2 ^ (k - 1))%Z]; lia.
Qed.

Lemma concat_length n (rows : list (list Qc)) : Forall (fun r => length r = n) rows -> length (concat rows) = (n * length rows)%nat.
Proof.
  intros H. induction H as [|r rows R H IH]; cbn [concat length]; [lia|]. rewrite app_length, IH, R. lia.
Qed.

Lemma continuous_ok nSamples rps rows L x used :
  (1 <= L)%nat -> (L <= rps * nSamples)%nat -> Forall (fun r => length r = nSamples) rows ->
  (15 * L <= nSamples * length rows)%nat ->
  kept (quiet x) (pieces (15 * L) (concat rows)) used -> used <> [] ->
  ac_continuous nSamples rps rows (Some L) None x = Some (map (mean_autocov used) (seq 0 L)).
Proof.
  intros L1 LS R D U NE. unfold ac_continuous. rewrite Nat.sub_0_r, Nat.min_l by exact LS.
  destruct (Nat.ltb_spec (nSamples * length rows) (15 * L)) as [C|_]; [lia|]. cbv zeta. cbn [andb].
  cbn [skipn]. rewrite firstn_all2 by (destruct nSamples; [cbn in D; lia | nia]).
  assert (P1 := padded_ok (Z.of_nat (L + 15 * L)) ltac:(lia)). destruct P1 as [P1 _].
  set (padded := Z.to_nat (padded_length (Z.of_nat (L + 15 * L)))).
  assert (P : (16 * L <= padded)%nat) by (unfold padded; lia).
  rewrite chunks_eq.
  assert (LEN : forall c, In c (pieces (15 * L) (concat rows)) -> length c = (15 * L)%nat) by (intros c C; apply (piece_length _ _ _ C); lia).
  set (f := fun c => negb _).
  assert (F : filter f (pieces (15 * L) (concat rows)) = used).
  { apply (kept_unique (quiet x) (pieces (15 * L) (concat rows))); [|exact U]. apply kept_filter.
    intros c C. apply quiet_bool. intros ->. apply LEN in C. cbn [length] in C. lia. }
  rewrite F. destruct used as [|c0 used]; [contradiction|]. f_equal.
  apply map_ext_in. intros k K. apply in_seq in K.
  change (qz (Z.of_nat (length (c0 :: used)))) with (qn (length (c0 :: used))).
  change (qz (Z.of_nat (15 * L - k))) with (qn (15 * L - k)).
  rewrite (averaged L (fun c => circular (centred c ++ repeat 0 (padded - 15 * L)%nat)) (fun k => qn (15 * L - k)) (c0 :: used) k) by lia.
  unfold mean_autocov. f_equal. apply map_ext_in. intros c C.
  destruct (kept_in _ _ _ _ U C) as [I _]. apply LEN in I.
  rewrite circular_linear; [|intros ->; cbn [length] in I; lia | lia | lia].
  unfold autocov. now rewrite I.
Qed.

Lemma firstn_map_seq {A : Type} (f : nat -> A) a n : (a <= n)%nat -> firstn a (map f (seq 0 n)) = map f (seq 0 a).
Proof.
  intros H. rewrite firstn_map. f_equal. replace n with (a + (n - a))%nat by lia.
  rewrite seq_app, firstn_app, seq_length, Nat.sub_diag, firstn_O, app_nil_r. apply firstn_all2. rewrite seq_length. lia.
Qed.

Lemma broken_ok nSamples rows L first last x used :
  (1 <= nSamples)%nat -> (L <= nSamples)%nat -> Forall (fun r => length r = nSamples) rows ->
  (first <= last)%nat -> (last <= nSamples * length rows)%nat ->
  let a := ((first + nSamples - 1) / nSamples)%nat in
  let b := (last / nSamples)%nat in
  kept (small_range x) (firstn (b - a) (skipn a rows)) used -> used <> [] ->
  ac_broken nSamples rows (Some L) (Some (first, last)) x = Some (map (mean_autocov used) (seq 0 L)).
Proof.
  intros S LS R FL LD a b U NE. unfold ac_broken.
  destruct (Nat.ltb_spec nSamples L) as [C|_]; [lia|]. cbv zeta iota.
  assert (A : (first / nSamples + (if Nat.ltb 0 (first mod nSamples) then 1 else 0))%nat = a).
  { unfold a. assert (E := Nat.div_mod first nSamples ltac:(lia)). assert (B := Nat.mod_upper_bound first nSamples ltac:(lia)).
    set (q := (first / nSamples)%nat) in *. set (r := (first mod nSamples)%nat) in *.
    destruct (Nat.ltb_spec 0 r).
    - apply (Nat.div_unique _ _ _ (r - 1)%nat); nia.
    - apply (Nat.div_unique _ _ _ (nSamples - 1)%nat); nia. }
  rewrite A. fold b.
  assert (B : (b <= length rows)%nat) by (unfold b; apply Nat.div_le_upper_bound; lia).
  destruct (Nat.ltb_spec (length rows) b) as [C|_]; [lia|]. cbn [andb].
  set (f := fun r => match lmax r with Some _ => _ | None => _ end).
  assert (LEN : forall c, In c (firstn (b - a) (skipn a rows)) -> length c = nSamples).
  { intros c C. rewrite Forall_forall in R. apply R. rewrite <- (firstn_skipn a rows). apply in_or_app. right.
    rewrite <- (firstn_skipn (b - a) (skipn a rows)). apply in_or_app. now left. }
  assert (F : filter f (firstn (b - a) (skipn a rows)) = used).
  { apply (kept_unique (small_range x) (firstn (b - a) (skipn a rows))); [|exact U]. apply kept_filter.
    intros c C. apply small_range_bool. intros ->. apply LEN in C. cbn [length] in C. lia. }
  rewrite F. destruct used as [|c0 used]; [contradiction|]. f_equal.
  rewrite firstn_map_seq by exact LS. apply map_ext_in. intros k K. apply in_seq in K.
  change (qz (Z.of_nat (length (c0 :: used)))) with (qn (length (c0 :: used))).
  change (qz (Z.of_nat (nSamples - k))) with (qn (nSamples - k)).
  rewrite (averaged nSamples (fun c => linear (centred c)) (fun k => qn (nSamples - k)) (c0 :: used) k) by lia.
  unfold mean_autocov. f_equal. apply map_ext_in. intros c C.
  destruct (kept_in _ _ _ _ U C) as [I _]. apply LEN in I.
  rewrite linear_centred. unfold autocov. now rewrite I.
Qed.

(** * Segments *)

Local Open Scope nat_scope.

Lemma add_all {A : Type} m2 (segs : list (list A)) : Forall (fun s => length s = m2) segs -> add_segments m2 segs = Some segs.
Proof.
  intros H. induction H as [|s t S H IH]; cbn [add_segments]; [reflexivity|]. now rewrite S, Nat.eqb_refl, IH.
Qed.

Lemma long_data_ok {A : Type} m (data : list A) : 1 <= m -> long_data m data = Some (pieces (2 * m) data).
Proof.
  intros M. unfold long_data. apply add_all. apply Forall_forall. intros s S.
  apply piece_length with (l := data); [exact S | lia].
Qed.

Lemma sub_length {A : Type} a len (l : list A) : a + len <= length l -> length (sub a len l) = len.
Proof. intros H. unfold sub. rewrite firstn_length, skipn_length. lia. Qed.

Lemma overlap_tiles m nt : 1 <= m -> 2 * m <= nt ->
  let offs := map (overlap_offset m nt) (seq 0 (overlap_count m nt)) in
  offs <> [] /\ tiles offs (2 * m) m nt.
Proof.
  intros M N offs.
  assert (C : exists nk r, overlap_count m nt = nk /\ nt = nk * m + r + 1 /\ r < m /\ 1 <= nk).
  { unfold overlap_count. exists ((nt - 1) / m), ((nt - 1) mod m).
    assert (E := Nat.div_mod (nt - 1) m ltac:(lia)). assert (B := Nat.mod_upper_bound (nt - 1) m ltac:(lia)).
    split; [reflexivity|]. split; [lia|]. split; [exact B|]. 
    destruct ((nt - 1) / m); [nia | lia]. }
  destruct C as [nk [r (C & E & R & K)]].
  assert (L : length offs = nk) by (unfold offs; rewrite map_length, seq_length; exact C).
  split; [intros O; rewrite O in L; cbn in L; lia|].
  assert (T : forall k, k < nk -> nth k offs 0 = overlap_offset m nt k).
  { intros k I. unfold offs. rewrite (nth_map_in _ _ k 0 0) by (rewrite seq_length; lia). now rewrite seq_nth by lia. }
  unfold tiles. rewrite L.
  assert (O : forall k, overlap_offset m nt k = if Nat.ltb 1 nk then (2 * k * (nt - 2 * m) + (nk - 1)) / (2 * (nk - 1)) else 0).
  { intros k. unfold overlap_offset. now rewrite C. }
  destruct (Nat.ltb_spec 1 nk) as [B|B].
  - set (D := nk - 1) in *. set (a := nt - 2 * m) in *. assert (D1 : 1 <= D) by lia.
    split; [|split].
    + rewrite T, O by lia. cbn [Nat.mul Nat.add]. apply Nat.div_small. lia.
    + rewrite T, O by lia. replace (2 * D * a + D) with (D + a * (2 * D)) by lia.
      rewrite Nat.div_add by lia. rewrite (Nat.div_small D) by lia. unfold a. lia.
    + intros k I. rewrite !T, !O by lia. split.
      * apply Nat.div_le_mono; nia.
      * rewrite <- Nat.div_add by lia. apply Nat.div_le_mono; [lia|]. 
        assert (a <= D * m) by (unfold a, D; nia). nia.
  - assert (nk = 1) by lia. subst nk. split; [|split].
    + rewrite T, O by lia. reflexivity.
    + rewrite T, O by lia. nia.
    + intros k I. lia.
Qed.

Lemma tiles_bound offs size step n : tiles offs size step n -> forall k, k < length offs -> nth k offs 0 + size <= n.
Proof.
  intros (_ & L & S) k K.
  assert (G : forall d, d < length offs -> nth (length offs - 1 - d) offs 0 + size <= n).
  { induction d as [|d IH]; intros D.
    - rewrite Nat.sub_0_r. lia.
    - assert (IH' := IH ltac:(lia)). destruct (S (length offs - 1 - Datatypes.S d)) as [U _]; [lia|].
      replace (Datatypes.S (length offs - 1 - Datatypes.S d)) with (length offs - 1 - d) in U by lia. lia. }
  specialize (G (length offs - 1 - k) ltac:(lia)). now replace (length offs - 1 - (length offs - 1 - k)) with k in G by lia.
Qed.

(** Tiles with steps no longer than themselves leave no gap. *)
Lemma tiles_cover offs size step n i : tiles offs size step n -> step <= size -> offs <> [] -> i < n ->
  exists k, k < length offs /\ nth k offs 0 <= i < nth k offs 0 + size.
Proof.
  intros (F & L & S) SS NE I.
  assert (LE : 1 <= length offs) by (destruct offs; [contradiction | cbn; lia]).
  assert (G : forall d, d < length offs -> (exists k, k < length offs /\ nth k offs 0 <= i < nth k offs 0 + size) \/ nth d offs 0 + size <= i).
  { induction d as [|d IH]; intros D.
    - destruct (Nat.lt_ge_cases i (nth 0 offs 0 + size)); [left; exists 0; lia | right; lia].
    - destruct (IH ltac:(lia)) as [X | X]; [now left|]. specialize (S d D).
      destruct (Nat.lt_ge_cases i (nth (Datatypes.S d) offs 0 + size)); [left; exists (Datatypes.S d); lia | right; lia]. }
  destruct (G (length offs - 1) ltac:(lia)) as [X | X]; [exact X | lia].
Qed.

Lemma overlap_ok {A : Type} m (data : list A) : 1 <= m -> 2 * m <= length data ->
  exists offs, overlap_data m data = Some (map (fun o => firstn (2 * m) (skipn o data)) offs) /\
    offs <> [] /\ tiles offs (2 * m) m (length data) /\ length offs = (length data - 1) / m.
Proof.
  intros M N. exists (map (overlap_offset m (length data)) (seq 0 (overlap_count m (length data)))).
  destruct (overlap_tiles m (length data) M N) as [NE T]. split; [|split; [exact NE | split; [exact T|]]].
  - unfold overlap_data. rewrite map_map. apply add_all. apply Forall_forall. intros s S.
    apply in_map_iff in S. destruct S as [k (<- & K)]. apply in_seq in K. apply sub_length.
    assert (B := tiles_bound _ _ _ _ T k). rewrite map_length, seq_length in B.
    rewrite (nth_map_in _ _ k 0 0) in B by (rewrite seq_length; lia). rewrite seq_nth in B by lia. apply B. lia.
  - rewrite map_length, seq_length. reflexivity.
Qed.

Lemma overlap_short {A : Type} m (data : list A) : 1 <= m ->
  (length data <= m -> overlap_data m data = Some []) /\
  (m < length data < 2 * m -> overlap_data m data = None).
Proof.
  intros M. unfold overlap_data, overlap_count. split; intros L.
  - rewrite Nat.div_small by lia. reflexivity.
  - replace ((length data - 1) / m) with 1 by (apply (Nat.div_unique _ _ _ (length data - 1 - m)); lia).
    cbn [seq map]. unfold overlap_offset, overlap_count.
    replace ((length data - 1) / m) with 1 by (apply (Nat.div_unique _ _ _ (length data - 1 - m)); lia).
    cbn [Nat.ltb Nat.leb add_segments]. unfold sub. cbn [skipn]. rewrite firstn_length.
    destruct (Nat.eqb_spec (Nat.min (2 * m) (length data)) (2 * m)); [lia | reflexivity].
Qed.

Lemma firstn_plus {A : Type} a b (l : list A) : firstn (a + b) l = firstn a l ++ firstn b (skipn a l).
Proof.
  revert l. induction a as [|a IH]; intros l; [reflexivity|]. destruct l as [|x l]; cbn [Nat.add firstn skipn app].
  - now rewrite firstn_nil.
  - now rewrite IH.
Qed.

Lemma pieces_pairs {A : Type} m (data : list A) n : forall s prev, (s + n) * m <= length data -> 1 <= s ->
  prev = sub ((s - 1) * m) m data ->
  overlap_pieces m (Some prev) (map (fun i => sub (i * m) m data) (seq s n)) =
  Some (map (fun i => firstn (2 * m) (skipn (i * m) data)) (seq (s - 1) n)).
Proof.
  induction n as [|n IH]; intros s prev L S P; [reflexivity|].
  cbn [seq map overlap_pieces].
  assert (L1 : length (sub (s * m) m data) = m) by (apply sub_length; nia).
  assert (L2 : length prev = m) by (subst prev; apply sub_length; nia).
  rewrite L1, L2, Nat.eqb_refl.
  rewrite (IH (Datatypes.S s) (sub (s * m) m data)); [|nia | lia | f_equal; nia].
  replace (Datatypes.S s - 1) with (Datatypes.S (s - 1)) by lia. do 2 f_equal.
  subst prev. unfold sub. replace (2 * m) with (m + m) by lia. rewrite firstn_plus. f_equal.
  rewrite skipn_add. do 2 f_equal. nia.
Qed.

Lemma compute_spectrum_ok {A : Type} (data : list A) s : 2 <= s ->
  let m := length data / (2 * s) in
  compute_spectrum data s = Some (map (fun i => firstn (2 * m) (skipn (i * m) data)) (seq 0 (2 * s - 2))).
Proof.
  intros S m. unfold compute_spectrum. fold m.
  destruct (Nat.eqb_spec s 1); [lia|].
  assert (B : m * (2 * s) <= length data) by (unfold m; rewrite Nat.mul_comm; apply Nat.mul_div_le; lia).
  replace (2 * s - 1) with (Datatypes.S (2 * s - 2)) by lia. cbn [seq map overlap_pieces].
  rewrite (pieces_pairs m data (2 * s - 2) 1); [|nia | lia | f_equal; lia].
  apply add_all. apply Forall_forall. intros x X. apply in_map_iff in X. destruct X as [i (<- & I)].
  apply in_seq in I. apply sub_length. nia.
Qed.

Lemma reshape_ok nSamples (rows : list (list Qc)) L : 1 <= nSamples -> 1 <= L -> Nat.even L = true ->
  Forall (fun r => length r = nSamples) rows -> (nSamples * length rows) mod L = 0 ->
  reshape_segments nSamples true rows L = Some (pieces L (concat rows)).
Proof.
  intros S L1 E R D. unfold reshape_segments. cbn [negb andb]. cbv zeta.
  assert (C := concat_length nSamples rows R).
  assert (N : length (concat rows) / L * L = length (concat rows)).
  { rewrite C. rewrite (Nat.div_mod (nSamples * length rows) L) at 2 by lia. rewrite D. lia. }
  rewrite N. rewrite firstn_all2 by nia. rewrite Nat.eqb_refl.
  rewrite chunks_eq. f_equal.
  assert (F : forall l : list (list Qc), Forall (fun s => length s = L) l -> filter (fun s => Nat.eqb (length s) (2 * (L / 2))) l = l).
  { intros l H. induction H as [|s t X H IH]; [reflexivity|]. cbn [filter]. rewrite X.
    assert (L = 2 * (L / 2)).
    { apply Nat.even_spec in E. destruct E as [h ->]. rewrite (Nat.mul_comm 2 h), Nat.div_mul; lia. }
    destruct (Nat.eqb_spec L (2 * (L / 2))); [now f_equal | contradiction]. }
  apply F, Forall_forall. intros p P. apply (piece_length _ _ _ P). lia.
Qed.

(** * Rebinning *)

Lemma new_bin_spec m nbins i b : i <= m -> (new_bin m nbins i = b <-> in_bin m nbins i b).
Proof.
  intros I. unfold new_bin, in_bin.
  assert (D := Nat.div_mod (2 * i * nbins + (m + 1)) (2 * (m + 1)) ltac:(lia)).
  assert (B := Nat.mod_upper_bound (2 * i * nbins + (m + 1)) (2 * (m + 1)) ltac:(lia)).
  set (q := (2 * i * nbins + (m + 1)) / (2 * (m + 1))) in *.
  set (r := (2 * i * nbins + (m + 1)) mod (2 * (m + 1))) in *. split.
  - intros <-. split; [exact I|]. nia.
  - intros (_ & H1 & H2).
    assert (~ q < b) by (intros C; assert (q + 1 <= b) by lia; nia).
    assert (~ b < q) by (intros C; assert (b + 1 <= q) by lia; nia). lia.
Qed.

Lemma bin_nonempty m nbins b : 1 <= nbins -> 2 * nbins <= m + 1 -> b <= nbins -> exists i, in_bin m nbins i b.
Proof.
  intros N M B. destruct (Nat.eq_dec b nbins) as [->|NE].
  - exists m. unfold in_bin. nia.
  - exists (b * (m + 1) / nbins).
    assert (D := Nat.div_mod (b * (m + 1)) nbins ltac:(lia)).
    assert (R := Nat.mod_upper_bound (b * (m + 1)) nbins ltac:(lia)).
    set (q := b * (m + 1) / nbins) in *. set (r := (b * (m + 1)) mod nbins) in *.
    unfold in_bin. split; [|split].
    + assert (b + 1 <= nbins) by lia. nia.
    + nia.
    + nia.
Qed.

Lemma last_bin_empty m nbins i : nbins <= m -> m + 1 < 2 * nbins -> ~ in_bin m nbins i nbins.
Proof. intros N M (I & L & _). nia. Qed.

Lemma bin_range m nbins i b : in_bin m nbins i b -> b <= nbins.
Proof.
  intros (I & L & _). assert (~ nbins < b); [|lia]. intros C. assert (nbins + 1 <= b) by lia. nia.
Qed.

Definition bin_members (m nbins b : nat) (specsum : list Qc) : list Qc :=
  map (fun i => nth i specsum 0%Qc) (filter (fun i => Nat.eqb (new_bin m nbins i) b) (seq 0 (m + 1))).

Lemma members_kept m nbins b : kept (fun i => in_bin m nbins i b) (seq 0 (m + 1)) (filter (fun i => Nat.eqb (new_bin m nbins i) b) (seq 0 (m + 1))).
Proof.
  apply kept_filter. intros i I. apply in_seq in I. rewrite Nat.eqb_eq. symmetry. apply new_bin_spec. lia.
Qed.

Lemma rebin_ok m nbins specsum nseg : 1 <= nbins -> 2 * nbins <= m + 1 -> 1 <= nseg ->
  exists r, rebin m nbins specsum nseg = Some r /\ length r = nbins + 1 /\
    forall b idx, b <= nbins -> kept (fun i => in_bin m nbins i b) (seq 0 (m + 1)) idx ->
      nth b r None = Some (average (map (fun i => nth i specsum 0%Qc) idx) / qn nseg)%Qc.
Proof.
  intros N M S. unfold rebin. destruct (Nat.ltb_spec m nbins) as [C|_]; [lia|].
  eexists. split; [reflexivity|]. split; [now rewrite map_length, seq_length|].
  intros b idx B K. rewrite (nth_map_in _ _ b 0 None) by (rewrite seq_length; lia). rewrite seq_nth by lia.
  cbn [Nat.add]. cbv zeta.
  assert (E := kept_unique _ _ _ _ (members_kept m nbins b) K). rewrite E.
  assert (NE : idx <> []).
  { destruct (bin_nonempty m nbins b N M B) as [i I].
    assert (In i idx). { apply (in_kept _ _ _ _ K); [|exact I]. apply in_seq. destruct I. lia. }
    intros ->. contradiction. }
  assert (Q : qz (Z.of_nat (length (map (fun i => nth i specsum 0%Qc) idx))) <> 0%Qc).
  { apply qz_neq. rewrite map_length. destruct idx; [contradiction | cbn [length]; lia]. }
  unfold qdiv at 1. destruct (Qc_eq_dec _ 0%Qc) as [Z|_]; [contradiction|].
  unfold qdiv. destruct (Qc_eq_dec _ 0%Qc) as [Z|_]; [exfalso; revert Z; apply qz_neq; lia|].
  reflexivity.
Qed.

Lemma rebin_nan m nbins specsum nseg r : nbins <= m -> m + 1 < 2 * nbins ->
  rebin m nbins specsum nseg = Some r -> nth nbins r None = None.
Proof.
  intros N M H. unfold rebin in H. destruct (Nat.ltb_spec m nbins) as [C|_]; [lia|].
  injection H as <-. rewrite (nth_map_in _ _ nbins 0 None) by (rewrite seq_length; lia). rewrite seq_nth by lia.
  cbn [Nat.add]. cbv zeta.
  assert (E : filter (fun i => Nat.eqb (new_bin m nbins i) nbins) (seq 0 (m + 1)) = []).
  { apply (kept_unique (fun i => in_bin m nbins i nbins) (seq 0 (m + 1))); [apply members_kept|].
    assert (G : forall l : list nat, kept (fun i => in_bin m nbins i nbins) l []).
    { induction l as [|i l IH]; constructor; [now apply last_bin_empty | exact IH]. }
    apply G. }
  rewrite E. reflexivity.
Qed.
