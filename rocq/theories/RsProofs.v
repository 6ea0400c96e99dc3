(** Proofs about the cut learned from residuals. *)
From Coq Require Import ZArith QArith Qcanon Qround Bool Lia List.
From Verif Require Import QcPre LagModel DerModel LocModel LocSpec LocProofs OcModel OcSpec OcProofs RsModel RsSpec.
Import ListNotations.
Local Open Scope Qc_scope.

Lemma inside_between pulses lo hi rs : between lo hi pulses rs <-> rs = inside pulses lo hi.
Proof.
  split.
  - induction 1 as [|x r l rs A B H IH|x r l rs A H IH]; [reflexivity| |]; unfold inside in *; cbn [filter fst].
    + replace (qltb lo x) with true by (symmetry; now apply qltb_lt). replace (qltb x hi) with true by (symmetry; now apply qltb_lt). cbn [andb map snd]. now f_equal.
    + replace (qltb lo x && qltb x hi)%bool with false; [exact IH|]. symmetry. apply andb_false_iff. destruct A as [A|A]; [left|right]; now apply qltb_ge.
  - intros ->. induction pulses as [|[x r] l IH]; [constructor|]. unfold inside in *. cbn [filter fst].
    destruct (qltb lo x) eqn:A; [destruct (qltb x hi) eqn:B|]; cbn [andb map snd].
    + apply qltb_lt in A, B. now constructor.
    + apply qltb_ge in B. apply between_out; auto.
    + apply qltb_ge in A. apply between_out; auto.
Qed.
Lemma sigma_value : sigma_over_mad = qz 100000 / qz 67449.
Proof. apply Qc_is_canon. vm_compute. reflexivity. Qed.
Lemma threshold_limit n pulses lo hi t : bin_threshold n pulses lo hi = Some t <-> limit n (inside pulses lo hi) t.
Proof.
  unfold bin_threshold, median_sigma, limit. rewrite <- sigma_value.
  replace (map (fun v : Qc => magnitude (v - 0)) (inside pulses lo hi)) with (map (fun v : Qc => magnitude (v - 0)) (inside pulses lo hi)) by reflexivity.
  generalize (inside pulses lo hi). intros x.
  assert (Q : forall m, map (fun v => qabs (v - m)) x = map (fun v => magnitude (v - m)) x) by (intros m; apply map_ext; intros v; apply qabs_magnitude).
  assert (NE : forall m, x <> [] -> map (fun v => magnitude (v - m)) x <> []) by (intros m; destruct x; [congruence|discriminate]).
  split.
  - destruct (median x) as [m|] eqn:M; [|discriminate]. rewrite Q. apply median_quantile in M as [N M].
    destruct (median (map (fun v => magnitude (v - m)) x)) as [d|] eqn:D; [|discriminate]. apply median_quantile in D as [_ D].
    intros H. injection H as <-. split; [exact N|]. exists m, d. auto.
  - intros [N (m & d & M & D & ->)]. assert (EM : median x = Some m) by (apply median_quantile; auto). rewrite EM, Q.
    assert (ED : median (map (fun v => magnitude (v - m)) x) = Some d) by (apply median_quantile; auto). rewrite ED. reflexivity.
Qed.
Lemma bins_seq n pulses f : forall c k, bins n pulses (map f (seq k (S c))) =
  map (fun i => ((f i + f (S i)) / qz 2, bin_threshold n pulses (f i) (f (S i)))) (seq k c).
Proof.
  induction c as [|c IH]; intros k; [reflexivity|]. specialize (IH (S k)).
  change (map f (seq k (S (S c)))) with (f k :: f (S k) :: map f (seq (S (S k)) c)). cbn [bins].
  apply (f_equal (cons ((f k + f (S k)) / qz 2, bin_threshold n pulses (f k) (f (S k))))) in IH. exact IH.
Qed.
Definition entry (n : Qc) (pulses : list pulse) (b : Qc) (i : nat) : Qc * option Qc :=
  (middle_of b i, bin_threshold n pulses (start_of b i) (start_of b (S i))).
Lemma half_sum b i : (0 + qz (Z.of_nat i) * b + (0 + qz (Z.of_nat (S i)) * b)) / qz 2 = middle_of b i.
Proof. unfold middle_of. replace (qz (Z.of_nat (S i))) with (qz (Z.of_nat i) + 1) by (rewrite Nat2Z.inj_succ, <- Z.add_1_r, qz_add, qz_1; reflexivity). rewrite qz_1. replace (qz 2) with (1 + 1) by (apply Qc_is_canon; reflexivity). field. discriminate. Qed.
Lemma learn_value n b min_fv pulses m K : 0 < b -> (4 < List.length pulses)%nat -> largest (map fst pulses) m ->
  K = O \/ start_of b K < m -> m <= start_of b (S K) ->
  learn n b min_fv pulses = Ret ((min_fv, Some 0) :: map (entry n pulses b) (seq 0 K)).
Proof.
  intros B L M KL KU. unfold learn. assert (E : qmax (map fst pulses) = Some m) by now apply qmax_iff. rewrite E.
  replace (0 + n * 0) with 0 by ring. replace (Nat.leb (List.length pulses) 4) with false by (symmetry; apply Nat.leb_gt; exact L).
  destruct (arange_stepped 0 m b B) as (e & A & S1 & S2). pose proof A as A'. unfold arange in A'. destruct (Qc_eq_dec b 0) as [Z|Z]; [discriminate|].
  remember (Z.to_nat (Qceiling (this ((m - 0) / b)))) as c eqn:Hc. clear Hc. injection A' as A'. assert (LE : List.length e = c) by (rewrite <- A', map_length, seq_length; reflexivity).
  rewrite A. cbn [bind]. f_equal. f_equal.
  assert (CK : c = S K \/ c = O /\ K = O).
  { destruct (Nat.lt_ge_cases c (S K)) as [H|H].
    - (* c <= K *) assert (X : start_of b c <= start_of b K) by (unfold start_of; apply Qcmult_le_compat_r; [apply qz_le; lia|now apply Qclt_le_weak]).
      unfold start_of in *. rewrite LE in S2. destruct KL as [->|KL]; [right; lia|]. exfalso. apply (Qclt_not_le _ _ KL). qlra.
    - left. destruct (Nat.eq_dec c (S K)) as [|N]; [assumption|]. exfalso. destruct (S1 (S K)) as [V W]; [lia|]. rewrite V in W. unfold start_of in KU. apply (Qclt_not_le _ _ W). qlra. }
  rewrite <- A'. destruct CK as [CK|[CK CK']].
  - rewrite CK. rewrite bins_seq. apply map_ext. intros i. unfold entry. rewrite half_sum. unfold start_of. replace (0 + qz (Z.of_nat i) * b) with (qz (Z.of_nat i) * b) by ring.
    replace (0 + qz (Z.of_nat (S i)) * b) with (qz (Z.of_nat (S i)) * b) by ring. reflexivity.
  - rewrite CK, CK'. reflexivity.
Qed.
Lemma middle_lt b i j : 0 < b -> (i < j)%nat -> middle_of b i < middle_of b j.
Proof.
  intros B H. unfold middle_of. assert (Q : qz (Z.of_nat i) < qz (Z.of_nat j)) by (apply qz_lt; lia).
  rewrite (Qcmult_comm _ b), (Qcmult_comm _ b). assert (D : 0 < b * (qz (Z.of_nat j) - qz (Z.of_nat i))).
  { replace 0 with (0 * (qz (Z.of_nat j) - qz (Z.of_nat i))) by ring. apply Qcmult_lt_compat_r; [qlra|exact B]. }
  qlra.
Qed.
Lemma sorted_seq (g : nat -> Qc * option Qc) : (forall i, fst (g i) <= fst (g (S i))) -> forall c k, sorted (map g (seq k c)) = map g (seq k c).
Proof.
  intros H. induction c as [|c IH]; intros k; [reflexivity|]. cbn [seq map]. unfold sorted in *. cbn [fold_right]. rewrite IH. destruct c as [|c]; [reflexivity|].
  cbn [seq map place]. now replace (qleb (fst (g k)) (fst (g (S k)))) with true by (symmetry; apply qleb_le, H).
Qed.
Lemma sorted_head p g c : (forall i, fst (g i) <= fst (g (S i))) -> fst p <= fst (g O) -> sorted (p :: map g (seq 0 c)) = p :: map g (seq 0 c).
Proof.
  intros H P. unfold sorted. cbn [fold_right]. fold (sorted (map g (seq 0 c))). rewrite sorted_seq by exact H. destruct c as [|c]; [reflexivity|].
  cbn [seq map place]. now replace (qleb (fst p) (fst (g O))) with true by (symmetry; apply qleb_le, P).
Qed.
Lemma find_seq (g : nat -> Qc * option Qc) x : forall c k i, (k <= i < k + c)%nat -> x <= fst (g i) -> (forall j, (k <= j < i)%nat -> fst (g j) < x) ->
  find (fun p => qleb x (fst p)) (map g (seq k c)) = Some (g i).
Proof.
  induction c as [|c IH]; intros k i R X H; [lia|]. cbn [seq map find]. destruct (Nat.eq_dec k i) as [->|N].
  - now replace (qleb x (fst (g i))) with true by (symmetry; apply qleb_le, X).
  - replace (qleb x (fst (g k))) with false by (symmetry; apply qleb_gt, H; lia). apply IH; [lia|exact X|]. intros j J. apply H. lia.
Qed.
Lemma find_none (g : nat -> Qc * option Qc) x c k : (forall j, (k <= j < k + c)%nat -> fst (g j) < x) -> find (fun p => qleb x (fst p)) (map g (seq k c)) = None.
Proof.
  revert k. induction c as [|c IH]; intros k H; [reflexivity|]. cbn [seq map find]. replace (qleb x (fst (g k))) with false by (symmetry; apply qleb_gt, H; lia). apply IH. intros j J. apply H. lia.
Qed.
Lemma last_seq (g : nat -> Qc * option Qc) p d c : last (p :: map g (seq 0 (S c))) d = g c.
Proof. rewrite seq_S, map_app. cbn [map]. rewrite app_comm_cons. now rewrite last_last. Qed.
Lemma learned_at n b min_fv pulses K x : 0 < b -> min_fv < middle_of b 0 ->
  let l := (min_fv, Some 0) :: map (entry n pulses b) (seq 0 K) in
  (x < min_fv -> threshold_at l x = Some (- (1))) /\ (x = min_fv -> threshold_at l x = Some 0) /\ (K = O -> min_fv < x -> threshold_at l x = Some 0) /\
  (forall i, (i < K)%nat -> min_fv < x -> (i = O \/ middle_of b (i - 1) < x) -> (x <= middle_of b i \/ S i = K) ->
     threshold_at l x = bin_threshold n pulses (start_of b i) (start_of b (S i))).
Proof.
  intros B M l. assert (SO : sorted l = l).
  { apply sorted_head; [|now apply Qclt_le_weak]. intros i. cbn [entry fst]. apply Qclt_le_weak, middle_lt; [exact B|lia]. }
  assert (TH : forall y, threshold_at l y = if qltb y min_fv then Some (- (1)) else match find (fun p => qleb y (fst p)) l with Some (_, t) => t | None => snd (last l (0, None)) end)
    by (intros y; unfold threshold_at; rewrite SO; reflexivity).
  rewrite TH. split; [|split; [|split]].
  - intros H. now replace (qltb x min_fv) with true by (symmetry; apply qltb_lt, H).
  - intros ->. replace (qltb min_fv min_fv) with false by (symmetry; apply qltb_ge, Qcle_refl). unfold l. cbn [find fst]. now replace (qleb min_fv min_fv) with true by (symmetry; apply qleb_le, Qcle_refl).
  - intros -> H. replace (qltb x min_fv) with false by (symmetry; apply qltb_ge; now apply Qclt_le_weak). unfold l. cbn [seq map find fst].
    now replace (qleb x min_fv) with false by (symmetry; apply qleb_gt, H).
  - intros i I H LO HI. replace (qltb x min_fv) with false by (symmetry; apply qltb_ge; now apply Qclt_le_weak).
    unfold l. cbn [find fst]. replace (qleb x min_fv) with false by (symmetry; apply qleb_gt, H).
    assert (BEF : forall j, (j < i)%nat -> middle_of b j < x).
    { intros j J. destruct LO as [->|LO]; [lia|]. destruct (Nat.eq_dec j (i - 1)) as [->|N]; [exact LO|]. eapply Qclt_trans; [apply (middle_lt b j (i - 1)); [exact B|lia]|exact LO]. }
    destruct (Qclt_le_dec (middle_of b i) x) as [X|X].
    + destruct HI as [HI|HI]; [exfalso; apply (Qclt_not_le _ _ X HI)|]. rewrite find_none.
      * subst K. rewrite last_seq. reflexivity.
      * intros j J. cbn [entry fst]. destruct (Nat.eq_dec j i) as [->|N]; [exact X|]. apply BEF. lia.
    + rewrite (find_seq _ x K 0 i); [reflexivity|lia|exact X|]. intros j J. cbn [entry fst]. apply BEF. lia.
Qed.
