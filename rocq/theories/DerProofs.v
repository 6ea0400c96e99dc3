From Coq Require Import PeanoNat QArith Qcanon List Lia.
From Verif Require Import QcPre DerModel DerSpec.
Import ListNotations.
Local Open Scope Qc_scope.

Lemma five_slope f0 f1 f2 f3 f4 p j : five f0 f1 f2 f3 f4 p (j + 4) = slope [f0; f1; f2; f3; f4] p j.
Proof.
  unfold five, slope. cbn [length qsum nth].
  replace (j + 4 - 4)%nat with (j + 0)%nat by lia. replace (j + 4 - 3)%nat with (j + 1)%nat by lia.
  replace (j + 4 - 2)%nat with (j + 2)%nat by lia. replace (j + 4 - 1)%nat with (j + 3)%nat by lia. cbn. ring.
Qed.

Lemma largest_ext n v w m : (forall j, (j < n)%nat -> v j = w j) -> largest n v m -> largest n w m.
Proof.
  intros H [[j [Hj ->]] Hm]. split; [exists j; auto|]. intros i Hi. rewrite <- H by exact Hi. auto.
Qed.
Lemma largest_unique n v m m' : largest n v m -> largest n v m' -> m = m'.
Proof.
  intros [[j [Hj E]] Hm] [[j' [Hj' E']] Hm']. apply Qcle_antisym; [rewrite E; auto | rewrite E'; auto].
Qed.
Lemma largest_S n v m : largest n v m -> largest (S n) v (if qltb m (v n) then v n else m).
Proof.
  intros [[j [Hj E]] Hm]. destruct (qltb m (v n)) eqn:L.
  - apply qltb_lt in L. split; [exists n; auto|]. intros i Hi. destruct (Nat.eq_dec i n) as [->|]; [apply Qcle_refl|].
    specialize (Hm i ltac:(lia)). qlra.
  - apply qltb_ge in L. split; [exists j; auto|]. intros i Hi. destruct (Nat.eq_dec i n) as [->|]; [exact L | apply Hm; lia].
Qed.
Lemma largest_1 v : largest 1 v (v O).
Proof. split; [exists O; auto|]. intros i Hi. replace i with O by lia. apply Qcle_refl. Qed.

Lemma max_fold v s n m0 k :
  largest s v m0 -> k = (n + s)%nat ->
  largest k v (fold_left (fun m j => if qltb m (v j) then v j else m) (seq s n) m0).
Proof.
  intros H ->. revert s m0 H; induction n as [|n IH]; intros s m0 H; cbn; [exact H|].
  replace (S (n + s)) with (n + S s)%nat by lia. apply IH. apply largest_S, H.
Qed.

Lemma lesser_if a b : (if qltb a b then a else b) = lesser b a.
Proof.
  unfold lesser. destruct (qltb a b) eqn:A, (qleb b a) eqn:B; try reflexivity.
  - apply qltb_lt in A. apply qleb_le in B. qlra.
  - apply qltb_ge in A. apply qleb_gt in B. qlra.
Qed.
Lemma lesser_comm a b : lesser a b = lesser b a.
Proof.
  unfold lesser. destruct (qleb a b) eqn:A, (qleb b a) eqn:B; try reflexivity.
  - apply qleb_le in A, B. qlra.
  - apply qleb_gt in A, B. qlra.
Qed.

(** The loop invariant: t0, t1, t2 are the three last slopes; m the largest pair minimum so far. *)
Lemma spike_fold t n s m0 :
  (4 <= s)%nat ->
  let v i := lesser (t (i + 4)%nat) (t (i + 6)%nat) in
  largest (s - 3) v m0 ->
  let '(_, _, _, m) := fold_left (spike_step t) (seq (s + 3) n) (t s, t (s + 1)%nat, t (s + 2)%nat, m0) in
  largest (n + (s - 3)) v m.
Proof.
  intros Hs v. revert s m0 Hs; induction n as [|n IH]; intros s m0 Hs H; cbn [seq fold_left]; [exact H|].
  unfold spike_step at 2. rewrite lesser_if.
  specialize (IH (S s) (if qltb m0 (lesser (t (s + 1)%nat) (t (s + 3)%nat)) then lesser (t (s + 1)%nat) (t (s + 3)%nat) else m0) ltac:(lia)).
  replace (S s + 1)%nat with (s + 2)%nat in IH by lia. replace (S s + 2)%nat with (s + 3)%nat in IH by lia.
  replace (S s + 3)%nat with (S (s + 3)) in IH by lia. replace (s + 1)%nat with (S s) in * by lia.
  replace (n + (S s - 3))%nat with (S n + (s - 3))%nat in IH by lia. apply IH.
  replace (S s - 3)%nat with (S (s - 3)) by lia.
  assert (E : lesser (t (S s)) (t (s + 3)%nat) = v (s - 3)%nat).
  { unfold v. f_equal; f_equal; lia. }
  rewrite E. apply largest_S, H.
Qed.

Lemma row_spike_ok f0 f1 f2 f3 f4 p :
  (7 <= length p)%nat ->
  exists m, row_spike f0 f1 f2 f3 f4 p = Some m /\
    largest (length p - 6) (fun j => lesser (slope [f0; f1; f2; f3; f4] p j) (slope [f0; f1; f2; f3; f4] p (j + 2))) m.
Proof.
  intros H. unfold row_spike. rewrite (proj2 (Nat.ltb_ge _ _) H).
  set (t := five f0 f1 f2 f3 f4 p). cbn zeta. rewrite lesser_if.
  pose proof (spike_fold t (length p - 7) 4 (lesser (t 4%nat) (t 6%nat)) (le_n _) (largest_1 _)) as G.
  cbn [Nat.add] in G. destruct (fold_left _ _ _) as [[[a b] c] m]. exists m. split; [reflexivity|].
  replace (length p - 7 + (4 - 3))%nat with (length p - 6)%nat in G by lia.
  eapply largest_ext; [|exact G]. intros j Hj. cbv beta. rewrite <- !five_slope. unfold t. f_equal. f_equal. lia.
Qed.

Lemma row_plain_ok f0 f1 f2 f3 f4 p :
  (5 <= length p)%nat ->
  exists m, row_plain f0 f1 f2 f3 f4 p = Some m /\
    largest (length p - 4) (slope [f0; f1; f2; f3; f4] p) m.
Proof.
  intros H. unfold row_plain. rewrite (proj2 (Nat.ltb_ge _ _) H). eexists. split; [reflexivity|].
  set (t := five f0 f1 f2 f3 f4 p).
  assert (G : forall n s m0, (4 <= s)%nat -> largest (s - 4) (slope [f0; f1; f2; f3; f4] p) m0 ->
    largest (n + (s - 4)) (slope [f0; f1; f2; f3; f4] p) (fold_left (fun m j => if qltb m (t j) then t j else m) (seq s n) m0)).
  { induction n as [|n IH]; intros s m0 Hs L; cbn [seq fold_left]; [exact L|].
    replace (S n + (s - 4))%nat with (n + (S s - 4))%nat by lia. apply IH; [lia|].
    replace (S s - 4)%nat with (S (s - 4)) by lia.
    assert (E : t s = slope [f0; f1; f2; f3; f4] p (s - 4)).
    { unfold t. rewrite <- five_slope. f_equal. lia. }
    rewrite E. apply largest_S, L. }
  specialize (G (length p - 5)%nat 5%nat (t 4%nat) ltac:(lia)). replace (length p - 5 + (5 - 4))%nat with (length p - 4)%nat in G by lia.
  apply G. cbn [Nat.sub]. assert (E : t 4%nat = slope [f0; f1; f2; f3; f4] p 0) by (unfold t; rewrite <- five_slope; reflexivity).
  rewrite E. apply largest_1.
Qed.

(* ----- the reference ----- *)

Lemma convolve_long_nth a v i :
  (i < length a - length v + 1)%nat -> (length v <= length a)%nat -> nth_error (convolve_long a v) i = Some (slope v a i).
Proof.
  intros Hi HL. unfold convolve_long. erewrite map_nth_error.
  2: { rewrite (nth_error_nth' _ O) by (rewrite seq_length; exact Hi). rewrite seq_nth by exact Hi. reflexivity. }
  f_equal. unfold slope. apply qsum_ext. intros k Hk. f_equal. f_equal. lia.
Qed.

Lemma npmax_ok l v : (0 < length l)%nat -> (forall i, (i < length l)%nat -> nth_error l i = Some (v i)) ->
  exists m, npmax l = Some m /\ largest (length l) v m.
Proof.
  destruct l as [|x t]; cbn [length]; [lia|]. intros _ H. eexists. split; [reflexivity|].
  assert (Hx : x = v O) by (specialize (H O ltac:(lia)); cbn in H; congruence).
  assert (G : forall t s m0, largest s v m0 -> (forall i, (i < length t)%nat -> nth_error t i = Some (v (s + i)%nat)) ->
    largest (length t + s) v (fold_left (fun m y => if qltb m y then y else m) t m0)).
  { clear. induction t as [|y t IH]; intros s m0 L H; cbn [fold_left length]; [exact L|].
    replace (S (length t) + s)%nat with (length t + S s)%nat by lia. pose proof (H O ltac:(cbn; lia)) as Hy. cbn in Hy. injection Hy as Hy.
    rewrite Nat.add_0_r in Hy. subst y. apply IH; [apply largest_S, L|].
    intros i Hi. specialize (H (S i) ltac:(cbn; lia)). cbn in H. rewrite H. f_equal. f_equal. lia. }
  replace (S (length t)) with (length t + 1)%nat by lia. apply G.
  - rewrite Hx. apply largest_1.
  - intros i Hi. specialize (H (S i) ltac:(lia)). exact H.
Qed.

Lemma zipmin_nth a b i x y : nth_error a i = Some x -> nth_error b i = Some y -> nth_error (zipmin a b) i = Some (lesser y x).
Proof.
  revert b i; induction a as [|u a IH]; intros [|w b] [|i]; cbn; try discriminate.
  - intros [= ->] [= ->]. unfold fmin. rewrite lesser_if. reflexivity.
  - apply IH.
Qed.
Lemma zipmin_length a b : length a = length b -> length (zipmin a b) = length a.
Proof. revert b; induction a as [|u a IH]; intros [|w b] H; cbn in *; try lia. rewrite IH; lia. Qed.

Lemma nth_error_skipn {A} n (l : list A) i : nth_error (skipn n l) i = nth_error l (n + i).
Proof. revert l; induction n as [|n IH]; intros [|x l]; cbn; auto. destruct i; reflexivity. Qed.
Lemma nth_error_firstn {A} n (l : list A) i : (i < n)%nat -> nth_error (firstn n l) i = nth_error l i.
Proof. revert l i; induction n as [|n IH]; intros [|x l] [|i] H; cbn; auto; try lia. apply IH. lia. Qed.

Lemma convolve_valid_long p v : (0 < length v)%nat -> (length v <= length p)%nat -> convolve_valid p v = Some (convolve_long p v).
Proof.
  intros Hv Hp. unfold convolve_valid. destruct p as [|x p]; [cbn in *; lia|]. destruct v as [|y v]; [cbn in Hv; lia|].
  rewrite (proj2 (Nat.ltb_ge _ _) Hp). reflexivity.
Qed.

Lemma python_row_spike v p : (0 < length v)%nat -> (length v + 2 <= length p)%nat ->
  exists m, python_row v true p = Some m /\
    largest (length p - length v - 1) (fun j => lesser (slope v p j) (slope v p (j + 2))) m.
Proof.
  intros Hv Hp. unfold python_row. rewrite convolve_valid_long by lia.
  assert (HL : length (convolve_long p v) = (length p - length v + 1)%nat) by (unfold convolve_long; rewrite map_length, seq_length; reflexivity).
  set (c := convolve_long p v) in *.
  assert (L1 : length (skipn 2 c) = (length p - length v - 1)%nat) by (rewrite skipn_length; lia).
  assert (L2 : length (firstn (length c - 2) c) = (length p - length v - 1)%nat) by (rewrite firstn_length; lia).
  assert (L3 : length (zipmin (skipn 2 c) (firstn (length c - 2) c)) = (length p - length v - 1)%nat) by (rewrite zipmin_length; lia).
  destruct (npmax_ok (zipmin (skipn 2 c) (firstn (length c - 2) c)) (fun j => lesser (slope v p j) (slope v p (j + 2)))) as [m [E H]].
  - lia.
  - rewrite L3. intros i Hi. apply zipmin_nth.
    + rewrite nth_error_skipn. unfold c. rewrite convolve_long_nth by lia. do 2 f_equal. lia.
    + rewrite nth_error_firstn by lia. unfold c. apply convolve_long_nth; lia.
  - exists m. split; [exact E|]. rewrite L3 in H. exact H.
Qed.

Lemma python_row_plain v p : (0 < length v)%nat -> (length v <= length p)%nat ->
  exists m, python_row v false p = Some m /\ largest (length p - length v + 1) (slope v p) m.
Proof.
  intros Hv Hp. unfold python_row. rewrite convolve_valid_long by lia.
  assert (HL : length (convolve_long p v) = (length p - length v + 1)%nat) by (unfold convolve_long; rewrite map_length, seq_length; reflexivity).
  destruct (npmax_ok (convolve_long p v) (slope v p)) as [m [E H]].
  - lia.
  - rewrite HL. intros i Hi. apply convolve_long_nth; lia.
  - exists m. split; [exact E|]. rewrite HL in H. exact H.
Qed.

(* ----- whole data sets ----- *)

Definition answer (c : list Qc) (spike : bool) (p : list Qc) (m : Qc) : Prop :=
  if spike then largest (length p - length c - 1) (fun j => lesser (slope c p j) (slope c p (j + 2))) m
  else largest (length p - length c + 1) (slope c p) m.

Lemma answer_unique c s p m m' : answer c s p m -> answer c s p m' -> m = m'.
Proof. unfold answer. destruct s; apply largest_unique. Qed.

Lemma python_ok data ign (spike : bool) k :
  filter_coef k <> [] ->
  (forall row, In row data -> (length (filter_coef k) + (if spike then 2 else 0) <= length row - ign)%nat) ->
  exists out, python_compute_max_deriv data ign spike k = Some out /\
    Forall2 (fun row m => answer (filter_coef k) spike (skipn ign row) m) data out.
Proof.
  intros Hk. unfold python_compute_max_deriv. assert (Hv : (0 < length (filter_coef k))%nat) by (destruct (filter_coef k); [congruence | cbn; lia]).
  induction data as [|row data IH]; intros H; [exists []; split; [reflexivity | constructor]|].
  destruct IH as [out [E HF]]; [intros r Hr; apply H; cbn; auto|]. specialize (H row (or_introl eq_refl)).
  assert (G : exists m, python_row (filter_coef k) spike (skipn ign row) = Some m /\ answer (filter_coef k) spike (skipn ign row) m).
  { destruct spike; cbn [answer]; [apply python_row_spike | apply python_row_plain]; rewrite ?skipn_length; lia. }
  destruct G as [m [Em Hm]]. exists (m :: out). cbn [map all_some]. rewrite Em, E. split; [reflexivity|]. constructor; assumption.
Qed.

Lemma fast_ok data ign (spike : bool) k :
  length (filter_coef k) = 5%nat ->
  (forall row, In row data -> (5 + (if spike then 2 else 0) <= length row - ign)%nat) ->
  exists out, compute_max_deriv data ign spike k = Some (map Some out) /\
    Forall2 (fun row m => answer (filter_coef k) spike (skipn ign row) m) data out.
Proof.
  intros Hk. unfold compute_max_deriv. destruct (filter_coef k) as [|f0 [|f1 [|f2 [|f3 [|f4 [|]]]]]]; try discriminate. clear Hk.
  induction data as [|row data IH]; intros H; [exists []; split; [reflexivity | constructor]|].
  destruct IH as [out [E HF]]; [intros r Hr; apply H; cbn; auto|]. specialize (H row (or_introl eq_refl)). injection E as E.
  assert (G : exists m, (if spike then row_spike else row_plain) f0 f1 f2 f3 f4 (skipn ign row) = Some m /\ answer [f0; f1; f2; f3; f4] spike (skipn ign row) m).
  { unfold answer. destruct spike.
    - destruct (row_spike_ok f0 f1 f2 f3 f4 (skipn ign row)) as [m [A B]]; [rewrite skipn_length; lia|]. exists m. split; [exact A|].
      cbn [length]. replace (length (skipn ign row) - 5 - 1)%nat with (length (skipn ign row) - 6)%nat by lia. exact B.
    - destruct (row_plain_ok f0 f1 f2 f3 f4 (skipn ign row)) as [m [A B]]; [rewrite skipn_length; lia|]. exists m. split; [exact A|].
      cbn [length]. rewrite skipn_length in *. replace (length row - ign - 5 + 1)%nat with (length row - ign - 4)%nat by lia. exact B. }
  destruct G as [m [Em Hm]]. exists (m :: out). cbn [map]. rewrite Em, E. split; [reflexivity|]. constructor; assumption.
Qed.

Lemma versions_equal data ign (spike : bool) k :
  length (filter_coef k) = 5%nat ->
  (forall row, In row data -> (5 + (if spike then 2 else 0) <= length row - ign)%nat) ->
  compute_max_deriv data ign spike k = option_map (map Some) (python_compute_max_deriv data ign spike k).
Proof.
  intros Hk H. destruct (fast_ok data ign spike k Hk H) as [out [E HF]].
  destruct (python_ok data ign spike k) as [out' [E' HF']]; [intros C; rewrite C in Hk; discriminate | intros row Hr; rewrite Hk; auto|].
  rewrite E, E'. cbn. do 2 f_equal. clear -HF HF'. revert out' HF'. induction HF as [|row m data out Hm HF IH]; intros out' HF'; inversion HF' as [|? m' ? out'' Hm' HF'']; subst; [reflexivity|].
  f_equal; [eapply answer_unique; eauto | apply IH, HF''].
Qed.
