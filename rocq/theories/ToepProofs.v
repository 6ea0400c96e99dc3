From Coq Require Import PeanoNat ZArith QArith Qcanon List Bool Lia.
From Verif Require Import QcPre LagModel ToepModel ToepSpec.
Import ListNotations.
Local Open Scope Qc_scope.

Lemma dot_sum a b n : length a = n -> length b = n -> dot a b = qsum n (fun i => nth i a 0 * nth i b 0).
Proof.
  revert b n; induction a as [|x a IH]; intros [|y b] n Ha Hb; cbn in Ha, Hb; subst n; try discriminate; [reflexivity|].
  rewrite qsum_S_l. cbn [dot nth]. rewrite (IH b (length a)) by (try reflexivity; lia). reflexivity.
Qed.
Lemma nth_rev_q (l : list Qc) i : (i < length l)%nat -> nth i (rev l) 0 = nth (length l - 1 - i) l 0.
Proof. intros H. rewrite rev_nth by exact H. f_equal. lia. Qed.
Lemma vsubs_length v c u : length v = length u -> length (vsubs v c u) = length v.
Proof. intros H. unfold vsubs. rewrite map_length, combine_length. lia. Qed.
Lemma vsubs_nth v c u i : length v = length u -> nth i (vsubs v c u) 0 = nth i v 0 - c * nth i u 0.
Proof.
  revert u i; induction v as [|x v IH]; intros [|y u] i H; cbn in H; try discriminate.
  - destruct i; cbn; ring.
  - destruct i as [|i]; cbn; [reflexivity|]. apply (IH u i). lia.
Qed.
Lemma nth_snoc (l : list Qc) a i : nth i (l ++ [a]) 0 = if Nat.ltb i (length l) then nth i l 0 else if Nat.eqb i (length l) then a else 0.
Proof.
  destruct (Nat.ltb_spec i (length l)) as [H|H]; [apply app_nth1; exact H|].
  rewrite app_nth2 by lia. destruct (Nat.eqb_spec i (length l)) as [->|H']; [rewrite Nat.sub_diag; reflexivity|].
  destruct (i - length l)%nat as [|k] eqn:E; [lia|]. cbn. destruct k; reflexivity.
Qed.
Lemma qdiv_some a b c : qdiv a b = Some c -> b <> 0 /\ c * b = a.
Proof. unfold qdiv. destruct (Qc_eq_dec b 0); [discriminate|]. intros [= <-]. split; [assumption|]. field. assumption. Qed.
Lemma qdiv_none a b : qdiv a b = None <-> b = 0.
Proof. unfold qdiv. destruct (Qc_eq_dec b 0); split; congruence. Qed.

(** One Levinson step for the matrix r(i-j). *)
Section Step.
Variable r : Z -> Qc.
Definition rt (i j : nat) : Qc := r (Z.of_nat i - Z.of_nat j).
(** v solves the K x K system; a solves the transposed system with right-hand side r(-1), r(-2), ... *)
Definition fwd (K : nat) (v y : list Qc) : Prop := solves K rt v y.
Definition aux (K : nat) (a : list Qc) : Prop :=
  length a = K /\ forall i, (i < K)%nat -> qsum K (fun j => r (Z.of_nat j - Z.of_nat i) * nth j a 0) = r (- Z.of_nat (S i)).

Lemma step K (row v a y v' : list Qc) denom :
  fwd K v y -> aux K a ->
  length row = K -> (forall j, (j < K)%nat -> nth j row 0 = r (Z.of_nat K - Z.of_nat j)) ->
  denom = qsum K (fun j => r (Z.of_nat (S j)) * nth j a 0) - r 0%Z ->
  extend row v a (nth K y 0) denom = Some v' -> fwd (S K) v' y.
Proof.
  intros [Lv Hv] [La Ha] Lr Hr Hd E. unfold extend in E.
  destruct (qdiv _ _) as [vK|] eqn:Eq in E; [|discriminate]. injection E as <-.
  apply qdiv_some in Eq. destruct Eq as [Hd0 Eq].
  assert (Lra : length v = length (rev a)) by (rewrite rev_length; lia).
  assert (Lvs : length (vsubs v vK (rev a)) = K) by (rewrite vsubs_length; lia).
  split; [rewrite app_length, Lvs; cbn; lia|].
  intros i Hi. unfold mat_vec. cbn [qsum]. rewrite nth_snoc, Lvs, Nat.ltb_irrefl, Nat.eqb_refl.
  rewrite (qsum_ext K _ (fun j => rt i j * nth j v 0 - vK * (rt i j * nth (K - 1 - j) a 0))).
  2:{ intros j Hj. rewrite nth_snoc, Lvs. destruct (Nat.ltb_spec j K); [|lia]. rewrite vsubs_nth by exact Lra.
      rewrite nth_rev_q by lia. rewrite La. ring. }
  rewrite qsum_sub, qsum_scale.
  rewrite <- (qsum_rev K (fun j => rt i j * nth (K - 1 - j) a 0)).
  rewrite (qsum_ext K (fun j => rt i (K - 1 - j) * _) (fun j => r (Z.of_nat (S i) + Z.of_nat j - Z.of_nat K) * nth j a 0)).
  2:{ intros j Hj. unfold rt. f_equal; f_equal; lia. }
  destruct (Nat.eq_dec i K) as [->|Hne].
  - rewrite (qsum_ext K (fun j => r _ * nth j a 0) (fun j => r (Z.of_nat (S j)) * nth j a 0)).
    2:{ intros j Hj. f_equal; f_equal; lia. }
    rewrite (dot_sum row v K) in Eq by lia.
    rewrite (qsum_ext K (fun j => nth j row 0 * nth j v 0) (fun j => rt K j * nth j v 0)) in Eq.
    2:{ intros j Hj. rewrite Hr by exact Hj. reflexivity. }
    unfold rt at 2. rewrite Z.sub_diag.
    set (s := qsum K (fun j => rt K j * nth j v 0)) in *. set (d := qsum K (fun j => r (Z.of_nat (S j)) * nth j a 0)) in *.
    replace (s - vK * d + r 0%Z * vK) with (s - vK * denom) by (rewrite Hd; ring). rewrite Eq. ring.
  - assert (Hi' : (i < K)%nat) by lia. specialize (Hv i Hi'). unfold mat_vec in Hv. rewrite Hv.
    specialize (Ha (K - 1 - i)%nat ltac:(lia)).
    rewrite (qsum_ext K _ (fun j => r (Z.of_nat j - Z.of_nat (K - 1 - i)) * nth j a 0)).
    2:{ intros j Hj. f_equal; f_equal; lia. }
    rewrite Ha. unfold rt. replace (- Z.of_nat (S (K - 1 - i)))%Z with (Z.of_nat i - Z.of_nat K)%Z by lia. ring.
Qed.

Lemma extend_none row v a rhs denom : extend row v a rhs denom = None <-> denom = 0.
Proof. unfold extend. destruct (qdiv _ _) eqn:E; rewrite <- (qdiv_none (dot row v - rhs)); rewrite E; split; congruence. Qed.
End Step.

(** fwd for the reversed coefficients is aux. *)
Lemma aux_fwd r K a y : (forall i, (i < K)%nat -> nth i y 0 = r (- Z.of_nat (S i))%Z) ->
  fwd (fun z => r (- z)%Z) K a y -> aux r K a.
Proof.
  intros Hy [L H]. split; [exact L|]. intros i Hi. rewrite <- (Hy i Hi), <- (H i Hi). unfold mat_vec, rt.
  apply qsum_ext. intros j Hj. f_equal; f_equal; lia.
Qed.

(** ** Symmetric matrices *)
Definition rsym (T : list Qc) (z : Z) : Qc := nth (Z.abs_nat z) T 0.
Lemma rsym_mat T i j : rt (rsym T) i j = sym_toeplitz T i j.
Proof. unfold rt, rsym, sym_toeplitz. f_equal. destruct (Nat.leb_spec j i); lia. Qed.
Lemma rsym_opp T z : rsym T (- z) = rsym T z.
Proof. unfold rsym. f_equal. lia. Qed.

Lemma nth_firstn_q (l : list Qc) n i : (i < n)%nat -> nth i (firstn n l) 0 = nth i l 0.
Proof. revert l i; induction n as [|n IH]; intros [|x l] [|i] H; cbn; try lia; auto. apply IH. lia. Qed.
Lemma nth_skipn_q (l : list Qc) n i : nth i (skipn n l) 0 = nth (n + i) l 0.
Proof. revert l; induction n as [|n IH]; intros [|x l]; cbn; auto. destruct i; reflexivity. Qed.
Lemma tl_skipn (l : list Qc) : tl l = skipn 1 l. Proof. destruct l; reflexivity. Qed.
Lemma slice_length T a k : (a + k <= length T)%nat -> length (slice T a k) = k.
Proof. intros H. unfold slice. rewrite firstn_length, skipn_length. lia. Qed.
Lemma slice_nth T a k i : (i < k)%nat -> nth i (slice T a k) 0 = nth (a + i) T 0.
Proof. intros H. unfold slice. rewrite nth_firstn_q by exact H. apply nth_skipn_q. Qed.
Lemma upto_slice T K : upto T K = slice T 1 K.
Proof. unfold upto, slice. rewrite tl_skipn. reflexivity. Qed.

Definition gsol (T : list Qc) (K : nat) (g : list Qc) : Prop := fwd (rsym T) K g (tl T).
Definition gdenom (T : list Qc) (K : nat) (g : list Qc) : Qc := dot (upto T K) g - nth 0 T 0.

Lemma nth_tl (T : list Qc) i : nth i (tl T) 0 = nth (S i) T 0.
Proof. destruct T; [destruct i; reflexivity|reflexivity]. Qed.

Lemma gsol_aux T K g : gsol T K g -> aux (rsym T) K g.
Proof.
  intros H. apply (aux_fwd _ K g (tl T)).
  - intros i Hi. rewrite nth_tl, rsym_opp. unfold rsym. f_equal. lia.
  - destruct H as [L H]. split; [exact L|]. intros i Hi. rewrite <- (H i Hi). unfold mat_vec, rt. apply qsum_ext. intros j Hj. rewrite rsym_opp. reflexivity.
Qed.

Lemma gdenom_sum T K g : (K < length T)%nat -> length g = K ->
  gdenom T K g = qsum K (fun j => rsym T (Z.of_nat (S j)) * nth j g 0) - rsym T 0.
Proof.
  intros HK L. unfold gdenom. rewrite upto_slice. rewrite (dot_sum _ _ K) by (try apply slice_length; lia).
  f_equal. apply qsum_ext. intros j Hj. rewrite slice_nth by exact Hj. unfold rsym. f_equal. f_equal. lia.
Qed.

Lemma step_sym T K v g y v' :
  (K < length T)%nat -> fwd (rsym T) K v y -> gsol T K g ->
  extend (rev (upto T K)) v g (nth K y 0) (gdenom T K g) = Some v' -> fwd (rsym T) (S K) v' y.
Proof.
  intros HK Hv Hg E. pose proof (gsol_aux T K g Hg) as Ha. destruct Hg as [Lg _].
  rewrite upto_slice in E.
  refine (step (rsym T) K _ v g y v' _ Hv Ha _ _ _ E).
  - rewrite rev_length. apply slice_length. lia.
  - intros j Hj. rewrite nth_rev_q; rewrite slice_length by lia; [|exact Hj]. rewrite slice_nth by lia. unfold rsym. f_equal. lia.
  - apply gdenom_sum; assumption.
Qed.

(** What precomputation stores: for each K the denominator and, except for the last, the leading value of the next g. *)
Fixpoint pre_ok (T : list Qc) (K : nat) (g : list Qc) (pre : list (Qc * Qc)) : Prop :=
  match pre with
  | [] => False
  | (d, lead) :: rest =>
      d = gdenom T K g /\
      match rest with
      | [] => True
      | _ => exists g', extend (rev (upto T K)) g g (nth (K + 1) T 0) d = Some g' /\ g' = vsubs g lead (rev g) ++ [lead] /\ pre_ok T (K + 1) g' rest
      end
  end.

Lemma precompute_ok m T K g pre : length g = K -> precompute m T K g = Some pre -> pre_ok T K g pre /\ length pre = S m.
Proof.
  revert K g pre; induction m as [|m IH]; intros K g pre L E; cbn [precompute] in E.
  - injection E as <-. cbn. auto.
  - fold (gdenom T K g) in E. destruct (extend _ _ _ _ _) as [g'|] eqn:Ex in E; [|discriminate].
    destruct (precompute m T (K + 1) g') as [rest|] eqn:Ep; [|discriminate]. injection E as <-.
    assert (Hg' : g' = vsubs g (nth K g' 0) (rev g) ++ [nth K g' 0]).
    { unfold extend in Ex. destruct (qdiv _ _) as [c|]; [|discriminate]. injection Ex as <-.
      rewrite nth_snoc, vsubs_length by (rewrite rev_length; reflexivity). rewrite L, Nat.ltb_irrefl, Nat.eqb_refl. reflexivity. }
    assert (Lg : length g' = (K + 1)%nat) by (rewrite Hg', app_length, vsubs_length by (rewrite rev_length; reflexivity); cbn; lia).
    destruct (IH (K + 1)%nat g' rest Lg Ep) as [IH1 IH2]. split; [|cbn; lia].
    cbn [pre_ok]. split; [reflexivity|]. destruct rest as [|p rest]; [cbn in IH2; lia|].
    exists g'. repeat split; auto.
Qed.

Lemma solve_loop_ok pre : forall T y K x g xs,
  (K + length pre = length T)%nat -> (0 < K)%nat -> gsol T K g -> fwd (rsym T) K x y -> pre_ok T K g pre ->
  solve_loop pre T y K x g = Some xs -> fwd (rsym T) (length T) xs y.
Proof.
  induction pre as [|[d lead] rest IH]; intros T y K x g xs HL HK Hg Hx Hp E; cbn [solve_loop] in E; [discriminate|].
  cbn [length] in HL. cbn [pre_ok] in Hp. destruct Hp as [-> Hp].
  destruct (extend _ _ _ _ _) as [x'|] eqn:Ex in E; [|discriminate].
  assert (Hx' : fwd (rsym T) (S K) x' y) by (refine (step_sym T K x g y x' _ Hx Hg Ex); lia).
  destruct rest as [|p rest].
  - injection E as <-. cbn in HL. replace (length T) with (S K) by lia. exact Hx'.
  - destruct Hp as [g' [Eg [Hg' Hr]]]. rewrite <- Hg' in E. rewrite Nat.add_1_r in *.
    assert (Hg2 : gsol T (S K) g').
    { unfold gsol. refine (step_sym T K g g (tl T) g' _ Hg Hg _); [lia|]. rewrite nth_tl. exact Eg. }
    cbn [length] in HL. apply (IH T y (S K) x' g' xs); auto; cbn [length]; lia.
Qed.

Lemma fwd_1 r v y0 y : v * r 0%Z = y0 -> nth 0 y 0 = y0 -> fwd r 1 [v] y.
Proof.
  intros H Hy. split; [reflexivity|]. intros i Hi. replace i with 0%nat by lia. rewrite Hy, <- H.
  unfold mat_vec, rt. cbn. ring.
Qed.

Lemma fwd_ext r s A K v y : (forall i j, (i < K)%nat -> (j < K)%nat -> rt r i j = A i j) -> s = solves K A v y -> fwd r K v y -> s.
Proof.
  intros H -> [L Hv]. split; [exact L|]. intros i Hi. rewrite <- (Hv i Hi). unfold mat_vec. apply qsum_ext. intros j Hj.
  rewrite H by assumption. reflexivity.
Qed.

Theorem solve_symmetric_solves T y x : solve_symmetric T y = Some x -> solves (length T) (sym_toeplitz T) x y.
Proof.
  unfold solve_symmetric. destruct (Nat.leb_spec (length T) 1) as [|Hn]; [discriminate|].
  destruct (Nat.eqb_spec (length y) (length T)) as [Hy|]; [|discriminate]. cbn [orb negb].
  destruct (qdiv (nth 1 T 0) _) as [g0|] eqn:Eg; [|discriminate].
  destruct (precompute _ _ _ _) as [pre|] eqn:Ep; [|discriminate].
  destruct (qdiv (nth 0 y 0) _) as [x0|] eqn:Ex; [|discriminate]. intros E.
  apply precompute_ok in Ep; [|reflexivity]. destruct Ep as [Hp Lp].
  apply qdiv_some in Eg, Ex. destruct Eg as [Hz Eg], Ex as [_ Ex].
  refine (fwd_ext (rsym T) _ _ (length T) x y (fun i j _ _ => rsym_mat T i j) eq_refl _).
  refine (solve_loop_ok pre T y 1 [x0] [g0] x _ _ _ _ Hp E); [lia|lia| |].
  - apply (fwd_1 _ g0 (nth 1 T 0)); [exact Eg|]. apply nth_tl.
  - apply (fwd_1 _ x0 (nth 0 y 0)); [exact Ex|reflexivity].
Qed.

(** ** Positive definite matrices: no division by zero *)
Lemma qsum_pad n m f : (n <= m)%nat -> (forall i, (n <= i < m)%nat -> f i = 0) -> qsum m f = qsum n f.
Proof.
  intros H Hf. replace m with (n + (m - n))%nat by lia. rewrite qsum_split. rewrite (qsum_zero (m - n)); [ring|].
  intros i Hi. apply Hf. lia.
Qed.

Lemma pd_sub n m A : (m <= n)%nat -> positive_definite n A -> positive_definite m A.
Proof.
  intros Hm H v [i [Hi Hv]].
  set (w := fun i => if Nat.ltb i m then v i else 0).
  assert (P : 0 < qsum n (fun i => qsum n (fun j => w i * A i j * w j))).
  { apply H. exists i. split; [lia|]. unfold w. destruct (Nat.ltb_spec i m); [exact Hv|lia]. }
  rewrite (qsum_pad m n) in P; [|exact Hm|].
  2:{ intros k Hk. apply qsum_zero. intros j Hj. unfold w. destruct (Nat.ltb_spec k m); [lia|]. ring. }
  rewrite (qsum_ext m _ (fun i => qsum m (fun j => v i * A i j * v j))) in P; [exact P|].
  intros k Hk. rewrite (qsum_pad m n); [|exact Hm|].
  - apply qsum_ext. intros j Hj. unfold w. destruct (Nat.ltb_spec k m), (Nat.ltb_spec j m); try lia. reflexivity.
  - intros j Hj. unfold w. destruct (Nat.ltb_spec j m); [lia|]. ring.
Qed.

(** With v = (-1, g), v'Tv = -denom. *)
Lemma pd_denom T K g : (K < length T)%nat -> positive_definite (length T) (sym_toeplitz T) -> gsol T K g -> gdenom T K g < 0.
Proof.
  intros HK HP Hg. apply (pd_sub _ (S K)) in HP; [|lia]. destruct Hg as [Lg Hg].
  set (v := fun i => match i with O => - (1) | S i => nth i g 0 end).
  assert (P := HP v ltac:(exists 0%nat; split; [lia|cbn; discriminate])).
  rewrite gdenom_sum by assumption.
  assert (E : qsum (S K) (fun i => qsum (S K) (fun j => v i * sym_toeplitz T i j * v j)) =
              - (qsum K (fun j => rsym T (Z.of_nat (S j)) * nth j g 0) - rsym T 0)).
  2:{ rewrite E in P. qlra. }
  rewrite qsum_S_l.
  rewrite (qsum_ext K _ (fun _ => 0)), qsum_0.
  - rewrite qsum_S_l. cbn [v]. rewrite (qsum_ext K _ (fun j => - (1) * (rsym T (Z.of_nat (S j)) * nth j g 0))).
    + rewrite qsum_scale. rewrite <- rsym_mat. unfold rt. cbn [Z.of_nat Z.sub Z.opp Z.add]. ring.
    + intros j Hj. rewrite <- rsym_mat. unfold rt. cbn [Z.of_nat]. rewrite Z.sub_0_l, rsym_opp. ring.
  - intros i Hi. rewrite qsum_S_l. cbn [v].
    rewrite (qsum_ext K _ (fun j => nth i g 0 * (rt (rsym T) i j * nth j g 0))).
    + rewrite qsum_scale. specialize (Hg i Hi). unfold mat_vec in Hg. rewrite Hg, nth_tl. rewrite <- rsym_mat. unfold rt, rsym.
      replace (Z.abs_nat (Z.of_nat (S i) - Z.of_nat 0)) with (S i) by lia. ring.
    + intros j Hj. rewrite <- rsym_mat. unfold rt. replace (Z.of_nat (S i) - Z.of_nat (S j))%Z with (Z.of_nat i - Z.of_nat j)%Z by lia. ring.
Qed.

Lemma pd_T0 T : (0 < length T)%nat -> positive_definite (length T) (sym_toeplitz T) -> 0 < nth 0 T 0.
Proof.
  intros HL H. apply (pd_sub _ 1) in H; [|lia]. specialize (H (fun _ => 1) ltac:(exists 0%nat; split; [lia|discriminate])).
  cbn in H. unfold sym_toeplitz in H. cbn in H. qlra.
Qed.

Lemma precompute_pd m : forall T K g, (K + S m = length T)%nat -> positive_definite (length T) (sym_toeplitz T) -> gsol T K g ->
  exists pre, precompute m T K g = Some pre.
Proof.
  induction m as [|m IH]; intros T K g HL HP Hg; cbn [precompute]; [eauto|]. fold (gdenom T K g).
  pose proof (pd_denom T K g ltac:(lia) HP Hg) as Hd.
  destruct (extend _ _ _ _ _) as [g'|] eqn:E.
  - destruct (IH T (S K) g' ltac:(lia) HP) as [pre Ep].
    + refine (step_sym T K g g (tl T) g' _ Hg Hg _); [lia|]. rewrite nth_tl, <- Nat.add_1_r. exact E.
    + rewrite Nat.add_1_r, Ep. eauto.
  - apply extend_none in E. rewrite E in Hd. discriminate Hd.
Qed.

Lemma solve_loop_pd pre : forall T y K x g, (K + length pre = length T)%nat -> positive_definite (length T) (sym_toeplitz T) ->
  gsol T K g -> pre_ok T K g pre -> exists xs, solve_loop pre T y K x g = Some xs.
Proof.
  induction pre as [|[d lead] rest IH]; intros T y K x g HL HP Hg Hp; cbn [pre_ok] in Hp; [contradiction|].
  destruct Hp as [-> Hp]. cbn [length solve_loop] in *.
  pose proof (pd_denom T K g ltac:(lia) HP Hg) as Hd.
  destruct (extend _ x _ _ _) as [x'|] eqn:E.
  - destruct rest as [|p rest]; [eauto|]. destruct Hp as [g' [Eg [Hg' Hr]]]. rewrite <- Hg'. rewrite Nat.add_1_r in *.
    apply IH; auto.
    + lia.
    + refine (step_sym T K g g (tl T) g' _ Hg Hg _); [lia|]. rewrite nth_tl. exact Eg.
  - apply extend_none in E. rewrite E in Hd. discriminate Hd.
Qed.

Theorem solve_symmetric_pd T y : (2 <= length T)%nat -> length y = length T -> positive_definite (length T) (sym_toeplitz T) ->
  exists x, solve_symmetric T y = Some x.
Proof.
  intros HL Hy HP. unfold solve_symmetric. destruct (Nat.leb_spec (length T) 1); [lia|]. rewrite Hy, Nat.eqb_refl. cbn [orb negb].
  pose proof (pd_T0 T ltac:(lia) HP) as H0.
  destruct (qdiv (nth 1 T 0) (nth 0 T 0)) as [g0|] eqn:Eg.
  2:{ apply qdiv_none in Eg. rewrite Eg in H0. discriminate H0. }
  assert (Hg : gsol T 1 [g0]).
  { apply qdiv_some in Eg. destruct Eg as [_ Eg]. apply (fwd_1 _ g0 (nth 1 T 0)); [exact Eg|apply nth_tl]. }
  destruct (precompute_pd (length T - 2) T 1 [g0] ltac:(lia) HP Hg) as [pre Ep]. rewrite Ep.
  destruct (qdiv (nth 0 y 0) (nth 0 T 0)) as [x0|] eqn:Ex.
  2:{ apply qdiv_none in Ex. rewrite Ex in H0. discriminate H0. }
  apply precompute_ok in Ep; [|reflexivity]. destruct Ep as [Hp Lp].
  apply solve_loop_pd; auto. lia.
Qed.

(** ** General Toeplitz matrices *)
Definition rgen (n : nat) (T : list Qc) (z : Z) : Qc := nth (Z.to_nat (z + Z.of_nat n - 1)) T 0.
Lemma rgen_mat n T i j : (i < n)%nat -> (j < n)%nat -> rt (rgen n T) i j = toeplitz n T i j.
Proof. intros Hi Hj. unfold rt, rgen, toeplitz. f_equal. lia. Qed.

Definition hrhs (n : nat) (T : list Qc) : list Qc := skipn n T.
Definition grhs (n : nat) (T : list Qc) : list Qc := rev (firstn (n - 1) T).
Lemma grhs_nth n T i : (n - 1 <= length T)%nat -> (i < n - 1)%nat -> nth i (grhs n T) 0 = nth (n - 2 - i) T 0.
Proof.
  intros HL Hi. unfold grhs. assert (L : length (firstn (n - 1) T) = (n - 1)%nat) by (rewrite firstn_length; lia).
  rewrite nth_rev_q by lia. rewrite L, nth_firstn_q by lia. f_equal. lia.
Qed.

Section Gen.
Variables (n : nat) (T : list Qc).
Hypothesis HT : length T = (2 * n - 1)%nat.
Definition rr : Z -> Qc := rgen n T.
Definition rrT : Z -> Qc := fun z => rr (- z)%Z.

Lemma h_aux K h : (K < n)%nat -> fwd rr K h (hrhs n T) -> aux rrT K h.
Proof.
  intros HK H. apply (aux_fwd rrT K h (hrhs n T)).
  - intros i Hi. unfold hrhs. rewrite nth_skipn_q. unfold rrT, rr, rgen. f_equal. lia.
  - destruct H as [L H]. split; [exact L|]. intros i Hi. rewrite <- (H i Hi). unfold mat_vec, rt, rrT. apply qsum_ext. intros j Hj.
    f_equal; f_equal; lia.
Qed.
Lemma g_aux K g : (K < n)%nat -> fwd rrT K g (grhs n T) -> aux rr K g.
Proof.
  intros HK H. apply (aux_fwd rr K g (grhs n T)); [|exact H].
  intros i Hi. rewrite grhs_nth by lia. unfold rr, rgen. f_equal. lia.
Qed.

Lemma step_x K v g y v' : (0 < K < n)%nat -> fwd rr K v y -> fwd rrT K g (grhs n T) ->
  extend (rev (slice T n K)) v g (nth K y 0) (dot (slice T n K) g - nth (n - 1) T 0) = Some v' -> fwd rr (S K) v' y.
Proof.
  intros HK Hv Hg E. pose proof (g_aux K g ltac:(lia) Hg) as Ha. destruct Hg as [Lg _].
  refine (step rr K _ v g y v' _ Hv Ha _ _ _ E).
  - rewrite rev_length. apply slice_length. lia.
  - intros j Hj. rewrite nth_rev_q; rewrite slice_length by lia; [|exact Hj]. rewrite slice_nth by lia. unfold rr, rgen. f_equal. lia.
  - rewrite (dot_sum _ _ K) by (try apply slice_length; lia). f_equal.
    + apply qsum_ext. intros j Hj. rewrite slice_nth by exact Hj. unfold rr, rgen. f_equal. f_equal. lia.
    + unfold rr, rgen. f_equal. lia.
Qed.

Lemma step_g K g h g' : (0 < K < n - 1)%nat -> fwd rrT K g (grhs n T) -> fwd rr K h (hrhs n T) ->
  extend (slice T (n - K - 1) K) g h (nth (n - K - 2) T 0) (dot (slice T (n - K - 1) K) (rev h) - nth (n - 1) T 0) = Some g' ->
  fwd rrT (S K) g' (grhs n T).
Proof.
  intros HK Hg Hh E. pose proof (h_aux K h ltac:(lia) Hh) as Ha. destruct Hh as [Lh _].
  replace (nth (n - K - 2) T 0) with (nth K (grhs n T) 0) in E by (rewrite grhs_nth by lia; f_equal; lia).
  refine (step rrT K _ g h (grhs n T) g' _ Hg Ha _ _ _ E).
  - apply slice_length. lia.
  - intros j Hj. rewrite slice_nth by lia. unfold rrT, rr, rgen. f_equal. lia.
  - rewrite (dot_sum _ _ K) by (try rewrite rev_length; try apply slice_length; lia). f_equal.
    + rewrite <- (qsum_rev K). apply qsum_ext. intros j Hj. rewrite slice_nth by lia. rewrite nth_rev_q by lia.
      unfold rrT, rr, rgen. f_equal; f_equal; lia.
    + unfold rrT, rr, rgen. f_equal. lia.
Qed.

Lemma asym_loop_ok m : forall y K x g h xs, (K + S m = n)%nat -> (0 < K)%nat ->
  fwd rr K x y -> fwd rrT K g (grhs n T) -> fwd rr K h (hrhs n T) ->
  asym_loop m n T y K x g h = Some xs -> fwd rr n xs y.
Proof.
  induction m as [|m IH]; intros y K x g h xs HL HK Hx Hg Hh E; cbn [asym_loop] in E.
  - destruct (extend _ _ _ _ _) as [x'|] eqn:Ex in E; [|discriminate]. injection E as <-.
    assert (Hn : S K = n) by lia. enough (Q : fwd rr (S K) x' y) by (rewrite Hn in Q; exact Q). refine (step_x K x g y x' _ Hx Hg Ex). lia.
  - destruct (extend _ x _ _ _) as [x'|] eqn:Ex in E; [|discriminate].
    destruct (extend _ h _ _ _) as [h'|] eqn:Eh in E; [|discriminate].
    destruct (extend _ g _ _ _) as [g'|] eqn:Eg in E; [|discriminate].
    rewrite Nat.add_1_r in E. refine (IH y (S K) x' g' h' xs _ _ _ _ _ E); try lia.
    + refine (step_x K x g y x' _ Hx Hg Ex). lia.
    + refine (step_g K g h g' _ Hg Hh Eg). lia.
    + refine (step_x K h g (hrhs n T) h' _ Hh Hg _); [lia|]. unfold hrhs at 1. rewrite nth_skipn_q. rewrite Nat.add_comm. exact Eh.
Qed.
End Gen.

Theorem solve_asymmetric_solves n T y x : length T = (2 * n - 1)%nat -> solve_asymmetric T y = Some x -> solves n (toeplitz n T) x y.
Proof.
  intros HT. unfold solve_asymmetric.
  destruct (Nat.even (length T)) eqn:Ev; [discriminate|].
  assert (Hn0 : (0 < n)%nat) by (destruct n; [rewrite HT in Ev; discriminate|lia]).
  replace (Nat.div (length T + 1) 2) with n by (rewrite HT; replace (2 * n - 1 + 1)%nat with (n * 2)%nat by lia; symmetry; apply Nat.div_mul; lia).
  destruct (Nat.leb_spec n 1) as [|Hn]; [discriminate|].
  destruct (Nat.eqb_spec (length y) n) as [Hy|]; [|discriminate]. cbn [orb negb].
  destruct (qdiv (nth 0 y 0) _) as [x0|] eqn:Ex; [|discriminate].
  destruct (qdiv (nth (n - 2) T 0) _) as [g0|] eqn:Eg; [|discriminate].
  destruct (qdiv (nth n T 0) _) as [h0|] eqn:Eh; [|discriminate]. intros E.
  apply qdiv_some in Ex, Eg, Eh. destruct Ex as [_ Ex], Eg as [_ Eg], Eh as [_ Eh].
  assert (R0 : rgen n T 0 = nth (n - 1) T 0) by (unfold rgen; f_equal; lia).
  refine (fwd_ext (rgen n T) _ _ n x y (rgen_mat n T) eq_refl _).
  refine (asym_loop_ok n T HT (n - 2) y 1 [x0] [g0] [h0] x _ _ _ _ _ E); try lia.
  - apply (fwd_1 _ x0 (nth 0 y 0)); [unfold rr; rewrite R0; exact Ex|reflexivity].
  - apply (fwd_1 _ g0 (nth (n - 2) T 0)); [unfold rrT, rr; cbn [Z.opp]; rewrite R0; exact Eg|]. rewrite grhs_nth by lia. f_equal. lia.
  - apply (fwd_1 _ h0 (nth n T 0)); [unfold rr; rewrite R0; exact Eh|]. unfold hrhs. rewrite nth_skipn_q. f_equal. lia.
Qed.

(** ** Multiplication *)
Theorem mult_symmetric_ok T x y : mult_symmetric false T x = Some y ->
  length y = length T /\ forall i, (i < length T)%nat -> nth i y 0 = mat_vec (length T) (sym_toeplitz T) x i.
Proof.
  unfold mult_symmetric. destruct (Nat.eqb_spec (length x) (length T)) as [Hx|]; [|discriminate].
  destruct (Nat.eqb_spec (length T) 0) as [|Hn]; [discriminate|]. cbn [negb orb]. intros [= <-].
  split; [rewrite map_length, seq_length; reflexivity|]. intros i Hi.
  set (f := fun i => match i with O => dot T x | S _ => _ end).
  rewrite (nth_indep _ _ (f 0%nat)) by (rewrite map_length, seq_length; exact Hi).
  rewrite map_nth, seq_nth by exact Hi. cbn [Nat.add]. set (n := length T) in *.
  destruct i as [|i]; unfold f; unfold mat_vec.
  - rewrite (dot_sum T x n) by auto. apply qsum_ext. intros j Hj. unfold sym_toeplitz. destruct j; reflexivity.
  - replace (qsum n (fun j : nat => sym_toeplitz T (S i) j * nth j x 0)) with (qsum (S i + (n - S i)) (fun j : nat => sym_toeplitz T (S i) j * nth j x 0)) by (f_equal; lia).
    rewrite qsum_split, Qcplus_comm. f_equal.
    + rewrite (dot_sum _ _ (S i)).
      * rewrite <- qsum_rev. apply qsum_ext. intros j Hj. rewrite slice_nth by lia.
        assert (Lf : length (firstn (S i) x) = S i) by (rewrite firstn_length; lia).
        rewrite nth_rev_q by lia. rewrite Lf, nth_firstn_q by lia. unfold sym_toeplitz.
        destruct (Nat.leb_spec j (S i)); [|lia]. f_equal; f_equal; lia.
      * apply slice_length. lia.
      * rewrite rev_length, firstn_length. lia.
    + rewrite (dot_sum _ _ (n - S i)).
      * apply qsum_ext. intros j Hj. rewrite nth_firstn_q by lia. rewrite nth_skipn_q. unfold sym_toeplitz.
        destruct (Nat.leb_spec (S i + j) (S i)); f_equal; f_equal; lia.
      * rewrite firstn_length. lia.
      * rewrite skipn_length. lia.
Qed.

(** ** Uniqueness for symmetric matrices *)
Lemma solve_loop_any pre : forall T y y' K x x' g xs, solve_loop pre T y K x g = Some xs -> exists xs', solve_loop pre T y' K x' g = Some xs'.
Proof.
  induction pre as [|[d lead] rest IH]; intros T y y' K x x' g xs E; cbn [solve_loop] in *; [discriminate|].
  destruct (extend _ x _ _ _) as [x1|] eqn:E1; [|discriminate].
  destruct (extend _ x' _ _ _) as [x2|] eqn:E2.
  2:{ apply extend_none in E2. rewrite (proj2 (extend_none _ _ _ _ d) E2) in E1. discriminate. }
  destruct rest; [eauto|]. eapply IH. exact E.
Qed.
Lemma solve_any T y y' x : length y' = length y -> solve_symmetric T y = Some x -> exists x', solve_symmetric T y' = Some x'.
Proof.
  intros L. unfold solve_symmetric. rewrite L. destruct (_ || _); [discriminate|].
  destruct (qdiv (nth 1 T 0) _) as [g0|]; [|discriminate].
  destruct (precompute _ _ _ _) as [pre|]; [|discriminate].
  destruct (qdiv (nth 0 y 0) _) as [x0|] eqn:E1; [|discriminate].
  destruct (qdiv (nth 0 y' 0) _) as [x0'|] eqn:E2.
  - apply solve_loop_any.
  - apply qdiv_none in E2. rewrite (proj2 (qdiv_none _ _) E2) in E1. discriminate.
Qed.
Lemma solve_lengths T y x : solve_symmetric T y = Some x -> length y = length T.
Proof. unfold solve_symmetric. destruct (Nat.eqb_spec (length y) (length T)); [auto|]. rewrite orb_true_r. discriminate. Qed.

Lemma sym_toeplitz_sym T i j : sym_toeplitz T i j = sym_toeplitz T j i.
Proof. unfold sym_toeplitz. destruct (Nat.leb_spec j i), (Nat.leb_spec i j); f_equal; lia. Qed.
Lemma qsq_nonneg (a : Qc) : 0 <= a * a. Proof. qnra. Qed.
Lemma qsum_sq_zero n (f : nat -> Qc) : qsum n (fun i => f i * f i) = 0 -> forall i, (i < n)%nat -> f i = 0.
Proof.
  induction n as [|n IH]; intros H i Hi; [lia|]. cbn in H.
  assert (P : 0 <= qsum n (fun i => f i * f i)).
  { clear. induction n as [|n IH]; cbn; [apply Qcle_refl|]. pose proof (qsq_nonneg (f n)). qlra. }
  pose proof (qsq_nonneg (f n)) as Q.
  assert (E1 : qsum n (fun i => f i * f i) = 0) by qlra. assert (E2 : f n * f n = 0) by qlra.
  destruct (Nat.eq_dec i n) as [->|Hne]; [|apply IH; [exact E1|lia]].
  apply Qcmult_integral in E2. tauto.
Qed.

Theorem solve_symmetric_unique T y x z : solve_symmetric T y = Some x -> solves (length T) (sym_toeplitz T) z y -> z = x.
Proof.
  intros E [Lz Hz]. pose proof (solve_symmetric_solves T y x E) as [Lx Hx]. pose proof (solve_lengths T y x E) as Ly. set (n := length T) in *.
  set (d := map (fun i => nth i z 0 - nth i x 0) (seq 0 n)).
  assert (Ld : length d = n) by (unfold d; rewrite map_length, seq_length; reflexivity).
  assert (Nd : forall i, (i < n)%nat -> nth i d 0 = nth i z 0 - nth i x 0).
  { intros i Hi. unfold d. rewrite (nth_indep _ _ ((fun i => nth i z 0 - nth i x 0) 0%nat)) by (fold d; lia).
    rewrite (map_nth (fun i => nth i z 0 - nth i x 0)), seq_nth by exact Hi. reflexivity. }
  destruct (solve_any T y d x ltac:(lia) E) as [w Ew]. apply solve_symmetric_solves in Ew. destruct Ew as [Lw Hw]. fold n in Hw.
  assert (S0 : qsum n (fun i => nth i d 0 * nth i d 0) = 0).
  { rewrite (qsum_ext n _ (fun i => qsum n (fun j => nth i d 0 * sym_toeplitz T i j * nth j w 0))).
    2:{ intros i Hi. rewrite <- (Hw i Hi) at 2. unfold mat_vec. rewrite <- qsum_scale. apply qsum_ext. intros; ring. }
    rewrite qsum_swap. apply qsum_zero. intros j Hj.
    transitivity (nth j w 0 * (mat_vec n (sym_toeplitz T) z j - mat_vec n (sym_toeplitz T) x j)).
    - unfold mat_vec. rewrite <- qsum_sub, <- qsum_scale. apply qsum_ext. intros i Hi. rewrite (Nd i Hi), (sym_toeplitz_sym T i j). ring.
    - rewrite Hz, Hx by exact Hj. ring. }
  apply (nth_ext _ _ 0 0); [lia|]. intros i Hi.
  pose proof (qsum_sq_zero n (fun i => nth i d 0) S0 i ltac:(lia)) as D. cbn beta in D. rewrite Nd in D by lia. qlra.
Qed.
