(** Proofs about savitzky_golay. *)
From Coq Require Import ZArith QArith Qcanon Bool FinFun List Lia.
From Verif Require Import QcPre SgModel SgSpec.
Import ListNotations.
Local Open Scope Qc_scope.

(** * Polynomials *)

Fixpoint quotient (r : Qc) (c : list Qc) : list Qc :=
  match c with
  | [] => []
  | a :: t => match t with [] => [] | _ => poly t r :: quotient r t end
  end.
Lemma quotient_ok r c x : poly c x = (x - r) * poly (quotient r c) x + poly c r.
Proof.
  induction c as [|a c IH]; [cbn; ring|]. destruct c as [|b c]; [cbn; ring|].
  change (poly (quotient r (a :: b :: c)) x) with (poly (b :: c) r + x * poly (quotient r (b :: c)) x).
  change (poly (a :: b :: c) x) with (a + x * poly (b :: c) x). change (poly (a :: b :: c) r) with (a + r * poly (b :: c) r).
  rewrite IH. set (q := poly (quotient r (b :: c)) x). set (p := poly (b :: c) r). ring.
Qed.
Lemma quotient_length r a c : length (quotient r (a :: c)) = length c.
Proof. revert a. induction c as [|b c IH]; intros a; [reflexivity|]. change (length (quotient r (a :: b :: c))) with (S (length (quotient r (b :: c)))). rewrite IH. reflexivity. Qed.
Lemma quotient_zero r c : Forall (eq 0) (quotient r c) -> poly c r = 0 -> Forall (eq 0) c.
Proof.
  induction c as [|a c IH]; intros H R; [constructor|]. destruct c as [|b c].
  - cbn in R. constructor; [|constructor]. rewrite <- R. ring.
  - change (quotient r (a :: b :: c)) with (poly (b :: c) r :: quotient r (b :: c)) in H. assert (H1 := Forall_inv H). assert (H2 := Forall_inv_tail H).
    change (poly (a :: b :: c) r) with (a + r * poly (b :: c) r) in R. rewrite <- H1 in R.
    constructor; [rewrite <- R; ring|]. apply IH; [exact H2 | now symmetry].
Qed.
Lemma Qcmult_zero a b : a * b = 0 -> a = 0 \/ b = 0.
Proof. apply Qcmult_integral. Qed.
Lemma roots_zero l : forall c, NoDup l -> (length c <= length l)%nat -> (forall x, In x l -> poly c x = 0) -> Forall (eq 0) c.
Proof.
  induction l as [|r l IH]; intros c ND L R.
  - destruct c; [constructor | cbn in L; lia].
  - destruct c as [|a c]; [constructor|]. inversion ND as [|? ? NI ND']; subst.
    assert (R0 : poly (a :: c) r = 0) by (apply R; now left).
    apply (quotient_zero r); [|exact R0]. apply IH; [exact ND' | rewrite quotient_length; cbn in L; lia |].
    intros x Hx. assert (E := quotient_ok r (a :: c) x). rewrite R0, (R x) in E by now right.
    assert (E' : (x - r) * poly (quotient r (a :: c)) x = 0) by (rewrite Qcplus_0_r in E; now symmetry).
    apply Qcmult_zero in E'. destruct E' as [E'|E']; [|exact E'].
    exfalso. apply NI. replace r with x; [exact Hx|]. replace x with (x - r + r) by ring. rewrite E'. ring.
Qed.

Lemma poly_sum c x : poly c x = qsum (length c) (fun l => pow x l * nth l c 0).
Proof.
  induction c as [|a c IH]; [reflexivity|]. cbn [length poly]. rewrite qsum_S_l, IH. cbn [pow nth].
  rewrite <- qsum_scale. rewrite (qsum_ext _ (fun i => x * pow x i * nth i c 0) (fun i => x * (pow x i * nth i c 0))) by (intros; ring).
  ring.
Qed.
Lemma poly_app_zero c k x : poly (c ++ repeat 0 k) x = poly c x.
Proof.
  induction c as [|a c IH]; cbn; [|now rewrite IH]. induction k as [|k IH]; cbn; [reflexivity|]. rewrite IH. ring.
Qed.
(** [c(x)] becomes [c(-x)]. *)
Definition alt (c : list Qc) : list Qc := map (fun l => sign l * nth l c 0) (seq 0 (length c)).
Lemma pow_opp x l : pow (- x) l = sign l * pow x l.
Proof.
  unfold sign. induction l as [|l IH]; [cbn; ring|]. cbn [pow]. rewrite IH, Nat.even_succ, <- Nat.negb_even.
  destruct (Nat.even l); cbn [negb]; ring.
Qed.
Lemma nth_map_seq (f : nat -> Qc) n l : (l < n)%nat -> nth l (map f (seq 0 n)) 0 = f l.
Proof.
  intros H. rewrite (nth_indep _ 0 (f O)) by (rewrite map_length, seq_length; exact H).
  rewrite map_nth, seq_nth by exact H. reflexivity.
Qed.
Lemma alt_length c : length (alt c) = length c.
Proof. unfold alt. now rewrite map_length, seq_length. Qed.
Lemma alt_nth c l : (l < length c)%nat -> nth l (alt c) 0 = sign l * nth l c 0.
Proof. apply nth_map_seq. Qed.
Lemma alt_poly c x : poly (alt c) x = poly c (- x).
Proof.
  rewrite !poly_sum, alt_length. apply qsum_ext. intros l Hl. rewrite alt_nth by exact Hl. rewrite pow_opp. ring.
Qed.
Lemma sign_square l : sign l * sign l = 1.
Proof. unfold sign. destruct (Nat.even l); ring. Qed.

Lemma zc_inj a b : zc a = zc b -> a = b.
Proof. intros H. apply Qc_eq_this in H. unfold zc in H. rewrite !this_Q2Qc in H. now apply inject_Z_injective. Qed.
Lemma zc_add a b : zc (a + b) = zc a + zc b.
Proof. apply Qc_eq. rewrite this_add. unfold zc. rewrite !this_Q2Qc. rewrite inject_Z_plus. reflexivity. Qed.
Lemma zc_opp a : zc (- a) = - zc a.
Proof. apply Qc_eq. rewrite this_opp. unfold zc. rewrite !this_Q2Qc. rewrite inject_Z_opp. reflexivity. Qed.

(** Expansion around a point. *)
Fixpoint shift (t : Qc) (c : list Qc) : list Qc :=
  match c with
  | [] => []
  | a :: c' => let e := shift t c' in
               map (fun l => (if Nat.eqb l 0 then a else nth (l - 1) e 0) + t * nth l e 0) (seq 0 (S (length c')))
  end.
Lemma shift_length t c : length (shift t c) = length c.
Proof. destruct c as [|a c]; [reflexivity|]. cbn [shift]. now rewrite map_length, seq_length. Qed.
Lemma shift_ok t c s : poly c (t + s) = poly (shift t c) s.
Proof.
  induction c as [|a c IH]; [reflexivity|]. cbn [poly]. rewrite IH. rewrite (poly_sum (shift t (a :: c))), shift_length.
  cbn [length]. set (e := shift t c).
  assert (Le : length e = length c) by apply shift_length.
  rewrite (qsum_ext _ _ (fun l => pow s l * (if Nat.eqb l 0 then a else nth (l - 1) e 0) + t * (pow s l * nth l e 0))).
  2: { intros l Hl. unfold shift; fold shift. rewrite nth_map_seq by exact Hl. fold e. ring. }
  rewrite qsum_add, qsum_S_l, qsum_scale. cbn [Nat.eqb pow qsum].
  rewrite (nth_overflow e (n := length c)) by lia.
  assert (E : poly e s = qsum (length c) (fun l => pow s l * nth l e 0)) by (rewrite poly_sum, Le; reflexivity).
  rewrite <- E.
  rewrite (qsum_ext _ (fun i => s * pow s i * nth (S i - 1) e 0) (fun i => s * (pow s i * nth i e 0))).
  2: { intros i Hi. replace (S i - 1)%nat with i by lia. ring. }
  rewrite qsum_scale, <- E. ring.
Qed.
Lemma expansion_exists c t : exists e, expansion c t e.
Proof. exists (shift t c). split; [apply shift_length | apply shift_ok]. Qed.

(** * Least squares *)

Section LS.
Variables (n m : nat) (B : nat -> nat -> Qc) (P : nat -> nat -> Qc) (w : nat -> Qc).
Hypothesis H1 : forall i j, (i < n)%nat -> (j < m)%nat -> qsum n (fun k => qsum m (fun l => B i l * P l k) * B k j) = B i j.
Hypothesis H3 : forall i k, (i < n)%nat -> (k < n)%nat -> qsum m (fun l => B i l * P l k) = qsum m (fun l => B k l * P l i).
Let a (l : nat) : Qc := qsum n (fun k => P l k * w k).
Let fit (c : nat -> Qc) (i : nat) : Qc := qsum m (fun l => B i l * c l).
Lemma fit_a i : fit a i = qsum n (fun k => qsum m (fun l => B i l * P l k) * w k).
Proof.
  unfold fit, a. rewrite (qsum_ext _ _ (fun l => qsum n (fun k => B i l * P l k * w k))).
  - rewrite qsum_swap. apply qsum_ext. intros k Hk. now rewrite qsum_scale_r.
  - intros l Hl. rewrite <- qsum_scale. apply qsum_ext. intros; ring.
Qed.
Lemma normal j : (j < m)%nat -> qsum n (fun i => B i j * (w i - fit a i)) = 0.
Proof.
  intros Hj. rewrite (qsum_ext _ _ (fun i => B i j * w i - B i j * fit a i)) by (intros; ring). rewrite qsum_sub.
  rewrite (qsum_ext n (fun i => B i j * fit a i) (fun i => qsum n (fun k => qsum m (fun l => B k l * P l i) * B i j * w k))).
  - rewrite qsum_swap. rewrite (qsum_ext n (fun j0 => qsum n _) (fun k => B k j * w k)); [ring|].
    intros k Hk. rewrite qsum_scale_r. now rewrite H1.
  - intros i Hi. rewrite fit_a, <- qsum_scale. apply qsum_ext. intros k Hk. rewrite (H3 i k Hi Hk). ring.
Qed.
Lemma pythagoras c :
  qsum n (fun i => (w i - fit c i) * (w i - fit c i)) =
  qsum n (fun i => (w i - fit a i) * (w i - fit a i)) + qsum n (fun i => (fit a i - fit c i) * (fit a i - fit c i)).
Proof.
  assert (Z : qsum n (fun i => (fit a i - fit c i) * (w i - fit a i)) = 0).
  { rewrite (qsum_ext _ _ (fun i => qsum m (fun l => (a l - c l) * (B i l * (w i - fit a i))))).
    - rewrite qsum_swap. apply qsum_zero. intros l Hl. rewrite qsum_scale, normal by exact Hl. ring.
    - intros i Hi. unfold fit at 1 2. rewrite <- qsum_sub, <- qsum_scale_r. apply qsum_ext. intros; ring. }
  rewrite (qsum_ext _ _ (fun i => (w i - fit a i) * (w i - fit a i) + (fit a i - fit c i) * (fit a i - fit c i)
                                  + (1 + 1) * ((fit a i - fit c i) * (w i - fit a i)))) by (intros; ring).
  rewrite qsum_add, qsum_add, qsum_scale, Z. ring.
Qed.
End LS.

Lemma qsum_nonneg n f : (forall i, (i < n)%nat -> 0 <= f i) -> 0 <= qsum n f.
Proof. induction n as [|n IH]; intros H; cbn; [apply Qcle_refl|]. assert (A := IH (fun i Hi => H i (Nat.lt_lt_succ_r _ _ Hi))). assert (C := H n (Nat.lt_succ_diag_r n)). qlra. Qed.
Lemma square_nonneg x : 0 <= x * x. Proof. qnra. Qed.
Lemma square_zero x : x * x <= 0 -> x = 0.
Proof. intros H. assert (E : x * x = 0) by (apply Qcle_antisym; [exact H | apply square_nonneg]). now destruct (Qcmult_zero _ _ E). Qed.
Lemma qsum_squares_zero n f : qsum n (fun i => f i * f i) <= 0 -> forall i, (i < n)%nat -> f i = 0.
Proof.
  induction n as [|n IH]; intros H i Hi; [lia|]. cbn in H.
  assert (A : 0 <= qsum n (fun i => f i * f i)) by (apply qsum_nonneg; intros; apply square_nonneg).
  assert (C := square_nonneg (f n)).
  destruct (Nat.eq_dec i n) as [->|N]; [apply square_zero; set (s := qsum _ _) in *; set (t := f n * f n) in *; qlra|].
  apply IH; [set (s := qsum _ _) in *; set (t := f n * f n) in *; qlra | lia].
Qed.

(** * The matrix *)

Lemma offsets_length half : length (offsets half) = (2 * half + 1)%nat.
Proof. unfold offsets. now rewrite map_length, seq_length. Qed.
Lemma offsets_nth half j d : (j < 2 * half + 1)%nat -> nth j (offsets half) d = (Z.of_nat j - Z.of_nat half)%Z.
Proof.
  intros H. unfold offsets. rewrite (nth_indep _ d ((fun j => (Z.of_nat j - Z.of_nat half)%Z) O)) by (rewrite map_length, seq_length; exact H).
  rewrite (map_nth (fun j => (Z.of_nat j - Z.of_nat half)%Z)), seq_nth by exact H. reflexivity.
Qed.
Lemma powers_entry o half i l : (i < 2 * half + 1)%nat -> (l < S o)%nat ->
  entry (powers_matrix o half) i l = pow (zc (Z.of_nat i - Z.of_nat half)) l.
Proof.
  intros Hi Hl. unfold entry, powers_matrix.
  rewrite (nth_indep _ [] (map (fun i => pow (zc 0) i) (seq 0 (S o)))) by (rewrite map_length, offsets_length; exact Hi).
  rewrite (map_nth (fun k => map (fun i => pow (zc k) i) (seq 0 (S o)))), offsets_nth by exact Hi.
  now rewrite nth_map_seq.
Qed.

Lemma nodup_points half : NoDup (map zc (offsets half)).
Proof.
  apply Injective_map_NoDup; [intros a b; apply zc_inj|]. unfold offsets.
  apply Injective_map_NoDup; [intros a b H; lia | apply seq_NoDup].
Qed.
Lemma agree_eq o half c c' : (o <= 2 * half)%nat -> length c = S o -> length c' = S o ->
  (forall j, (j < 2 * half + 1)%nat -> poly c (zc (Z.of_nat j - Z.of_nat half)) = poly c' (zc (Z.of_nat j - Z.of_nat half))) ->
  c = c'.
Proof.
  intros Ho L L' H.
  set (d := map (fun l => nth l c 0 - nth l c' 0) (seq 0 (S o))).
  assert (Ld : length d = S o) by (unfold d; now rewrite map_length, seq_length).
  assert (Pd : forall x, poly d x = poly c x - poly c' x).
  { intros x. rewrite !poly_sum, Ld, L, L', <- qsum_sub. apply qsum_ext. intros l Hl. unfold d. rewrite nth_map_seq by exact Hl. ring. }
  assert (Z : Forall (eq 0) d).
  { apply (roots_zero (map zc (offsets half))); [apply nodup_points | rewrite map_length, offsets_length, Ld; lia |].
    intros x Hx. apply in_map_iff in Hx. destruct Hx as (k & <- & Hk). apply (In_nth _ _ 0%Z) in Hk. destruct Hk as (j & Hj & <-).
    rewrite offsets_length in Hj. rewrite offsets_nth by exact Hj. rewrite Pd, H by exact Hj. ring. }
  apply (nth_ext _ _ 0 0); [congruence|]. intros l Hl. rewrite L in Hl.
  rewrite Forall_forall in Z. assert (E : 0 = nth l d 0) by (apply Z, nth_In; lia).
  unfold d in E. rewrite nth_map_seq in E by exact Hl.
  replace (nth l c 0) with (nth l c 0 - nth l c' 0 + nth l c' 0) by ring. rewrite <- E. ring.
Qed.

(** * The fit *)

Section Fit.
Variables (o half : nat) (p : list (list Qc)).
Hypothesis Ho : (o <= 2 * half)%nat.
Hypothesis HP : pseudo_inverse (2 * half + 1) (S o) (powers_matrix o half) p.
Let n := (2 * half + 1)%nat.

(** The coefficients of the polynomial fitted to [v]. *)
Definition coeffs (v : Z -> Qc) : list Qc :=
  map (fun l => qsum n (fun k => entry p l k * v (Z.of_nat k - Z.of_nat half)%Z)) (seq 0 (S o)).
Lemma coeffs_length v : length (coeffs v) = S o.
Proof. unfold coeffs. now rewrite map_length, seq_length. Qed.
Lemma poly_fit c j : length c = S o -> (j < n)%nat ->
  poly c (zc (Z.of_nat j - Z.of_nat half)) = qsum (S o) (fun l => entry (powers_matrix o half) j l * nth l c 0).
Proof. intros L Hj. rewrite poly_sum, L. apply qsum_ext. intros l Hl. now rewrite powers_entry. Qed.

Lemma misfit_split v c : length c = S o ->
  misfit half v c = misfit half v (coeffs v) +
    qsum n (fun j => let x := zc (Z.of_nat j - Z.of_nat half) in (poly (coeffs v) x - poly c x) * (poly (coeffs v) x - poly c x)).
Proof.
  intros L. unfold misfit. fold n. cbv zeta.
  assert (E := pythagoras n (S o) (entry (powers_matrix o half)) (entry p) (fun j => v (Z.of_nat j - Z.of_nat half)%Z)
                 (pi_inverse _ _ _ _ HP) (pi_symmetric _ _ _ _ HP) (fun l => nth l c 0)). cbv beta zeta in E.
  assert (A : forall j, (j < n)%nat -> poly (coeffs v) (zc (Z.of_nat j - Z.of_nat half)) =
     qsum (S o) (fun l => entry (powers_matrix o half) j l * qsum n (fun k => entry p l k * v (Z.of_nat k - Z.of_nat half)%Z))).
  { intros j Hj. rewrite poly_fit by (try apply coeffs_length; exact Hj). apply qsum_ext. intros l Hl. unfold coeffs. now rewrite nth_map_seq. }
  etransitivity; [|etransitivity; [exact E|]].
  - apply qsum_ext. intros j Hj. now rewrite (poly_fit c j L Hj).
  - f_equal; apply qsum_ext; intros j Hj; rewrite A by exact Hj; [reflexivity|]. now rewrite (poly_fit c j L Hj).
Qed.
Lemma coeffs_best v : best_fit o half v (coeffs v).
Proof.
  split; [apply coeffs_length|]. intros c L. rewrite (misfit_split v c L).
  match goal with |- ?x <= ?x + ?y => assert (A : 0 <= y) by (apply qsum_nonneg; intros; apply square_nonneg); generalize dependent y; generalize x end.
  intros x y A. qlra.
Qed.
Lemma best_unique v e : best_fit o half v e -> e = coeffs v.
Proof.
  intros (L & H). assert (A := H (coeffs v) (coeffs_length v)). rewrite (misfit_split v e L) in A.
  symmetry. apply (agree_eq o half); [exact Ho | apply coeffs_length | exact L |]. intros j Hj.
  set (f := fun j => poly (coeffs v) (zc (Z.of_nat j - Z.of_nat half)) - poly e (zc (Z.of_nat j - Z.of_nat half))).
  assert (Z : f j = 0).
  { apply (qsum_squares_zero n f); [|exact Hj]. change (misfit half v (coeffs v) + qsum n (fun j => f j * f j) <= misfit half v (coeffs v)) in A.
    set (s := qsum n (fun j => f j * f j)) in *. set (u := misfit half v (coeffs v)) in *. qlra. }
  unfold f in Z. replace (poly (coeffs v) (zc (Z.of_nat j - Z.of_nat half))) with (poly (coeffs v) (zc (Z.of_nat j - Z.of_nat half)) - poly e (zc (Z.of_nat j - Z.of_nat half)) + poly e (zc (Z.of_nat j - Z.of_nat half))) by ring.
  rewrite Z. ring.
Qed.
End Fit.

Lemma misfit_opp half v c : misfit half (fun k => v (- k)%Z) c = misfit half v (alt c).
Proof.
  unfold misfit. cbv zeta. rewrite <- (qsum_rev (2 * half + 1)). apply qsum_ext. intros j Hj.
  replace (Z.of_nat (2 * half + 1 - 1 - j) - Z.of_nat half)%Z with (- (Z.of_nat j - Z.of_nat half))%Z by lia.
  rewrite Z.opp_involutive, alt_poly, zc_opp. reflexivity.
Qed.
Lemma alt_alt c : alt (alt c) = c.
Proof.
  apply (nth_ext _ _ 0 0); [now rewrite !alt_length|]. rewrite !alt_length. intros l Hl.
  rewrite alt_nth, alt_nth by (rewrite ?alt_length; exact Hl). rewrite Qcmult_assoc, sign_square. ring.
Qed.
Lemma best_alt o half v e : best_fit o half v e -> best_fit o half (fun k => v (- k)%Z) (alt e).
Proof.
  intros (L & H). split; [now rewrite alt_length|]. intros c Lc. rewrite !misfit_opp, alt_alt. apply H. now rewrite alt_length.
Qed.

(** * The padded samples *)

Lemma nth_map_lt (f : Qc -> Qc) l i : (i < length l)%nat -> nth i (map f l) 0 = f (nth i l 0).
Proof. intros H. rewrite (nth_indep _ 0 (f 0)) by (now rewrite map_length). apply map_nth. Qed.
Lemma nth_skipn' (l : list Qc) k i : nth i (skipn k l) 0 = nth (k + i) l 0.
Proof. revert l. induction k as [|k IH]; intros l; [reflexivity|]. destruct l; cbn; [destruct i; reflexivity | apply IH]. Qed.
Lemma nth_firstn' (l : list Qc) k i : (i < k)%nat -> nth i (firstn k l) 0 = nth i l 0.
Proof. revert l i. induction k as [|k IH]; intros l i H; [lia|]. destruct l; [reflexivity|]. destruct i; [reflexivity|]. cbn. apply IH. lia. Qed.

Lemma padded_length half y0 yl y : (half < length y)%nat -> length (padded half y0 yl y) = (length y + 2 * half)%nat.
Proof.
  intros H. unfold padded. rewrite !app_length, !map_length, !rev_length, !firstn_length, !skipn_length. lia.
Qed.
Lemma last_nth (y : list Qc) : last y 0 = nth (length y - 1) y 0.
Proof.
  induction y as [|a y IH]; [reflexivity|]. destruct y as [|b y]; [reflexivity|]. change (last (a :: b :: y) 0) with (last (b :: y) 0).
  rewrite IH. cbn [length]. replace (S (S (length y)) - 1)%nat with (S (S (length y) - 1))%nat by lia. reflexivity.
Qed.
Lemma padded_nth half y q : (half < length y)%nat -> (q < length y + 2 * half)%nat ->
  nth q (padded half (nth 0 y 0) (last y 0) y) 0 = continued y (Z.of_nat q - Z.of_nat half).
Proof.
  intros H Hq. unfold padded, continued. cbv zeta.
  set (A := map _ (rev (firstn half (skipn 1 y)))).
  assert (LA : length A = half) by (unfold A; rewrite map_length, rev_length, firstn_length, skipn_length; lia).
  destruct (lt_dec q half) as [C1|C1].
  - rewrite app_nth1 by (rewrite LA; exact C1). destruct (Z.ltb_spec (Z.of_nat q - Z.of_nat half) 0); [|lia].
    assert (LF : length (firstn half (skipn 1 y)) = half) by (rewrite firstn_length, skipn_length; lia).
    unfold A. rewrite nth_map_lt by (rewrite rev_length, LF; exact C1).
    rewrite rev_nth by (rewrite LF; exact C1). rewrite LF, nth_firstn', nth_skipn' by lia.
    unfold sample. change (Z.to_nat 0) with O. replace (Z.to_nat (- (Z.of_nat q - Z.of_nat half))) with (1 + (half - S q))%nat by lia. reflexivity.
  - rewrite app_nth2 by (rewrite LA; lia). rewrite LA. destruct (Z.ltb_spec (Z.of_nat q - Z.of_nat half) 0); [lia|].
    destruct (lt_dec (q - half) (length y)) as [C2|C2].
    + rewrite app_nth1 by exact C2. destruct (Z.ltb_spec (Z.of_nat q - Z.of_nat half) (Z.of_nat (length y))); [|lia].
      unfold sample. f_equal. lia.
    + rewrite app_nth2 by lia. destruct (Z.ltb_spec (Z.of_nat q - Z.of_nat half) (Z.of_nat (length y))); [lia|].
      set (F := firstn _ _). assert (LF : length F = half) by (unfold F; rewrite firstn_length, skipn_length; lia).
      rewrite nth_map_lt by (rewrite rev_length, LF; lia). rewrite rev_nth by (rewrite LF; lia). rewrite LF. unfold F.
      rewrite nth_firstn', nth_skipn' by lia. rewrite last_nth. unfold sample.
      replace (Z.to_nat (Z.of_nat (length y) - 1)) with (length y - 1)%nat by lia.
      replace (Z.to_nat (2 * (Z.of_nat (length y) - 1) - (Z.of_nat q - Z.of_nat half))) with (length y - 1 - half + (half - S (q - half - length y)))%nat by lia.
      reflexivity.
Qed.

(** * The filter *)

Definition accepted (window order : Z) (o half : nat) : Prop :=
  Z.abs window = (2 * Z.of_nat half + 1)%Z /\ Z.abs order = Z.of_nat o /\ (o + 2 <= 2 * half + 1)%nat.

Lemma savgol_value pinv y window order d o half :
  accepted window order o half -> (half < length y)%nat -> (d <= o)%nat ->
  pseudo_inverse (2 * half + 1) (S o) (powers_matrix o half) (pinv (powers_matrix o half)) ->
  exists out, savgol pinv y window order (Z.of_nat d) = Some out /\ length out = length y /\
    forall i, (i < length y)%nat -> forall e, best_fit o half (fun k => continued y (Z.of_nat i + k)) e ->
      nth i out 0 = sign d * nth d e 0.
Proof.
  intros (Hw & Ho & Hb) HY HD HP. unfold savgol.
  assert (Ew : Z.abs_nat window = (2 * half + 1)%nat) by lia. assert (Eo : Z.abs_nat order = o) by lia.
  rewrite Ew, Eo. cbv zeta.
  assert (E1 : Nat.even (2 * half + 1) = false) by (rewrite Nat.even_add, Nat.even_mul; reflexivity). rewrite E1.
  destruct (Nat.ltb_spec (2 * half + 1) (o + 2)) as [C|_]; [lia|].
  replace (2 * half + 1 - 1)%nat with (2 * half)%nat by lia. rewrite Nat.div2_double.
  set (p := pinv (powers_matrix o half)) in *.
  assert (Hm : (d < length p)%nat) by (rewrite (pi_rows _ _ _ _ HP); lia).
  unfold py_index. destruct (Z.leb_spec 0 (Z.of_nat d)) as [_|C]; [|lia]. rewrite Nat2Z.id.
  destruct (nth_error p d) as [m|] eqn:Em; [|apply nth_error_None in Em; lia].
  assert (Lm : length m = (2 * half + 1)%nat) by (apply (pi_cols _ _ _ _ HP), (nth_error_In _ d), Em).
  destruct y as [|y0 y']; [cbn in HY; lia|]. set (y := y0 :: y') in *. change y0 with (nth 0 y 0).
  unfold convolve. rewrite Lm, padded_length by exact HY.
  destruct (Nat.eqb_spec (2 * half + 1) 0) as [C|_]; [lia|]. destruct (Nat.eqb_spec (length y + 2 * half) 0) as [C|_]; [lia|].
  cbn [orb]. destruct (Nat.leb_spec (length y + 2 * half) (2 * half + 1)) as [C|_]; [lia|].
  eexists. split; [reflexivity|]. unfold conv1. rewrite map_length, seq_length, Lm, padded_length by exact HY.
  split; [lia|]. intros i Hi e He. rewrite nth_map_seq by lia.
  set (v := fun k => continued y (Z.of_nat i + k)) in *.
  assert (Hoh : (o <= 2 * half)%nat) by lia.
  assert (E := best_unique o half p Hoh HP _ _ (best_alt _ _ _ _ He)).
  destruct He as (Le & _).
  assert (N : nth d (alt e) 0 = nth d (coeffs o half p (fun k => v (- k)%Z)) 0) by (now rewrite E).
  rewrite alt_nth in N by lia. rewrite N. unfold coeffs. rewrite nth_map_seq by lia. apply qsum_ext. intros j Hj.
  rewrite padded_nth by lia. unfold entry. rewrite (nth_error_nth p d [] Em). rewrite Qcmult_comm. f_equal. unfold v. f_equal. lia.
Qed.

Lemma best_fit_exists pinv o half v : pseudo_inverse (2 * half + 1) (S o) (powers_matrix o half) (pinv (powers_matrix o half)) ->
  exists e, best_fit o half v e.
Proof. intros HP. eexists. apply coeffs_best. exact HP. Qed.

Lemma misfit_zero half v c : (forall j, (j < 2 * half + 1)%nat -> v (Z.of_nat j - Z.of_nat half)%Z = poly c (zc (Z.of_nat j - Z.of_nat half))) -> misfit half v c = 0.
Proof. intros H. unfold misfit. apply qsum_zero. intros j Hj. cbv zeta. rewrite H by exact Hj. ring. Qed.
Lemma exact_best o half v e : length e = S o ->
  (forall j, (j < 2 * half + 1)%nat -> v (Z.of_nat j - Z.of_nat half)%Z = poly e (zc (Z.of_nat j - Z.of_nat half))) -> best_fit o half v e.
Proof.
  intros L H. split; [exact L|]. intros c _. rewrite (misfit_zero half v e H). apply qsum_nonneg. intros. apply square_nonneg.
Qed.

(** The value where the continued samples are a polynomial. *)
Lemma savgol_on_poly pinv y window order d o half out c i e :
  accepted window order o half -> (half < length y)%nat -> (d <= o)%nat ->
  pseudo_inverse (2 * half + 1) (S o) (powers_matrix o half) (pinv (powers_matrix o half)) ->
  savgol pinv y window order (Z.of_nat d) = Some out -> (i < length y)%nat -> (length c <= S o)%nat ->
  (forall t, (Z.of_nat i - Z.of_nat half <= t <= Z.of_nat i + Z.of_nat half)%Z -> continued y t = poly c (zc t)) ->
  expansion c (zc (Z.of_nat i)) e -> nth i out 0 = sign d * nth d e 0.
Proof.
  intros HA HY HD HP E Hi Lc Hc (Le & He).
  destruct (savgol_value pinv y window order d o half HA HY HD HP) as (out' & E' & _ & V).
  assert (out' = out) by congruence. subst out'.
  rewrite (V i Hi (e ++ repeat 0 (S o - length e))).
  - f_equal. destruct (lt_dec d (length e)) as [C|C]; [now rewrite app_nth1 by exact C|].
    rewrite app_nth2 by lia. rewrite nth_repeat. symmetry. apply nth_overflow. lia.
  - apply exact_best; [rewrite app_length, repeat_length; lia|]. intros j Hj. rewrite poly_app_zero, <- He, <- zc_add. apply Hc. lia.
Qed.

Lemma continued_inside y t : (0 <= t < Z.of_nat (length y))%Z -> continued y t = sample y t.
Proof. intros H. unfold continued. destruct (Z.ltb_spec t 0); [lia|]. destruct (Z.ltb_spec t (Z.of_nat (length y))); [reflexivity|lia]. Qed.

Lemma savgol_inside pinv y window order d o half out c i e :
  accepted window order o half -> (d <= o)%nat ->
  pseudo_inverse (2 * half + 1) (S o) (powers_matrix o half) (pinv (powers_matrix o half)) ->
  savgol pinv y window order (Z.of_nat d) = Some out -> (half <= i)%nat -> (i + half < length y)%nat -> (length c <= S o)%nat ->
  (forall t, (t < length y)%nat -> nth t y 0 = poly c (zc (Z.of_nat t))) ->
  expansion c (zc (Z.of_nat i)) e -> nth i out 0 = sign d * nth d e 0.
Proof.
  intros HA HD HP E H1 H2 Lc Hc He. apply (savgol_on_poly pinv y window order d o half out c i e HA); try assumption; try lia.
  intros t Ht. rewrite continued_inside by lia. unfold sample. rewrite Hc by lia. now rewrite Z2Nat.id by lia.
Qed.

Lemma savgol_smooth pinv y window order o half out c i :
  accepted window order o half ->
  pseudo_inverse (2 * half + 1) (S o) (powers_matrix o half) (pinv (powers_matrix o half)) ->
  savgol pinv y window order 0 = Some out -> (half <= i)%nat -> (i + half < length y)%nat -> (length c <= S o)%nat ->
  (forall t, (t < length y)%nat -> nth t y 0 = poly c (zc (Z.of_nat t))) -> nth i out 0 = nth i y 0.
Proof.
  intros HA HP E H1 H2 Lc Hc. destruct (expansion_exists c (zc (Z.of_nat i))) as (e & He).
  rewrite (savgol_inside pinv y window order 0 o half out c i e) by (try assumption; lia).
  rewrite Hc by lia. destruct He as (Le & He). assert (A := He 0). unfold sign. cbn [Nat.even].
  replace (zc (Z.of_nat i) + 0) with (zc (Z.of_nat i)) in A by ring. rewrite A. destruct e; cbn; ring.
Qed.

Lemma absq_nonneg x : 0 <= x -> absq x = x.
Proof. intros H. unfold absq. destruct (qltb x 0) eqn:E; [|reflexivity]. apply qltb_lt in E. qlra. Qed.
Lemma mul_nonneg a b : 0 <= a -> 0 <= b -> 0 <= a * b.
Proof. intros. qnra. Qed.
Lemma zc_nonneg z : (0 <= z)%Z -> 0 <= zc z.
Proof. intros H. unfold zc, Qcle. rewrite (this_Q2Qc (inject_Z z)). change (this 0) with (inject_Z 0). now rewrite <- Zle_Qle. Qed.
Lemma absq_nonpos x : x <= 0 -> absq x = - x.
Proof. intros H. unfold absq. destruct (qltb x 0) eqn:E; [reflexivity|]. apply qltb_ge in E. assert (x = 0) by (apply Qcle_antisym; assumption). subst. ring. Qed.

Lemma continued_line y a b : 0 <= b -> (forall t, (t < length y)%nat -> nth t y 0 = a + b * zc (Z.of_nat t)) ->
  forall t, (- Z.of_nat (length y) < t < 2 * Z.of_nat (length y) - 1)%Z -> continued y t = a + b * zc t.
Proof.
  intros Hb H t Ht. set (n := Z.of_nat (length y)) in *.
  assert (S0 : forall s, (0 <= s < n)%Z -> sample y s = a + b * zc s).
  { intros s Hs. unfold sample. rewrite H by lia. now rewrite Z2Nat.id by lia. }
  unfold continued. cbv zeta. fold n. destruct (Z.ltb_spec t 0) as [C|C].
  - rewrite !S0 by lia. change (zc 0) with (0 : Qc) in *. 
    replace (a + b * zc (- t) - (a + b * 0)) with (b * zc (- t)) by ring.
    rewrite absq_nonneg by (apply mul_nonneg; [exact Hb | apply zc_nonneg; lia]). rewrite zc_opp. ring.
  - destruct (Z.ltb_spec t n) as [C2|C2]; [apply S0; lia|]. rewrite !S0 by lia.
    replace (2 * (n - 1) - t)%Z with ((n - 1) + - (t - (n - 1)))%Z by lia. rewrite zc_add, zc_opp.
    replace (a + b * (zc (n - 1) + - zc (t - (n - 1))) - (a + b * zc (n - 1))) with (- (b * zc (t - (n - 1)))) by ring.
    rewrite absq_nonpos; [|assert (A : 0 <= b * zc (t - (n - 1))) by (apply mul_nonneg; [exact Hb | apply zc_nonneg; lia]); qlra].
    replace t with ((n - 1) + (t - (n - 1)))%Z at 2 by lia. rewrite zc_add. ring.
Qed.

Lemma savgol_line pinv y window order o half out a b :
  accepted window order o half -> (half < length y)%nat -> (1 <= o)%nat \/ b = 0 -> 0 <= b ->
  pseudo_inverse (2 * half + 1) (S o) (powers_matrix o half) (pinv (powers_matrix o half)) ->
  (forall t, (t < length y)%nat -> nth t y 0 = a + b * zc (Z.of_nat t)) ->
  savgol pinv y window order 0 = Some out -> out = y.
Proof.
  intros HA HY HO Hb HP H E.
  destruct (savgol_value pinv y window order 0 o half HA HY (Nat.le_0_l _) HP) as (out' & E' & L & _).
  change (Z.of_nat 0) with 0%Z in E'. assert (out' = out) by congruence. subst out'.
  apply (nth_ext _ _ 0 0 L). intros i Hi. rewrite L in Hi.
  set (c := if Nat.leb 1 o then [a; b] else [a]).
  assert (Pc : forall x, poly c x = a + b * x).
  { intros x. unfold c. destruct (Nat.leb_spec 1 o) as [C|C]; [cbn; ring|]. destruct HO as [HO| ->]; [lia|]. cbn. ring. }
  destruct (expansion_exists c (zc (Z.of_nat i))) as (e & He).
  rewrite (savgol_on_poly pinv y window order 0 o half out c i e); try assumption; try lia.
  - rewrite H by exact Hi. destruct He as (Le & He). assert (A := He 0). unfold sign. cbn [Nat.even].
    replace (zc (Z.of_nat i) + 0) with (zc (Z.of_nat i)) in A by ring. rewrite Pc in A. rewrite A. destruct e; cbn; ring.
  - unfold c. destruct (Nat.leb_spec 1 o); cbn; lia.
  - intros t Ht. rewrite Pc. apply continued_line; [exact Hb | exact H | lia].
Qed.

Lemma savgol_none pinv y window order d :
  (Z.even window = true \/ (Z.abs window < Z.abs order + 2)%Z \/ y = [] \/
   (Z.of_nat (length (pinv (powers_matrix (Z.abs_nat order) (Nat.div2 (Z.abs_nat window - 1))))) <= d)%Z) ->
  savgol pinv y window order d = None.
Proof.
  intros H. unfold savgol. cbv zeta.
  destruct (Nat.even (Z.abs_nat window)) eqn:E; [reflexivity|].
  destruct (Nat.ltb_spec (Z.abs_nat window) (Z.abs_nat order + 2)) as [C|C]; [reflexivity|].
  destruct H as [H|[H|[H|H]]].
  - exfalso. apply Z.even_spec in H. destruct H as (k & ->).
    assert (X : Nat.even (Z.abs_nat (2 * k)) = true) by (apply Nat.even_spec; exists (Z.abs_nat k); lia). congruence.
  - lia.
  - subst y. destruct (py_index _ d); reflexivity.
  - unfold py_index. destruct (Z.leb_spec 0 d) as [C1|C1]; [|lia].
    rewrite (proj2 (nth_error_None _ _)) by lia. reflexivity.
Qed.

Definition pinv31 (b : list (list Qc)) : list (list Qc) :=
  [[zc 1 / zc 3; zc 1 / zc 3; zc 1 / zc 3]; [- (zc 1 / zc 2); 0; zc 1 / zc 2]].
Lemma pinv31_ok : pseudo_inverse 3 2 (powers_matrix 1 1) (pinv31 (powers_matrix 1 1)).
Proof.
  constructor.
  - reflexivity.
  - intros r [<-|[<-|[]]]; reflexivity.
  - intros i j Hi Hj. destruct i as [|[|[|i]]]; [| | |lia]; (destruct j as [|[|j]]; [| |lia]); apply Qc_is_canon; vm_compute; reflexivity.
  - intros i j Hi Hj. destruct i as [|[|[|i]]]; [| | |lia]; (destruct j as [|[|[|j]]]; [| | |lia]); apply Qc_is_canon; vm_compute; reflexivity.
Qed.
