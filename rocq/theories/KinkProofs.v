(** Proofs about kink_model. *)
From Coq Require Import ZArith QArith Qcanon Bool Permutation List Lia.
From Verif Require Import QcPre KinkModel KinkSpec.
Import ListNotations.
Local Open Scope Qc_scope.

(** * Sums over samples *)

Definition lsum {A : Type} (f : A -> Qc) (l : list A) : Qc := fold_right (fun p s => f p + s) 0 l.
Lemma lsum_cons {A} (f : A -> Qc) p l : lsum f (p :: l) = f p + lsum f l. Proof. reflexivity. Qed.
Lemma lsum_ext {A} (f g : A -> Qc) l : (forall p, In p l -> f p = g p) -> lsum f l = lsum g l.
Proof. induction l as [|p l IH]; intros H; [reflexivity|]. rewrite !lsum_cons, (H p), IH by (try (now left); intros; apply H; now right). reflexivity. Qed.
Lemma lsum_add {A} (f g : A -> Qc) l : lsum (fun p => f p + g p) l = lsum f l + lsum g l.
Proof. induction l as [|p l IH]; [cbn; ring|]. rewrite !lsum_cons, IH. ring. Qed.
Lemma lsum_scale {A} k (f : A -> Qc) l : lsum (fun p => k * f p) l = k * lsum f l.
Proof. induction l as [|p l IH]; [cbn; ring|]. rewrite !lsum_cons, IH. ring. Qed.
Lemma lsum_filter {A} (f : A -> Qc) P l : lsum f (filter P l) = lsum (fun p => if P p then f p else 0) l.
Proof. induction l as [|p l IH]; [reflexivity|]. cbn [filter]. rewrite lsum_cons, <- IH. destruct (P p); [apply lsum_cons | ring]. Qed.
Lemma lsum_perm {A} (f : A -> Qc) l l' : Permutation l l' -> lsum f l = lsum f l'.
Proof.
  induction 1 as [|p l l' _ IH|p q l|l1 l2 l3 _ IH1 _ IH2]; [reflexivity | rewrite !lsum_cons; congruence | rewrite !lsum_cons; ring | congruence].
Qed.
Lemma lsum_nonneg {A} (f : A -> Qc) l : (forall p, 0 <= f p) -> 0 <= lsum f l.
Proof. intros H. induction l as [|p l IH]; [apply Qcle_refl|]. rewrite lsum_cons. assert (A0 := H p). set (s := lsum f l) in *. qlra. Qed.
Lemma lsum_pos {A} (f : A -> Qc) l p : (forall p, 0 <= f p) -> In p l -> 0 < f p -> 0 < lsum f l.
Proof.
  intros H I P. induction l as [|q l IH]; [destruct I|]. rewrite lsum_cons. assert (N := lsum_nonneg f l H). assert (Q := H q).
  destruct I as [->|I]; [|assert (J := IH I)]; set (s := lsum f l) in *; qlra.
Qed.
Lemma lsum_zero {A} (f : A -> Qc) l : (forall p, 0 <= f p) -> lsum f l <= 0 -> forall p, In p l -> f p = 0.
Proof.
  intros H Z p I. destruct (Qc_eq_dec (f p) 0) as [E|E]; [exact E|]. exfalso.
  assert (P : 0 < f p) by (destruct (Qclt_le_dec 0 (f p)) as [C|C]; [exact C | exfalso; apply E, Qcle_antisym; [exact C | apply H]]).
  assert (S := lsum_pos f l p H I P). set (s := lsum f l) in *. qlra.
Qed.
Lemma sum_lsum l : sum l = lsum (fun v => v) l. Proof. reflexivity. Qed.
Lemma sum_map {A} (f : A -> Qc) l : sum (map f l) = lsum f l.
Proof. induction l as [|p l IH]; [reflexivity|]. cbn [map]. rewrite lsum_cons, <- IH. reflexivity. Qed.
Lemma size_lsum {A} (l : list A) : Q2Qc (inject_Z (Z.of_nat (length l))) = lsum (fun _ => 1) l.
Proof.
  induction l as [|p l IH]; [reflexivity|]. rewrite lsum_cons, <- IH. cbn [length]. rewrite Nat2Z.inj_succ. unfold Z.succ.
  apply Qc_eq. rewrite this_add, !this_Q2Qc, inject_Z_plus. change (this 1) with 1%Q. change (inject_Z 1) with 1%Q. ring.
Qed.
Lemma sq_nonneg x : 0 <= x * x. Proof. qnra. Qed.
Lemma sq_zero x : x * x = 0 -> x = 0.
Proof. intros H. now destruct (Qcmult_integral _ _ H). Qed.
Lemma sub_zero x y : x - y = 0 -> x = y.
Proof. intros H. replace x with (x - y + y) by ring. rewrite H. ring. Qed.

(** n Sum d^2 - (Sum d)^2 *)
Definition spread (l : list Qc) : Qc := lsum (fun _ => 1) l * lsum (fun d => d * d) l - lsum (fun d => d) l * lsum (fun d => d) l.
Lemma diff_squares x l : lsum (fun d => (x - d) * (x - d)) l = lsum (fun _ => 1) l * (x * x) - (1 + 1) * x * lsum (fun d => d) l + lsum (fun d => d * d) l.
Proof. induction l as [|d l IH]; [cbn; ring|]. rewrite !lsum_cons, IH. ring. Qed.
Lemma spread_cons x l : spread (x :: l) = spread l + lsum (fun d => (x - d) * (x - d)) l.
Proof. unfold spread. rewrite diff_squares, !lsum_cons. ring. Qed.
Lemma spread_nonneg l : 0 <= spread l.
Proof.
  induction l as [|x l IH]; [vm_compute; discriminate|]. rewrite spread_cons.
  assert (A := lsum_nonneg (fun d => (x - d) * (x - d)) l (fun d => sq_nonneg _)). set (s := lsum _ l) in *. set (t := spread l) in *. qlra.
Qed.
Lemma spread_zero l : spread l = 0 <-> forall u v, In u l -> In v l -> u = v.
Proof.
  induction l as [|x l IH]; [split; [intros _ u v [] | reflexivity]|]. rewrite spread_cons.
  assert (A := lsum_nonneg (fun d => (x - d) * (x - d)) l (fun d => sq_nonneg _)). assert (B := spread_nonneg l). split.
  - intros E. assert (Z : lsum (fun d => (x - d) * (x - d)) l <= 0) by (set (s := lsum _ l) in *; set (t := spread l) in *; qlra).
    assert (Q := lsum_zero _ l (fun d => sq_nonneg (x - d)) Z).
    assert (W : forall u, In u (x :: l) -> u = x).
    { intros u [->|Hu]; [reflexivity|]. symmetry. apply sub_zero, sq_zero, (Q u Hu). }
    intros u v Hu Hv. rewrite (W u Hu), (W v Hv). reflexivity.
  - intros H. assert (E : spread l = 0) by (apply IH; intros u v Hu Hv; apply H; now right). rewrite E.
    rewrite (lsum_ext _ (fun _ => 0 * 0)).
    + rewrite lsum_scale. ring.
    + intros d Hd. rewrite (H x d) by (try (now left); now right). ring.
Qed.

(** * The two sides *)

Section Sides.
Variable k : Qc.
Definition lf (p : Qc * Qc) : Qc := if qltb (fst p) k then fst p - k else 0.
Definition rt (p : Qc * Qc) : Qc := if qltb (fst p) k then 0 else fst p - k.
Definition height (a b c : Qc) (p : Qc * Qc) : Qc := a + b * lf p + c * rt p.
Definition residual (a b c : Qc) (p : Qc * Qc) : Qc := height a b c p - snd p.

Lemma height_ok a b c p : on_kink k a b c (fst p) (height a b c p).
Proof.
  unfold height, lf, rt. destruct (qltb (fst p) k) eqn:E.
  - apply qltb_lt in E. replace (a + b * (fst p - k) + c * 0) with (a + b * (fst p - k)) by ring. now constructor.
  - apply qltb_ge in E. replace (a + b * 0 + c * (fst p - k)) with (a + c * (fst p - k)) by ring. now constructor.
Qed.
Lemma on_kink_unique a b c x h h' : on_kink k a b c x h -> on_kink k a b c x h' -> h = h'.
Proof. intros [A|A] [B|B]; try reflexivity; exfalso; qlra. Qed.
Definition total (a b c : Qc) (l : list (Qc * Qc)) : Qc := lsum (fun p => residual a b c p * residual a b c p) l.
Lemma squares_total a b c x : forall y s, length x = length y -> (squares k a b c x y s <-> s = total a b c (combine x y)).
Proof.
  induction x as [|u x IH]; intros [|v y] s L; try discriminate.
  - split; [intros H; inversion H; reflexivity | intros ->; constructor].
  - cbn [combine]. unfold total. rewrite lsum_cons. fold (total a b c (combine x y)). injection L as L. split.
    + intros H. inversion H as [|? ? ? ? h s' A B]; subst. rewrite (proj1 (IH _ _ L) B).
      rewrite (on_kink_unique _ _ _ _ _ _ A (height_ok a b c (u, v))). reflexivity.
    + intros ->. constructor; [apply (height_ok a b c (u, v)) | now apply IH].
Qed.

Lemma normal_best l a b c a' b' c' :
  lsum (residual a b c) l = 0 -> lsum (fun p => lf p * residual a b c p) l = 0 -> lsum (fun p => rt p * residual a b c p) l = 0 ->
  total a' b' c' l = total a b c l + lsum (fun p => (height a' b' c' p - height a b c p) * (height a' b' c' p - height a b c p)) l.
Proof.
  intros H0 H1 H2. unfold total.
  rewrite (lsum_ext (fun p => residual a' b' c' p * residual a' b' c' p)
            (fun p => residual a b c p * residual a b c p + ((height a' b' c' p - height a b c p) * (height a' b' c' p - height a b c p)
                      + ((1 + 1) * (a' - a) * residual a b c p + ((1 + 1) * (b' - b) * (lf p * residual a b c p) + (1 + 1) * (c' - c) * (rt p * residual a b c p)))))).
  - rewrite !lsum_add, !lsum_scale, H0, H1, H2. ring.
  - intros p _. unfold residual, height. ring.
Qed.

Lemma solve_eqs n si sj si2 sj2 v0 v1 v2 a b c : solve n si sj si2 sj2 v0 v1 v2 = Some (a, b, c) ->
  n * a + si * b + sj * c = v0 /\ si * a + si2 * b = v1 /\ sj * a + sj2 * c = v2.
Proof.
  unfold solve. set (det := n * si2 * sj2 - si * si * sj2 - sj * sj * si2).
  destruct (Qc_eq_dec det 0) as [E|E]; [discriminate|]. intros H.
  assert (Ha : (v0 * si2 * sj2 - si * sj2 * v1 - sj * si2 * v2) / det = a) by congruence.
  assert (Hb : (n * v1 * sj2 - si * sj2 * v0 - sj * sj * v1 + si * sj * v2) / det = b) by congruence.
  assert (Hc : (n * si2 * v2 - si * si * v2 + si * sj * v1 - sj * si2 * v0) / det = c) by congruence.
  subst a b c. clear H. unfold det in *. repeat split; field; exact E.
Qed.

Lemma right_filter l : filter (fun p : Qc * Qc => qleb k (fst p)) l = filter (fun p => negb (qltb (fst p) k)) l.
Proof. apply filter_ext. intros p. unfold qltb. now rewrite Bool.negb_involutive. Qed.
Lemma filter_fst (P : Qc -> bool) x : forall y : list Qc, length x = length y -> filter P x = map fst (filter (fun p => P (fst p)) (combine x y)).
Proof.
  induction x as [|u x IH]; intros [|v y] L; try discriminate; [reflexivity|]. injection L as L. cbn [filter combine fst].
  rewrite (IH y L). destruct (P u); reflexivity.
Qed.
Lemma combine_sides (l : list (Qc * Qc)) : combine (map snd l) (map (fun v => v - k) (map fst l)) = map (fun p => (snd p, fst p - k)) l.
Proof. induction l as [|p l IH]; [reflexivity|]. cbn. now rewrite IH. Qed.

Definition left_xs (x : list Qc) : list Qc := filter (fun v => qltb v k) x.
Definition right_xs (x : list Qc) : list Qc := filter (fun v => qleb k v) x.
Definition fitted (x y : list Qc) : option (Qc * Qc * Qc) :=
  let l := combine x y in
  solve (lsum (fun _ => 1) l) (lsum lf l) (lsum rt l) (lsum (fun p => lf p * lf p) l) (lsum (fun p => rt p * rt p) l)
        (lsum snd l) (lsum (fun p => lf p * snd p) l) (lsum (fun p => rt p * snd p) l).
Definition model_of (x : list Qc) (abc : Qc * Qc * Qc) : list Qc :=
  let '(a, b, c) := abc in map (fun v => a + b * (v - k)) (left_xs x) ++ map (fun v => a + c * (v - k)) (right_xs x).

Lemma kink_model_eq x y : length x = length y ->
  kink_model k x y = if (Nat.eqb (length (left_xs x)) 0 || Nat.eqb (length (right_xs x)) 0)%bool then None
                     else match fitted x y with
                          | None => None
                          | Some abc => Some (model_of x abc, abc, sumsq (map (fun p => fst p - snd p) (combine (model_of x abc) y)))
                          end.
Proof.
  intros L. unfold kink_model. rewrite L, Nat.eqb_refl. cbn [negb].
  fold (left_xs x). fold (right_xs x). destruct (Nat.eqb (length (left_xs x)) 0 || Nat.eqb (length (right_xs x)) 0)%bool; [reflexivity|].
  assert (FL : left_xs x = map fst (filter (fun p => qltb (fst p) k) (combine x y))) by (apply (filter_fst (fun v => qltb v k)); exact L).
  assert (FR : right_xs x = map fst (filter (fun p => qleb k (fst p)) (combine x y))) by (apply (filter_fst (fun v => qleb k v)); exact L).
  match goal with |- match ?s with _ => _ end = _ => assert (ES : s = fitted x y) end.
  { unfold fitted, size, sumsq.
    assert (EN : Q2Qc (inject_Z (Z.of_nat (length x))) = lsum (fun _ => 1) (combine x y)).
    { rewrite <- size_lsum. rewrite combine_length, <- L, Nat.min_id. reflexivity. }
    assert (E0 : sum y = lsum snd (combine x y)).
    { clear - L. revert y L. induction x as [|u x IH]; intros [|v y] L; try discriminate; [reflexivity|]. injection L as L.
      cbn [combine]. rewrite lsum_cons, <- (IH y L). reflexivity. }
    rewrite EN, E0, !map_map.
    assert (E1 : sum (map (fun v => v - k) (left_xs x)) = lsum lf (combine x y)).
    { rewrite FL, map_map, sum_map, lsum_filter. apply lsum_ext. intros p _. reflexivity. }
    assert (E2 : sum (map (fun v => v - k) (right_xs x)) = lsum rt (combine x y)).
    { rewrite FR, map_map, sum_map, right_filter, lsum_filter. apply lsum_ext. intros p _. unfold rt. destruct (qltb (fst p) k); reflexivity. }
    assert (E3 : sum (map (fun v => (v - k) * (v - k)) (left_xs x)) = lsum (fun p => lf p * lf p) (combine x y)).
    { rewrite FL, map_map, sum_map, lsum_filter. apply lsum_ext. intros p _. unfold lf. destruct (qltb (fst p) k); [reflexivity | ring]. }
    assert (E4 : sum (map (fun v => (v - k) * (v - k)) (right_xs x)) = lsum (fun p => rt p * rt p) (combine x y)).
    { rewrite FR, map_map, sum_map, right_filter, lsum_filter. apply lsum_ext. intros p _. unfold rt. destruct (qltb (fst p) k); [cbn [negb]; ring | reflexivity]. }
    rewrite E1, E2, E3, E4. rewrite FL, FR, !combine_sides, !map_map, !sum_map. cbn [fst snd].
    rewrite right_filter, !lsum_filter. f_equal; apply lsum_ext; intros p _; unfold lf, rt; destruct (qltb (fst p) k); cbn [negb]; ring. }
  rewrite ES. destruct (fitted x y) as [[[a b] c]|]; [|reflexivity].
  unfold model_of. rewrite !map_map. reflexivity.
Qed.

Lemma fitted_normal x y a b c : fitted x y = Some (a, b, c) ->
  let l := combine x y in
  lsum (residual a b c) l = 0 /\ lsum (fun p => lf p * residual a b c p) l = 0 /\ lsum (fun p => rt p * residual a b c p) l = 0.
Proof.
  intros E l. unfold fitted in E. fold l in E. destruct (solve_eqs _ _ _ _ _ _ _ _ _ _ _ E) as (E0 & E1 & E2). clear E.
  assert (LR : forall p, lf p * rt p = 0) by (intros p; unfold lf, rt; destruct (qltb (fst p) k); ring).
  split; [|split].
  - rewrite (lsum_ext _ (fun p => a * 1 + (b * lf p + (c * rt p + (- (1)) * snd p)))) by (intros p _; unfold residual, height; ring).
    rewrite !lsum_add, !lsum_scale. rewrite <- E0. ring.
  - rewrite (lsum_ext _ (fun p => a * lf p + (b * (lf p * lf p) + (- (1)) * (lf p * snd p)))).
    + rewrite !lsum_add, !lsum_scale. rewrite <- E1. ring.
    + intros p _. unfold residual, height. replace (lf p * (a + b * lf p + c * rt p - snd p)) with (a * lf p + b * (lf p * lf p) + c * (lf p * rt p) - lf p * snd p) by ring.
      rewrite LR. ring.
  - rewrite (lsum_ext _ (fun p => a * rt p + (c * (rt p * rt p) + (- (1)) * (rt p * snd p)))).
    + rewrite !lsum_add, !lsum_scale. rewrite <- E2. ring.
    + intros p _. unfold residual, height. replace (rt p * (a + b * lf p + c * rt p - snd p)) with (a * rt p + c * (rt p * rt p) + b * (lf p * rt p) - rt p * snd p) by ring.
      rewrite LR. ring.
Qed.

Lemma split_total (x y : list Qc) : length x = length y ->
  lsum (fun _ => 1) (combine x y) = lsum (fun _ => 1) (left_xs x) + lsum (fun _ => 1) (right_xs x).
Proof.
  revert y. induction x as [|u x IH]; intros [|v y] L; try discriminate; [cbn; ring|]. injection L as L.
  cbn [combine left_xs right_xs filter]. fold (left_xs x). fold (right_xs x). rewrite lsum_cons, (IH y L).
  unfold qltb. destruct (qleb k u) eqn:E; unfold qleb in E; rewrite E; cbn [negb]; rewrite lsum_cons; ring.
Qed.
Lemma sums_left (x y : list Qc) : length x = length y ->
  lsum lf (combine x y) = lsum (fun d => d) (map (fun v => v - k) (left_xs x)) /\
  lsum (fun p => lf p * lf p) (combine x y) = lsum (fun d => d * d) (map (fun v => v - k) (left_xs x)) /\
  lsum rt (combine x y) = lsum (fun d => d) (map (fun v => v - k) (right_xs x)) /\
  lsum (fun p => rt p * rt p) (combine x y) = lsum (fun d => d * d) (map (fun v => v - k) (right_xs x)).
Proof.
  revert y. induction x as [|u x IH]; intros [|v y] L; try discriminate; [cbn; tauto|]. injection L as L.
  destruct (IH y L) as (A & B & C & D).
  cbn [combine left_xs right_xs filter]. fold (left_xs x). fold (right_xs x). rewrite !lsum_cons, A, B, C, D.
  unfold lf, rt. cbn [fst]. unfold qltb. destruct (qleb k u) eqn:E; unfold qleb in E; rewrite E; cbn [negb map]; rewrite !lsum_cons; repeat split; ring.
Qed.
Lemma ones_map (l : list Qc) (f : Qc -> Qc) : lsum (fun _ => 1) (map f l) = lsum (fun _ : Qc => 1) l.
Proof. induction l as [|u l IH]; [reflexivity|]. cbn [map]. rewrite !lsum_cons, IH. reflexivity. Qed.

Lemma in_left x u : In u (left_xs x) <-> In u x /\ u < k.
Proof. unfold left_xs. rewrite filter_In, qltb_lt. reflexivity. Qed.
Lemma in_right x u : In u (right_xs x) <-> In u x /\ k <= u.
Proof. unfold right_xs. rewrite filter_In, qleb_le. reflexivity. Qed.

Lemma two_different (l : list Qc) : spread l <> 0 -> exists u v, In u l /\ In v l /\ u <> v.
Proof.
  intros H. destruct l as [|x l]; [now destruct H|].
  destruct (Forall_dec (fun u => u = x) (fun u => Qc_eq_dec u x) l) as [F|F].
  - exfalso. apply H. apply spread_zero. rewrite Forall_forall in F.
    assert (W : forall u, In u (x :: l) -> u = x) by (intros u [->|Hu]; [reflexivity | now apply F]).
    intros u v Hu Hv. now rewrite (W u Hu), (W v Hv).
  - apply neg_Forall_Exists_neg in F; [|intros u; apply Qc_eq_dec]. apply Exists_exists in F. destruct F as (u & Hu & N).
    exists u, x. split; [now right|]. split; [now left | exact N].
Qed.
Lemma mul_nonneg a b : 0 <= a -> 0 <= b -> 0 <= a * b.
Proof. intros. qnra. Qed.
Lemma mul_pos a b : 0 < a -> 0 < b -> 0 < a * b.
Proof. intros. qnra. Qed.
Lemma nonneg_pos a : 0 <= a -> a <> 0 -> 0 < a.
Proof. intros H N. destruct (Qclt_le_dec 0 a) as [C|C]; [exact C | exfalso; apply N, Qcle_antisym; assumption]. Qed.

Lemma fitted_some x y : length x = length y -> (exists u, In u x /\ u < k) -> (exists u, In u x /\ k <= u) ->
  (fitted x y <> None <-> determined k x).
Proof.
  intros L HL HR. destruct (sums_left x y L) as (A & B & C & D). assert (N := split_total x y L).
  set (dl := map (fun v => v - k) (left_xs x)) in *. set (dr := map (fun v => v - k) (right_xs x)) in *.
  assert (Ndl : lsum (fun _ => 1) (left_xs x) = lsum (fun _ => 1) dl) by (unfold dl; now rewrite ones_map).
  assert (Ndr : lsum (fun _ => 1) (right_xs x) = lsum (fun _ => 1) dr) by (unfold dr; now rewrite ones_map).
  assert (Idl : forall d, In d dl <-> exists u, d = u - k /\ In u x /\ u < k).
  { intros d. unfold dl. rewrite in_map_iff. split; intros (u & H1 & H2); exists u; [split; [now symmetry | now apply in_left] |].
    split; [now symmetry | now apply in_left]. }
  assert (Idr : forall d, In d dr <-> exists u, d = u - k /\ In u x /\ k <= u).
  { intros d. unfold dr. rewrite in_map_iff. split; intros (u & H1 & H2); exists u; [split; [now symmetry | now apply in_right] |].
    split; [now symmetry | now apply in_right]. }
  assert (PL : 0 < lsum (fun d => d * d) dl).
  { destruct HL as (u & Iu & Hu). apply (lsum_pos _ _ (u - k)); [intros; apply sq_nonneg | apply Idl; eauto |]. 
    replace ((u - k) * (u - k)) with ((k - u) * (k - u)) by ring. apply mul_pos; qlra. }
  assert (GR : 0 <= lsum (fun d => d * d) dr) by (apply lsum_nonneg; intros; apply sq_nonneg).
  assert (DET : lsum (fun _ => 1) (combine x y) * lsum (fun p => lf p * lf p) (combine x y) * lsum (fun p => rt p * rt p) (combine x y)
                - lsum lf (combine x y) * lsum lf (combine x y) * lsum (fun p => rt p * rt p) (combine x y)
                - lsum rt (combine x y) * lsum rt (combine x y) * lsum (fun p => lf p * lf p) (combine x y)
                = lsum (fun d => d * d) dr * spread dl + lsum (fun d => d * d) dl * spread dr).
  { rewrite A, B, C, D, N, Ndl, Ndr. unfold spread. ring. }
  assert (SL := spread_nonneg dl). assert (SR := spread_nonneg dr).
  unfold fitted, solve. rewrite DET. clear DET A B C D N Ndl Ndr.
  assert (N1 := mul_nonneg _ _ GR SL). assert (N2 : 0 <= lsum (fun d => d * d) dl * spread dr) by (apply mul_nonneg; [qlra | exact SR]).
  destruct (Qc_eq_dec _ 0) as [E|E].
  - split; [now intros []|]. intros ((u & Iu & Hu) & (v & Iv & Hv) & H) _.
    assert (Z1 : lsum (fun d => d * d) dr * spread dl = 0) by (apply Qcle_antisym; [|exact N1]; set (s := lsum _ dr * _) in *; set (t := lsum _ dl * _) in *; qlra).
    assert (Z2 : lsum (fun d => d * d) dl * spread dr = 0) by (apply Qcle_antisym; [|exact N2]; set (s := lsum _ dr * _) in *; set (t := lsum _ dl * _) in *; qlra).
    assert (P2 : 0 < lsum (fun d => d * d) dr).
    { apply (lsum_pos _ _ (v - k)); [intros; apply sq_nonneg | apply Idr; exists v; repeat split; [exact Iv | qlra] | apply mul_pos; qlra]. }
    destruct (Qcmult_integral _ _ Z1) as [C1|C1]; [rewrite C1 in P2; qlra|].
    destruct (Qcmult_integral _ _ Z2) as [C2|C2]; [rewrite C2 in PL; qlra|].
    destruct H as [(p & q & Ip & Iq & Hp & Hq & NE)|(p & q & Ip & Iq & Hp & Hq & NE)]; apply NE.
    + assert (X := proj1 (spread_zero dl) C1 (p - k) (q - k) ltac:(apply Idl; eauto) ltac:(apply Idl; eauto)).
      replace p with (p - k + k) by ring. rewrite X. ring.
    + assert (X := proj1 (spread_zero dr) C2 (p - k) (q - k) ltac:(apply Idr; eauto) ltac:(apply Idr; eauto)).
      replace p with (p - k + k) by ring. rewrite X. ring.
  - split; [|discriminate]. intros _.
    assert (P2 : lsum (fun d => d * d) dr <> 0).
    { intros Z. apply E. rewrite Z. assert (S0 : spread dr = 0).
      - apply spread_zero. intros u v Hu Hv. assert (Z' : lsum (fun d => d * d) dr <= 0) by (rewrite Z; apply Qcle_refl).
        rewrite (sq_zero u (lsum_zero _ dr (fun d => sq_nonneg d) Z' u Hu)), (sq_zero v (lsum_zero _ dr (fun d => sq_nonneg d) Z' v Hv)). reflexivity.
      - rewrite S0. ring. }
    split; [exact HL|]. split.
    + destruct (Exists_dec (fun d => d <> 0) dr) as [X|X]; [intros d; destruct (Qc_eq_dec d 0); [right; now intros [] | now left] | |].
      * apply Exists_exists in X. destruct X as (d & Hd & Nd). apply Idr in Hd. destruct Hd as (v & -> & Iv & Hv). exists v. split; [exact Iv|].
        destruct (Qclt_le_dec k v) as [C|C]; [exact C|]. exfalso. apply Nd. assert (v = k) by (apply Qcle_antisym; assumption). subst v. ring.
      * exfalso. apply P2. rewrite <- Forall_Exists_neg in X. rewrite Forall_forall in X.
        rewrite (lsum_ext _ (fun _ => 0 * 0)); [rewrite lsum_scale; ring|]. intros d Hd.
        destruct (Qc_eq_dec d 0) as [->|C]; [reflexivity | exfalso; now apply (X d Hd)].
    + destruct (Qc_eq_dec (spread dl) 0) as [Z|Z].
      * right. destruct (two_different dr) as (u & v & Iu & Iv & NE); [intros Z2; apply E; rewrite Z, Z2; ring|].
        apply Idr in Iu, Iv. destruct Iu as (p & -> & Ip & Hp), Iv as (q & -> & Iq & Hq). exists p, q. repeat split; try assumption. congruence.
      * left. destruct (two_different dl Z) as (u & v & Iu & Iv & NE).
        apply Idl in Iu, Iv. destruct Iu as (p & -> & Ip & Hp), Iv as (q & -> & Iq & Hq). exists p, q. repeat split; try assumption. congruence.
Qed.
End Sides.

(** * kink_model *)

Lemma map_fst_combine (x y : list Qc) : length x = length y -> map fst (combine x y) = x.
Proof. revert y. induction x as [|u x IH]; intros [|v y] L; try discriminate; [reflexivity|]. injection L as L. cbn. now rewrite IH. Qed.

Lemma empty_left k x : length (left_xs k x) = 0%nat <-> ~ exists u, In u x /\ u < k.
Proof.
  split.
  - intros E (u & Hu). apply (proj2 (in_left k x u)) in Hu. destruct (left_xs k x); [destruct Hu | discriminate].
  - intros H. destruct (left_xs k x) as [|u t] eqn:E; [reflexivity|]. exfalso. apply H. exists u. apply in_left. rewrite E. now left.
Qed.
Lemma empty_right k x : length (right_xs k x) = 0%nat <-> ~ exists u, In u x /\ k <= u.
Proof.
  split.
  - intros E (u & Hu). apply (proj2 (in_right k x u)) in Hu. destruct (right_xs k x); [destruct Hu | discriminate].
  - intros H. destruct (right_xs k x) as [|u t] eqn:E; [reflexivity|]. exfalso. apply H. exists u. apply in_right. rewrite E. now left.
Qed.

Lemma kink_model_some k x y : length x = length y -> (kink_model k x y <> None <-> determined k x).
Proof.
  intros L. rewrite (kink_model_eq k x y L).
  destruct (Nat.eqb_spec (length (left_xs k x)) 0) as [EL|EL]; [|destruct (Nat.eqb_spec (length (right_xs k x)) 0) as [ER|ER]]; cbn [orb].
  - split; [now intros []|]. intros (H & _). apply empty_left in EL. contradiction.
  - split; [now intros []|]. intros (_ & (v & Iv & Hv) & _). apply empty_right in ER. exfalso. apply ER. exists v. split; [exact Iv|]. qlra.
  - assert (HL : exists u, In u x /\ u < k).
    { destruct (left_xs k x) as [|u t] eqn:E; [now destruct EL|]. exists u. apply in_left. rewrite E. now left. }
    assert (HR : exists u, In u x /\ k <= u).
    { destruct (right_xs k x) as [|u t] eqn:E; [now destruct ER|]. exists u. apply in_right. rewrite E. now left. }
    rewrite <- (fitted_some k x y L HL HR). destruct (fitted k x y); split; congruence.
Qed.

Lemma kink_model_parts k x y m a b c x2 : kink_model k x y = Some (m, (a, b, c), x2) ->
  length x = length y /\ fitted k x y = Some (a, b, c) /\ m = model_of k x (a, b, c) /\
  x2 = sumsq (map (fun p => fst p - snd p) (combine m y)).
Proof.
  intros E. assert (L : length x = length y).
  { unfold kink_model in E. destruct (Nat.eqb_spec (length x) (length y)) as [H|H]; [exact H | discriminate]. }
  rewrite (kink_model_eq k x y L) in E. destruct (_ || _)%bool; [discriminate|].
  destruct (fitted k x y) as [[[a' b'] c']|]; [|discriminate].
  assert (H1 : model_of k x (a', b', c') = m) by congruence. assert (H2 : (a', b', c') = (a, b, c)) by congruence.
  assert (H3 : sumsq (map (fun p => fst p - snd p) (combine (model_of k x (a', b', c')) y)) = x2) by congruence.
  rewrite H1 in H3. rewrite H2 in H1. repeat split; congruence.
Qed.

Lemma kink_best k x y m a b c x2 : kink_model k x y = Some (m, (a, b, c), x2) ->
  exists s, squares k a b c x y s /\
    (forall a' b' c' s', squares k a' b' c' x y s' -> s <= s') /\
    (forall a' b' c', squares k a' b' c' x y s -> (a', b', c') = (a, b, c)).
Proof.
  intros E. assert (DT : determined k x).
  { destruct (kink_model_parts _ _ _ _ _ _ _ _ E) as (L & _). apply (kink_model_some k x y L). congruence. }
  destruct (kink_model_parts _ _ _ _ _ _ _ _ E) as (L & F & _). destruct (fitted_normal k x y a b c F) as (N0 & N1 & N2).
  exists (total k a b c (combine x y)). split; [now apply squares_total|]. split.
  - intros a' b' c' s' H. apply (squares_total k a' b' c' x y s' L) in H. subst s'.
    rewrite (normal_best k _ a b c a' b' c' N0 N1 N2).
    assert (G := lsum_nonneg (fun p => (height k a' b' c' p - height k a b c p) * (height k a' b' c' p - height k a b c p)) (combine x y) (fun p => sq_nonneg _)).
    set (s := lsum _ _) in *. set (t := total _ _ _ _ _). qlra.
  - intros a' b' c' H. apply (squares_total k a' b' c' x y _ L) in H.
    rewrite (normal_best k _ a b c a' b' c' N0 N1 N2) in H.
    assert (Z : lsum (fun p => (height k a' b' c' p - height k a b c p) * (height k a' b' c' p - height k a b c p)) (combine x y) <= 0).
    { set (s := lsum _ _) in *. set (t := total _ _ _ _ _) in *. qlra. }
    assert (Q := lsum_zero _ _ (fun p => sq_nonneg _) Z).
    assert (W : forall u, In u x -> exists w, height k a' b' c' (u, w) = height k a b c (u, w)).
    { intros u Hu. assert (exists w, In (u, w) (combine x y)) as (w & Hw).
      { clear - Hu L. revert y L. induction x as [|v x IH]; intros [|w y] L; try discriminate; [destruct Hu|]. injection L as L.
        destruct Hu as [->|Hu]; [exists w; now left|]. destruct (IH Hu y L) as (w' & Hw'). exists w'. now right. }
      exists w. apply sub_zero, sq_zero, (Q (u, w) Hw). }
    assert (WL : forall u, In u x -> u < k -> (a' - a) + (b' - b) * (u - k) = 0).
    { intros u Hu C. destruct (W u Hu) as (w & Hw). unfold height, lf, rt in Hw. cbn [fst] in Hw. rewrite (proj2 (qltb_lt u k) C) in Hw.
      replace (a' - a + (b' - b) * (u - k)) with (a' + b' * (u - k) + c' * 0 - (a + b * (u - k) + c * 0)) by ring. rewrite Hw. ring. }
    assert (WR : forall u, In u x -> k <= u -> (a' - a) + (c' - c) * (u - k) = 0).
    { intros u Hu C. destruct (W u Hu) as (w & Hw). unfold height, lf, rt in Hw. cbn [fst] in Hw. rewrite (proj2 (qltb_ge u k) C) in Hw.
      replace (a' - a + (c' - c) * (u - k)) with (a' + b' * 0 + c' * (u - k) - (a + b * 0 + c * (u - k))) by ring. rewrite Hw. ring. }
    destruct DT as ((u & Iu & Hu) & (v & Iv & Hv) & H2).
    assert (Slope : forall d e p q, p <> q -> d + e * (p - k) = 0 -> d + e * (q - k) = 0 -> e = 0 /\ d = 0).
    { intros d e p q NE E1 E2. assert (E3 : e * (p - q) = 0) by (replace (e * (p - q)) with (d + e * (p - k) - (d + e * (q - k))) by ring; rewrite E1, E2; ring).
      destruct (Qcmult_integral _ _ E3) as [E4|E4]; [|exfalso; now apply NE, sub_zero]. split; [exact E4|]. subst e. rewrite <- E1. ring. }
    assert (Z0 : a' - a = 0).
    { destruct H2 as [(p & q & Ip & Iq & Hp & Hq & NE)|(p & q & Ip & Iq & Hp & Hq & NE)].
      - apply (Slope _ _ p q NE (WL p Ip Hp) (WL q Iq Hq)).
      - apply (Slope _ _ p q NE (WR p Ip Hp) (WR q Iq Hq)). }
    assert (Zb : b' - b = 0).
    { assert (X := WL u Iu Hu). rewrite Z0 in X. replace (0 + (b' - b) * (u - k)) with ((b' - b) * (u - k)) in X by ring.
      destruct (Qcmult_integral _ _ X) as [X'|X']; [exact X'|]. apply sub_zero in X'. subst u. qlra. }
    assert (Zc : c' - c = 0).
    { assert (X := WR v Iv ltac:(qlra)). rewrite Z0 in X. replace (0 + (c' - c) * (v - k)) with ((c' - c) * (v - k)) in X by ring.
      destruct (Qcmult_integral _ _ X) as [X'|X']; [exact X'|]. apply sub_zero in X'. subst v. qlra. }
    rewrite (sub_zero _ _ Z0), (sub_zero _ _ Zb), (sub_zero _ _ Zc). reflexivity.
Qed.

(** The order of the samples does not matter for (a, b, c). *)
Lemma kink_perm k x y x' y' m abc x2 : length x' = length y' ->
  Permutation (combine x y) (combine x' y') -> kink_model k x y = Some (m, abc, x2) ->
  exists m' x2', kink_model k x' y' = Some (m', abc, x2').
Proof.
  intros L' P E. destruct abc as [[a b] c]. destruct (kink_model_parts _ _ _ _ _ _ _ _ E) as (L & F & _).
  assert (F' : fitted k x' y' = Some (a, b, c)).
  { rewrite <- F. unfold fitted. f_equal; apply lsum_perm; now apply Permutation_sym. }
  assert (PX : Permutation x x').
  { assert (Q := Permutation_map fst P). rewrite <- (map_fst_combine x y L), <- (map_fst_combine x' y' L'). exact Q. }
  rewrite (kink_model_eq k x' y' L'). rewrite (kink_model_eq k x y L) in E.
  assert (PF : forall (f : Qc -> bool) (x1 x2 : list Qc), Permutation x1 x2 -> length (filter f x1) = length (filter f x2) :> nat).
  { intros f x1 x2' P1. induction P1 as [|u l l' _ IH|u v l|l1 l2 l3 _ IH1 _ IH2]; [reflexivity | cbn; destruct (f u); cbn; congruence | cbn; destruct (f u), (f v); reflexivity | congruence]. }
  unfold left_xs, right_xs in *. rewrite <- (PF _ _ _ PX), <- (PF _ _ _ PX). destruct (_ || _)%bool; [discriminate|].
  rewrite F'. eauto.
Qed.

(** With the samples on the left first, the model values and X2 belong to the samples. *)
Lemma kink_sorted k x y m a b c x2 : kink_model k x y = Some (m, (a, b, c), x2) ->
  (forall i j, (i < j)%nat -> (j < length x)%nat -> k <= nth i x 0 -> k <= nth j x 0) ->
  Forall2 (on_kink k a b c) x m /\ squares k a b c x y x2.
Proof.
  intros E S. destruct (kink_model_parts _ _ _ _ _ _ _ _ E) as (L & _ & Em & Ex).
  assert (A : model_of k x (a, b, c) = map (fun v => height k a b c (v, 0)) x).
  { clear - S. induction x as [|u x IH]; [reflexivity|].
    assert (S' : forall i j, (i < j)%nat -> (j < length x)%nat -> k <= nth i x 0 -> k <= nth j x 0).
    { intros i j H1 H2. apply (S (Datatypes.S i) (Datatypes.S j)); cbn; lia. }
    specialize (IH S'). unfold model_of, left_xs, right_xs in *. cbn [filter map].
    destruct (qltb u k) eqn:C.
    - assert (C' : qleb k u = false) by (unfold qltb in C; now apply Bool.negb_true_iff in C). rewrite C'. cbn [map app]. rewrite IH. f_equal.
      unfold height, lf, rt. cbn [fst]. rewrite C. ring.
    - assert (C' : qleb k u = true) by (unfold qltb in C; now apply Bool.negb_false_iff in C). rewrite C'. cbn [map].
      assert (Z : filter (fun v => qltb v k) x = []).
      { clear IH S'. apply qltb_ge in C. destruct (filter (fun v => qltb v k) x) as [|v t] eqn:F; [reflexivity|]. exfalso.
        assert (I : In v (filter (fun v => qltb v k) x)) by (rewrite F; now left). apply filter_In in I. destruct I as (I & Q). apply qltb_lt in Q.
        apply (In_nth _ _ 0) in I. destruct I as (j & Hj & <-). assert (X := S O (Datatypes.S j) ltac:(lia) ltac:(cbn; lia) C). cbn in X. qlra. }
      rewrite Z in *. cbn [map app] in *. rewrite IH. f_equal. unfold height, lf, rt. cbn [fst]. rewrite C. ring. }
  assert (HF : forall xs, Forall2 (on_kink k a b c) xs (map (fun v => height k a b c (v, 0)) xs)).
  { intros xs. induction xs as [|u xs IH]; cbn; constructor; [apply (height_ok k a b c (u, 0)) | exact IH]. }
  rewrite Em, A. split; [apply HF|]. apply squares_total; [exact L|]. rewrite Ex, Em, A. clear - L. unfold sumsq, total.
  revert y L. induction x as [|u x IH]; intros [|v y] L; try discriminate; [reflexivity|]. injection L as L.
  cbn [map combine]. rewrite lsum_cons. rewrite <- (IH y L). reflexivity.
Qed.

(** * fit_kink_model *)

Lemma fold_min_le t : forall h, let r := fold_left (fun m v => if qltb v m then v else m) t h in r <= h /\ (forall v, In v t -> r <= v) /\ (r = h \/ In r t).
Proof.
  induction t as [|v t IH]; intros h; cbn [fold_left]; [split; [apply Qcle_refl|]; split; [intros v [] | now left]|].
  destruct (qltb v h) eqn:C.
  - apply qltb_lt in C. destruct (IH v) as (A & B & D). split; [eapply Qcle_trans; [exact A | now apply Qclt_le_weak]|]. split.
    + intros w [<-|H]; [exact A | now apply B].
    + right. destruct D as [->|D]; [now left | now right].
  - apply qltb_ge in C. destruct (IH h) as (A & B & D). split; [exact A|]. split.
    + intros w [<-|H]; [eapply Qcle_trans; [exact A | exact C] | now apply B].
    + destruct D as [D|D]; [now left | right; now right].
Qed.
Lemma fold_max_le t : forall h, let r := fold_left (fun m v => if qltb m v then v else m) t h in h <= r /\ (forall v, In v t -> v <= r) /\ (r = h \/ In r t).
Proof.
  induction t as [|v t IH]; intros h; cbn [fold_left]; [split; [apply Qcle_refl|]; split; [intros v [] | now left]|].
  destruct (qltb h v) eqn:C.
  - apply qltb_lt in C. destruct (IH v) as (A & B & D). split; [eapply Qcle_trans; [apply Qclt_le_weak; exact C | exact A]|]. split.
    + intros w [<-|H]; [exact A | now apply B].
    + right. destruct D as [->|D]; [now left | now right].
  - apply qltb_ge in C. destruct (IH h) as (A & B & D). split; [exact A|]. split.
    + intros w [<-|H]; [eapply Qcle_trans; [exact C | exact A] | now apply B].
    + destruct D as [D|D]; [now left | right; now right].
Qed.
Lemma minl_ok x lo : minl x = Some lo -> In lo x /\ forall v, In v x -> lo <= v.
Proof.
  destruct x as [|h t]; [discriminate|]. intros E. assert (E' : fold_left (fun m v => if qltb v m then v else m) t h = lo) by (cbn [minl] in E; congruence).
  subst lo. destruct (fold_min_le t h) as (A & B & D). split; [destruct D as [->|D]; [now left | now right]|]. intros v [<-|H]; [exact A | now apply B].
Qed.
Lemma maxl_ok x hi : maxl x = Some hi -> In hi x /\ forall v, In v x -> v <= hi.
Proof.
  destruct x as [|h t]; [discriminate|]. intros E. assert (E' : fold_left (fun m v => if qltb m v then v else m) t h = hi) by (cbn [maxl] in E; congruence).
  subst hi. destruct (fold_max_le t h) as (A & B & D). split; [destruct D as [->|D]; [now left | now right]|]. intros v [<-|H]; [exact A | now apply B].
Qed.

(** What minimize_scalar should return: a place in the bounds where the function is least. *)
Definition minimiser (f : Qc -> option Qc) (lo hi k : Qc) : Prop :=
  lo <= k /\ k <= hi /\ exists v, f k = Some v /\ forall k' v', lo <= k' -> k' <= hi -> f k' = Some v' -> v <= v'.

Lemma squares_exists k a b c : forall x y, length x = length y -> exists s, squares k a b c x y s.
Proof. intros x y L. exists (total k a b c (combine x y)). now apply squares_total. Qed.

Lemma ordered_sides x k : (forall i j, (i < j)%nat -> (j < length x)%nat -> nth i x 0 <= nth j x 0) ->
  forall i j, (i < j)%nat -> (j < length x)%nat -> k <= nth i x 0 -> k <= nth j x 0.
Proof. intros H i j Hi Hj K. eapply Qcle_trans; [exact K | now apply H]. Qed.

Lemma fit_kink_ok minimize x y kb m k a b c x2 :
  fit_kink_model minimize x y kb = Some (m, (k, a, b, c), x2) ->
  let penalty := fun k => option_map snd (kink_model k x y) in
  (forall lo hi k', minimize penalty lo hi = Some k' -> minimiser penalty lo hi k') ->
  (forall i j, (i < j)%nat -> (j < length x)%nat -> nth i x 0 <= nth j x 0) ->
  exists lo hi, match kb with Some (u, v) => u = lo /\ v = hi | None => In lo x /\ In hi x /\ forall w, In w x -> lo <= w /\ w <= hi end /\
    (exists u v, In u x /\ In v x /\ u <= lo /\ hi <= v) /\
    lo <= k /\ k <= hi /\ squares k a b c x y x2 /\
    forall k' a' b' c' s', lo <= k' -> k' <= hi -> determined k' x -> squares k' a' b' c' x y s' -> x2 <= s'.
Proof.
  intros E penalty HM HS. unfold fit_kink_model in E. fold penalty in E.
  destruct (minl x) as [lo|] eqn:EL; [|discriminate]. destruct (maxl x) as [hi|] eqn:EH; [|discriminate].
  destruct (minl_ok _ _ EL) as (IL & ML). destruct (maxl_ok _ _ EH) as (IH & MH).
  set (bounds := match kb with None => Some (lo, hi) | Some (u, v) => if (qltb u lo || qltb hi v)%bool then None else Some (u, v) end) in E.
  destruct bounds as [[u v]|] eqn:EB; [|discriminate].
  destruct (minimize penalty u v) as [k0|] eqn:EK; [|discriminate].
  destruct (kink_model k0 x y) as [[[m0 [[a0 b0] c0]] x20]|] eqn:EM; [|discriminate].
  assert (k0 = k) by congruence. assert (a0 = a) by congruence. assert (b0 = b) by congruence. assert (c0 = c) by congruence. assert (x20 = x2) by congruence. subst k0 a0 b0 c0 x20.
  apply HM in EK. destruct EK as (K1 & K2 & val & EV & KM). unfold penalty in EV, KM. rewrite EM in EV. cbn [option_map snd] in EV. assert (val = x2) by congruence. subst val.
  destruct (kink_sorted k x y m0 a b c x2 EM (ordered_sides x k HS)) as (_ & SQ).
  exists u, v. split; [|split].
  - destruct kb as [[u' v']|]; unfold bounds in EB.
    + destruct (_ || _)%bool; [discriminate|]. split; congruence.
    + assert (u = lo) by congruence. assert (v = hi) by congruence. subst. split; [exact IL|]. split; [exact IH|]. intros w Hw. split; [now apply ML | now apply MH].
  - exists lo, hi. split; [exact IL|]. split; [exact IH|]. destruct kb as [[u' v']|]; unfold bounds in EB.
    + destruct (qltb u' lo) eqn:C1; [discriminate|]. destruct (qltb hi v') eqn:C2; [discriminate|]. cbn [orb] in EB.
      apply qltb_ge in C1, C2. assert (u' = u) by congruence. assert (v' = v) by congruence. subst. split; assumption.
    + assert (u = lo) by congruence. assert (v = hi) by congruence. subst. split; apply Qcle_refl.
  - split; [exact K1|]. split; [exact K2|]. split; [exact SQ|]. intros k' a' b' c' s' H1 H2 DT SQ'.
    destruct (kink_model_parts _ _ _ _ _ _ _ _ EM) as (L & _).
    destruct (kink_model k' x y) as [[[m1 [[a1 b1] c1]] x21]|] eqn:E1; [|exfalso; now apply (proj2 (kink_model_some k' x y L) DT)].
    assert (A : x2 <= x21) by (apply (KM k' x21 H1 H2); rewrite E1; reflexivity).
    destruct (kink_sorted k' x y m1 a1 b1 c1 x21 E1 (ordered_sides x k' HS)) as (_ & SQ1).
    destruct (kink_best _ _ _ _ _ _ _ _ E1) as (s & Hs & B & _).
    assert (s = x21). { apply (squares_total k' a1 b1 c1 x y _ L) in Hs. apply (squares_total k' a1 b1 c1 x y _ L) in SQ1. congruence. }
    subst s. eapply Qcle_trans; [exact A | exact (B _ _ _ _ SQ')].
Qed.
