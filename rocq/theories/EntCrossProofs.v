(** The cross entropy is the integral it stands for. *)
From Coq Require Import Reals Lra Lia ZArith String Bool Permutation Sorted List.
From Verif Require Import EntModel EntSpec EntProofs.
Import ListNotations.
Local Open Scope R_scope.
Local Open Scope list_scope.

(** * Merging *)

Lemma rmerge_loop_ok fuel : forall x1 x2, (List.length x1 + List.length x2 <= fuel)%nat -> x1 <> [] -> x2 <> [] ->
  StronglySorted Rle x1 -> StronglySorted Rle x2 ->
  let m := rmerge_loop fuel x1 x2 in
  map fst (filter snd m) = x1 /\ map fst (filter (fun p => negb (snd p)) m) = x2 /\ StronglySorted Rle (map fst m).
Proof.
  assert (AF : forall l, filter snd (map (fun v : R => (v, false)) l) = []) by (induction l; [reflexivity | cbn; assumption]).
  assert (AT : forall l, filter (fun p => negb (snd p)) (map (fun v : R => (v, true)) l) = []) by (induction l; [reflexivity | cbn; assumption]).
  assert (AF' : forall l, map fst (filter (fun p => negb (snd p)) (map (fun v : R => (v, false)) l)) = l) by (induction l; [reflexivity | cbn; congruence]).
  assert (AT' : forall l, map fst (filter snd (map (fun v : R => (v, true)) l)) = l) by (induction l; [reflexivity | cbn; congruence]).
  assert (AM : forall (b : bool) l, map fst (map (fun v : R => (v, b)) l) = l) by (induction l; [reflexivity | cbn; congruence]).
  assert (IN : forall f a b x1 x2, Forall (Rle a) x1 -> Forall (Rle a) x2 -> b = true -> Forall (fun p => Rle a (fst p)) (rmerge_loop f x1 x2)).
  { intros f a b. induction f as [|f IH]; intros x1 x2 F1 F2 Eb; [constructor|]. cbn [rmerge_loop].
    destruct x1 as [|u t1]; [constructor|]. destruct x2 as [|v t2]; [constructor|].
    inversion F1 as [|? ? Hu Ft1]; subst. inversion F2 as [|? ? Hv Ft2]; subst.
    assert (MF : forall (c : bool) l, Forall (Rle a) l -> Forall (fun p => Rle a (fst p)) (map (fun w => (w, c)) l)).
    { intros c l. induction 1; constructor; assumption. }
    destruct (rltb u v); constructor; try assumption.
    - destruct t1; [now apply MF | now apply IH].
    - destruct t2; [now apply MF | now apply IH]. }
  induction fuel as [|f IH]; intros x1 x2 L N1 N2 S1 S2.
  { destruct x1; [congruence | cbn in L; lia]. }
  destruct x1 as [|a t1]; [congruence|]. destruct x2 as [|b t2]; [congruence|]. cbn [rmerge_loop].
  inversion S1 as [|? ? S1' F1]; subst. inversion S2 as [|? ? S2' F2]; subst.
  unfold rltb. destruct (Rlt_dec a b) as [H|H].
  - assert (Fb : Forall (Rle a) (b :: t2)).
    { constructor; [lra|]. eapply Forall_impl; [|exact F2]. cbn. intros z Hz. lra. }
    destruct t1 as [|a' t1].
    + cbn. rewrite AF, AF', AM. split; [reflexivity|]. split; [reflexivity|]. now constructor.
    + destruct (IH (a' :: t1) (b :: t2)) as (I1 & I2 & I3); try assumption; try congruence; [cbn in *; lia|].
      set (m := rmerge_loop f _ _) in *. cbn. rewrite I1, I2. split; [reflexivity|]. split; [reflexivity|].
      constructor; [exact I3|]. rewrite Forall_map. unfold m. now apply (IN f a true).
  - assert (Fa : Forall (Rle b) (a :: t1)).
    { constructor; [lra|]. eapply Forall_impl; [|exact F1]. cbn. intros z Hz. lra. }
    destruct t2 as [|b' t2].
    + cbn. rewrite AT, AT', AM. split; [reflexivity|]. split; [reflexivity|]. now constructor.
    + destruct (IH (a :: t1) (b' :: t2)) as (I1 & I2 & I3); try assumption; try congruence; [cbn in *; lia|].
      set (m := rmerge_loop f _ _) in *. cbn. rewrite I1, I2. split; [reflexivity|]. split; [reflexivity|].
      constructor; [exact I3|]. rewrite Forall_map. unfold m. now apply (IN f b true).
Qed.

Lemma rmerge_ok x1 x2 : x1 <> [] -> x2 <> [] -> StronglySorted Rle x1 -> StronglySorted Rle x2 ->
  map fst (filter snd (rmerge x1 x2)) = x1 /\ map fst (filter (fun p => negb (snd p)) (rmerge x1 x2)) = x2 /\
  StronglySorted Rle (map fst (rmerge x1 x2)).
Proof. intros. apply rmerge_loop_ok; auto. Qed.

(** * Nodes: a point of x, or the left or the right edge of a box *)

Inductive kind := KX | KUp | KDown.
Definition step_of (k : kind) : Z := match k with KX => 0 | KUp => 1 | KDown => -1 end%Z.
Definition is_x (k : kind) : bool := match k with KX => true | _ => false end.
Fixpoint annotate (m : list (R * bool)) (ups : list bool) : list (R * kind) :=
  match m with
  | [] => []
  | (v, true) :: t => (v, KX) :: annotate t ups
  | (v, false) :: t => match ups with
                       | [] => []
                       | u :: us => (v, if u : bool then KUp else KDown) :: annotate t us
                       end
  end.
Definition xs_of (a : list (R * kind)) : list R := map fst (filter (fun p => is_x (snd p)) a).
Definition ups_of (a : list (R * kind)) : list R := map fst (filter (fun p => match snd p with KUp => true | _ => false end) a).
Definition downs_of (a : list (R * kind)) : list R := map fst (filter (fun p => match snd p with KDown => true | _ => false end) a).

Lemma annotate_ok m : forall yn, map fst (filter (fun p => negb (snd p)) m) = map fst yn ->
  let a := annotate m (map snd yn) in
  map fst a = map fst m /\ map (fun p => is_x (snd p)) a = map snd m /\
  xs_of a = map fst (filter snd m) /\ ups_of a = map fst (filter snd yn) /\ downs_of a = map fst (filter (fun p => negb (snd p)) yn).
Proof.
  induction m as [|[v b] m IH]; intros yn E.
  - destruct yn; [|discriminate]. cbn. auto.
  - destruct b; cbn [filter snd negb map fst] in E.
    + destruct (IH yn E) as (I1 & I2 & I3 & I4 & I5). cbv zeta. cbn [annotate]. unfold xs_of, ups_of, downs_of in *. cbn.
      rewrite I1, I2, I3, I4, I5. auto.
    + destruct yn as [|[v' u] yn]; [discriminate|]. cbn in E. injection E as -> E.
      destruct (IH yn E) as (I1 & I2 & I3 & I4 & I5). cbv zeta. cbn [annotate map snd]. unfold xs_of, ups_of, downs_of in *.
      destruct u; cbn; rewrite I1, I2, I3, I4, I5; auto.
Qed.

(** * The sum of the code *)

Definition own (s : R) (k : kind) : R := if is_x k then s else 0.
Definition back (s : R) (a : list (R * kind)) : list R := cross_backward s (decay (map fst a)) (map (fun p => is_x (snd p)) a).
Lemma back_cons s v k v' k' t : back s ((v, k) :: (v', k') :: t) = (exp (v - v') * hd 0 (back s ((v', k') :: t)) + own s k) :: back s ((v', k') :: t).
Proof. reflexivity. Qed.
Lemma xs_cons v k t : xs_of ((v, k) :: t) = if is_x k then v :: xs_of t else xs_of t.
Proof. unfold xs_of. cbn. destruct (is_x k); reflexivity. Qed.
Lemma back_hd s t : forall v k, hd 0 (back s ((v, k) :: t)) = rsum (map (fun z => s * exp (v - z)) (xs_of ((v, k) :: t))).
Proof.
  induction t as [|[v' k'] t IH]; intros v k.
  - unfold back, xs_of. cbn. destruct k; cbn; [|reflexivity..]. replace (v - v) with 0 by ring. rewrite exp_0. ring.
  - rewrite back_cons. cbn [hd]. rewrite IH.
    assert (E : exp (v - v') * rsum (map (fun z => s * exp (v' - z)) (xs_of ((v', k') :: t)))
              = rsum (map (fun z => s * exp (v - z)) (xs_of ((v', k') :: t)))).
    { rewrite <- rsum_scal. apply rsum_ext. intros z _. replace (exp (v - z)) with (exp (v - v') * exp (v' - z)) by (rewrite <- exp_plus; f_equal; ring). ring. }
    rewrite E, (xs_cons v k). unfold own. destruct (is_x k); [|ring]. cbn [map rsum fold_right].
    replace (v - v) with 0 by ring. rewrite exp_0. unfold rsum. ring.
Qed.

Section Cross.
Context (qmin qstep s : R).

Fixpoint cross_right (c : R) (up : Z) (y : R) (rest : list (R * kind)) : R :=
  match rest with
  | [] => - (c * ln (qmin + qstep * IZR up))
  | (y', k) :: t => - ((c + hd 0 (back s rest)) * (1 - exp (y - y')) * ln (qmin + qstep * IZR up))
                    + cross_right (exp (y - y') * c + own s k) (up + step_of k) y' t
  end.
Definition ups_left (rest : list (R * kind)) : list bool :=
  flat_map (fun p => match snd p with KX => [] | KUp => [true] | KDown => [false] end) rest.
Definition final_up (up : Z) (rest : list (R * kind)) : Z := fold_left (fun z p => z + step_of (snd p))%Z rest up.

Lemma cross_sum_right rest : forall acc c up y k,
  let e := decay (y :: map fst rest) in
  let isx := map (fun p => is_x (snd p)) rest in
  let cs := c :: cross_forward s c e isx in
  exists h, cross_sum qmin qstep acc up (ups_left rest) cs (tl (back s ((y, k) :: rest))) e isx = Some h /\
    h - last cs 0 * ln (qmin + qstep * IZR (final_up up rest)) = acc + cross_right c up y rest.
Proof.
  induction rest as [|[y' k'] t IH]; intros acc c up y k e isx cs.
  - exists acc. split; [reflexivity|]. cbn. ring.
  - unfold e, isx, cs. rewrite back_cons.
    change (decay (y :: map fst ((y', k') :: t))) with (exp (y - y') :: decay (y' :: map fst t)).
    change (map (fun p : R * kind => is_x (snd p)) ((y', k') :: t)) with (is_x k' :: map (fun p : R * kind => is_x (snd p)) t).
    cbn [cross_forward tl]. fold (own s k'). set (c' := exp (y - y') * c + own s k').
    assert (exists d0, back s ((y', k') :: t) = d0 :: tl (back s ((y', k') :: t))) as (d0 & Ed).
    { unfold back. cbn [map fst snd cross_backward]. destruct (decay (y' :: map fst t)); eexists; reflexivity. }
    set (acc' := acc - (c + d0) * (1 - exp (y - y')) * ln (qmin + qstep * IZR up)).
    destruct (IH acc' c' (up + step_of k')%Z y' k') as (h & H1 & H2).
    exists h. rewrite Ed. cbn [cross_sum]. fold acc'. split.
    + destruct k'; cbn [is_x step_of] in *; cbn [ups_left flat_map snd app]; fold (ups_left t).
      * rewrite Z.add_0_r in H1. exact H1.
      * exact H1.
      * replace (up - 1)%Z with (up + -1)%Z by lia. exact H1.
    + cbn [final_up fold_left snd cross_right]. fold (final_up (up + step_of k') t). rewrite Ed. cbn [hd]. fold c'.
      transitivity (h - last (c' :: cross_forward s c' (decay (y' :: map fst t)) (map (fun p => is_x (snd p)) t)) 0
                    * ln (qmin + qstep * IZR (final_up (up + step_of k') t))).
      { reflexivity. }
      rewrite H2. unfold acc'. ring.
Qed.

(** * The integral from a node on *)

(** The number of boxes open at [u]. *)
Definition open_boxes (rest : list (R * kind)) (u : R) : Z :=
  fold_right (fun p z => ((if rltb (fst p) u then step_of (snd p) else 0) + z)%Z) 0%Z rest.

Lemma exp_right c y : forall u, derivable_pt_lim (fun u => c * exp (y - u)) u (- (c * exp (y - u))).
Proof. intros u. eapply dl_eq; [apply dl_scal, dl_exp, dl_minus; [apply dl_const | apply dl_id]|]; cbn beta; ring. Qed.
Lemma exp_left c y : forall u, derivable_pt_lim (fun u => c * exp (u - y)) u (c * exp (u - y)).
Proof. intros u. eapply dl_eq; [apply dl_scal, dl_exp, dl_minus; [apply dl_id | apply dl_const]|]; cbn beta; ring. Qed.

Lemma open_none rest u : (forall p, In p rest -> u <= fst p) -> open_boxes rest u = 0%Z.
Proof.
  induction rest as [|p t IH]; intros H; [reflexivity|]. cbn [open_boxes fold_right]. fold (open_boxes t u).
  unfold rltb at 1. destruct (Rlt_dec (fst p) u) as [L|L].
  - specialize (H p (or_introl eq_refl)). lra.
  - rewrite IH; [reflexivity|]. intros z Hz. apply H. now right.
Qed.

Lemma cross_right_ok rest : forall c up y, StronglySorted Rle (y :: map fst rest) ->
  let p := fun u => c * exp (y - u) + rsum (map (kern s u) (xs_of rest)) in
  let q := fun u => qmin + qstep * IZR (up + open_boxes rest u) in
  exists G, continuity G /\ (forall u, ~ In u (map fst rest) -> derivable_pt_lim G u (- (p u * ln (q u)))) /\
            G y = 0 /\ tends_right G (cross_right c up y rest).
Proof.
  induction rest as [|[y' k] t IH]; intros c up y SS p q.
  - set (L := ln (qmin + qstep * IZR up)).
    assert (D : forall u, derivable_pt_lim (fun u => (c * exp (y - u)) * L + - (c * L)) u (- (p u * ln (q u)))).
    { intros u. eapply dl_eq; [apply dl_plus; [apply dl_mult; [apply exp_right | apply dl_const] | apply dl_const]|]. cbn beta.
      unfold p, q. cbn. rewrite Z.add_0_r. fold L. ring. }
    exists (fun u => (c * exp (y - u)) * L + - (c * L)). split; [intros u; eapply dl_cont, D|]. split; [intros u _; apply D|]. split.
    + replace (y - y) with 0 by ring. rewrite exp_0. ring.
    + cbn [cross_right]. fold L. assert (S0 := tends_shift (fun u => c * exp (y - u) * L) 0 (- (c * L))). rewrite Rplus_0_l in S0. apply S0.
      apply (tends_right_ext (fun u => (c * L + 0 * (u - y)) * exp (y - u)) _ _ 0); [intros u _; ring | apply decay_limit].
  - cbn [map fst] in SS. inversion SS as [|? ? SS' FF]; subst. inversion FF as [|? ? Hy F']; subst.
    assert (HT : forall v, In v (map fst t) -> y' <= v).
    { inversion SS' as [|? ? _ F2]; subst. rewrite Forall_forall in F2. exact F2. }
    set (e := exp (y - y')). set (c' := e * c + own s k).
    destruct (IH c' (up + step_of k)%Z y' SS') as (G2 & C2 & D2 & Z2 & T2).
    set (p2 := fun u => c' * exp (y' - u) + rsum (map (kern s u) (xs_of t))) in *.
    set (q2 := fun u => qmin + qstep * IZR (up + step_of k + open_boxes t u)) in *.
    set (dn := hd 0 (back s ((y', k) :: t))). set (L := ln (qmin + qstep * IZR up)).
    set (F := fun u => (c * exp (y - u) - dn * exp (u - y')) * L).
    assert (XS : xs_of ((y', k) :: t) = if is_x k then y' :: xs_of t else xs_of t) by (unfold xs_of; cbn; destruct (is_x k); reflexivity).
    assert (XT : forall v, In v (xs_of t) -> y' <= v).
    { intros v Hv. unfold xs_of in Hv. apply in_map_iff in Hv as (z & <- & Hz). apply filter_In in Hz as (Hz & _). apply HT. now apply in_map. }
    assert (PL : forall u, u <= y' -> p u = c * exp (y - u) + dn * exp (u - y')).
    { intros u Hu. unfold p, dn. rewrite back_hd. f_equal. rewrite Rmult_comm, <- rsum_scal. apply rsum_ext.
      intros v Hv. assert (y' <= v) by (rewrite XS in Hv; destruct (is_x k); [destruct Hv as [->|Hv]; [lra | now apply XT] | now apply XT]).
      rewrite kern_left by lra. replace (exp (u - v)) with (exp (u - y') * exp (y' - v)) by (rewrite <- exp_plus; f_equal; ring). ring. }
    assert (PR : forall u, y' <= u -> p u = p2 u).
    { intros u Hu. unfold p, p2, c'. rewrite XS. replace (exp (y - u)) with (e * exp (y' - u)) by (unfold e; rewrite <- exp_plus; f_equal; ring).
      unfold own. destruct (is_x k); [|ring]. cbn [map rsum fold_right]. rewrite kern_right by exact Hu. unfold rsum. ring. }
    assert (QL : forall u, u <= y' -> ln (q u) = L).
    { intros u Hu. unfold q, L. rewrite open_none, Z.add_0_r; [reflexivity|]. intros z [<-|Hz]; [exact Hu|].
      assert (y' <= fst z) by (apply HT, in_map, Hz). lra. }
    assert (QR : forall u, y' < u -> q u = q2 u).
    { intros u Hu. unfold q, q2. cbn [open_boxes fold_right fst snd]. fold (open_boxes t u).
      unfold rltb at 1. destruct (Rlt_dec y' u); [|lra]. now rewrite Z.add_assoc. }
    assert (DF : forall u, derivable_pt_lim F u (- ((c * exp (y - u) + dn * exp (u - y')) * L))).
    { intros u. unfold F. eapply dl_eq; [apply dl_mult; [apply dl_minus; [apply exp_right | apply exp_left] | apply dl_const]|]. cbn beta. ring. }
    set (G1 := fun u => F u - F y). set (G2' := fun u => G2 u + (F y' - F y)).
    assert (D1 : forall u, derivable_pt_lim G1 u (- ((c * exp (y - u) + dn * exp (u - y')) * L))).
    { intros u. unfold G1. eapply dl_eq; [apply dl_minus; [apply DF | apply dl_const]|]. ring. }
    assert (D2' : forall u, ~ In u (map fst t) -> derivable_pt_lim G2' u (- (p2 u * ln (q2 u)))).
    { intros u N. unfold G2'. eapply dl_eq; [apply dl_plus; [apply D2, N | apply dl_const]|]. unfold p2, q2. ring. }
    exists (glued y' G1 G2'). split; [|split; [|split]].
    + apply glue_cont.
      * unfold G1, G2'. rewrite Z2. ring.
      * intros u _. eapply dl_cont, D1.
      * intros u _. unfold G2'. apply (continuity_plus G2 (fun _ => F y' - F y)); [exact C2 | apply continuity_const; intros a b; reflexivity].
    + intros u N. destruct (Rtotal_order u y') as [Lu|[->|Lu]].
      * apply glue_left; [exact Lu|]. rewrite PL, QL by lra. apply D1.
      * exfalso. apply N. now left.
      * apply glue_right; [exact Lu|]. rewrite PR, QR by lra. apply D2'. intros I. apply N. now right.
    + unfold glued. destruct (Rle_dec y y'); [unfold G1; ring | lra].
    + cbn [cross_right]. fold e dn c' L.
      replace (- ((c + dn) * (1 - e) * L)) with (F y' - F y).
      * apply (tends_right_ext G2' _ _ y').
        -- intros u Hu. unfold glued. destruct (Rle_dec u y'); [lra | reflexivity].
        -- unfold G2'. rewrite Rplus_comm. now apply tends_shift.
      * unfold F. fold e. replace (y - y) with 0 by ring. replace (y' - y') with 0 by ring. rewrite exp_0. fold e. ring.
Qed.

Lemma cross_all_ok y k rest : StronglySorted Rle (y :: map fst rest) ->
  let a := (y, k) :: rest in
  let p := fun u => rsum (map (kern s u) (xs_of a)) in
  let q := fun u => qmin + qstep * IZR (open_boxes a u) in
  exists G, continuity G /\ (forall u, ~ In u (map fst a) -> derivable_pt_lim G u (- (p u * ln (q u)))) /\
            tends_left G 0 /\ tends_right G (- hd 0 (back s a) * ln qmin + cross_right (own s k) (step_of k) y rest).
Proof.
  intros SS a p q.
  destruct (cross_right_ok rest (own s k) (step_of k) y SS) as (G2 & C2 & D2 & Z2 & T2).
  set (p2 := fun u => own s k * exp (y - u) + rsum (map (kern s u) (xs_of rest))) in *.
  set (q2 := fun u => qmin + qstep * IZR (step_of k + open_boxes rest u)) in *.
  set (d0 := hd 0 (back s a)). set (L := ln qmin).
  assert (HT : forall v, In v (map fst rest) -> y <= v).
  { inversion SS as [|? ? _ F2]; subst. rewrite Forall_forall in F2. exact F2. }
  assert (XT : forall v, In v (xs_of rest) -> y <= v).
  { intros v Hv. unfold xs_of in Hv. apply in_map_iff in Hv as (z & <- & Hz). apply filter_In in Hz as (Hz & _). apply HT. now apply in_map. }
  assert (XS : xs_of a = if is_x k then y :: xs_of rest else xs_of rest) by (unfold xs_of, a; cbn; destruct (is_x k); reflexivity).
  assert (PL : forall u, u <= y -> p u = d0 * exp (u - y)).
  { intros u Hu. unfold p, d0, a. rewrite back_hd. rewrite Rmult_comm, <- rsum_scal. apply rsum_ext.
    intros v Hv. fold a in Hv. assert (y <= v) by (rewrite XS in Hv; destruct (is_x k); [destruct Hv as [->|Hv]; [lra | now apply XT] | now apply XT]).
    rewrite kern_left by lra. replace (exp (u - v)) with (exp (u - y) * exp (y - v)) by (rewrite <- exp_plus; f_equal; ring). ring. }
  assert (PR : forall u, y <= u -> p u = p2 u).
  { intros u Hu. unfold p, p2. rewrite XS. unfold own. destruct (is_x k); [|ring].
    cbn [map rsum fold_right]. now rewrite kern_right. }
  assert (QL : forall u, u <= y -> ln (q u) = L).
  { intros u Hu. unfold q, L. rewrite open_none; [rewrite Rmult_0_r, Rplus_0_r; reflexivity|]. intros z [<-|Hz]; [exact Hu|].
    assert (y <= fst z) by (apply HT, in_map, Hz). lra. }
  assert (QR : forall u, y < u -> q u = q2 u).
  { intros u Hu. unfold q, q2, a. cbn [open_boxes fold_right fst snd]. fold (open_boxes rest u). unfold rltb at 1. destruct (Rlt_dec y u); [reflexivity | lra]. }
  set (G1 := fun u => d0 * exp (u - y) * - L). set (G2' := fun u => G2 u + (- d0 * L)).
  assert (D1 : forall u, derivable_pt_lim G1 u (- (d0 * exp (u - y) * L))).
  { intros u. unfold G1. eapply dl_eq; [apply dl_mult; [apply exp_left | apply dl_const]|]. cbn beta. ring. }
  assert (D2' : forall u, ~ In u (map fst rest) -> derivable_pt_lim G2' u (- (p2 u * ln (q2 u)))).
  { intros u N. unfold G2'. eapply dl_eq; [apply dl_plus; [apply D2, N | apply dl_const]|]. unfold p2, q2. ring. }
  assert (EY : exp (y - y) = 1) by (replace (y - y) with 0 by ring; apply exp_0).
  exists (glued y G1 G2'). split; [|split; [|split]].
  - apply glue_cont.
    + unfold G1, G2'. rewrite Z2, EY. ring.
    + intros u _. eapply dl_cont, D1.
    + intros u _. unfold G2'. apply (continuity_plus G2 (fun _ => - d0 * L)); [exact C2 | apply continuity_const; intros c b; reflexivity].
  - intros u N. destruct (Rtotal_order u y) as [Lu|[->|Lu]].
    + apply glue_left; [exact Lu|]. rewrite PL, QL by lra. apply D1.
    + exfalso. apply N. now left.
    + apply glue_right; [exact Lu|]. rewrite PR, QR by lra. apply D2'. intros I. apply N. now right.
  - apply (tends_left_ext G1 _ _ y); [intros u Hu; unfold glued; destruct (Rle_dec u y); [reflexivity | lra]|].
    apply tends_mirror. unfold G1.
    apply (tends_right_ext (fun u => (- (d0 * L) + 0 * (u - - y)) * exp (- y - u)) _ _ 0); [|apply decay_limit].
    intros u _. replace (- u - y) with (- y - u) by ring. ring.
  - apply (tends_right_ext G2' _ _ y); [intros u Hu; unfold glued; destruct (Rle_dec u y); [lra | reflexivity]|].
    unfold G2'. rewrite Rplus_comm. now apply tends_shift.
Qed.
End Cross.

(** * The whole *)

Lemma annotate_ups m : forall yn, map fst (filter (fun p => negb (snd p)) m) = map fst yn ->
  ups_left (annotate m (map snd yn)) = map snd yn.
Proof.
  induction m as [|[v b] m IH]; intros yn E; [destruct yn; [reflexivity | discriminate]|].
  destruct b; cbn [filter snd negb map fst] in E.
  - cbn [annotate]. exact (IH yn E).
  - destruct yn as [|[v' u] yn]; [discriminate|]. cbn in E. injection E as -> E.
    cbn [annotate map snd]. unfold ups_left in *. cbn [flat_map snd]. rewrite (IH yn E). now destruct u.
Qed.

Lemma final_up_sum rest : forall up, final_up up rest = (up + (Z.of_nat (List.length (ups_of rest)) - Z.of_nat (List.length (downs_of rest))))%Z.
Proof.
  unfold final_up, ups_of, downs_of. induction rest as [|[v k] t IH]; intros up; [cbn; lia|].
  cbn [fold_left snd]. rewrite IH. destruct k; cbn [filter snd step_of map List.length]; lia.
Qed.

Definition before (v u : R) : R := if Rlt_dec v u then 1 else 0.
Lemma open_boxes_sum a u : IZR (open_boxes a u) = rsum (map (fun v => before v u) (ups_of a)) - rsum (map (fun v => before v u) (downs_of a)).
Proof.
  unfold ups_of, downs_of. induction a as [|[v k] t IH]; [cbn; ring|].
  cbn [open_boxes fold_right fst snd]. fold (open_boxes t u). rewrite plus_IZR, IH.
  unfold rltb, before at 1 2. destruct k; cbn [filter snd step_of map rsum fold_right fst]; unfold before, rsum;
    destruct (Rlt_dec v u); cbn; ring.
Qed.

Lemma inside_before h v u : 0 < h -> u <> v + h -> inside h v u = before (v - h) u - before (v + h) u.
Proof.
  intros Hh N. unfold inside, before.
  destruct (Rlt_dec (Rabs (u - v)) h) as [A|A], (Rlt_dec (v - h) u) as [B|B], (Rlt_dec (v + h) u) as [C|C]; try ring.
  - apply Rabs_def2 in A. lra.
  - apply Rabs_def2 in A. lra.
  - apply Rabs_def2 in A. lra.
  - exfalso. apply A. apply Rabs_def1; lra.
  - lra.
Qed.

Lemma in_kinds a v : In v (map fst a) <-> In v (xs_of a) \/ In v (ups_of a) \/ In v (downs_of a).
Proof.
  unfold xs_of, ups_of, downs_of. rewrite !in_map_iff. split.
  - intros ([w k] & <- & I). destruct k; [left | right; left | right; right]; (eexists; split; [|apply filter_In; split; [exact I | reflexivity]]; reflexivity).
  - intros [(z & <- & I)|[(z & <- & I)|(z & <- & I)]]; apply filter_In in I as (I & _); eauto.
Qed.

Lemma map_sorted (f : R -> R) l : (forall a b, a <= b -> f a <= f b) -> StronglySorted Rle l -> StronglySorted Rle (map f l).
Proof.
  intros M. induction 1 as [|x t S IH F]; cbn; constructor; [exact IH|].
  rewrite Forall_map. eapply Forall_impl; [|exact F]. cbn. auto.
Qed.

Lemma sorted_last d l : StronglySorted Rle (d :: l) -> forall v, In v (d :: l) -> v <= last (d :: l) 0.
Proof.
  revert d. induction l as [|b l IH]; intros d S v [<-|I].
  - cbn. lra.
  - contradiction.
  - inversion S as [|? ? S' F]; subst. rewrite Forall_forall in F. assert (d <= b) by (apply F; now left).
    specialize (IH b S' b (or_introl eq_refl)). change (last (d :: b :: l) 0) with (last (b :: l) 0). lra.
  - inversion S as [|? ? S' F]; subst. change (last (d :: b :: l) 0) with (last (b :: l) 0). now apply IH.
Qed.
Lemma last_in (d : R) l : In (last (d :: l) 0) (d :: l).
Proof. revert d. induction l as [|b l IH]; intros d; [now left|]. right. exact (IH b). Qed.

Definition share_of (y : list R) : R := 1 / sqrt (INR (List.length y) + 3).
Definition nodes_of (h : R) (x y : list R) : list R := x ++ map (fun v => v - h) y ++ map (fun v => v + h) y.

Lemma share_bounds y : 0 < share_of y < 1.
Proof.
  unfold share_of. set (n := INR _). assert (0 <= n) by apply pos_INR.
  assert (1 < sqrt (n + 3)) by (rewrite <- sqrt_1; apply sqrt_lt_1; lra).
  split.
  - apply Rdiv_lt_0_compat; lra.
  - apply (Rmult_lt_reg_r (sqrt (n + 3))); [lra|]. unfold Rdiv. rewrite Rmult_assoc, Rinv_l by lra. lra.
Qed.

Lemma cross_arrays_ok x y : x <> [] -> y <> [] -> StronglySorted Rle x -> StronglySorted Rle y ->
  exists H lo hi G, cross_entropy_arrays x y = Some H /\
    least (nodes_of (sqrt 6) x y) lo /\ greatest (nodes_of (sqrt 6) x y) hi /\
    continuity G /\
    (forall u, ~ In u (nodes_of (sqrt 6) x y) -> derivable_pt_lim G u
       (- (rsum (map (kern (1 / (2 * INR (List.length x))) u) x) * ln (box_density (share_of y) (lo - 10) (hi + 10) (sqrt 6) y u)))) /\
    tends_left G 0 /\ tends_right G H.
Proof.
  intros Nx Ny Sx Sy. set (h := sqrt 6). assert (Hh : 0 < h) by (apply sqrt_lt_R0; lra).
  unfold cross_entropy_arrays. fold h. cbv zeta.
  replace (1 / 2 * (2 * h)) with h by field.
  set (yn := rmerge (map (fun v => v - h) y) (map (fun v => v + h) y)).
  assert (NM : forall f : R -> R, map f y <> []) by (intros f E; apply map_eq_nil in E; contradiction).
  destruct (rmerge_ok (map (fun v => v - h) y) (map (fun v => v + h) y)) as (U1 & U2 & U3); try apply NM;
    try (apply map_sorted; [intros; lra | exact Sy]). fold yn in U1, U2, U3.
  assert (NY : map fst yn <> []).
  { intros E. apply map_eq_nil in E. rewrite E in U1. symmetry in U1. now apply NM in U1. }
  destruct (rmerge_ok x (map fst yn) Nx NY Sx U3) as (M1 & M2 & M3).
  set (m := rmerge x (map fst yn)) in *.
  destruct (annotate_ok m yn M2) as (A1 & A2 & A3 & A4 & A5). assert (A6 := annotate_ups m yn M2).
  set (a := annotate m (map snd yn)) in *. rewrite M1 in A3. rewrite U1 in A4. rewrite U2 in A5.
  rewrite <- A1 in *. rewrite <- A2. rewrite <- A6.
  assert (IN : forall v, In v (map fst a) <-> In v (nodes_of h x y)).
  { intros v. rewrite in_kinds, A3, A4, A5. unfold nodes_of. rewrite !in_app_iff. tauto. }
  destruct a as [|[n0 k] rest] eqn:EA.
  { unfold xs_of in A3. cbn in A3. congruence. }
  assert (LO : forall v, In v (map fst ((n0, k) :: rest)) -> n0 <= v).
  { cbn [map fst] in M3 |- *. inversion M3 as [|? ? _ F]. rewrite Forall_forall in F. intros v [<-|I]; [lra | now apply F]. }
  assert (KD : k <> KDown).
  { intros ->. assert (I : In n0 (map (fun v => v + h) y)) by (rewrite <- A5; now left).
    apply in_map_iff in I as (v & E & I). assert (n0 <= v - h); [|lra]. apply LO, in_kinds. right. left. rewrite A4.
    apply in_map_iff. eauto. }
  cbn [map fst snd hd tl].
  set (qm := _ / (last _ 0 + 10 - (n0 - 10))). set (qs := (1 - _) / _). set (s := 1 / _).
  assert (X0 : (if is_x k then s else 0) = own s k) by reflexivity. rewrite X0.
  assert (X1 : (if is_x k then 0%Z else 1%Z) = step_of k) by (destruct k; [reflexivity.. | congruence]). rewrite X1.
  assert (X2 : (if is_x k then ups_left ((n0, k) :: rest) else tl (ups_left ((n0, k) :: rest))) = ups_left rest) by (destruct k; reflexivity).
  rewrite X2.
  change (cross_backward s (decay (n0 :: map fst rest)) (is_x k :: map (fun p : R * kind => is_x (snd p)) rest)) with (back s ((n0, k) :: rest)).
  destruct (cross_sum_right qm qs s rest (- hd 0 (back s ((n0, k) :: rest)) * ln qm) (own s k) (step_of k) n0 k) as (h1 & H1 & H2).
  rewrite H1.
  assert (FU : final_up (step_of k) rest = 0%Z).
  { change (final_up (step_of k) rest) with (final_up 0 ((n0, k) :: rest)). rewrite final_up_sum, A4, A5, !map_length. lia. }
  rewrite FU, Rmult_0_r, Rplus_0_r in H2.
  destruct (cross_all_ok qm qs s n0 k rest M3) as (G & GC & GD & GL & GR).
  exists (- hd 0 (back s ((n0, k) :: rest)) * ln qm + cross_right qm qs s (own s k) (step_of k) n0 rest),
    n0, (last (n0 :: map fst rest) 0), G.
  split; [f_equal; exact H2|]. split; [|split; [|split; [exact GC|split; [|split; [exact GL | exact GR]]]]].
  - split; [apply IN; now left|]. intros v I. apply LO. now apply IN.
  - split; [apply IN, last_in|]. intros v I. apply (sorted_last n0 (map fst rest) M3). now apply IN.
  - intros u N. rewrite <- IN in N. eapply dl_eq; [apply GD, N|]. rewrite A3. f_equal. f_equal. f_equal.
    rewrite open_boxes_sum, A4, A5, !map_map. unfold box_density.
    replace (last (n0 :: map fst rest) 0 + 10 - (n0 - 10)) with (last (n0 :: map fst rest) 0 + 10 - (n0 - 10)) by ring.
    unfold qm, qs, share_of. f_equal.
    assert (E : rsum (map (fun v => before (v - h) u) y) - rsum (map (fun v => before (v + h) u) y) = rsum (map (fun v => inside h v u) y)).
    { assert (forall v, In v y -> u <> v + h).
      { intros v I ->. apply N, in_kinds. right. right. rewrite A5. apply in_map_iff. eauto. }
      clear - Hh H. induction y as [|b t IH]; [cbn; ring|]. cbn [map rsum fold_right].
      rewrite inside_before by (try exact Hh; apply H; now left).
      assert (IH' := IH ltac:(intros v I; apply H; now right)). unfold rsum in *. lra. }
    rewrite E. unfold Rdiv. ring.
Qed.

(** * Integrals of sums *)

Lemma tends_left_lin a b F G v w : tends_left F v -> tends_left G w -> tends_left (fun u => a * F u + b * G u) (a * v + b * w).
Proof.
  intros HF HG eps He. set (K := Rabs a + Rabs b + 1). assert (Ka := Rabs_pos a). assert (Kb := Rabs_pos b).
  assert (PK : 0 < K) by (unfold K; lra). assert (P : 0 < eps / K) by (apply Rdiv_lt_0_compat; assumption).
  destruct (HF _ P) as (m & Hm). destruct (HG _ P) as (k & Hk). exists (Rmin m k). intros u Hu.
  assert (X1 := Rmin_l m k). assert (X2 := Rmin_r m k). specialize (Hm u ltac:(lra)). specialize (Hk u ltac:(lra)).
  replace (a * F u + b * G u - (a * v + b * w)) with (a * (F u - v) + b * (G u - w)) by ring.
  eapply Rle_lt_trans; [apply Rabs_triang|]. rewrite !Rabs_mult.
  set (f := Rabs (F u - v)) in *. set (g := Rabs (G u - w)) in *. set (d := eps / K) in *.
  assert (ED : eps = d * Rabs a + d * Rabs b + d) by (replace eps with (d * K) by (unfold d; field; lra); unfold K; ring). nra.
Qed.
Lemma tends_right_lin a b F G v w : tends_right F v -> tends_right G w -> tends_right (fun u => a * F u + b * G u) (a * v + b * w).
Proof.
  intros HF HG eps He. set (K := Rabs a + Rabs b + 1). assert (Ka := Rabs_pos a). assert (Kb := Rabs_pos b).
  assert (PK : 0 < K) by (unfold K; lra). assert (P : 0 < eps / K) by (apply Rdiv_lt_0_compat; assumption).
  destruct (HF _ P) as (m & Hm). destruct (HG _ P) as (k & Hk). exists (Rmax m k). intros u Hu.
  assert (X1 := Rmax_l m k). assert (X2 := Rmax_r m k). specialize (Hm u ltac:(lra)). specialize (Hk u ltac:(lra)).
  replace (a * F u + b * G u - (a * v + b * w)) with (a * (F u - v) + b * (G u - w)) by ring.
  eapply Rle_lt_trans; [apply Rabs_triang|]. rewrite !Rabs_mult.
  set (f := Rabs (F u - v)) in *. set (g := Rabs (G u - w)) in *. set (d := eps / K) in *.
  assert (ED : eps = d * Rabs a + d * Rabs b + d) by (replace eps with (d * K) by (unfold d; field; lra); unfold K; ring). nra.
Qed.

Lemma total_lin a b f g v w : total_integral f v -> total_integral g w -> total_integral (fun u => a * f u + b * g u) (a * v + b * w).
Proof.
  intros (F & E & C & D & L & R) (G & E' & C' & D' & L' & R').
  exists (fun u => a * F u + b * G u), (E ++ E'). split; [|split; [|split]].
  - apply (continuity_plus (fun u => a * F u) (fun u => b * G u)).
    + apply (continuity_mult (fun _ => a) F); [apply continuity_const; intros ? ?; reflexivity | exact C].
    + apply (continuity_mult (fun _ => b) G); [apply continuity_const; intros ? ?; reflexivity | exact C'].
  - intros u N. apply dl_plus; apply dl_scal; [apply D | apply D']; intros I; apply N, in_or_app; auto.
  - replace 0 with (a * 0 + b * 0) by ring. now apply tends_left_lin.
  - now apply tends_right_lin.
Qed.
Lemma total_ext f g E v : (forall u, ~ In u E -> f u = g u) -> total_integral f v -> total_integral g v.
Proof.
  intros X (F & E' & C & D & LR). exists F, (E ++ E'). split; [exact C|]. split; [|exact LR].
  intros u N. rewrite <- X by (intros I; apply N, in_or_app; auto). apply D. intros I. apply N, in_or_app. auto.
Qed.
Lemma total_zero : total_integral (fun _ => 0) 0.
Proof.
  exists (fun _ => 0), []. split; [apply continuity_const; intros ? ?; reflexivity|]. split; [intros u _; apply dl_const|].
  split; intros eps He; exists 0; intros u _; rewrite Rminus_0_r, Rabs_R0; exact He.
Qed.
Lemma total_scale w f v : 0 < w -> total_integral f v -> total_integral (fun u => f (u / w) / w) v.
Proof.
  intros Hw (F & E & C & D & L & R). exists (fun u => F (u / w)), (map (fun e => e * w) E). split; [|split; [|split]].
  - apply (continuity_comp (fun u => u / w) F); [|exact C]. intros u. eapply dl_cont.
    eapply dl_eq; [apply dl_mult; [apply dl_id | apply dl_const]|]. reflexivity.
  - intros u N. eapply dl_eq.
    + apply (derivable_pt_lim_comp (fun u => u / w) F u (1 / w)).
      * eapply dl_eq; [apply dl_mult; [apply dl_id | apply dl_const]|]. cbn beta. field. lra.
      * apply D. intros I. apply N. apply in_map_iff. exists (u / w). split; [field; lra | exact I].
    + cbn beta. field. lra.
  - intros eps He. destruct (L eps He) as (m & Hm). exists (w * m). intros u Hu. apply Hm.
    apply (Rmult_lt_reg_l w); [exact Hw|]. replace (w * (u / w)) with u by (field; lra). exact Hu.
  - intros eps He. destruct (R eps He) as (m & Hm). exists (w * m). intros u Hu. apply Hm.
    apply (Rmult_lt_reg_l w); [exact Hw|]. replace (w * (u / w)) with u by (field; lra). exact Hu.
Qed.
Lemma total_sum {A} (f : A -> R -> R) v l : (forall x, In x l -> total_integral (f x) v) ->
  total_integral (fun u => rsum (map (fun x => f x u) l)) (INR (List.length l) * v).
Proof.
  induction l as [|x l IH]; intros H.
  - cbn. rewrite Rmult_0_l. apply total_zero.
  - change (List.length (x :: l)) with (S (List.length l)). rewrite S_INR.
    replace ((INR (List.length l) + 1) * v) with (1 * v + 1 * (INR (List.length l) * v)) by ring.
    apply (total_ext (fun u => 1 * f x u + 1 * rsum (map (fun x => f x u) l)) _ []).
    + intros u _. cbn. unfold rsum. ring.
    + apply total_lin; [apply H; now left | apply IH; intros z Hz; apply H; now right].
Qed.

Lemma kern_total s v : total_integral (fun u => kern s u v) (2 * s).
Proof.
  set (G1 := fun u => s * exp (u - v)). set (G2 := fun u => - (s * exp (v - u)) + 2 * s).
  assert (D1 : forall u, derivable_pt_lim G1 u (s * exp (u - v))) by (intros u; unfold G1; apply exp_left).
  assert (D2 : forall u, derivable_pt_lim G2 u (s * exp (v - u))).
  { intros u. unfold G2. eapply dl_eq; [apply dl_plus; [apply dl_opp, exp_right | apply dl_const]|]. ring. }
  assert (EV : exp (v - v) = 1) by (replace (v - v) with 0 by ring; apply exp_0).
  exists (glued v G1 G2), [v]. split; [|split; [|split]].
  - apply glue_cont; [unfold G1, G2; rewrite EV; ring | intros u _; eapply dl_cont, D1 | intros u _; eapply dl_cont, D2].
  - intros u N. destruct (Rtotal_order u v) as [L|[->|L]].
    + apply glue_left; [exact L|]. rewrite kern_left by lra. apply D1.
    + exfalso. apply N. now left.
    + apply glue_right; [exact L|]. rewrite kern_right by lra. apply D2.
  - apply (tends_left_ext G1 _ _ v); [intros u Hu; unfold glued; destruct (Rle_dec u v); [reflexivity | lra]|].
    apply tends_mirror. unfold G1. apply (tends_right_ext (fun u => (s + 0 * (u - - v)) * exp (- v - u)) _ _ 0); [|apply decay_limit].
    intros u _. replace (- u - v) with (- v - u) by ring. ring.
  - apply (tends_right_ext G2 _ _ v); [intros u Hu; unfold glued; destruct (Rle_dec u v); [lra | reflexivity]|].
    unfold G2. assert (S0 := tends_shift (fun u => - (s * exp (v - u))) 0 (2 * s)). rewrite Rplus_0_l in S0. apply S0.
    apply (tends_right_ext (fun u => (- s + 0 * (u - v)) * exp (v - u)) _ _ 0); [|apply decay_limit]. intros u _. ring.
Qed.

Lemma kde_of_kern x w u : 0 < w ->
  laplace_kde x w u = rsum (map (kern (1 / (2 * INR (List.length x))) (u / w)) (map (fun v => v / w) x)) / w.
Proof.
  intros Hw. unfold laplace_kde. rewrite map_map.
  assert (E : List.length x = 0%nat \/ INR (List.length x) <> 0) by (destruct x; [now left | right; apply not_0_INR; discriminate]).
  destruct E as [E|E]; [destruct x; [cbn; field; lra | discriminate]|].
  set (s := 1 / (2 * INR (List.length x))).
  transitivity (/ w * rsum (map (fun v => kern s (u / w) (v / w)) x)); [|unfold Rdiv; ring].
  rewrite <- rsum_scal. apply rsum_ext. intros v _. unfold kern.
  replace (u / w - v / w) with ((u - v) / w) by (field; lra).
  replace (Rabs ((u - v) / w)) with (Rabs (u - v) / w).
  - unfold s. field. split; [exact E | lra].
  - unfold Rdiv. rewrite Rabs_mult. f_equal. symmetry. apply Rabs_pos_eq. left. now apply Rinv_0_lt_compat.
Qed.

Lemma kde_total x w : x <> [] -> 0 < w -> total_integral (laplace_kde x w) 1.
Proof.
  intros N Hw. assert (HN : 0 < INR (List.length x)) by (apply lt_0_INR; destruct x; [congruence | cbn; lia]).
  apply (total_ext (fun u => rsum (map (kern (1 / (2 * INR (List.length x))) (u / w)) (map (fun v => v / w) x)) / w) _ []).
  - intros u _. now rewrite kde_of_kern.
  - apply (total_scale w (fun u => rsum (map (kern (1 / (2 * INR (List.length x))) u) (map (fun v => v / w) x)))); [exact Hw|].
    assert (T := total_sum (fun v u => kern (1 / (2 * INR (List.length x))) u v) (2 * (1 / (2 * INR (List.length x)))) (map (fun v => v / w) x)
             ltac:(intros v _; apply kern_total)).
    rewrite map_length in T. replace (INR (List.length x) * (2 * (1 / (2 * INR (List.length x))))) with 1 in T by (field; lra). exact T.
Qed.

(** * Cross entropy and divergence *)

Lemma inside_scale w h v u : 0 < w -> inside h (v / w) (u / w) = inside (h * w) v u.
Proof.
  intros Hw. unfold inside. replace (u / w - v / w) with ((u - v) / w) by (field; lra).
  replace (Rabs ((u - v) / w)) with (Rabs (u - v) / w).
  - destruct (Rlt_dec (Rabs (u - v) / w) h) as [A|A], (Rlt_dec (Rabs (u - v)) (h * w)) as [B|B]; try reflexivity; exfalso.
    + apply B. apply (Rmult_lt_compat_r w) in A; [|exact Hw]. replace (Rabs (u - v) / w * w) with (Rabs (u - v)) in A by (field; lra). exact A.
    + apply A. apply (Rmult_lt_reg_r w); [exact Hw|]. replace (Rabs (u - v) / w * w) with (Rabs (u - v)) by (field; lra). exact B.
  - unfold Rdiv. rewrite Rabs_mult. f_equal. symmetry. apply Rabs_pos_eq. left. now apply Rinv_0_lt_compat.
Qed.

Lemma box_scale share lo hi h y w u : 0 < w -> lo < hi -> 0 < h ->
  box_density share (lo / w) (hi / w) h (map (fun v => v / w) y) (u / w) = w * box_density share lo hi (h * w) y u.
Proof.
  intros Hw Hl Hh. unfold box_density. rewrite map_length, map_map.
  rewrite (rsum_ext _ (fun v => inside (h * w) v u)) by (intros v _; now apply inside_scale).
  destruct y as [|b t]; [cbn; unfold Rdiv; rewrite !Rmult_0_l, !Rmult_0_r, !Rplus_0_r; field; split; lra|].
  assert (INR (List.length (b :: t)) <> 0) by (apply not_0_INR; discriminate).
  field. repeat split; try assumption; lra.
Qed.
Lemma box_perm share lo hi h y y' u : Permutation y y' -> box_density share lo hi h y u = box_density share lo hi h y' u.
Proof.
  intros P. unfold box_density. rewrite (Permutation_length P). f_equal. f_equal. f_equal.
  apply rsum_perm. now apply Permutation_map.
Qed.
Lemma box_pos share lo hi h y u : 0 < share < 1 -> lo < hi -> 0 < h -> y <> [] -> 0 < box_density share lo hi h y u.
Proof.
  intros S L Hh N. unfold box_density.
  assert (0 < share / (hi - lo)) by (apply Rdiv_lt_0_compat; lra).
  assert (0 <= rsum (map (fun v => inside h v u) y)) by (apply rsum_nonneg; intros v _; unfold inside; destruct (Rlt_dec _ _); lra).
  assert (0 < INR (List.length y)) by (apply lt_0_INR; destruct y; [congruence | cbn; lia]).
  assert (0 < / (INR (List.length y) * (2 * h))) by (apply Rinv_0_lt_compat; nra).
  unfold Rdiv at 2. set (S0 := rsum _) in *. set (K := / _) in *.
  assert (0 <= S0 * K) by nra. assert (0 <= (1 - share) * (S0 * K)) by nra. lra.
Qed.

Lemma kde_perm x x' w u : Permutation x x' -> laplace_kde x w u = laplace_kde x' w u.
Proof. intros P. unfold laplace_kde. rewrite (Permutation_length P). apply rsum_perm. now apply Permutation_map. Qed.
Lemma kde_pos x w u : x <> [] -> 0 < w -> 0 < laplace_kde x w u.
Proof.
  intros N Hw. assert (0 < INR (List.length x)) by (apply lt_0_INR; destruct x; [congruence | cbn; lia]).
  unfold laplace_kde. set (n := INR _) in *.
  assert (P : forall v, 0 < exp (- (Rabs (u - v) / w)) / (2 * w * n)) by (intros v; apply Rdiv_lt_0_compat; [apply exp_pos | nra]).
  destruct x as [|b t]; [congruence|]. cbn [map rsum fold_right].
  assert (0 <= rsum (map (fun v => exp (- (Rabs (u - v) / w)) / (2 * w * n)) t)) by (apply rsum_nonneg; intros v _; left; apply P).
  specialize (P b). unfold rsum in *. lra.
Qed.

Lemma extreme_scale w h x y m : 0 < w ->
  (least (nodes_of h (map (fun v => v / w) x) (map (fun v => v / w) y)) m -> least (nodes_of (h * w) x y) (m * w)) /\
  (greatest (nodes_of h (map (fun v => v / w) x) (map (fun v => v / w) y)) m -> greatest (nodes_of (h * w) x y) (m * w)).
Proof.
  intros Hw.
  assert (E : nodes_of h (map (fun v => v / w) x) (map (fun v => v / w) y) = map (fun v => v / w) (nodes_of (h * w) x y)).
  { unfold nodes_of. rewrite !map_app, !map_map. f_equal. f_equal; apply map_ext; intros v; field; lra. }
  rewrite E. split; intros (I & M); (split; [apply in_map_iff in I as (v & <- & I); replace (v / w * w) with v by (field; lra); exact I|]);
    intros v V; specialize (M (v / w) (in_map _ _ _ V)).
  - apply (Rmult_le_compat_r w) in M; [|lra]. replace (v / w * w) with v in M by (field; lra). exact M.
  - apply (Rmult_le_compat_r w) in M; [|lra]. replace (v / w * w) with v in M by (field; lra). exact M.
Qed.
Lemma extreme_perm l l' m : Permutation l l' -> (least l m -> least l' m) /\ (greatest l m -> greatest l' m).
Proof.
  intros P. split; intros (I & M); (split; [now apply (Permutation_in _ P)|]; intros v V; apply M; now apply (Permutation_in _ (Permutation_sym P))).
Qed.
Lemma nodes_perm h x x' y y' : Permutation x x' -> Permutation y y' -> Permutation (nodes_of h x y) (nodes_of h x' y').
Proof. intros P Q. unfold nodes_of. repeat apply Permutation_app; try assumption; now apply Permutation_map. Qed.

Lemma cross_integral x y w : x <> [] -> y <> [] -> 0 < w ->
  exists H lo hi,
    option_map (fun h => h + ln w) (cross_entropy_arrays (map (fun v => v / w) (rsort x)) (map (fun v => v / w) (rsort y))) = Some H /\
    least (nodes_of (sqrt 6 * w) x y) lo /\ greatest (nodes_of (sqrt 6 * w) x y) hi /\
    total_integral (fun u => - (laplace_kde x w u * ln (box_density (share_of y) (lo - 10 * w) (hi + 10 * w) (sqrt 6 * w) y u))) H.
Proof.
  intros Nx Ny Hw. set (xs := map (fun v => v / w) (rsort x)). set (ys := map (fun v => v / w) (rsort y)).
  assert (NE : forall l : list R, l <> [] -> map (fun v => v / w) (rsort l) <> []).
  { intros l N E. apply map_eq_nil in E. assert (P := rsort_perm l). rewrite E in P. apply Permutation_sym, Permutation_nil in P. contradiction. }
  destruct (cross_arrays_ok xs ys) as (H & lo & hi & G & E & LO & HI & GC & GD & GL & GR);
    [now apply NE | now apply NE | apply sorted_map; [exact Hw | apply rsort_sorted] | apply sorted_map; [exact Hw | apply rsort_sorted] |].
  rewrite E. exists (H + ln w), (lo * w), (hi * w). split; [reflexivity|].
  assert (PN : Permutation (nodes_of (sqrt 6 * w) (rsort x) (rsort y)) (nodes_of (sqrt 6 * w) x y)).
  { apply nodes_perm; apply Permutation_sym, rsort_perm. }
  split; [apply (extreme_perm _ _ _ PN), extreme_scale; assumption|].
  split; [apply (extreme_perm _ _ _ PN), extreme_scale; assumption|].
  set (p0 := fun u => rsum (map (kern (1 / (2 * INR (List.length xs))) u) xs)).
  set (q0 := fun u => box_density (share_of ys) (lo - 10) (hi + 10) (sqrt 6) ys u).
  assert (T0 : total_integral (fun u => - (p0 u * ln (q0 u))) H).
  { exists G, (nodes_of (sqrt 6) xs ys). split; [exact GC|]. split; [exact GD|]. split; assumption. }
  apply (total_scale w _ _ Hw) in T0. assert (T1 := total_lin 1 (ln w) _ _ _ _ T0 (kde_total x w Nx Hw)).
  replace (1 * H + ln w * 1) with (H + ln w) in T1 by ring.
  revert T1. apply (total_ext _ _ []). intros u _.
  assert (LX : List.length xs = List.length x) by (unfold xs; rewrite map_length; symmetry; apply Permutation_length, rsort_perm).
  assert (LY : List.length ys = List.length y) by (unfold ys; rewrite map_length; symmetry; apply Permutation_length, rsort_perm).
  assert (PU : p0 (u / w) = w * laplace_kde x w u).
  { rewrite (kde_perm x (rsort x)) by apply rsort_perm. rewrite kde_of_kern by exact Hw. unfold p0. rewrite LX.
    rewrite (Permutation_length (rsort_perm x)). fold xs. field. lra. }
  assert (LH : lo <= hi) by (apply LO, HI).
  assert (P6 : 0 < sqrt 6) by (apply sqrt_lt_R0; lra).
  assert (QU : q0 (u / w) = w * box_density (share_of y) (lo * w - 10 * w) (hi * w + 10 * w) (sqrt 6 * w) y u).
  { rewrite (box_perm _ _ _ _ y (rsort y)) by apply rsort_perm. unfold q0, share_of. rewrite LY.
    rewrite <- box_scale; [|exact Hw|nra|exact P6]. f_equal; field; lra. }
  rewrite PU, QU, ln_mult; [field; lra | exact Hw |].
  apply box_pos; [apply share_bounds | nra | nra | exact Ny].
Qed.

Lemma divergence_integral x w q H D : x <> [] -> 0 < w -> (forall u, 0 < q u) ->
  total_integral (fun u => - (laplace_kde x w u * ln (laplace_kde x w u))) H ->
  total_integral (fun u => - (laplace_kde x w u * ln (q u))) D ->
  total_integral (fun u => laplace_kde x w u * ln (laplace_kde x w u / q u)) (D - H).
Proof.
  intros N Hw Q TH TD. assert (T := total_lin 1 (-1) _ _ _ _ TD TH). replace (1 * D + -1 * H) with (D - H) in T by ring.
  revert T. apply (total_ext _ _ []). intros u _.
  unfold Rdiv. rewrite ln_mult, ln_Rinv; [ring | apply Q | now apply kde_pos | apply Rinv_0_lt_compat, Q].
Qed.

(** The box density has probability 1 between its limits. *)
Lemma ramp_ok h v : 0 < h -> exists G, continuity G /\ (forall u, ~ In u [v - h; v + h] -> derivable_pt_lim G u (inside h v u)) /\
  (forall u, u <= v - h -> G u = 0) /\ (forall u, v + h <= u -> G u = 2 * h).
Proof.
  intros Hh. set (G1 := glued (v - h) (fun _ => 0) (fun u => u - (v - h))).
  assert (DL : forall u, derivable_pt_lim (fun u => u - (v - h)) u 1).
  { intros u. eapply dl_eq; [apply dl_minus; [apply dl_id | apply dl_const]|]. ring. }
  assert (C1 : continuity G1).
  { apply glue_cont; [ring | intros u _; apply continuity_const; intros ? ?; reflexivity | intros u _; eapply dl_cont, DL]. }
  exists (glued (v + h) G1 (fun _ => 2 * h)). split; [|split; [|split]].
  - apply glue_cont; [unfold G1, glued; destruct (Rle_dec (v + h) (v - h)); lra | intros u _; apply C1 | intros u _; apply continuity_const; intros ? ?; reflexivity].
  - intros u N. unfold inside.
    assert (u <> v - h) by (intros ->; apply N; now left). assert (u <> v + h) by (intros ->; apply N; right; now left).
    destruct (Rlt_dec (Rabs (u - v)) h) as [A|A].
    + apply Rabs_def2 in A. apply glue_left; [lra|]. apply glue_right; [lra|]. apply DL.
    + destruct (Rlt_dec u (v - h)) as [B|B].
      * apply glue_left; [lra|]. apply glue_left; [lra|]. apply dl_const.
      * destruct (Rlt_dec (v + h) u) as [K|K]; [apply glue_right; [lra | apply dl_const]|].
        exfalso. apply A. apply Rabs_def1; lra.
  - intros u Hu. unfold glued, G1, glued. destruct (Rle_dec u (v + h)); [|lra]. destruct (Rle_dec u (v - h)); lra.
  - intros u Hu. unfold glued. destruct (Rle_dec u (v + h)); [|reflexivity]. unfold G1, glued. destruct (Rle_dec u (v - h)); lra.
Qed.

Lemma box_mass share lo hi h y : lo < hi -> 0 < h -> y <> [] -> (forall v, In v y -> lo <= v - h /\ v + h <= hi) ->
  integral_over lo hi (box_density share lo hi h y) 1.
Proof.
  intros L Hh N B.
  assert (S : exists G except, continuity G /\ (forall u, ~ In u except -> derivable_pt_lim G u (rsum (map (fun v => inside h v u) y))) /\
                          G lo = 0 /\ G hi = INR (List.length y) * (2 * h)).
  { clear N. induction y as [|b t IH].
    - exists (fun _ => 0), []. split; [apply continuity_const; intros ? ?; reflexivity|]. split; [intros u _; apply dl_const|].
      cbn. split; ring.
    - destruct IH as (G & E & C & D & Z & H); [intros v I; apply B; now right|].
      destruct (ramp_ok h b Hh) as (R & RC & RD & RL & RR). destruct (B b (or_introl eq_refl)) as (B1 & B2).
      exists (fun u => R u + G u), ([b - h; b + h] ++ E). split; [now apply (continuity_plus R G)|]. split.
      + intros u I. cbn [map rsum fold_right]. apply dl_plus; [apply RD | apply D]; intros X; apply I, in_or_app; auto.
      + change (List.length (b :: t)) with (Datatypes.S (List.length t)). rewrite S_INR, Z, H, RL, RR by assumption. split; ring. }
  destruct S as (G & E & C & D & Z & H).
  assert (HN : 0 < INR (List.length y)) by (apply lt_0_INR; destruct y; [congruence | cbn; lia]).
  set (k := (1 - share) / (INR (List.length y) * (2 * h))).
  exists (fun u => share / (hi - lo) * u + k * G u), E. split; [|split].
  - apply (continuity_plus (fun u => share / (hi - lo) * u) (fun u => k * G u)).
    + intros u. eapply dl_cont. apply dl_scal, dl_id.
    + apply (continuity_mult (fun _ => k) G); [apply continuity_const; intros ? ?; reflexivity | exact C].
  - intros u _ I. eapply dl_eq; [apply dl_plus; apply dl_scal; [apply dl_id | apply D, I]|].
    unfold box_density, k. field. repeat split; lra.
  - rewrite Z, H. unfold k. field. repeat split; lra.
Qed.

(** * The recurrences, order and scale *)

Lemma forward_nth s rest : forall c y i v, nth_error (y :: rest) i = Some v ->
  nth_error (forward s c (decay (y :: rest))) i = Some (c * exp (y - v) + rsum (map (fun z => s * exp (z - v)) (firstn i rest))).
Proof.
  induction rest as [|y' t IH]; intros c y i v H.
  - destruct i as [|[|i]]; try discriminate. apply (f_equal (fun o => match o with Some a => a | None => 0 end)) in H. cbn in H. subst v.
    cbn. replace (y - y) with 0 by ring. rewrite exp_0. f_equal. ring.
  - change (decay (y :: y' :: t)) with (exp (y - y') :: decay (y' :: t)). cbn [forward]. destruct i as [|i].
    + apply (f_equal (fun o => match o with Some a => a | None => 0 end)) in H. cbn in H. subst v.
      cbn. replace (y - y) with 0 by ring. rewrite exp_0. f_equal. ring.
    + cbn [nth_error] in H |- *. rewrite (IH _ _ _ _ H). f_equal. cbn [firstn map rsum fold_right].
      replace (exp (y - v)) with (exp (y - y') * exp (y' - v)) by (rewrite <- exp_plus; f_equal; ring). unfold rsum. ring.
Qed.
Lemma backward_nth s y : forall i v, nth_error y i = Some v ->
  nth_error (backward s (decay y)) i = Some (rsum (map (fun z => s * exp (v - z)) (skipn i y))).
Proof.
  induction y as [|a t IH]; intros i v H; [destruct i; discriminate|]. destruct i as [|i].
  - apply (f_equal (fun o => match o with Some a => a | None => 0 end)) in H. cbn in H. subst v. cbn [skipn].
    rewrite <- backward_hd. destruct (backward s (decay (a :: t))) eqn:E; [destruct (decay (a :: t)); discriminate | reflexivity].
  - cbn [nth_error] in H. destruct t as [|b t]; [destruct i; discriminate|].
    change (nth_error (backward s (decay (b :: t))) i = Some (rsum (map (fun z => s * exp (v - z)) (skipn i (b :: t))))). now apply IH.
Qed.
Lemma kernel_sum_nth s y i v : StronglySorted Rle y -> nth_error y i = Some v ->
  exists c d, nth_error (forward s s (decay y)) i = Some c /\ nth_error (backward s (decay y)) i = Some d /\
              c + d = rsum (map (kern s v) y) + s.
Proof.
  intros SS H. destruct y as [|a t]; [destruct i; discriminate|]. eexists. eexists.
  split; [apply forward_nth, H|]. split; [apply backward_nth, H|].
  destruct (nth_error_split _ _ H) as (l1 & l2 & E & L).
  assert (E1 : firstn i (a :: t) = l1) by (rewrite E, <- L, firstn_app, Nat.sub_diag, firstn_all; cbn; apply app_nil_r).
  assert (E2 : skipn i (a :: t) = v :: l2) by (rewrite E, <- L, skipn_app, Nat.sub_diag, skipn_all; reflexivity).
  assert (S1 : s * exp (a - v) + rsum (map (fun z => s * exp (z - v)) (firstn i t)) = rsum (map (fun z => s * exp (z - v)) (l1 ++ [v]))).
  { transitivity (rsum (map (fun z => s * exp (z - v)) (firstn (S i) (a :: t)))); [reflexivity|]. f_equal. f_equal.
    rewrite E, <- L. replace (S (List.length l1)) with (List.length l1 + 1)%nat by lia. now rewrite firstn_app_2. }
  rewrite S1, E2, E.
  assert (RA : forall (f : R -> R) l m, rsum (map f (l ++ m)) = rsum (map f l) + rsum (map f m)).
  { intros f l m. induction l as [|z l IH]; cbn; [unfold rsum; ring|]. unfold rsum in *. rewrite IH. ring. }
  rewrite !RA. rewrite E in SS.
  assert (ORD : (forall z, In z l1 -> z <= v) /\ (forall z, In z l2 -> v <= z)).
  { clear - SS. induction l1 as [|b l1 IH]; cbn in SS.
    - split; [contradiction|]. inversion SS as [|? ? _ F]. now rewrite Forall_forall in F.
    - inversion SS as [|? ? S' F]. destruct (IH S') as (I1 & I2). split; [|exact I2]. intros z [<-|I]; [|now apply I1].
      rewrite Forall_forall in F. apply F, in_or_app. right. now left. }
  rewrite (rsum_ext (fun z => s * exp (z - v)) (kern s v) l1) by (intros z I; rewrite kern_right; [reflexivity | now apply ORD]).
  cbn [map rsum fold_right]. fold (rsum (map (fun z => s * exp (v - z)) l2)). fold (rsum (map (kern s v) l2)).
  rewrite (rsum_ext (fun z => s * exp (v - z)) (kern s v) l2) by (intros z I; rewrite kern_left; [reflexivity | now apply ORD]).
  rewrite kern_right by lra. replace (v - v) with 0 by ring. rewrite exp_0. ring.
Qed.

Lemma entropy_order x x' w : x <> [] -> 0 < w -> Permutation x x' -> laplace_entropy_array x w = laplace_entropy_array x' w.
Proof.
  intros N Hw P. assert (N' : x' <> []) by (intros ->; apply Permutation_sym, Permutation_nil in P; contradiction).
  apply (total_integral_unique (fun u => - (laplace_kde x w u * ln (laplace_kde x w u)))); [now apply entropy_integral|].
  apply (total_ext (fun u => - (laplace_kde x' w u * ln (laplace_kde x' w u))) _ []).
  - intros u _. now rewrite (kde_perm x x' w u P).
  - now apply entropy_integral.
Qed.

Lemma kde_scale x w k a u : 0 < w -> 0 < k -> laplace_kde (map (fun v => k * v + a) x) (k * w) u = laplace_kde x w ((u - a) / k) / k.
Proof.
  intros Hw Hk. unfold laplace_kde. rewrite map_length, map_map.
  assert (E : List.length x = 0%nat \/ INR (List.length x) <> 0) by (destruct x; [now left | right; apply not_0_INR; discriminate]).
  destruct E as [E|E]; [destruct x; [cbn; field; lra | discriminate]|]. set (n := INR _) in *.
  transitivity (/ k * rsum (map (fun v => exp (- (Rabs ((u - a) / k - v) / w)) / (2 * w * n)) x)); [|unfold Rdiv; ring].
  rewrite <- rsum_scal. apply rsum_ext. intros v _.
  replace (u - (k * v + a)) with (k * ((u - a) / k - v)) by (field; lra). rewrite Rabs_mult, (Rabs_pos_eq k) by lra.
  replace (k * Rabs ((u - a) / k - v) / (k * w)) with (Rabs ((u - a) / k - v) / w) by (field; split; lra).
  field. repeat split; try assumption; lra.
Qed.
Lemma total_shift a f v : total_integral f v -> total_integral (fun u => f (u - a)) v.
Proof.
  intros (F & E & C & D & L & R). exists (fun u => F (u - a)), (map (fun e => e + a) E).
  assert (DS : forall u, derivable_pt_lim (fun u => u - a) u 1).
  { intros u. eapply dl_eq; [apply dl_minus; [apply dl_id | apply dl_const]|]. ring. }
  split; [|split; [|split]].
  - apply (continuity_comp (fun u => u - a) F); [|exact C]. intros u. eapply dl_cont, DS.
  - intros u N. eapply dl_eq.
    + apply (derivable_pt_lim_comp (fun u => u - a) F u 1); [apply DS|]. apply D. intros I. apply N, in_map_iff. exists (u - a). split; [ring | exact I].
    + ring.
  - intros eps He. destruct (L eps He) as (m & Hm). exists (m + a). intros u Hu. apply Hm. lra.
  - intros eps He. destruct (R eps He) as (m & Hm). exists (m + a). intros u Hu. apply Hm. lra.
Qed.
Lemma entropy_scale x w k a : x <> [] -> 0 < w -> 0 < k ->
  laplace_entropy_array (map (fun v => k * v + a) x) (k * w) = laplace_entropy_array x w + ln k.
Proof.
  intros N Hw Hk. assert (N' : map (fun v => k * v + a) x <> []) by (intros E; apply map_eq_nil in E; contradiction).
  assert (T := entropy_integral _ (k * w) N' ltac:(nra)).
  apply (total_integral_unique _ _ _ T).
  assert (T1 := total_lin 1 (ln k) _ _ _ _ (entropy_integral x w N Hw) (kde_total x w N Hw)).
  apply (total_scale k _ _ Hk), (total_shift a) in T1.
  replace (1 * laplace_entropy_array x w + ln k * 1) with (laplace_entropy_array x w + ln k) in T1 by ring.
  revert T1. apply (total_ext _ _ []). intros u _. rewrite kde_scale by assumption.
  assert (P := kde_pos x w ((u - a) / k) N Hw). set (f := laplace_kde x w ((u - a) / k)) in *.
  replace (f / k) with (f * / k) at 2 by reflexivity. rewrite ln_mult, ln_Rinv; [|exact Hk|exact P|now apply Rinv_0_lt_compat].
  field. lra.
Qed.
