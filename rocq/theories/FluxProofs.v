From Coq Require Import PeanoNat ZArith QArith Qround Qcanon Lqa List Bool Lia.
From Verif Require Import QcPre LagModel FluxModel.
Import ListNotations.
Local Open Scope Qc_scope.

Lemma this_qz n : (this (qz n) == inject_Z n)%Q. Proof. apply this_Q2Qc. Qed.

Lemma qz_add a b : qz (a + b) = qz a + qz b.
Proof. apply Qc_eq. rewrite this_add, !this_qz. rewrite inject_Z_plus. reflexivity. Qed.
Lemma qz_opp a : qz (- a) = - qz a.
Proof. apply Qc_eq. rewrite this_opp, !this_qz. rewrite inject_Z_opp. reflexivity. Qed.
Lemma qz_sub a b : qz (a - b) = qz a - qz b.
Proof. unfold Z.sub. rewrite qz_add, qz_opp. reflexivity. Qed.
Lemma qz_mul a b : qz (a * b) = qz a * qz b.
Proof. apply Qc_eq. rewrite this_mul, !this_qz. rewrite inject_Z_mult. reflexivity. Qed.
Lemma qz_lt a b : qz a < qz b <-> (a < b)%Z.
Proof. unfold Qclt. rewrite !this_qz. rewrite <- Zlt_Qlt. reflexivity. Qed.
Lemma qz_le a b : qz a <= qz b <-> (a <= b)%Z.
Proof. unfold Qcle. rewrite !this_qz. rewrite <- Zle_Qle. reflexivity. Qed.

Lemma mult_le_l q a b : 0 < q -> a <= b -> q * a <= q * b. Proof. intros. qnra. Qed.
Lemma mult_lt_l q a b : 0 < q -> a < b -> q * a < q * b. Proof. intros. qnra. Qed.
Lemma mult_lt_inv q a b : 0 < q -> q * a < q * b -> a < b. Proof. intros. qnra. Qed.

Lemma qmod_range v q : 0 < q -> 0 <= qmod v q /\ qmod v q < q.
Proof.
  intros Hq. unfold qmod. set (k := Qfloor (this (v / q))).
  assert (E : v = q * (v / q)) by (field; intros C; subst; apply Qclt_not_eq in Hq; auto).
  assert (H1 : qz k <= v / q) by (unfold Qcle; rewrite this_qz; apply Qfloor_le).
  assert (H2 : v / q < qz k + 1).
  { unfold Qclt. rewrite this_add, this_qz. pose proof (Qlt_floor (this (v / q))) as H. fold k in H. rewrite inject_Z_plus in H. exact H. }
  pose proof (mult_le_l q _ _ Hq H1) as A. pose proof (mult_lt_l q _ _ Hq H2) as B. rewrite <- E in A, B.
  replace (q * (qz k + 1)) with (q * qz k + q) in B by ring. set (w := q * qz k) in *. split; qlra.
Qed.

Lemma qmod_shift v q : exists k, qmod v q = v - q * qz k.
Proof. eexists. reflexivity. Qed.

(** A number in [0,q) that differs from v by whole quanta is v mod q. *)
Lemma qmod_unique v q k : 0 < q -> 0 <= v - q * qz k -> v - q * qz k < q -> qmod v q = v - q * qz k.
Proof.
  intros Hq H1 H2. destruct (qmod_shift v q) as [j Hj]. destruct (qmod_range v q Hq) as [H3 H4]. rewrite Hj in *.
  enough (j = k) by congruence.
  assert (A : (j - k < 1)%Z).
  { apply qz_lt. apply (mult_lt_inv q); [exact Hq|]. rewrite qz_sub. change (qz 1) with 1. replace (q * (qz j - qz k)) with (q * qz j - q * qz k) by ring.
    set (a := q * qz j) in *. set (b := q * qz k) in *. clearbody a b. qlra. }
  assert (B : (k - j < 1)%Z).
  { apply qz_lt. apply (mult_lt_inv q); [exact Hq|]. rewrite qz_sub. change (qz 1) with 1. replace (q * (qz k - qz j)) with (q * qz k - q * qz j) by ring.
    set (a := q * qz j) in *. set (b := q * qz k) in *. clearbody a b. qlra. }
  lia.
Qed.

Lemma fold_max_ge l : forall m, m <= fold_left (fun m y => if qltb m y then y else m) l m /\
  (forall y, In y l -> y <= fold_left (fun m y => if qltb m y then y else m) l m).
Proof.
  induction l as [|y l IH]; intros m; cbn [fold_left]; [split; [apply Qcle_refl | intros y []]|].
  destruct (qltb m y) eqn:E.
  - apply qltb_lt in E. destruct (IH y) as [H1 H2]. split; [qlra|]. intros z [<-|Hz]; auto.
  - apply qltb_ge in E. destruct (IH m) as [H1 H2]. split; [exact H1|]. intros z [<-|Hz]; [qlra | auto].
Qed.
Lemma fold_max_in l : forall m, In (fold_left (fun m y => if qltb m y then y else m) l m) (m :: l).
Proof.
  induction l as [|y l IH]; intros m; cbn [fold_left]; [cbn; auto|].
  destruct (qltb m y); [destruct (IH y) as [H|H] | destruct (IH m) as [H|H]]; cbn; auto.
Qed.
Lemma fold_min_le l : forall m, fold_left (fun m y => if qltb y m then y else m) l m <= m /\
  (forall y, In y l -> fold_left (fun m y => if qltb y m then y else m) l m <= y).
Proof.
  induction l as [|y l IH]; intros m; cbn [fold_left]; [split; [apply Qcle_refl | intros y []]|].
  destruct (qltb y m) eqn:E.
  - apply qltb_lt in E. destruct (IH y) as [H1 H2]. split; [qlra|]. intros z [<-|Hz]; auto.
  - apply qltb_ge in E. destruct (IH m) as [H1 H2]. split; [exact H1|]. intros z [<-|Hz]; [qlra | auto].
Qed.
Lemma fold_min_in l : forall m, In (fold_left (fun m y => if qltb y m then y else m) l m) (m :: l).
Proof.
  induction l as [|y l IH]; intros m; cbn [fold_left]; [cbn; auto|].
  destruct (qltb y m); [destruct (IH y) as [H|H] | destruct (IH m) as [H|H]]; cbn; auto.
Qed.

Lemma spread_spec l s : spread l = Some s ->
  (exists x y, In x l /\ In y l /\ s = x - y) /\ forall x y, In x l -> In y l -> x - y <= s.
Proof.
  destruct l as [|a l]; cbn [spread]; [discriminate|]. intros [= <-]. split.
  - eexists _, _. split; [apply fold_max_in|]. split; [apply fold_min_in | reflexivity].
  - intros x y Hx Hy. destruct (fold_max_ge l a) as [A1 A2]. destruct (fold_min_le l a) as [B1 B2].
    set (M := fold_left (fun m y => if qltb m y then y else m) l a) in *. set (N := fold_left (fun m y => if qltb y m then y else m) l a) in *.
    assert (x <= M) by (destruct Hx as [<-|Hx]; auto). assert (N <= y) by (destruct Hy as [<-|Hy]; auto). qlra.
Qed.

(** The three possible outcomes. *)
Lemma flux_cases vals g q out :
  0 < q -> correct_flux_jumps vals g q = Some out ->
  exists s, spread vals = Some s /\
  ((s < q /\ out = vals) \/
   exists v0 sg, hd_error vals = Some v0 /\ length g = length vals /\ q <= s /\ spread (pick g (map (fun v => qmod v q) vals)) = Some sg /\
     ((sg <= qz 3 / qz 4 * q /\ out = map (fun v => qmod v q - (qmod v0 q - v0)) vals) \/
      (qz 3 / qz 4 * q < sg /\ out = map (fun v => (qmod (v + q / qz 4) q - q / qz 4 + q) - ((qmod (v0 + q / qz 4) q - q / qz 4 + q) - v0)) vals))).
Proof.
  intros Hq. unfold correct_flux_jumps. destruct vals as [|v0 vals]; [discriminate|].
  destruct (spread (v0 :: vals)) as [s|] eqn:Es; [|discriminate]. intros H. exists s. split; [reflexivity|].
  destruct (qleb q s) eqn:Eq.
  - right. apply qleb_le in Eq. destruct (Nat.eqb (length g) (length (v0 :: vals))) eqn:EL; cbn [negb] in H; [|discriminate]. apply Nat.eqb_eq in EL.
    destruct (spread (pick g _)) as [sg|] eqn:Eg; [|discriminate]. exists v0, sg. repeat split; auto.
    destruct (qltb (qz 3 / qz 4 * q) sg) eqn:E3; cbn [map] in H.
    + right. apply qltb_lt in E3. split; [exact E3|]. injection H as <-. cbn [map]. f_equal. rewrite map_map. reflexivity.
    + left. apply qltb_ge in E3. split; [exact E3|]. injection H as <-. cbn [map]. f_equal. rewrite map_map. reflexivity.
  - left. apply qleb_gt in Eq. split; [exact Eq|]. congruence.
Qed.

Lemma flux_quanta vals g q out :
  0 < q -> correct_flux_jumps vals g q = Some out ->
  hd_error out = hd_error vals /\
  Forall2 (fun v w => exists k, w = v + qz k * q) vals out /\
  forall x y, In x out -> In y out -> x - y < q.
Proof.
  intros Hq H. apply (flux_cases _ _ _ _ Hq) in H as [s [Es [[Hlt ->]|[v0 [sg [Hv0 [HL [Hge [Eg [[_ ->]|[_ ->]]]]]]]]]]].
  - split; [reflexivity|]. split.
    + clear. induction vals as [|v vals IH]; constructor; [exists 0%Z; change (qz 0) with 0; ring | exact IH].
    + intros x y Hx Hy. apply spread_spec in Es as [_ Hs]. specialize (Hs x y Hx Hy). qlra.
  - split; [|split].
    + destruct vals as [|v vals]; cbn in *; [discriminate|]. injection Hv0 as ->. f_equal. ring.
    + clear -Hq. induction vals as [|v vals IH]; cbn; constructor; [|exact IH].
      destruct (qmod_shift v q) as [k ->], (qmod_shift v0 q) as [k0 ->]. exists (k0 - k)%Z. rewrite qz_sub. ring.
    + intros x y Hx Hy. apply in_map_iff in Hx as [v [<- _]]. apply in_map_iff in Hy as [w [<- _]].
      destruct (qmod_range v q Hq), (qmod_range w q Hq). qlra.
  - split; [|split].
    + destruct vals as [|v vals]; cbn in *; [discriminate|]. injection Hv0 as ->. f_equal. ring.
    + clear -Hq. induction vals as [|v vals IH]; cbn; constructor; [|exact IH].
      destruct (qmod_shift (v + q / qz 4) q) as [k ->], (qmod_shift (v0 + q / qz 4) q) as [k0 ->]. exists (k0 - k)%Z. rewrite qz_sub. ring.
    + intros x y Hx Hy. apply in_map_iff in Hx as [v [<- _]]. apply in_map_iff in Hy as [w [<- _]].
      destruct (qmod_range (v + q / qz 4) q Hq), (qmod_range (w + q / qz 4) q Hq). qlra.
Qed.

Lemma pick_In g l x : In x (pick g l) <-> exists i, nth_error g i = Some true /\ nth_error l i = Some x.
Proof.
  revert l; induction g as [|b g IH]; intros [|y l]; cbn [pick].
  - split; [intros [] | intros [[|i] [H _]]; discriminate].
  - split; [intros [] | intros [[|i] [H _]]; discriminate].
  - split; [intros [] | intros [[|i] [_ H]]; discriminate].
  - destruct b; cbn [In]; rewrite IH; split.
    + intros [->|[i H]]; [exists O; auto | exists (S i); exact H].
    + intros [[|i] [H1 H2]]; [left; cbn in H2; congruence | right; exists i; auto].
    + intros [i H]; exists (S i); exact H.
    + intros [[|i] [H1 H2]]; [discriminate | exists i; auto].
Qed.

(** Restoration: good values are a baseline of spread below a quarter quantum plus whole quanta. *)
Lemma flux_restores vals g q base jumps out :
  0 < q -> correct_flux_jumps vals g q = Some out ->
  length base = length vals -> length jumps = length vals ->
  (forall i v, nth_error vals i = Some v -> nth_error g i = Some true ->
     exists b k, nth_error base i = Some b /\ nth_error jumps i = Some k /\ v = b + qz k * q) ->
  (forall i j a b, nth_error g i = Some true -> nth_error g j = Some true ->
     nth_error base i = Some a -> nth_error base j = Some b -> a - b < q / qz 4) ->
  (exists u v, In u vals /\ In v vals /\ q <= u - v) ->
  forall i j x y a b, nth_error g i = Some true -> nth_error g j = Some true ->
    nth_error out i = Some x -> nth_error out j = Some y ->
    nth_error base i = Some a -> nth_error base j = Some b -> x - y = a - b.
Proof.
  intros Hq H HLb HLj Hdec Hsp [u [v [Hu [Hv Huv]]]].
  set (q4 := q / qz 4) in *.
  assert (Eq4 : q = q4 + q4 + q4 + q4) by (unfold q4; change (qz 4) with (1 + 1 + 1 + 1); field; discriminate).
  assert (E34 : qz 3 / qz 4 * q = q4 + q4 + q4) by (unfold q4; change (qz 4) with (1 + 1 + 1 + 1); change (qz 3) with (1 + 1 + 1); field; discriminate).
  apply (flux_cases _ _ _ _ Hq) in H as [s [Es [[Hlt ->]|[v0 [sg [Hv0 [HL [Hge [Eg Hcase]]]]]]]]].
  { apply spread_spec in Es as [_ Hs]. specialize (Hs u v Hu Hv). exfalso. qlra. }
  rewrite E34 in Hcase. fold q4 in Hcase.
  (* difference of residues of two good values *)
  assert (Hdiff : forall i j vi vj a b, nth_error g i = Some true -> nth_error g j = Some true ->
     nth_error vals i = Some vi -> nth_error vals j = Some vj -> nth_error base i = Some a -> nth_error base j = Some b ->
     forall c, exists k, (-1 <= k <= 1)%Z /\ qmod (vi + c) q - qmod (vj + c) q = a - b + qz k * q).
  { intros i j vi vj a b Gi Gj Vi Vj Ba Bb c. destruct (Hdec i vi Vi Gi) as [a' [ki [Ba' [_ ->]]]]. destruct (Hdec j vj Vj Gj) as [b' [kj [Bb' [_ ->]]]].
    assert (a' = a) by congruence. assert (b' = b) by congruence. subst a' b'.
    pose proof (Hsp i j a b Gi Gj Ba Bb) as S1. pose proof (Hsp j i b a Gj Gi Bb Ba) as S2.
    destruct (qmod_range (a + qz ki * q + c) q Hq) as [R1 R2]. destruct (qmod_range (b + qz kj * q + c) q Hq) as [R3 R4].
    destruct (qmod_shift (a + qz ki * q + c) q) as [m Em]. destruct (qmod_shift (b + qz kj * q + c) q) as [n En].
    exists (ki - m - (kj - n))%Z. 
    assert (E : qmod (a + qz ki * q + c) q - qmod (b + qz kj * q + c) q = a - b + qz (ki - m - (kj - n)) * q) by (rewrite Em, En, !qz_sub; ring).
    split; [|exact E].
    set (K := (ki - m - (kj - n))%Z) in *. set (P := qmod (a + qz ki * q + c) q) in *. set (Q := qmod (b + qz kj * q + c) q) in *.
    assert (A1 : (K < 2)%Z).
    { apply qz_lt. apply (mult_lt_inv q); [exact Hq|]. change (qz 2) with (1 + 1). replace (q * (1 + 1)) with (q + q) by ring. rewrite (Qcmult_comm q (qz K)). set (w := qz K * q) in *. clearbody w P Q q4. qlra. }
    assert (A2 : (-2 < K)%Z).
    { apply qz_lt. apply (mult_lt_inv q); [exact Hq|]. change (qz (-2)) with (- (1 + 1)). replace (q * - (1 + 1)) with (- q - q) by ring. rewrite (Qcmult_comm q (qz K)). set (w := qz K * q) in *. clearbody w P Q q4. qlra. }
    lia. }
  assert (Hq4 : 0 < q4) by (clearbody q4; qlra).
  intros i j x y a b Gi Gj Xi Yj Ba Bb.
  destruct Hcase as [[Hle ->]|[Hgt ->]].
  - (* no jump left after the reduction *)
    rewrite nth_error_map in Xi, Yj. destruct (nth_error vals i) as [vi|] eqn:Vi; [|discriminate]. destruct (nth_error vals j) as [vj|] eqn:Vj; [|discriminate].
    cbn in Xi, Yj. injection Xi as <-. injection Yj as <-.
    destruct (Hdiff i j vi vj a b Gi Gj Vi Vj Ba Bb 0) as [k [Hk E]]. rewrite !Qcplus_0_r in E.
    apply spread_spec in Eg as [_ Hs].
    assert (Pi : In (qmod vi q) (pick g (map (fun v => qmod v q) vals))) by (apply pick_In; exists i; rewrite nth_error_map, Vi; auto).
    assert (Pj : In (qmod vj q) (pick g (map (fun v => qmod v q) vals))) by (apply pick_In; exists j; rewrite nth_error_map, Vj; auto).
    pose proof (Hs _ _ Pi Pj) as S1. pose proof (Hs _ _ Pj Pi) as S2.
    pose proof (Hsp i j a b Gi Gj Ba Bb) as S3. pose proof (Hsp j i b a Gj Gi Bb Ba) as S4.
    assert (k = 0%Z).
    { assert (k = (-1)%Z \/ k = 0%Z \/ k = 1%Z) as [-> | [-> | -> ]] by lia; [exfalso | reflexivity | exfalso].
      - change (qz (-1)) with (- (1)) in E. replace (- (1) * q) with (- q) in E by ring. clearbody q4. qlra.
      - change (qz 1) with 1 in E. replace (1 * q) with q in E by ring. clearbody q4. qlra. }
    subst k. change (qz 0) with 0 in E. replace (a - b + 0 * q) with (a - b) in E by ring. rewrite <- E. ring.
  - (* residues straddle a multiple of q: shifted by a quarter quantum they do not *)
    rewrite nth_error_map in Xi, Yj. destruct (nth_error vals i) as [vi|] eqn:Vi; [|discriminate]. destruct (nth_error vals j) as [vj|] eqn:Vj; [|discriminate].
    cbn in Xi, Yj. injection Xi as <-. injection Yj as <-. fold q4.
    apply spread_spec in Eg as [[hi [lo [Hhi [Hlo Esg]]]] _].
    apply pick_In in Hhi as [ih [Gh Hh]]. apply pick_In in Hlo as [il [Gl Hl]]. rewrite nth_error_map in Hh, Hl.
    destruct (nth_error vals ih) as [vh|] eqn:Vh; [|discriminate]. destruct (nth_error vals il) as [vl|] eqn:Vl; [|discriminate].
    cbn in Hh, Hl. injection Hh as <-. injection Hl as <-.
    destruct (Hdec ih vh Vh Gh) as [bh [kh [Bh [_ Evh]]]]. destruct (Hdec il vl Vl Gl) as [bl [kl [Bl [_ Evl]]]].
    destruct (Hdiff ih il vh vl bh bl Gh Gl Vh Vl Bh Bl 0) as [k [Hk E]]. rewrite !Qcplus_0_r in E.
    pose proof (Hsp ih il bh bl Gh Gl Bh Bl) as T1. pose proof (Hsp il ih bl bh Gl Gh Bl Bh) as T2.
    destruct (qmod_range vh q Hq) as [Rh1 Rh2]. destruct (qmod_range vl q Hq) as [Rl1 Rl2].
    assert (k = 1%Z).
    { assert (k = (-1)%Z \/ k = 0%Z \/ k = 1%Z) as [-> | [-> | -> ]] by lia; [exfalso | exfalso | reflexivity].
      - change (qz (-1)) with (- (1)) in E. replace (- (1) * q) with (- q) in E by ring. clearbody q4. qlra.
      - change (qz 0) with 0 in E. replace (0 * q) with 0 in E by ring. clearbody q4. qlra. }
    subst k. change (qz 1) with 1 in E. replace (1 * q) with q in E by ring.
    (* bl sits at M q + (small), bh at M q - (small) *)
    destruct (qmod_shift vl q) as [nl Enl]. set (M := (nl - kl)%Z).
    assert (Ebl : bl = qz M * q + qmod vl q) by (rewrite Enl, Evl; unfold M; rewrite qz_sub; ring).
    assert (Hall : forall t vt bt kt, nth_error g t = Some true -> nth_error base t = Some bt -> vt = bt + qz kt * q ->
               qmod (vt + q4) q = bt - qz M * q + q4).
    { intros t vt bt kt Gt Bt ->. pose proof (Hsp t il bt bl Gt Gl Bt Bl) as U1. pose proof (Hsp il t bl bt Gl Gt Bl Bt) as U2.
      pose proof (Hsp t ih bt bh Gt Gh Bt Bh) as U3. pose proof (Hsp ih t bh bt Gh Gt Bh Bt) as U4.
      rewrite (qmod_unique (bt + qz kt * q + q4) q (kt + M) Hq).
      - rewrite qz_add. ring.
      - rewrite qz_add. replace (bt + qz kt * q + q4 - q * (qz kt + qz M)) with (bt - qz M * q + q4) by ring.
        set (w := qz M * q) in *. set (rl := qmod vl q) in *. set (rh := qmod vh q) in *. clearbody w rl rh q4. qlra.
      - rewrite qz_add. replace (bt + qz kt * q + q4 - q * (qz kt + qz M)) with (bt - qz M * q + q4) by ring.
        set (w := qz M * q) in *. set (rl := qmod vl q) in *. set (rh := qmod vh q) in *. clearbody w rl rh q4. qlra. }
    destruct (Hdec i vi Vi Gi) as [a' [ki [Ba' [_ Evi]]]]. destruct (Hdec j vj Vj Gj) as [b' [kj [Bb' [_ Evj]]]].
    assert (a' = a) by congruence. assert (b' = b) by congruence. subst a' b'.
    rewrite (Hall i vi a ki Gi Ba Evi), (Hall j vj b kj Gj Bb Evj). ring.
Qed.

Lemma flux_raises vals g q : correct_flux_jumps vals g q = None ->
  vals = [] \/ length g <> length vals \/ Forall (fun b => b = false) g.
Proof.
  destruct vals as [|v0 vals]; [auto|]. unfold correct_flux_jumps. cbn [spread].
  set (c := map (fun v => qmod v q) (v0 :: vals)).
  destruct (qleb q _); [|discriminate]. destruct (Nat.eqb_spec (length g) (length (v0 :: vals))) as [L|L]; [|auto]. cbn [negb].
  assert (Lc : length c = length g) by (unfold c; rewrite map_length; congruence). clearbody c.
  destruct (pick g c) as [|a t] eqn:P.
  - intros _. right; right. clear L. revert c Lc P. induction g as [|b g IH]; intros [|x c]; cbn; try discriminate; constructor.
    + destruct b; [discriminate|reflexivity].
    + apply (IH c); [lia|]. destruct b; [discriminate|exact P].
  - cbn [spread]. assert (Hc : c <> []) by (intros ->; destruct g; discriminate P).
    destruct (qltb _ _); [discriminate|]. destruct c; [contradiction|discriminate].
Qed.
