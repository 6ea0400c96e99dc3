(** C25, C26: PulseModel. *)
From Coq Require Import String Reals ZArith Bool Lra Lia List.
From Verif Require Import PmModel PmSpec PmProofs PmQr.
Import ListNotations.
Local Open Scope R_scope.

Definition residuals_of (P B T : mat) : mat := sub T (mul B (mul P T)).
(** What is sampled from the residuals of the training pulses, when the model is extended to n elements. *)
Definition sampled (om : nat -> nat -> mat) (P B : mat) (n : nat) (T : mat) : mat := range_sample om (residuals_of P B T) (n - nc B) 1.

Lemma residual_entry P B T i j : nr T = nc P -> el (residuals_of P B T) i j = residual P B (fun s => el T s j) i.
Proof. intros H. unfold residuals_of, residual, modelled. cbn. reflexivity. Qed.

Lemma hcol_old B Q i j : (j < nc B)%nat -> el (hstack B Q) i j = el B i j.
Proof. intros Hj. cbn -[Nat.ltb]. rewrite (proj2 (Nat.ltb_lt j (nc B))) by exact Hj. reflexivity. Qed.
Lemma hcol_new B Q i a : el (hstack B Q) i (nc B + a) = el Q i a.
Proof. cbn -[Nat.ltb]. rewrite (proj2 (Nat.ltb_ge _ _)) by lia. f_equal. lia. Qed.

(** * C25: extending the model *)

(** Refused are arrays of different shapes, fewer elements than there are, and training pulses of another length. *)
Theorem extend_refused om qr pinv P B n T : additional_projectors om qr pinv P B n T = None <->
  ~ (nr P = nc B /\ nc P = nr B /\ (nc B <= n)%nat /\ (n = nc B \/ nr T = nc P)).
Proof.
  unfold additional_projectors. destruct (Nat.eqb_spec (nr P) (nc B)) as [A1|A1]; [|cbn; split; [intros _ (X & _); contradiction | reflexivity]].
  destruct (Nat.eqb_spec (nc P) (nr B)) as [A2|A2]; [|cbn; split; [intros _ (_ & X & _); contradiction | reflexivity]]. cbn [andb negb].
  destruct (Nat.ltb_spec n (nc B)) as [L|L]; [split; [intros _ (_ & _ & X & _); lia | reflexivity]|].
  destruct (Nat.eqb_spec n (nc B)) as [E|E]; [split; [discriminate | intros X; exfalso; apply X; repeat split; try assumption; left; exact E]|].
  destruct (Nat.eqb_spec (nr T) (nc P)) as [A3|A3]; cbn; [split; [discriminate | intros X; exfalso; apply X; repeat split; try assumption; right; exact A3]|].
  split; [intros _ (_ & _ & _ & [X|X]); contradiction | reflexivity].
Qed.
(** The given elements come first; there are n elements unless a pulse has too few samples for the new ones. *)
Theorem extend_shape om qr pinv P B n T P' B' : om_ok om -> qr_ok qr -> pinv_ok pinv -> additional_projectors om qr pinv P B n T = Some (P', B') ->
  nr P' = nc B' /\ nc P' = nr B /\ nr B' = nr B /\ nc B' = (nc B + Nat.min (nr B) (n - nc B))%nat /\
  (forall i j, (i < nc B)%nat -> el P' i j = el P i j) /\ forall i j, (j < nc B)%nat -> el B' i j = el B i j.
Proof.
  intros HM HQ HX H. destruct (additional_form _ _ _ _ _ _ _ _ _ HM HQ HX H) as (A1 & A2 & A3 & [(E & -> & ->)|(L & _ & Q & X & _ & _ & -> & -> & Q1 & Q2 & X1 & X2 & _ & _)]).
  - rewrite E, Nat.sub_diag, Nat.min_0_r. repeat split; congruence || lia.
  - cbn [vstack hstack sub nr nc el]. repeat split; try lia.
    + intros i j Hi. rewrite (proj2 (Nat.ltb_lt i (nr P))) by lia. reflexivity.
    + intros i j Hj. rewrite (proj2 (Nat.ltb_lt j (nc B))) by lia. reflexivity.
Qed.
(** The projectors stay a left inverse of the basis if the sampled residuals are independent. *)
Theorem extend_dual om qr pinv P B n T P' B' : om_ok om -> qr_ok qr -> pinv_ok pinv -> dual P B -> independent (sampled om P B n T) ->
  additional_projectors om qr pinv P B n T = Some (P', B') -> dual P' B' /\ nr P' = n.
Proof.
  intros HM HQ HX HD HI H. destruct (additional_form _ _ _ _ _ _ _ _ _ HM HQ HX H) as (A1 & A2 & A3 & [(E & -> & ->)|(L & A4 & Q & X & EQ & EX & -> & -> & Q1 & Q2 & X1 & X2 & O & XQ)]).
  - split; [exact HD | lia].
  - assert (S := independent_size _ HI). destruct (sample_shape om (residuals_of P B T) (n - nc B) 1 HM) as (S1 & S2). unfold sampled in S, HI. fold (residuals_of P B T) in EQ. rewrite S2 in S. rewrite S1 in S.
    change (nr (residuals_of P B T)) with (nr T) in S, S1. set (Y := range_sample om (residuals_of P B T) (n - nc B) 1) in *. split; [|cbn [vstack sub nr]; lia].
    apply (ext_dual_iff P B Q X HD Q1 X1 X2 O XQ). intros i c Hi Hc.
    rewrite EQ. replace (nr B) with (nr Y) by lia. apply (qr_in_range qr Y (el P i) HQ HI); [|lia].
    intros j Hj. destruct (sample_spanned om (residuals_of P B T) (n - nc B) 1 j HM ltac:(lia)) as (z & Z). fold Y in Z.
    rewrite (msum_ext _ _ (fun k => el P i k * msum (nc T) (fun a => el (residuals_of P B T) k a * z a))) by (intros k Hk; rewrite (Z k ltac:(cbn; lia)); reflexivity).
    rewrite (msum_assoc (nr Y) (nc T) (el P i) (el (residuals_of P B T)) z). apply msum_zero. intros a Ha.
    rewrite (msum_ext (nr Y) _ (fun k => el P i k * el T k a - el P i k * msum (nc B) (fun b => el B k b * msum (nc P) (fun s => el P b s * el T s a)))) by (intros k Hk; unfold residuals_of; cbn; ring).
    rewrite msum_minus. rewrite (msum_assoc (nr Y) (nc B) (el P i) (el B) (fun b => msum (nc P) (fun s => el P b s * el T s a))).
    rewrite (msum_ext (nc B) _ (fun b => unit_entry i b * msum (nc P) (fun s => el P b s * el T s a))).
    + rewrite msum_unit_l by exact Hi. replace (nc P) with (nr Y) by lia. ring.
    + intros b Hb. rewrite <- (PB P B HD i b Hi Hb). replace (nr B) with (nr Y) by lia. reflexivity.
Qed.
(** In any case the new projectors ignore the given elements; the extended projectors are a left inverse exactly if the
    given ones ignore the new elements. *)
Theorem extend_ignores_old om qr pinv P B n T P' B' : om_ok om -> qr_ok qr -> pinv_ok pinv -> dual P B -> additional_projectors om qr pinv P B n T = Some (P', B') ->
  forall i j, (nc B <= i < nr P')%nat -> (j < nc B)%nat -> entry (nc P') (el P') (el B') i j = 0.
Proof.
  intros HM HQ HX HD H i j Hi Hj. destruct (additional_form _ _ _ _ _ _ _ _ _ HM HQ HX H) as (A1 & A2 & A3 & [(E & -> & ->)|(L & A4 & Q & X & EQ & EX & -> & -> & Q1 & Q2 & X1 & X2 & O & XQ)]); [lia|].
  replace i with (nc B + (i - nc B))%nat by lia. cbn [vstack sub nr] in Hi. unfold entry. destruct (ext_shape P B Q X HD X1) as (_ & S2 & _). rewrite S2.
  rewrite <- (new_old P B Q X HD Q1 X1 X2 XQ (i - nc B) j ltac:(lia) Hj). apply msum_ext. intros s Hs. rewrite (hcol_old B Q s j Hj). reflexivity.
Qed.
Theorem extend_dual_iff om qr pinv P B n T P' B' : om_ok om -> qr_ok qr -> pinv_ok pinv -> dual P B -> additional_projectors om qr pinv P B n T = Some (P', B') ->
  (dual P' B' <-> forall i j, (i < nc B)%nat -> (nc B <= j < nc B')%nat -> entry (nc P) (el P) (el B') i j = 0).
Proof.
  intros HM HQ HX HD H. destruct (additional_form _ _ _ _ _ _ _ _ _ HM HQ HX H) as (A1 & A2 & A3 & [(E & -> & ->)|(L & A4 & Q & X & EQ & EX & -> & -> & Q1 & Q2 & X1 & X2 & O & XQ)]).
  - split; [intros; lia | intros; exact HD].
  - rewrite (ext_dual_iff P B Q X HD Q1 X1 X2 O XQ). unfold entry. rewrite A2. split.
    + intros K i j Hi Hj. cbn [hstack nc] in Hj. rewrite <- (K i (j - nc B)%nat Hi ltac:(lia)). apply msum_ext. intros s Hs. f_equal. rewrite <- (hcol_new B Q). f_equal. lia.
    + intros K i c Hi Hc. rewrite <- (K i (nc B + c)%nat Hi ltac:(cbn [hstack nc]; lia)). apply msum_ext. intros s Hs. f_equal. symmetry. apply (hcol_new B Q).
Qed.
(** The extended model describes every pulse at least as well, and differs from it by a sum over the new elements. *)
Theorem extend_no_worse om qr pinv P B n T P' B' t : om_ok om -> qr_ok qr -> pinv_ok pinv -> dual P B -> additional_projectors om qr pinv P B n T = Some (P', B') ->
  norm2 (nr B) (residual P' B' t) <= norm2 (nr B) (residual P B t).
Proof.
  intros HM HQ HX HD H. destruct (additional_form _ _ _ _ _ _ _ _ _ HM HQ HX H) as (A1 & A2 & A3 & [(E & -> & ->)|(L & A4 & Q & X & EQ & EX & -> & -> & Q1 & Q2 & X1 & X2 & O & XQ)]); [lra|].
  unfold norm2 at 1. erewrite msum_ext; [|intros i Hi; rewrite (ext_residual P B Q X HD Q1 X1 X2 XQ t i Hi); reflexivity].
  assert (Y := projection_norm B Q Q1 O (residual P B t)). unfold norm2 at 1 in Y. rewrite Y.
  assert (Z : 0 <= norm2 (nc Q) (fun a => msum (nr B) (fun s => el Q s a * residual P B t s))) by (apply msum_nonneg; intros; nra). lra.
Qed.
(** A pulse whose residual is in what was sampled is described exactly: so are all the training pulses if as many
    elements are added as their residuals span. *)
Theorem extend_exact om qr pinv P B n T P' B' t : om_ok om -> qr_ok qr -> pinv_ok pinv -> dual P B -> (nc B < n)%nat -> additional_projectors om qr pinv P B n T = Some (P', B') ->
  spanned (sampled om P B n T) (residual P B t) -> forall i, (i < nr B)%nat -> residual P' B' t i = 0.
Proof.
  intros HM HQ HX HD HN H HS. destruct (additional_form _ _ _ _ _ _ _ _ _ HM HQ HX H) as (A1 & A2 & A3 & [(E & -> & ->)|(L & A4 & Q & X & EQ & EX & -> & -> & Q1 & Q2 & X1 & X2 & O & XQ)]); [lia|].
  intros i Hi. rewrite (ext_residual P B Q X HD Q1 X1 X2 XQ t i Hi). apply Rminus_diag_eq. symmetry. rewrite EQ. unfold sampled in HS. fold (residuals_of P B T) in *.
  destruct (sample_shape om (residuals_of P B T) (n - nc B) 1 HM) as (S1 & S2). change (nr (residuals_of P B T)) with (nr T) in S1.
  set (Y := range_sample om (residuals_of P B T) (n - nc B) 1) in *. replace (nr B) with (nr Y) by lia. apply (projects qr Y _ HQ HS). lia.
Qed.

(** * The constructor *)

(** With the 5-lag elements: n_basis elements, and the projectors still a left inverse. *)
Theorem model_dual om1 om2 qr pinv P B n T extra f5 P' B' : om_ok om1 -> om_ok om2 -> qr_ok qr -> pinv_ok pinv -> dual P B ->
  independent (sampled om1 P B (Z.to_nat (n - extra)) T) ->
  ((0 < extra)%Z -> forall P1 B1, construct om1 om2 qr pinv P B (n - extra) T 0 f5 false = Some (P1, B1) -> independent (sampled om2 P1 B1 (Z.to_nat n) (filters_5lag P (length f5)))) ->
  (0 <= extra)%Z -> construct om1 om2 qr pinv P B n T extra f5 false = Some (P', B') -> dual P' B' /\ Z.of_nat (nr P') = n.
Proof.
  intros M1 M2 HQ HX HD I1 I2 HE H. unfold construct in H. cbn [orb negb andb] in H. rewrite orb_false_r in H.
  assert (F : forall P1 B1, (if (Z.of_nat (nr P) <? n - extra)%Z then additional_projectors om1 qr pinv P B (Z.to_nat (n - extra)) T else if (Z.of_nat (nr P) =? n - extra)%Z then Some (P, B) else None) = Some (P1, B1) -> dual P1 B1 /\ Z.of_nat (nr P1) = (n - extra)%Z).
  { intros P1 B1 E. destruct (Z.ltb_spec (Z.of_nat (nr P)) (n - extra)) as [L|L].
    - destruct (extend_dual _ _ _ _ _ _ _ _ _ M1 HQ HX HD I1 E) as (D & S). split; [exact D | lia].
    - destruct (Z.eqb_spec (Z.of_nat (nr P)) (n - extra)) as [Z|Z]; [|discriminate]. injection E as <- <-. split; assumption. }
  unfold construct in I2. rewrite Z.sub_0_r in I2. cbn [orb negb andb] in I2. rewrite orb_false_r in I2.
  destruct (if (Z.of_nat (nr P) <? n - extra)%Z then _ else _) as [(P1, B1)|]; [|discriminate]. destruct (F P1 B1 eq_refl) as (D & S).
  destruct (Z.ltb_spec 0 extra) as [L|L].
  - destruct ((nr P <? 3)%nat || negb (nc P =? length f5 + 4)%nat || (n <? 0)%Z) eqn:G; [discriminate|]. apply orb_false_iff in G. destruct G as (_ & G). apply Z.ltb_ge in G.
    destruct (extend_dual _ _ _ _ _ _ _ _ _ M2 HQ HX D (I2 L P1 B1 eq_refl) H) as (D2 & S2). split; [exact D2 | lia].
  - injection H as <- <-. split; [exact D | lia].
Qed.
(** More projectors than asked for are refused, unless they come from a file. *)
Theorem model_refused om1 om2 qr pinv P B n T extra f5 : (Z.of_nat (nr P) > n - extra)%Z -> construct om1 om2 qr pinv P B n T extra f5 false = None.
Proof. intros H. unfold construct. destruct (Z.ltb_spec (Z.of_nat (nr P)) (n - extra)); [lia|]. destruct (Z.eqb_spec (Z.of_nat (nr P)) (n - extra)); [lia|]. reflexivity. Qed.
Theorem model_from_file om1 om2 qr pinv P B n T extra f5 : (Z.of_nat (nr P) >= n - extra)%Z -> construct om1 om2 qr pinv P B n T extra f5 true = Some (P, B).
Proof. intros H. unfold construct. destruct (Z.ltb_spec (Z.of_nat (nr P)) (n - extra)); [lia|]. rewrite orb_true_r. reflexivity. Qed.
(** The 5-lag training "pulses" are the pulse projector, moved by 0 to 4 samples. *)
Theorem five_lags P len i : (i < 5)%nat ->
  (forall k, (k < len)%nat -> el (filters_5lag P len) (i + k) i = el P 2 (k + 2)) /\
  forall r, (r < i \/ i + len <= r)%nat -> el (filters_5lag P len) r i = 0.
Proof.
  intros Hi. cbn [filters_5lag el]. split.
  - intros k Hk. rewrite (proj2 (Nat.leb_le _ _)) by lia. rewrite (proj2 (Nat.ltb_lt _ _)) by lia. cbn. f_equal. lia.
  - intros r [L|L]; [rewrite (proj2 (Nat.leb_gt _ _)) by lia; reflexivity | rewrite (proj2 (Nat.ltb_ge _ _)) by lia; rewrite andb_false_r; reflexivity].
Qed.

(** * The range finder *)
Theorem range_refused om qr A nl q : find_range_randomly om qr A nl q = None <-> (q < 0)%Z.
Proof. unfold find_range_randomly. destruct (Z.ltb_spec q 0); split; intros; (reflexivity || discriminate || lia). Qed.
(** Its columns are orthonormal, and combinations of the columns of A if what is sampled is independent. *)
Theorem range_orthonormal om qr A nl q Q : om_ok om -> qr_ok qr -> find_range_randomly om qr A nl q = Some Q ->
  nr Q = nr A /\ nc Q = Nat.min (nr A) nl /\ orthonormal Q.
Proof.
  intros HM HQ H. unfold find_range_randomly in H. destruct (q <? 0)%Z; [discriminate|]. injection H as <-. destruct (sample_shape om A nl (Z.to_nat q) HM) as (S1 & S2).
  destruct (HQ (range_sample om A nl (Z.to_nat q))) as (Q1 & Q2 & Q3 & _). cbv zeta in *. repeat split; try congruence. exact Q3.
Qed.
Theorem range_inside om qr A nl q Q : om_ok om -> qr_ok qr -> find_range_randomly om qr A nl q = Some Q -> independent (range_sample om A nl (Z.to_nat q)) ->
  forall j, (j < nl)%nat -> spanned A (fun i => el Q i j).
Proof.
  intros HM HQ H HI j Hj. unfold find_range_randomly in H. destruct (q <? 0)%Z; [discriminate|]. injection H as <-. destruct (sample_shape om A nl (Z.to_nat q) HM) as (S1 & S2).
  apply (spanned_trans A (range_sample om A nl (Z.to_nat q))); [exact S1 | |].
  - intros a Ha. apply sample_spanned; [exact HM | lia].
  - apply qr_spanned; [exact HQ | exact HI | lia].
Qed.
(** Everything that was sampled is in its range. *)
Theorem range_covers om qr A nl q Q t : om_ok om -> qr_ok qr -> find_range_randomly om qr A nl q = Some Q -> spanned (range_sample om A nl (Z.to_nat q)) t ->
  forall i, (i < nr A)%nat -> t i = msum (nc Q) (fun a => el Q i a * msum (nr A) (fun s => el Q s a * t s)).
Proof.
  intros HM HQ H HS i Hi. unfold find_range_randomly in H. destruct (q <? 0)%Z; [discriminate|]. injection H as <-. destruct (sample_shape om A nl (Z.to_nat q) HM) as (S1 & S2).
  rewrite <- S1. symmetry. apply (projects qr _ t HQ HS). lia.
Qed.
(** If that is all of A, find_svd_randomly is a singular value decomposition of A. *)
Theorem svd_exact om qr svd A nl q u w v : om_ok om -> qr_ok qr -> (forall Q, find_range_randomly om qr A nl q = Some Q -> svd_ok svd (mul (tr Q) A)) -> (forall j, (j < nc A)%nat -> spanned (range_sample om A nl (Z.to_nat q)) (fun i => el A i j)) ->
  find_svd_randomly om qr svd A nl q = Some (u, w, v) ->
  nr u = nr A /\ nc u = nr v /\ nc v = nc A /\ orthonormal u /\ orthonormal (tr v) /\ (forall k, (k < nc u)%nat -> 0 <= w k) /\
  forall i j, (i < nr A)%nat -> (j < nc A)%nat -> el A i j = msum (nc u) (fun k => el u i k * w k * el v k j).
Proof.
  intros HM HQ HV HS H. unfold find_svd_randomly in H. destruct (find_range_randomly om qr A nl q) as [Q|] eqn:E; [|discriminate].
  destruct (range_orthonormal _ _ _ _ _ _ HM HQ E) as (Q1 & Q2 & Q3). assert (V := HV Q eq_refl). unfold svd_ok in V. destruct (svd (mul (tr Q) A)) as ((u0, w0), v0). cbn [fst snd] in V.
  injection H as <- <- <-. destruct V as (V1 & V2 & V3 & V4 & V5 & V6 & V7 & V8). cbn [mul tr nr nc] in V1, V2, V4.
  cbn [mul nr nc]. split; [exact Q1|]. split; [congruence|]. split; [exact V4|]. split; [|split; [exact V6|split; [exact V7|]]].
  - intros a b Ha Hb. cbn [mul nc nr el] in *.
    rewrite (msum_ext (nr Q) _ (fun k => msum (nc Q) (fun c => el u0 c a * el Q k c) * msum (nc Q) (fun c => el Q k c * el u0 c b))) by (intros k Hk; f_equal; apply msum_ext; intros; ring).
    rewrite (msum_assoc (nr Q) (nc Q) (fun k => msum (nc Q) (fun c => el u0 c a * el Q k c)) (el Q) (fun c => el u0 c b)). rewrite <- (V5 a b Ha Hb). rewrite V1. apply msum_ext. intros c Hc. f_equal.
    rewrite <- (msum_assoc (nc Q) (nr Q) (fun d => el u0 d a) (fun d k => el Q k d) (fun k => el Q k c)). rewrite (msum_ext (nc Q) _ (fun d => el u0 d a * unit_entry d c)) by (intros d Hd; rewrite <- (Q3 d c Hd Hc); reflexivity).
    exact (msum_unit_r (nc Q) c (fun d => el u0 d a) Hc).
  - intros i j Hi Hj. rewrite (range_covers _ _ _ _ _ _ _ HM HQ E (HS j Hj) i Hi). cbn [mul el nc].
    rewrite (msum_ext (nc Q) _ (fun c => el Q i c * msum (nc u0) (fun k => el u0 c k * (w0 k * el v0 k j)))).
    + rewrite (msum_assoc (nc Q) (nc u0) (el Q i) (el u0) (fun k => w0 k * el v0 k j)). apply msum_ext. intros; ring.
    + intros c Hc. f_equal. assert (X := V8 c j). cbn [mul tr nr nc el] in X. rewrite <- Q1. rewrite (X Hc Hj). apply msum_ext. intros; ring.
Qed.

(** * The labels *)

(** There is a label for each element ... *)
Theorem labels_number n extra : (3 <= n)%Z -> Z.of_nat (length (labels n extra)) = n.
Proof. intros H. unfold labels. rewrite app_length, map_length, seq_length. cbn [length]. lia. Qed.
(** ... but the first of the 5-lag elements is labelled as svd: only the last extra - 1 are labelled 5lag. *)
Theorem labels_which n extra i : (3 <= n)%Z -> (0 <= extra <= n - 3)%Z -> (0 <= i < n - 3)%Z ->
  nth_error (labels n extra) (3 + Z.to_nat i) = Some (if (n - 3 - extra <? i)%Z then Lag (i + 2 - extra) else Svd i).
Proof.
  intros Hn He Hi. unfold labels. cbn [app Nat.add nth_error]. rewrite (map_nth_error _ _ _ (d := Z.to_nat i)).
  - rewrite Z2Nat.id by lia. reflexivity.
  - rewrite (nth_error_nth' _ 0%nat) by (rewrite seq_length; lia). rewrite seq_nth by lia. reflexivity.
Qed.
Theorem labels_refuted : exists n extra, (3 < n)%Z /\ (0 < extra <= n - 3)%Z /\ nth_error (labels n extra) (Z.to_nat (n - extra)) = Some (Svd (n - extra - 3)).
Proof. exists 5%Z, 1%Z. repeat split; try lia. Qed.

(** * C26: saving *)

Definition like (m m' : model) : Prop :=
  same (projectors m) (projectors m') /\ same (basis m) (basis m') /\ n_basis m = n_basis m' /\ pulses_for_svd m = pulses_for_svd m' /\ v_dv m = v_dv m' /\
  pretrig_rms_median m = pretrig_rms_median m' /\ pretrig_rms_sigma m = pretrig_rms_sigma m' /\ file_name m = file_name m' /\ extra_n_basis_5lag m = extra_n_basis_5lag m' /\
  f_5lag m = f_5lag m' /\ average_pulse m = average_pulse m' /\ noise_psd m = noise_psd m' /\ noise_psd_delta_f m = noise_psd_delta_f m' /\ noise_autocorr m = noise_autocorr m'.

(** Saving as it is does not change the model. *)
Theorem save_keeps m g : fst (to_hdf5 m g false) = m.
Proof. reflexivity. Qed.
(** Saving inverted negates all elements but the first, and their projectors, in the model too ... *)
Theorem save_inverted_changes m g : let m' := fst (to_hdf5 m g true) in
  nr (basis m') = nr (basis m) /\ nc (basis m') = nc (basis m) /\ nr (projectors m') = nr (projectors m) /\ nc (projectors m') = nc (projectors m) /\
  (forall i, el (basis m') i 0 = el (basis m) i 0 /\ el (projectors m') 0 i = el (projectors m) 0 i) /\
  forall i j, (1 <= j)%nat -> el (basis m') i j = - el (basis m) i j /\ el (projectors m') j i = - el (projectors m) j i.
Proof.
  cbn. repeat split.
  - destruct j as [|j]; [lia | reflexivity].
  - destruct j as [|j]; [lia | reflexivity].
Qed.
(** ... and saving it again undoes this. *)
Theorem save_inverted_twice m g g' : like (fst (to_hdf5 (fst (to_hdf5 m g true)) g' true)) m.
Proof.
  unfold like. cbn. repeat split; try reflexivity; intros [|i] [|j] Hi Hj; cbn; (reflexivity || apply Ropp_involutive).
Qed.
(** Inverted projectors are a left inverse if they were one before, and the modelled pulses are the same. *)
Theorem save_inverted_dual m g : dual (projectors m) (basis m) <-> dual (projectors (fst (to_hdf5 m g true))) (basis (fst (to_hdf5 m g true))).
Proof.
  assert (X : forall n P B i j, entry n (el (flip_rows P)) (el (flip_columns B)) i j = (if (1 <=? i)%nat then -1 else 1) * (if (1 <=? j)%nat then -1 else 1) * entry n (el P) (el B) i j).
  { intros n P B i j. unfold entry. rewrite <- msum_scal. apply msum_ext. intros k _. cbn [flip_rows flip_columns el]. destruct (1 <=? i)%nat, (1 <=? j)%nat; ring. }
  unfold dual. cbn [to_hdf5 fst projectors basis]. change (nr (flip_rows (projectors m))) with (nr (projectors m)). change (nc (flip_rows (projectors m))) with (nc (projectors m)).
  change (nc (flip_columns (basis m))) with (nc (basis m)). change (nr (flip_columns (basis m))) with (nr (basis m)).
  split; intros (D1 & D2 & D3); (split; [exact D1|]; split; [exact D2|]); intros i j Hi Hj; assert (Y := D3 i j Hi Hj); rewrite X in *; unfold unit_entry in *;
    destruct (Nat.eqb_spec i j) as [EQ|N]; destruct (Nat.leb_spec 1 i); destruct (Nat.leb_spec 1 j); (lra || (exfalso; lia)).
Qed.
Theorem save_inverted_modelled m g t i : let m' := fst (to_hdf5 m g true) in modelled (projectors m') (basis m') t i = modelled (projectors m) (basis m) t i.
Proof.
  cbn. unfold modelled. cbn [flip_rows flip_columns nr nc el]. apply msum_ext. intros a _. destruct a as [|a]; [reflexivity|].
  rewrite (msum_ext _ _ (fun k => - (el (projectors m) (S a) k * t k))) by (intros; ring). rewrite msum_opp. ring.
Qed.
(** What is written to a new group is the model as it is afterwards, and loading gives that model. *)
Theorem save_load om1 om2 qr pinv m b : n_basis m = Z.of_nat (nr (projectors m)) -> (0 <= extra_n_basis_5lag m)%Z ->
  snd (snd (to_hdf5 m [] b)) = true /\ from_hdf5 om1 om2 qr pinv (fst (snd (to_hdf5 m [] b))) = Some (fst (to_hdf5 m [] b)) /\ mget (fst (snd (to_hdf5 m [] b))) Kinverted = Some (Bool b).
Proof.
  intros HN HE. unfold to_hdf5. set (m' := if b then _ else m). assert (HN' : n_basis m' = Z.of_nat (nr (projectors m')) /\ (0 <= extra_n_basis_5lag m')%Z) by (unfold m'; destruct b; split; assumption).
  destruct HN' as (HN' & HE'). cbn [fst snd]. clearbody m'. split; [reflexivity|]. split; [|reflexivity].
  unfold from_hdf5. cbn -[construct]. rewrite model_from_file by lia. rewrite <- HN'. destruct m'. reflexivity.
Qed.
(** A group that holds a pulse model is refused and left as it is; but when saving inverted the model changes. *)
Theorem save_refused m g b : mget g Kprojectors <> None -> snd (to_hdf5 m g b) = (g, false).
Proof. intros H. unfold to_hdf5. cbn [snd items write]. destruct (mget g Kprojectors); [reflexivity | contradiction]. Qed.
(** Other versions are refused. *)
Theorem load_version om1 om2 qr pinv g v : mget g Kversion = Some (Int v) -> v <> 2%Z -> from_hdf5 om1 om2 qr pinv g = None.
Proof.
  intros E N. unfold from_hdf5. rewrite E. destruct (mget g Kprojectors) as [[]|]; try reflexivity. destruct (mget g Kbasis) as [[]|]; try reflexivity. destruct (mget g Kv_dv) as [[]|]; try reflexivity.
  destruct (mget g Ktraining) as [[]|]; try reflexivity. destruct (mget g Kmedian) as [[]|]; try reflexivity. destruct (mget g Ksigma) as [[]|]; try reflexivity.
  destruct (mget g Kfile_name) as [[]|]; try reflexivity. destruct (mget g Kextra) as [[]|]; try reflexivity. destruct (mget g K5lag) as [[]|]; try reflexivity.
  destruct (mget g Kaverage) as [[]|]; try reflexivity. destruct (mget g Kpsd) as [[]|]; try reflexivity. destruct (mget g Kdelta_f) as [[]|]; try reflexivity. destruct (mget g Kautocorr) as [[]|]; try reflexivity.
  rewrite (proj2 (Z.eqb_neq v 2)) by exact N. reflexivity.
Qed.

(** * What does not hold *)

Definition of_rows (r c : nat) (l : list (list R)) : mat := mkMat r c (fun i j => nth j (nth i l []) 0).
Definition ones (n l : nat) : mat := mkMat n l (fun i j => 1).
Lemma ones_ok : om_ok ones.
Proof. intros n l. split; reflexivity. Qed.
(** Training pulses that the model describes exactly leave nothing to sample; what qr fills in need not be independent
    of the given projectors. *)
Theorem extend_dual_refuted : exists om qr pinv P B n T P' B', om_ok om /\ qr_ok qr /\ pinv_ok pinv /\ dual P B /\ additional_projectors om qr pinv P B n T = Some (P', B') /\ nr P' = n /\ ~ dual P' B'.
Proof.
  set (P := of_rows 1 2 [[1; 1]]). set (B := of_rows 2 1 [[1]; [0]]). set (T := B).
  assert (D : dual P B) by (repeat split; intros [|i] [|j] Hi Hj; cbn in *; try lia; unfold entry; cbn; unfold unit_entry; cbn; ring).
  destruct (additional_projectors ones gram_schmidt tr P B 2 T) as [(P', B')|] eqn:E.
  2:{ exfalso. apply extend_refused in E. apply E. cbn. repeat split; lia. }
  exists ones, gram_schmidt, tr, P, B, 2%nat, T, P', B'. split; [exact ones_ok|]. split; [exact gram_schmidt_ok|]. split; [exact tr_pinv|]. split; [exact D|]. split; [exact E|].
  destruct (extend_shape _ _ _ _ _ _ _ _ _ ones_ok gram_schmidt_ok tr_pinv E) as (S1 & S2 & S3 & S4 & _). split; [rewrite S1, S4; reflexivity|].
  rewrite (extend_dual_iff _ _ _ _ _ _ _ _ _ ones_ok gram_schmidt_ok tr_pinv D E). intros K. assert (K1 := K 0%nat 1%nat ltac:(cbn; lia) ltac:(rewrite S4; cbn; lia)).
  destruct (additional_form _ _ _ _ _ _ _ _ _ ones_ok gram_schmidt_ok tr_pinv E) as (_ & _ & _ & [(F & _)|(_ & _ & Q & X & EQ & _ & -> & _)]); [cbn in F; lia|].
  unfold entry in K1. cbn in K1.
  set (Y := range_sample ones (sub T (mul B (mul P T))) (2 - nc B) 1) in *.
  assert (Z : forall s, (s < 2)%nat -> el Y s 0 = 0) by (intros [|[|s]] Hs; try lia; unfold Y; cbn; ring).
  assert (EQ2 : forall s, el Q s 0 = next 2 (fun _ _ => 0) 0 (fun s => el Y s 0) s) by (intros s; rewrite EQ; reflexivity).
  rewrite !EQ2 in K1. unfold next in K1.
  assert (R0 : forall y s, rest 2 (fun _ _ => 0) 0 y s = y s) by (intros; unfold rest, proj; cbn; ring).
  assert (D0 : dot 2 (rest 2 (fun _ _ => 0) 0 (fun s => el Y s 0)) (rest 2 (fun _ _ => 0) 0 (fun s => el Y s 0)) = 0).
  { unfold dot. cbn [msum]. rewrite !R0, !Z by lia. ring. }
  destruct (Req_EM_T _ 0) as [_|C]; [|contradiction]. cbn [first_missing] in K1.
  assert (D1 : dot 2 (rest 2 (fun _ _ => 0) 0 (e 1)) (rest 2 (fun _ _ => 0) 0 (e 1)) = 1) by (unfold dot; cbn [msum]; rewrite !R0; unfold e, unit_entry; cbn; ring).
  destruct (Req_EM_T _ 0) as [C|_]; [lra|]. unfold normalised in K1. rewrite D1, sqrt_1, !R0 in K1. unfold e, unit_entry in K1. cbn in K1. lra.
Qed.
(** Saving an inverted model changes it, and a second save writes other data. *)
Definition small_model : model :=
  mkModel (of_rows 2 2 [[1; 0]; [0; 1]]) (of_rows 2 2 [[1; 0]; [0; 1]]) 2 (of_rows 2 0 []) 1 1 1 "f"%string 0 [] [] [] 1 [].
Theorem save_keeps_refuted : exists m, dual (projectors m) (basis m) /\ ~ like (fst (to_hdf5 m [] true)) m /\
  exists A B, mget (fst (snd (to_hdf5 m [] true))) Kbasis = Some (Mat A) /\ mget (fst (snd (to_hdf5 (fst (to_hdf5 m [] true)) [] true))) Kbasis = Some (Mat B) /\ ~ same A B.
Proof.
  exists small_model. split.
  - repeat split. intros [|[|i]] [|[|j]] Hi Hj; cbn in *; try lia; unfold entry; cbn; unfold unit_entry; cbn; ring.
  - split.
    + intros (_ & (_ & _ & L) & _). assert (X := L 1%nat 1%nat ltac:(cbn; lia) ltac:(cbn; lia)). cbn in X. lra.
    + eexists. eexists. split; [reflexivity|]. split; [reflexivity|]. intros (_ & _ & L). assert (X := L 1%nat 1%nat ltac:(cbn; lia) ltac:(cbn; lia)). cbn in X. lra.
Qed.

(** * Examples *)

(** A basis of one element, extended by one from a training pulse that it does not describe. *)
Definition exP := of_rows 1 2 [[1; 0]].
Definition exB := of_rows 2 1 [[1]; [0]].
Definition exT := of_rows 2 1 [[3]; [4]].
Lemma ex_dual : dual exP exB.
Proof. repeat split; intros [|i] [|j] Hi Hj; cbn in *; try lia; unfold entry; cbn; unfold unit_entry; cbn; ring. Qed.
Lemma ex_sampled i : (i < 2)%nat -> el (sampled ones exP exB 2 exT) i 0 = if (i =? 1)%nat then 64 else 0.
Proof. intros Hi. destruct i as [|[|i]]; [| |lia]; unfold sampled; cbn; ring. Qed.
Lemma ex_independent : independent (sampled ones exP exB 2 exT).
Proof.
  intros z E j Hj. cbn in Hj. assert (j = 0)%nat by lia. subst j. assert (X := E 1%nat ltac:(cbn; lia)).
  change (nc (sampled ones exP exB 2 exT)) with 1%nat in X. cbn [msum] in X. rewrite ex_sampled in X by lia. cbn in X. lra.
Qed.
Example extend_example : exists P' B', additional_projectors ones gram_schmidt tr exP exB 2 exT = Some (P', B') /\ dual P' B' /\ nr P' = 2%nat /\
  forall i, (i < 2)%nat -> residual P' B' (fun s => el exT s 0) i = 0.
Proof.
  destruct (additional_projectors ones gram_schmidt tr exP exB 2 exT) as [(P', B')|] eqn:E.
  2:{ exfalso. apply extend_refused in E. apply E. cbn. repeat split; lia. }
  exists P', B'. split; [reflexivity|]. destruct (extend_dual _ _ _ _ _ _ _ _ _ ones_ok gram_schmidt_ok tr_pinv ex_dual ex_independent E) as (D & S).
  split; [exact D|]. split; [exact S|]. apply (extend_exact ones gram_schmidt tr exP exB 2 exT P' B' _ ones_ok gram_schmidt_ok tr_pinv ex_dual (le_n 2) E).
  exists (fun _ => 4 / 64). intros i Hi. change (nc (sampled ones exP exB 2 exT)) with 1%nat. change (nr (sampled ones exP exB 2 exT)) with 2%nat in Hi. cbn [msum]. rewrite ex_sampled by exact Hi.
  destruct i as [|[|i]]; [| |lia]; unfold residual, modelled; cbn; field.
Qed.
(** A model of three elements with one 5-lag element in addition. *)
Definition exP3 := of_rows 3 5 [[1; 0; 0; 0; 0]; [0; 1; 0; 0; 0]; [0; 0; 1; 0; 0]].
Definition exB3 := of_rows 5 3 [[1; 0; 0]; [0; 1; 0]; [0; 0; 1]; [0; 0; 0]; [0; 0; 0]].
Example model_example : exists P' B', construct ones ones gram_schmidt tr exP3 exB3 4 (of_rows 5 0 []) 1 [1] false = Some (P', B') /\ dual P' B' /\ nr P' = 4%nat.
Proof.
  assert (D : dual exP3 exB3) by (repeat split; intros [|[|[|i]]] [|[|[|j]]] Hi Hj; cbn in *; try lia; unfold entry; cbn; unfold unit_entry; cbn; ring).
  destruct (construct ones ones gram_schmidt tr exP3 exB3 4 (of_rows 5 0 []) 1 [1] false) as [(P', B')|] eqn:E.
  - exists P', B'. split; [reflexivity|].
    destruct (model_dual ones ones gram_schmidt tr exP3 exB3 4 (of_rows 5 0 []) 1 [1] P' B' ones_ok ones_ok gram_schmidt_ok tr_pinv D) as (D' & S); [| | lia | exact E | split; [exact D' | lia]].
    + intros z _ j Hj. cbn in Hj. lia.
    + intros _ P1 B1 F. cbn in F. injection F as <- <-. intros z Z j Hj. change (j < 1)%nat in Hj. assert (j = 0)%nat by lia. subst j.
      assert (X := Z 3%nat ltac:(change (nr (sampled ones exP3 exB3 (Z.to_nat 4) (filters_5lag exP3 (length [1])))) with 5%nat; lia)).
      change (nc (sampled ones exP3 exB3 (Z.to_nat 4) (filters_5lag exP3 (length [1])))) with 1%nat in X. cbn [msum] in X.
      assert (W : el (sampled ones exP3 exB3 (Z.to_nat 4) (filters_5lag exP3 (length [1]))) 3 0 = 1) by (unfold sampled; cbn; ring). rewrite W in X. lra.
  - exfalso. unfold construct in E. cbn -[additional_projectors] in E. apply extend_refused in E. apply E. cbn. repeat split; lia.
Qed.
(** The decomposition of a number, with numpy's sign. *)
Definition svd1 (A : mat) : mat * (nat -> R) * mat := (mkMat 1 1 (fun _ _ => if Rle_dec 0 (el A 0 0) then 1 else -1), fun _ => Rabs (el A 0 0), mkMat 1 1 (fun _ _ => 1)).
Example svd_example : exists u w v, find_svd_randomly ones gram_schmidt svd1 (of_rows 1 1 [[-3]]) 1 2 = Some (u, w, v) /\ -3 = el u 0 0 * w 0%nat * el v 0 0 /\ 0 <= w 0%nat.
Proof.
  set (A := of_rows 1 1 [[-3]]). destruct (find_svd_randomly ones gram_schmidt svd1 A 1 2) as [((u, w), v)|] eqn:E; [|discriminate]. exists u, w, v. split; [reflexivity|].
  assert (X := svd_exact ones gram_schmidt svd1 A 1 2 u w v ones_ok gram_schmidt_ok).
  destruct X as (U1 & U2 & U3 & _ & _ & W & X); [| | exact E |].
  - intros Q HQ. destruct (range_orthonormal _ _ _ _ _ _ ones_ok gram_schmidt_ok HQ) as (Q1 & Q2 & _). cbn in Q1, Q2. unfold svd_ok. cbn [svd1 fst snd nr nc el mul tr]. rewrite Q2. cbn [Nat.min].
    assert (O1 : orthonormal (mkMat 1 1 (fun _ _ => 1))) by (intros [|i] [|j] Hi Hj; cbn in *; try lia; unfold unit_entry; cbn; ring).
    set (a := msum (nr Q) (fun k => el Q k 0 * el A k 0)).
    repeat split; try reflexivity.
    + intros [|i] [|j] Hi Hj; cbn in Hi, Hj; try lia. cbn [nr msum el]. unfold unit_entry. cbn [Nat.eqb]. destruct (Rle_dec 0 a); ring.
    + exact O1.
    + intros i Hi. apply Rabs_pos.
    + intros i j Hi Hj. assert (i = 0)%nat by lia. assert (j = 0)%nat by (cbn in Hj; lia). subst i j. fold a. cbn [msum]. unfold Rabs. destruct (Rle_dec 0 a), (Rcase_abs a); lra.
  - intros j Hj. cbn in Hj. assert (j = 0)%nat by lia. subst j. exists (fun _ => -3 / el (range_sample ones A 1 2) 0 0). intros i Hi. change (Z.to_nat 2) with 2%nat in *. cbn in Hi. assert (i = 0)%nat by lia. subst i.
    change (nc (range_sample ones A 1 2)) with 1%nat. cbn [msum]. assert (Z : el (range_sample ones A 1 2) 0 0 = -243) by (cbn; ring). rewrite Z. cbn. field.
  - assert (N : nc u = 1%nat).
    { unfold find_svd_randomly in E. cbn [find_range_randomly Z.ltb Z.compare] in E. injection E as <- _ _. reflexivity. }
    split; [|apply W; lia]. change (-3) with (el A 0 0). rewrite (X 0%nat 0%nat) by (cbn; lia). rewrite N. cbn. ring.
Qed.
Example save_example : from_hdf5 ones ones gram_schmidt tr (fst (snd (to_hdf5 small_model [] true))) = Some (fst (to_hdf5 small_model [] true)).
Proof. apply save_load; cbn; lia. Qed.
Example labels_example : labels 6 2 = [Const; Deriv; Pulse; Svd 0; Svd 1; Lag 2].
Proof. reflexivity. Qed.

Print Assumptions extend_refused.
Print Assumptions extend_shape.
Print Assumptions extend_dual.
Print Assumptions extend_ignores_old.
Print Assumptions extend_dual_iff.
Print Assumptions extend_no_worse.
Print Assumptions extend_exact.
Print Assumptions model_dual.
Print Assumptions model_refused.
Print Assumptions model_from_file.
Print Assumptions five_lags.
Print Assumptions range_refused.
Print Assumptions range_orthonormal.
Print Assumptions range_inside.
Print Assumptions range_covers.
Print Assumptions svd_exact.
Print Assumptions labels_number.
Print Assumptions labels_which.
Print Assumptions labels_refuted.
Print Assumptions save_keeps.
Print Assumptions save_inverted_changes.
Print Assumptions save_inverted_twice.
Print Assumptions save_inverted_dual.
Print Assumptions save_inverted_modelled.
Print Assumptions save_load.
Print Assumptions save_refused.
Print Assumptions load_version.
Print Assumptions extend_dual_refuted.
Print Assumptions save_keeps_refuted.
