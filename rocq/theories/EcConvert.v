(** Proofs about conversions. *)
From Coq Require Import Reals ZArith Bool Ascii Lia Lra Permutation Sorted String List.
From Verif Require Import EntModel SplModel SplSpec SplEval SplMore SplProps DvModel DvSpec DvPower DvDomain DvProofs DvMore DvProps EcModel EcSpec EcProofs EcPoints EcHistory EcCurves.
Import ListNotations.
Local Open Scope R_scope.
Local Open Scope list_scope.

(** * The points at which the inverse is fixed *)
Definition chain (lo hi : R) (l : list R) : Prop := StronglySorted Rlt l /\ forall x, In x l -> lo < x <= hi.
Lemma chain_app a b c l m : chain a b l -> chain b c m -> a <= b -> b <= c -> chain a c (l ++ m).
Proof.
  intros (S1 & H1) (S2 & H2) AB BC. split.
  - induction S1 as [|x l S1 IH F]; cbn [app]; [exact S2|]. constructor.
    + apply IH. intros y Y. apply H1. right. exact Y.
    + apply Forall_app. split; [exact F|]. apply Forall_forall. intros y Y. specialize (H1 x (or_introl eq_refl)). specialize (H2 y Y). lra.
  - intros x X. apply in_app_or in X. destruct X as [X | X]; [specialize (H1 x X) | specialize (H2 x X)]; lra.
Qed.
Lemma chain_linspace a b n : a < b -> (2 <= n)%nat -> chain a b (skipn 1 (linspace a b n)) /\ In b (skipn 1 (linspace a b n)).
Proof.
  intros AB N. unfold linspace. destruct (Nat.eqb_spec n 1) as [E|_]; [lia|]. destruct n as [|n]; [lia|]. cbn [seq map skipn]. replace (S n - 1)%nat with n by lia.
  assert (NP : 0 < INR n) by (apply lt_0_INR; lia). set (h := (b - a) / INR n). assert (HP : 0 < h) by (apply Rdiv_lt_0_compat; lra).
  assert (HB : INR n * h = b - a) by (unfold h; field; lra).
  assert (G : forall k m, (1 <= k)%nat -> (k + m <= S n)%nat -> chain a b (map (fun i => a + INR i * h) (seq k m))).
  { intros k m. revert k. induction m as [|m IH]; intros k K M; cbn [seq map]; [split; [constructor | intros x []]|]. destruct (IH (S k) ltac:(lia) ltac:(lia)) as (I1 & I2).
    assert (B : forall j, (1 <= j <= n)%nat -> a < a + INR j * h <= b).
    { intros j J. assert (0 < INR j) by (apply lt_0_INR; lia). assert (INR j <= INR n) by (apply le_INR; lia). nra. }
    split.
    - constructor; [exact I1|]. apply Forall_forall. intros x X. apply in_map_iff in X. destruct X as (j & <- & J). apply in_seq in J. assert (INR k < INR j) by (apply lt_INR; lia). nra.
    - intros x [<- | X]; [apply B; lia | apply I2, X]. }
  split; [apply G; lia|]. apply in_map_iff. exists n. split; [lra | apply in_seq; lia].
Qed.
Lemma int_of_pos x : 0 <= x -> (0 <= int_of x)%Z.
Proof.
  intro H. unfold int_of. replace (rleb 0 x) with true by (symmetry; apply rleb_true, H). destruct (base_Int_part x) as (B1 & B2). apply le_IZR. apply Rnot_lt_le. intro X.
  assert (Y : (Int_part x <= -1)%Z) by (apply lt_IZR in X; lia). apply IZR_le in Y. lra.
Qed.
Lemma last_cons (l : list R) a b : last (a :: b :: l) 0 = last (b :: l) 0. Proof. reflexivity. Qed.
Lemma sorted_last l : forall a, StronglySorted Rlt (a :: l) -> a <= last (a :: l) 0 /\ forall x, In x (a :: l) -> x <= last (a :: l) 0.
Proof.
  induction l as [|b l IH]; intros a S; [cbn; split; [lra | intros x [<- | []]; lra]|]. rewrite last_cons. inversion S as [|? ? S' F]; subst. destruct (IH b S') as (I1 & I2).
  assert (a < b) by (rewrite Forall_forall in F; apply F; left; reflexivity). split; [lra|]. intros x [<- | X]; [lra | apply I2, X].
Qed.
Lemma between_ok l : forall a, StronglySorted Rlt (a :: l) -> 0 < a -> exists m, between (a :: l) = Some m /\ chain a (last (a :: l) 0) m /\ forall x, In x l -> In x m.
Proof.
  induction l as [|b l IH]; intros a S P; [exists []; split; [reflexivity|]; split; [split; [constructor | intros x []] | intros x []]|]. inversion S as [|? ? S' F]; subst.
  assert (AB : a < b) by (rewrite Forall_forall in F; apply F; left; reflexivity). destruct (IH b S' ltac:(lra)) as (m & M1 & M2 & M3).
  cbn [between]. rewrite (proj2 (req_false a 0)) by lra. set (z := (2 + int_of _)%Z). assert (Z2 : (2 <= z)%Z).
  { unfold z. assert (0 <= int_of (5 / 10 + (b / a - 1) * 100))%Z; [|lia]. apply int_of_pos. assert (1 < b / a) by (apply (Rmult_lt_reg_r a); [exact P|]; replace (b / a * a) with b by (field; lra); lra). lra. }
  replace (z <? 0)%Z with false by (symmetry; apply Z.ltb_ge; lia). change (between (b :: l)) with (between (b :: l)) in M1. cbn [between] in M1 |- *. rewrite M1. eexists. split; [reflexivity|].
  destruct (chain_linspace a b (Z.to_nat z) AB ltac:(lia)) as (C1 & C2). rewrite last_cons. destruct (sorted_last l b S') as (LB & _). split; [exact (chain_app _ _ _ _ _ C1 M2 ltac:(lra) LB)|].
  intros x [<- | X]; apply in_or_app; [left; exact C2 | right; apply M3, X].
Qed.
Lemma sample_ok a l : StronglySorted Rlt (a :: l) -> 0 < a -> exists pts, sample_points (a :: l) = Some pts /\ chain 0 (2 * last (a :: l) 0) pts /\ (forall x, In x pts -> a / 50 <= x) /\ (forall x, In x (a :: l) -> In x pts) /\ (2 <= length pts)%nat.
Proof.
  intros S P. unfold sample_points. destruct (between_ok l a S P) as (m & M1 & M2 & M3). rewrite M1. eexists. split; [reflexivity|]. destruct (sorted_last l a S) as (LA & _). set (z := last (a :: l) 0) in *.
  destruct (chain_linspace 0 a 51 P ltac:(lia)) as (C1 & C2). destruct (chain_linspace z (2 * z) 101 ltac:(lra) ltac:(lia)) as (C3 & _). split.
  - apply (chain_app 0 a); [exact C1 | | lra | lra]. apply (chain_app a z); [exact M2 | exact C3 | exact LA | lra].
  - split.
    + intros x X. apply in_app_or in X. destruct X as [X | X].
      * change (In x (map (fun i => 0 + INR i * ((a - 0) / INR (51 - 1))) (seq 1 50))) in X. apply in_map_iff in X. destruct X as (j & <- & J). apply in_seq in J. assert (1 <= INR j) by (apply (le_INR 1); lia). replace (INR (51 - 1)) with 50 by (cbn; lra). assert (0 < a / 50) by lra. replace ((a - 0) / 50) with (a / 50) by lra. nra.
      * apply in_app_or in X. destruct X as [X | X]; [destruct M2 as (_ & M2); specialize (M2 x X); lra | destruct C3 as (_ & C3); specialize (C3 x X); lra].
    + split; [intros x [<- | X]; apply in_or_app; [left; exact C2 | right; apply in_or_app; left; apply M3, X]|].
      rewrite app_length. change (length (skipn 1 (linspace 0 a 51))) with 50%nat. lia.
Qed.

(** * The curves that a refresh makes *)
Section World.
Variable argsort : list R -> list nat.
Hypothesis sorting : sorts argsort.
Variables parse features : string -> option R.
Variable smoothing : curvetype -> bool -> list R -> list R -> list R -> list R -> option curve.
Notation step := (step argsort parse features smoothing).
Notation run := (run argsort parse features smoothing).
Notation update := (update_converters argsort smoothing).

Definition made_curves (k : curvetype) (ap g : bool) (n : R) (p e dp d : list R) : option (curve * (R -> option R)) :=
  match sample_points p with
  | None => None
  | Some pts =>
      if ap && (3 <=? length p)%nat
      then match smoothing k g p e (positive_errors dp) (positive_errors d) with Some f => Some (f, inverse_curve f pts) | None => None end
      else match exact_curve k n p e with Some f => if gain_ok k p e then Some (call f, inverse_curve (call f) pts) else None | None => None end
  end.
Definition curves_of (c : cal) (m : list point) := made_curves (kind c) (approximate c) (gpr c) (nonlinearity c) (map p_ph m) (map p_energy m) (map p_dph m) (map p_de m).

Lemma strictly_sorted m : (forall a p b q c, m = a ++ p :: b ++ q :: c -> p_ph p <= p_ph q) -> NoDup (map p_ph m) -> StronglySorted Rlt (map p_ph m).
Proof.
  induction m as [|x m IH]; intros H N; cbn [map]; [constructor|]. inversion N as [|? ? NX N']; subst. constructor.
  - apply IH; [|exact N']. intros a p b q c ->. apply (H (x :: a) p b q c eq_refl).
  - apply Forall_forall. intros y Y. apply in_map_iff in Y. destruct Y as (q & <- & Q). destruct (in_split _ _ Q) as (a & b & M). specialize (H [] x a q b ltac:(rewrite M; reflexivity)).
    destruct H as [H | H]; [exact H|]. destruct NX. rewrite H. apply in_map, Q.
Qed.
Lemma strictly_by_height m : StronglySorted Rlt (map p_ph m) -> by_height m m.
Proof.
  intro S. split; [reflexivity|]. intros a p b q c ->. induction a as [|x a IH]; cbn [app map] in S; inversion S as [|? ? S' F]; subst; [|apply IH, S'].
  rewrite Forall_forall in F. apply Rlt_le, F. apply in_map. apply in_elt.
Qed.
Lemma by_height_unique l m m' : NoDup (map p_ph l) -> by_height l m -> by_height l m' -> m = m'.
Proof.
  intros N (P & H) (P' & H'). assert (S : StronglySorted Rlt (map p_ph m)) by (apply strictly_sorted; [exact H | exact (Permutation_NoDup (Permutation_map p_ph (Permutation_sym P)) N)]).
  assert (S' : StronglySorted Rlt (map p_ph m')) by (apply strictly_sorted; [exact H' | exact (Permutation_NoDup (Permutation_map p_ph (Permutation_sym P')) N)]).
  assert (Q : Permutation m m') by (transitivity l; [exact P | symmetry; exact P']). clear - S S' Q. revert m' S' Q. induction m as [|x m IH]; intros [|y m'] S' Q; [reflexivity | apply Permutation_nil in Q; discriminate | symmetry in Q; apply Permutation_nil in Q; discriminate|].
  cbn [map] in *. inversion S as [|? ? S1 F]; subst. inversion S' as [|? ? S2 G]; subst. rewrite Forall_forall in F, G.
  assert (E : x = y).
  { assert (X : In x (y :: m')) by (apply (Permutation_in _ Q); left; reflexivity). assert (Y : In y (x :: m)) by (apply (Permutation_in _ (Permutation_sym Q)); left; reflexivity).
    destruct X as [-> | X]; [reflexivity|]. destruct Y as [-> | Y]; [reflexivity|]. specialize (F _ (in_map p_ph _ _ Y)). specialize (G _ (in_map p_ph _ _ X)). lra. }
  subst y. f_equal. apply (IH S1 m' S2). exact (Permutation_cons_inv Q).
Qed.

Lemma update_made c l : holds c l -> exists m, by_height l m /\
  match curves_of c m with
  | Some (f, g) => exists c', update c = (c', true) /\ ph2e c' = f /\ e2ph c' = g /\ fresh c' = true /\ settings_kept c c' /\
                     names c' = map p_name m /\ phs c' = map p_ph m /\ energies c' = map p_energy m /\ npts c' = length m /\
                     dphs c' = (if approximate c && (3 <=? length m)%nat then positive_errors (map p_dph m) else map p_dph m) /\
                     des c' = (if approximate c && (3 <=? length m)%nat then positive_errors (map p_de m) else map p_de m)
  | None => snd (update c) = false /\ fresh (fst (update c)) = fresh c
  end.
Proof.
  intro H. destruct (sorted_holds argsort sorting c l H) as (m & B & HM). exists m. split; [exact B|]. unfold update_converters, curves_of, made_curves.
  assert (K : settings_kept c (sorted_points argsort c)) by (repeat split). assert (F : fresh (sorted_points argsort c) = fresh c) by reflexivity. set (d := sorted_points argsort c) in *. clearbody d. destruct HM as (M1 & M2 & M3 & M4 & M5 & M6).
  destruct K as (K1 & K2 & K3 & K4). rewrite ?K1, ?K2, ?K3, ?K4, ?M2, ?M3, ?M4, ?M5, ?M6, map_length. destruct (sample_points (map p_ph m)) as [pts|]; [|split; [reflexivity | exact F]].
  destruct (approximate c && (3 <=? length m)%nat) eqn:AP.
  - unfold with_points. cbn [kind gpr phs energies dphs des fst snd fresh]. rewrite ?K1, ?K3, ?M2, ?M3, ?M4, ?M5. destruct (smoothing _ _ _ _ _ _) as [f|]; [|split; [reflexivity | exact F]].
    eexists. split; [reflexivity|]. cbn. repeat split; assumption.
  - destruct (exact_curve _ _ _ _) as [f|]; [|split; [reflexivity | exact F]]. destruct (gain_ok _ _ _); [|split; [reflexivity | exact F]].
    eexists. split; [reflexivity|]. cbn. repeat split; assumption.
Qed.

Lemma positive_errors_again l : positive_errors (positive_errors l) = positive_errors l.
Proof.
  unfold positive_errors at 2 3. destruct (existsb (fun x => rleb x 0) l) eqn:E; [|unfold positive_errors; rewrite E; reflexivity].
  destruct (filter (fun x => rltb 0 x) l) as [|y pos] eqn:P.
  - unfold positive_errors. rewrite map_map. destruct (existsb (fun x => rleb x 0) (map (fun _ => 0) l)); [|reflexivity].
    replace (filter (fun x => rltb 0 x) (map (fun _ => 0) l)) with (@nil R); [reflexivity|]. symmetry. clear. induction l as [|x l IH]; cbn [map filter]; [reflexivity|].
    replace (rltb 0 0) with false; [exact IH|]. symmetry. apply not_true_is_false. rewrite rltb_true. lra.
  - unfold positive_errors. replace (existsb _ (map _ l)) with false; [reflexivity|]. symmetry. apply not_true_is_false. intro X. apply existsb_exists in X. destruct X as (x & X1 & X2).
    apply rleb_true in X2. apply in_map_iff in X1. destruct X1 as (z & <- & Z). destruct (rleb z 0) eqn:RZ.
    + assert (A : forall q, In q (y :: pos) -> 0 < q) by (intros q Q; rewrite <- P in Q; apply filter_In in Q; apply rltb_true, Q). unfold rmin_list in X2. cbn [hd] in X2.
      assert (G : forall w, (forall q, In q w -> 0 < q) -> 0 < fold_right Rmin y w).
      { induction w as [|q w IHw]; intro W; cbn [fold_right]; [apply A; left; reflexivity|]. apply Rmin_pos; [apply W; left; reflexivity | apply IHw; intros r R; apply W; right; exact R]. }
      specialize (G (y :: pos) A). lra.
    + apply rleb_true in X2. congruence.
Qed.

(** * The cached curves are those that a refresh would make *)
Definition current (c : cal) : Prop := fresh c = true -> NoDup (phs c) -> phs c = [] \/ forall l, holds c l -> forall m, by_height l m -> curves_of c m = Some (ph2e c, e2ph c).

Lemma curves_same c c' m m' : settings_kept c c' -> map p_ph m = map p_ph m' -> map p_energy m = map p_energy m' ->
  (map p_dph m' = map p_dph m \/ (approximate c && (3 <=? length m)%nat = true /\ map p_dph m' = positive_errors (map p_dph m))) ->
  (map p_de m' = map p_de m \/ (approximate c && (3 <=? length m)%nat = true /\ map p_de m' = positive_errors (map p_de m))) -> curves_of c m = curves_of c' m'.
Proof.
  intros (K1 & K2 & K3 & K4) E1 E2 E3 E4. unfold curves_of, made_curves. rewrite K1, K2, K3, K4, <- E1, <- E2, map_length.
  assert (Q : approximate c && (3 <=? length m)%nat = true -> positive_errors (map p_dph m') = positive_errors (map p_dph m) /\ positive_errors (map p_de m') = positive_errors (map p_de m)).
  { intros _. split; [destruct E3 as [-> | (_ & ->)] | destruct E4 as [-> | (_ & ->)]]; rewrite ?positive_errors_again; reflexivity. }
  destruct (sample_points _); [|reflexivity]. destruct (approximate c && (3 <=? length m)%nat); [|reflexivity]. destruct (Q eq_refl) as (-> & ->). reflexivity.
Qed.
Lemma update_current c l : holds c l -> forall c', update c = (c', true) -> current c'.
Proof.
  intros H c' U F N. right. intros l' H' m' B'. destruct (update_made c l H) as (m & B & X). destruct (curves_of c m) as [[f g]|] eqn:C; [|destruct X as (X & _); rewrite U in X; discriminate].
  destruct X as (c2 & U2 & P & Q & F2 & K & M1 & M2 & M3 & M4 & M5 & M6). rewrite U in U2. assert (c2 = c') by (inversion U2; reflexivity). subst c2. clear U2. rewrite P, Q, <- C.
  pose proof H' as (A1 & A2 & A3 & A4 & A5 & A6).
  assert (E : m' = l').
  { apply (by_height_unique l'); [rewrite <- A2; exact N | exact B'|]. apply strictly_by_height. rewrite <- A2, M2. apply strictly_sorted; [apply B|]. rewrite <- M2. exact N. }
  subst m'. symmetry. apply curves_same; [exact K | congruence | congruence | |].
  - rewrite A4 in M5. rewrite M5. destruct (approximate c && (3 <=? length m)%nat); auto.
  - rewrite A5 in M6. rewrite M6. destruct (approximate c && (3 <=? length m)%nat); auto.
Qed.

Lemma current_stale c : fresh c = false -> current c. Proof. intros F X. congruence. Qed.
Lemma remove_idx_same c i : fst (remove_idx c i) = c \/ fresh (fst (remove_idx c i)) = false.
Proof. unfold remove_idx. destruct (i <? length (names c))%nat; [right | left]; reflexivity. Qed.
Lemma remove_name_same c s : fst (remove_name c s) = c \/ fresh (fst (remove_name c s)) = false.
Proof. unfold remove_name. destruct (index_of s (names c)); [apply remove_idx_same | left; reflexivity]. Qed.
Lemma remove_names_same l : forall c, fst (remove_names c l) = c \/ fresh (fst (remove_names c l)) = false.
Proof.
  induction l as [|s l IH]; intro c; cbn [remove_names]; [left; reflexivity|]. pose proof (remove_name_same c s) as R. destruct (remove_name c s) as [c' [|]]; cbn [fst] in *; [|exact R].
  destruct R as [-> | R]; [apply IH|]. destruct (IH c') as [-> | I]; auto.
Qed.
Lemma remove_idxs_same l : forall c, fst (remove_idxs c l) = c \/ fresh (fst (remove_idxs c l)) = false.
Proof.
  induction l as [|s l IH]; intro c; cbn [remove_idxs]; [left; reflexivity|]. pose proof (remove_idx_same c s) as R. destruct (remove_idx c s) as [c' [|]]; cbn [fst] in *; [|exact R].
  destruct R as [-> | R]; [apply IH|]. destruct (IH c') as [-> | I]; auto.
Qed.
Lemma add_stale c pht energy name pe ee ow : fresh (fst (add_point argsort parse features c pht energy name pe ee ow)) = false.
Proof.
  unfold add_point. destruct (match energy with inl e => _ | inr s => _ end) as [[e n]|]; [|reflexivity]. cbv zeta. destruct (match _ with Some i => Some i | None => _ end); [destruct ow|]; reflexivity.
Qed.
Lemma same_type_spec a b : same_type a b = true <-> a = b.
Proof. unfold same_type. rewrite String.eqb_eq. split; [|intros ->; reflexivity]. destruct a, b; intro E; try reflexivity; discriminate E. Qed.

Lemma made_same_exact k ap g n n' p e dp d : (k = Loglog -> n' = n) -> made_curves k ap g n' p e dp d = made_curves k ap g n p e dp d.
Proof.
  intros H. unfold made_curves. destruct (sample_points p); [|reflexivity]. destruct (ap && (3 <=? length p)%nat); [reflexivity|]. replace (exact_curve k n' p e) with (exact_curve k n p e); [reflexivity|].
  destruct (curvetype_eq_dec k Loglog) as [-> | NL]; [rewrite H; reflexivity|]. destruct k; try congruence; destruct p as [|p1 [|p2 p]]; destruct e as [|e1 [|e2 e]]; reflexivity.
Qed.
Lemma refreshed_current c l : holds c l -> current c -> current (fst (refreshed argsort smoothing c)).
Proof.
  intros H C. unfold refreshed. destruct (fresh c) eqn:F; [exact C|]. destruct (update c) as [c' [|]] eqn:U; cbn [fst]; [exact (update_current c l H c' U)|].
  apply current_stale. destruct (update_holds argsort sorting smoothing c l H) as (c2 & b & m & n & U2 & _ & _ & _ & FB & _). rewrite U in U2. inversion U2; subst. rewrite FB by reflexivity. exact F.
Qed.
Lemma step_current c l o : holds c l -> current c -> current (step c o).
Proof.
  intros H C. destruct o as [pht energy name pe ee ow|s|s|e de|n|b|b|a|x der|e]; cbn [EcModel.step].
  - apply current_stale, add_stale.
  - destruct (remove_name_same c s) as [-> | F]; [exact C | apply current_stale, F].
  - unfold remove_prefix. destruct (remove_names_same (filter (starts_with s) (names c)) c) as [-> | F]; [exact C | apply current_stale, F].
  - unfold remove_energy. destruct (remove_idxs_same (positions (fun x => rltb (Rabs (x - e)) de) 0 (energies c)) c) as [-> | F]; [exact C | apply current_stale, F].
  - intros F N. cbn [set_nonlinearity fresh phs] in F, N. apply andb_true_iff in F. destruct F as (F & G). destruct (C F N) as [E | E]; [left; exact E | right]. intros l' H' m B. cbn [set_nonlinearity ph2e e2ph]. rewrite <- (E l' H' m B).
    unfold curves_of. cbn [set_nonlinearity kind approximate gpr nonlinearity]. apply made_same_exact. intros K. rewrite (proj2 (same_type_spec _ _) K) in G. cbn in G. rewrite negb_involutive in G. apply req_spec in G. exact G.
  - intros F N. cbn [set_use_approximation fresh phs] in F, N. apply andb_true_iff in F. destruct F as (F & G). apply eqb_prop in G. subst b. destruct (C F N) as [E | E]; [left; exact E | right]. exact E.
  - intros F N. cbn [set_GPR fresh phs] in F, N. apply andb_true_iff in F. destruct F as (F & G). apply eqb_prop in G. subst b. destruct (C F N) as [E | E]; [left; exact E | right]. exact E.
  - unfold set_curvetype. destruct (type_of a) as [k|]; [|exact C]. cbn [fst]. intros F N. cbn [fresh phs] in F, N. apply andb_true_iff in F. destruct F as (F & G). apply same_type_spec in G. subst k. destruct (C F N) as [E | E]; [left; exact E | right]. exact E.
  - unfold ph2energy. pose proof (refreshed_current c l H C) as R. destruct (refreshed argsort smoothing c) as [c' [|]]; exact R.
  - unfold energy2ph. pose proof (refreshed_current c l H C) as R. destruct (refreshed argsort smoothing c) as [c' [|]]; exact R.
Qed.
Lemma run_current os : forall c l, holds c l -> current c -> current (run c os).
Proof.
  induction os as [|o os IH]; intros c l H C; [exact C|]. cbn [EcModel.run fold_left]. destruct (step_effect argsort sorting parse features smoothing c l o H) as (m & HM & _).
  exact (IH (step c o) m HM (step_current c l o H C)).
Qed.
Lemma new_current nonlin a ap g c : new nonlin a ap g = Some c -> current c.
Proof. unfold new. destruct (type_of a) as [k|]; [|discriminate]. intros E. apply some_inj in E. subst c. intros _ _. left. reflexivity. Qed.

(** Without points the curves are those of the constructor. *)
Definition blank (c : cal) : Prop := fresh c = true -> phs c = [] -> ph2e c = default_ph2e /\ e2ph c = fun e => Some e.
Lemma blank_stale c : fresh c = false -> blank c. Proof. intros F X. congruence. Qed.
Lemma refreshed_blank c l : holds c l -> blank c -> blank (fst (refreshed argsort smoothing c)).
Proof.
  intros H B. unfold refreshed. destruct (fresh c) eqn:F; [exact B|]. destruct (update_made c l H) as (m & BH & X). destruct (curves_of c m) as [[f g]|] eqn:C.
  - destruct X as (c' & U & _ & _ & _ & _ & _ & M2 & _). rewrite U. cbn [fst]. intros _ P. rewrite M2 in P. unfold curves_of, made_curves in C. rewrite P in C. discriminate C.
  - destruct X as (_ & X). apply blank_stale. rewrite X. exact F.
Qed.
Lemma step_blank c l o : holds c l -> blank c -> blank (step c o).
Proof.
  intros H B. destruct o as [pht energy name pe ee ow|s|s|e de|n|b|b|a|x der|e]; cbn [EcModel.step].
  - apply blank_stale, add_stale.
  - destruct (remove_name_same c s) as [-> | F]; [exact B | apply blank_stale, F].
  - unfold remove_prefix. destruct (remove_names_same (filter (starts_with s) (names c)) c) as [-> | F]; [exact B | apply blank_stale, F].
  - unfold remove_energy. destruct (remove_idxs_same (positions (fun x => rltb (Rabs (x - e)) de) 0 (energies c)) c) as [-> | F]; [exact B | apply blank_stale, F].
  - intros F P. cbn in F. apply andb_true_iff in F. exact (B (proj1 F) P).
  - intros F P. cbn in F. apply andb_true_iff in F. exact (B (proj1 F) P).
  - intros F P. cbn in F. apply andb_true_iff in F. exact (B (proj1 F) P).
  - unfold set_curvetype. destruct (type_of a) as [k|]; [|exact B]. cbn [fst]. intros F P. cbn [fresh phs] in F, P. apply andb_true_iff in F. exact (B (proj1 F) P).
  - unfold ph2energy. pose proof (refreshed_blank c l H B) as R. destruct (refreshed argsort smoothing c) as [c' [|]]; exact R.
  - unfold energy2ph. pose proof (refreshed_blank c l H B) as R. destruct (refreshed argsort smoothing c) as [c' [|]]; exact R.
Qed.
Lemma run_blank os : forall c l, holds c l -> blank c -> blank (run c os).
Proof.
  induction os as [|o os IH]; intros c l H C; [exact C|]. cbn [EcModel.run fold_left]. destruct (step_effect argsort sorting parse features smoothing c l o H) as (m & HM & _).
  exact (IH (step c o) m HM (step_blank c l o H C)).
Qed.
Lemma new_blank nonlin a ap g c : new nonlin a ap g = Some c -> blank c.
Proof. unfold new. destruct (type_of a) as [k|]; [|discriminate]. intros E. apply some_inj in E. subst c. intros _ _. split; reflexivity. Qed.

(** What a conversion gives. *)
Lemma convert_value c l : holds c l -> current c -> NoDup (map p_ph l) -> l <> [] -> exists m, by_height l m /\ forall x der e,
  snd (ph2energy argsort smoothing c x der) = option_map (fun fg => fst fg x der) (curves_of c m) /\ snd (energy2ph argsort smoothing c e) = option_map (fun fg => snd fg e) (curves_of c m).
Proof.
  intros H C N NE. destruct (update_made c l H) as (m & B & X). exists m. split; [exact B|]. intros x der e. unfold ph2energy, energy2ph, refreshed. destruct (fresh c) eqn:F.
  - pose proof H as (_ & A2 & _). destruct (C F ltac:(rewrite A2; exact N)) as [E | E]; [rewrite A2 in E; destruct l; [contradiction | discriminate]|]. rewrite (E l H m B). split; reflexivity.
  - destruct (curves_of c m) as [[f g]|].
    + destruct X as (c' & -> & P & Q & _). cbn [snd option_map fst]. rewrite P, Q. split; reflexivity.
    + destruct X as (X & _). destruct (update c) as [c' b]. cbn in X. subst b. split; reflexivity.
Qed.
End World.
