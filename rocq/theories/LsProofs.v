From Coq Require Import Ascii String Bool ZArith NArith PeanoNat Lia List.
From Verif Require Import Kept BitLemmas LjhModel LjhProofs CutModel CutSpec CutProofs CutMaskProofs CutCatProofs StModel StSpec StProofs LsModel LsSpec.
Import ListNotations.

(** * Names *)
Lemma to_name_inj : forall a b, Forall (fun c => (0 <= c < 128)%Z) a -> Forall (fun c => (0 <= c < 128)%Z) b -> to_name a = to_name b -> a = b.
Proof.
  intros a. induction a as [|x a IH]; intros [|y b] A B E; cbn in E; try discriminate; [reflexivity|]. inversion A; inversion B; subst. injection E as E1 E2.
  f_equal; [|now apply IH]. apply (f_equal nat_of_ascii) in E1. rewrite !nat_ascii_embedding in E1 by lia. lia.
Qed.
Lemma to_name_length : forall a, String.length (to_name a) = length a.
Proof. induction a as [|x a IH]; [reflexivity|]. cbn. f_equal. exact IH. Qed.

(** * Bits in a row *)
Definition low (u k : N) : Prop := forall b, N.testbit u b = true <-> (b < k)%N.
Lemma low_available : forall u k p, low u k -> lowest_available u = Some p -> p = k.
Proof.
  intros u k p L H. destruct (lowest_available_spec _ _ H) as [_ F]. destruct (N.lt_trichotomy p k) as [C|[C|C]]; [|exact C|].
  - apply L in C. congruence.
  - pose proof (lowest_available_least _ _ _ H C) as T. apply L in T. lia.
Qed.
Lemma low_add : forall u k, low u k -> low (N.lor u (bit k)) (k + 1).
Proof. intros u k L b. rewrite N.lor_spec, orb_true_iff, (L b). unfold bit. rewrite testbit_bit, N.eqb_eq. lia. Qed.
Lemma low_bool : forall new d u k d' u', low u k -> reg_bool_loop new d u = Some (d', u') -> exists k', low u' k'.
Proof.
  induction new as [|n new IH]; intros d u k d' u' L H; cbn [reg_bool_loop] in H; [injection H as _ <-; eauto|]. destruct (lowest_available u) as [p|] eqn:E; [|discriminate].
  apply (low_available u k) in E; [|exact L]. subst p. eapply IH; [|exact H]. apply low_add, L.
Qed.
(** The bits picked are k, k+1, ... *)
Definition in_row (k : N) (n : nat) : list N := map (fun j => (k + N.of_nat j)%N) (seq 0 n).
Lemma in_row_in : forall k n b, In b (in_row k n) <-> (k <= b < k + N.of_nat n)%N.
Proof.
  intros k n b. unfold in_row. rewrite in_map_iff. split.
  - intros (j & <- & J). apply in_seq in J. lia.
  - intros H. exists (N.to_nat (b - k)). split; [lia|]. apply in_seq. lia.
Qed.
Lemma sorted_above : forall ps k, ForallOrdPairs N.lt ps -> (forall p, In p ps -> (k <= p)%N) -> (forall p q, In p ps -> (k <= q < p)%N -> In q ps) -> ps = in_row k (length ps).
Proof.
  induction ps as [|p ps IH]; intros k S A D; [reflexivity|]. inversion S as [|? ? F S']; subst. rewrite Forall_forall in F.
  assert (p = k).
  { destruct (N.eq_dec p k) as [E|E]; [exact E|]. exfalso. pose proof (A p (or_introl eq_refl)). destruct (D p k (or_introl eq_refl)) as [I|I]; [lia|lia|]. specialize (F k I). lia. }
  subst p. unfold in_row. cbn [length seq map]. rewrite N.add_0_r. f_equal. rewrite (IH (k + 1)%N) at 1; [| exact S'| |].
  - unfold in_row. rewrite <- seq_shift, map_map. apply map_ext. intros j. lia.
  - intros q Q. specialize (F q Q). lia.
  - intros q r Q R. destruct (D q r (or_intror Q)) as [I|I]; [lia|lia|exact I].
Qed.
Lemma picked_row : forall u k ps bm lw masks, low u k -> picked u ps bm lw masks -> ps = in_row k (length ps).
Proof.
  intros u k ps bm lw masks L [_ S F _ D _]. apply sorted_above; [exact S| |].
  - intros p P. destruct (F p P) as [_ T]. destruct (N.lt_ge_cases p k) as [C|C]; [|exact C]. apply L in C. congruence.
  - intros p q P Q. destruct (D p q P) as [T|I]; [lia| |exact I]. apply L in T. lia.
Qed.
Lemma low_row : forall u k ps bm lw masks, low u k -> picked u ps bm lw masks -> low (N.lor u bm) (k + N.of_nat (length ps)).
Proof.
  intros u k ps bm lw masks L P. pose proof (picked_row _ _ _ _ _ _ L P) as E. destruct P as [_ _ _ B _ _]. intros b. rewrite N.lor_spec, orb_true_iff, (L b), (B b).
  assert (I : In b ps <-> (k <= b < k + N.of_nat (length ps))%N) by (rewrite E at 1; apply in_row_in). rewrite I. lia.
Qed.
Lemma low_step : forall o r k, registers o -> low (used r) k -> exists k', low (used (step r o)) k'.
Proof.
  intros o r k R L. unfold step. destruct (try_op o r) as [r'|] eqn:E; [|eauto]. destruct o as [ns|ns|f cs d|f]; try contradiction; cbn [try_op] in E.
  - unfold register_boolean in E. destruct (reg_bool_loop _ _ _) as [[d u]|] eqn:Q; [|discriminate]. injection E as <-. cbn. eapply low_bool; eassumption.
  - unfold register_categorical in E. destruct (in_names f (cdesc r)); [injection E as <-; eauto|]. unfold plan_categorical in E.
    destruct (pick_bits _ (used r) 0 31 []) as [[[bm lw] masks]|] eqn:P; [|discriminate]. injection E as <-. cbn [used].
    apply pick_bits_0 in P as (ps & _ & P). exists (k + N.of_nat (length ps))%N. eapply low_row; eassumption.
Qed.
Lemma low_run : forall ops r k, Forall registers ops -> low (used r) k -> exists k', low (used (run ops r)) k'.
Proof.
  induction ops as [|o ops IH]; intros r k F L; [exists k; exact L|]. inversion F as [|? ? R F']; subst. destruct (low_step o r k R L) as (k' & L'). cbn. exact (IH _ _ F' L').
Qed.
Lemma low_init : exists k, low (used init_registry) k.
Proof.
  apply (low_run _ empty_registry 0%N).
  - repeat (apply Forall_cons; [exact I|]). apply Forall_nil.
  - intros b. cbn. split; [discriminate|lia].
Qed.

(** With such bits the code of a category is its number. *)
Lemma nth_in_row : forall k n j, (j < n)%nat -> nth_error (in_row k n) j = Some (k + N.of_nat j)%N.
Proof. intros k n j J. unfold in_row. rewrite nth_error_map. rewrite (nth_error_nth' _ 0%nat) by (rewrite seq_length; exact J). rewrite seq_nth by exact J. reflexivity. Qed.
Lemma spread_row : forall k n i, (i < 2 ^ N.of_nat n)%N -> spread (in_row k n) 0 i = N.shiftl i k.
Proof.
  intros k n i I. assert (S : ForallOrdPairs N.lt (in_row k n)).
  { unfold in_row. clear. generalize 0%nat. induction n as [|n IH]; intros s; cbn; constructor; [|apply IH]. apply Forall_forall. intros x X. apply in_map_iff in X as (j & <- & J). apply in_seq in J. lia. }
  apply N.bits_inj. intros b. apply eq_true_iff_eq. rewrite (spread_bits _ 0 i b S). split.
  - intros (j & J & T). assert (JL : (j < n)%nat) by (assert (Q : nth_error (in_row k n) j <> None) by congruence; apply nth_error_Some in Q; unfold in_row in Q; now rewrite map_length, seq_length in Q).
    rewrite nth_in_row in J by exact JL. injection J as <-. rewrite N.shiftl_spec_high' by lia. rewrite <- T. f_equal. lia.
  - intros T. destruct (N.lt_ge_cases b k) as [C|C]; [rewrite N.shiftl_spec_low in T by exact C; discriminate|]. rewrite N.shiftl_spec_high' in T by exact C.
    pose proof (proj1 (lt_pow2_bits _ _) I _ T). exists (N.to_nat (b - k)). split; [rewrite nth_in_row by lia; f_equal; lia|]. rewrite <- T. f_equal. lia.
Qed.

(** * Registering the states *)
Lemma dedupe_acc : forall l acc, NoDup (acc ++ l) -> fold_left (fun acc c => if CutModel.mem c acc then acc else acc ++ [c]) l acc = acc ++ l.
Proof.
  induction l as [|c l IH]; intros acc N; cbn; [now rewrite app_nil_r|]. destruct (CutModel.mem c acc) eqn:M.
  - exfalso. apply mem_In in M. apply NoDup_remove_2 in N. apply N. apply in_app_iff. auto.
  - rewrite IH; [now rewrite <- app_assoc|]. now rewrite <- app_assoc.
Qed.
Lemma order_plain : forall cs d, NoDup cs -> ~ In d cs -> category_order cs d = d :: cs.
Proof.
  intros cs d N I. Transparent category_order. unfold category_order, dedupe. rewrite dedupe_acc by exact N. cbn [app]. destruct (CutModel.mem d cs) eqn:M; [apply mem_In in M; contradiction|reflexivity].
Qed.

Lemma registered_row : forall ops cs d ops' f, Forall registers ops -> Forall op_short ops -> op_short (RegC f cs d) -> Forall op_short ops' -> Forall (not_unreg f) ops' ->
  ~ In f (map fst (cdesc (run ops init_registry))) -> try_op (RegC f cs d) (run ops init_registry) <> None ->
  let r := run (ops ++ RegC f cs d :: ops') init_registry in
  CInv r /\ exists m ps k, In (f, m) (cdesc r) /\ described r f m ps (category_order cs d) /\ ps = in_row k (length ps).
Proof.
  intros ops cs d ops' f R O OS O' U New Ok r. set (r0 := run ops init_registry) in *.
  assert (I0 : CInv r0) by (apply run_cinv; [exact O|exact init_cinv]).
  assert (Er : r = run ops' (step r0 (RegC f cs d))) by (unfold r, run; rewrite fold_left_app; reflexivity).
  assert (I1 : CInv (step r0 (RegC f cs d))) by (apply step_cinv; assumption).
  split; [rewrite Er; now apply run_cinv|].
  destruct low_init as (k0 & L0). destruct (low_run ops init_registry k0 R L0) as (k & L). fold r0 in L.
  destruct OS as (Hf & Hcs & Hd). unfold step in *. destruct (try_op (RegC f cs d) r0) as [r1|] eqn:E; [|contradiction]. cbn [try_op] in E.
  destruct (register_new_described f cs d r0 r1 Hf Hcs Hd I0 New E) as (bm & ps & Ec & HD & _).
  assert (RW : ps = in_row k (length ps)).
  { unfold register_categorical in E. destruct (in_names f (cdesc r0)) eqn:EN; [apply in_names_In in EN; contradiction|]. unfold plan_categorical in E.
    destruct (pick_bits _ (used r0) 0 31 []) as [[[bm' lw] masks]|] eqn:P; [|discriminate]. apply pick_bits_0 in P as (ps' & _ & P).
    injection E as <-. cbn [cdesc] in Ec. apply app_inv_head in Ec. injection Ec as _ <-. pose proof (picked_row _ _ _ _ _ _ L P) as RW. destruct P as [_ S' F' B' _ _].
    destruct HD as [S _ B _ _ _ _]. apply sorted_above; [exact S| |].
    - intros p I. apply B, B' in I. rewrite RW in I. apply in_row_in in I. lia.
    - intros p q I Q. apply B, B'. apply B, B' in I. rewrite RW in I |- *. apply in_row_in in I. apply in_row_in. lia. }
  exists bm, ps, k. rewrite Er. destruct (run_keeps ops' r1 f bm ps (category_order cs d)) as [K1 K2]; auto. rewrite Ec. apply in_app_iff. cbn. auto.
Qed.

(** * The codes *)
Definition covers (l : list slice) (i : nat) : Prop := exists s, In s l /\ (fst s <= i < snd s)%nat.
Lemma put_range_length : forall v s c, length (put_range v s c) = length c.
Proof. intros. unfold put_range. rewrite map_length, combine_length, seq_length. apply Nat.min_id. Qed.
Lemma put_range_nth : forall v s c i x, nth_error c i = Some x -> nth_error (put_range v s c) i = Some (if (fst s <=? i)%nat && (i <? snd s)%nat then v else x).
Proof.
  intros v s c i x H. unfold put_range. assert (Hi : (i < length c)%nat) by (apply nth_error_Some; congruence).
  rewrite (map2_combine_nth _ (seq 0 (length c)) c i i x); [reflexivity| |exact H]. rewrite (nth_error_nth' _ 0%nat) by (rewrite seq_length; exact Hi). now rewrite seq_nth.
Qed.
Lemma put_ranges : forall l v c i x, nth_error c i = Some x ->
  exists y, nth_error (fold_left (fun c s => put_range v s c) l c) i = Some y /\ (covers l i -> y = v) /\ (~ covers l i -> y = x) /\ length (fold_left (fun c s => put_range v s c) l c) = length c.
Proof.
  induction l as [|s l IH]; intros v c i x H; cbn [fold_left].
  - exists x. split; [exact H|]. split; [intros (s & [] & _)|]. auto.
  - destruct (IH v (put_range v s c) i _ (put_range_nth v s c i x H)) as (y & Y & A & B & L). exists y. split; [exact Y|].
    rewrite put_range_length in L. destruct ((fst s <=? i)%nat && (i <? snd s)%nat) eqn:E.
    + split; [|split; [|exact L]].
      * intros _. assert (D : covers l i \/ ~ covers l i). { destruct (existsb (fun s => (fst s <=? i)%nat && (i <? snd s)%nat) l) eqn:X.
          - left. apply existsb_exists in X as (t & T & U). apply andb_true_iff in U as [U1 U2]. apply Nat.leb_le in U1. apply Nat.ltb_lt in U2. exists t. auto.
          - right. intros (t & T & U1 & U2). rewrite <- not_true_iff_false, existsb_exists in X. apply X. exists t. split; [exact T|]. apply andb_true_iff. split; [now apply Nat.leb_le|now apply Nat.ltb_lt]. }
        destruct D as [D|D]; auto.
      * intros N. exfalso. apply N. apply andb_true_iff in E as [E1 E2]. apply Nat.leb_le in E1. apply Nat.ltb_lt in E2. exists s. cbn. auto.
    + split; [|split; [|exact L]].
      * intros (t & [<-|T] & U1 & U2); [|apply A; exists t; auto]. exfalso. apply andb_false_iff in E as [E|E]; [apply Nat.leb_gt in E|apply Nat.ltb_ge in E]; lia.
      * intros N. apply B. intros (t & T & U). apply N. exists t. cbn. auto.
Qed.
(** If at most one state of the dictionary covers i. *)
Lemma codes_from : forall d q c i x, nth_error c i = Some x ->
  (forall j j' e e', nth_error d j = Some e -> nth_error d j' = Some e' -> covers (slices_of (snd e)) i -> covers (slices_of (snd e')) i -> j = j') ->
  exists y, nth_error (fold_left put_state (number_from q d) c) i = Some y /\
  (forall j e, nth_error d j = Some e -> covers (slices_of (snd e)) i -> y = (q + N.of_nat j)%N) /\
  ((forall e, In e d -> ~ covers (slices_of (snd e)) i) -> y = x).
Proof.
  induction d as [|e d IH]; intros q c i x H U; cbn [number_from fold_left].
  - exists x. split; [exact H|]. split; [intros [|j] e; discriminate|auto].
  - destruct (put_ranges (slices_of (snd e)) q c i x H) as (y & Y & A & B & _).
    destruct (IH (q + 1)%N _ i y Y) as (z & Z1 & Z2 & Z3).
    { intros j j' e1 e2 J J' C C'. pose proof (U (S j) (S j') e1 e2 J J' C C'). lia. }
    exists z. split; [exact Z1|]. split.
    + intros [|j] e' E C; cbn in E.
      * injection E as <-. rewrite N.add_0_r. rewrite Z3; [now apply A|]. intros e' I C'. apply In_nth_error in I as (j & J). pose proof (U 0%nat (S j) e e' eq_refl J C C'). discriminate.
      * rewrite (Z2 j e' E C). lia.
    + intros N. rewrite Z3 by (intros e' I; apply N; now right). apply B. apply N. now left.
Qed.
Lemma put_state_length : forall q c, length (put_state c q) = length c.
Proof. intros q c. unfold put_state. generalize (slices_of (snd (snd q))). intros l. revert c. induction l as [|s l IH]; intros c; [reflexivity|]. cbn. rewrite IH. apply put_range_length. Qed.
Lemma codes_length : forall d n, length (state_codes d n) = n.
Proof.
  intros d n. unfold state_codes. generalize 1%N. assert (L : length (repeat 0%N n) = n) by apply repeat_length. revert L. generalize (repeat 0%N n).
  induction d as [|e d IH]; intros c L q; [exact L|]. cbn. apply IH. now rewrite put_state_length.
Qed.

(** * The dictionary has the labels in their order *)
Lemma keys_set : forall d k v, map fst (sset d k v) = if StModel.mem k (map fst d) then map fst d else map fst d ++ [k].
Proof.
  induction d as [|[k' v'] d IH]; intros k v; [reflexivity|]. cbn [sset map fst]. unfold StModel.mem. cbn [existsb]. destruct (beq_spec k' k) as [->|N].
  - rewrite beq_refl. reflexivity.
  - rewrite (beq_neq k k') by auto. cbn [orb map fst]. rewrite IH. unfold StModel.mem. destruct (existsb _ _); reflexivity.
Qed.
Lemma keys_slice : forall d k s, map fst (add_slice d k s) = if StModel.mem k (map fst d) then map fst d else map fst d ++ [k].
Proof. intros d k s. unfold add_slice. destruct (sget d k) as [[|]|]; apply keys_set. Qed.
Lemma keys_labels : forall ex n ok labels inds d, length labels = length inds -> (forall x, In x labels -> ok x = negb (StModel.mem x ex)) ->
  map fst (add_all ok (fun x => x) d labels inds n) = apply_excludes ex (map fst d) labels.
Proof.
  intros ex n ok. induction labels as [|x ls IH]; intros [|i js] d L O; try discriminate; [reflexivity|]. cbn [add_all apply_excludes].
  assert (O' : forall y, In y ls -> ok y = negb (StModel.mem y ex)) by (intros y Y; apply O; now right). injection L as L.
  rewrite (O x (or_introl eq_refl)). destruct (StModel.mem x ex); cbn [negb orb]; [now apply IH|]. rewrite IH by assumption. rewrite keys_slice. destruct (StModel.mem x (map fst d)); reflexivity.
Qed.
Lemma nodup_excludes : forall ex labels r, NoDup r -> NoDup (apply_excludes ex r labels).
Proof.
  intros ex. induction labels as [|x ls IH]; intros r N; cbn; [exact N|]. destruct (StModel.mem x ex || StModel.mem x r) eqn:E; [now apply IH|]. apply IH.
  apply orb_false_iff in E as [_ E]. apply mem_false in E. rewrite <- (rev_involutive (r ++ [x])). apply NoDup_rev. rewrite rev_app_distr. cbn. constructor; [now rewrite <- in_rev|now apply NoDup_rev].
Qed.
Lemma sget_entry : forall d j k v, NoDup (map fst d) -> nth_error d j = Some (k, v) -> sget d k = Some v.
Proof.
  induction d as [|[k' v'] d IH]; intros [|j] k v N E; cbn in E; try discriminate.
  - injection E as -> ->. cbn. now rewrite beq_refl.
  - cbn. inversion N; subst. destruct (beq_spec k' k) as [->|NE]; [|eapply IH; eassumption]. exfalso. apply H1. apply nth_error_In in E. change k with (fst (k, v)). now apply in_map.
Qed.
Lemma covers_indices : forall d j k v i, NoDup (map fst d) -> nth_error d j = Some (k, v) -> (covers (slices_of v) i <-> In i (indices d k)).
Proof.
  intros d j k v i N E. unfold indices, slices. rewrite (sget_entry d j k v N E). rewrite in_flat_map. unfold covers. split.
  - intros (s & I & L). exists s. split; [destruct v; exact I|]. apply in_seq. lia.
  - intros (s & I & L). exists s. split; [destruct v; exact I|]. apply in_seq in L. lia.
Qed.

Lemma row_code : forall r f m ps cats k j, described r f m ps cats -> ps = in_row k (length ps) -> (j < length cats)%nat -> code m ps j = N.of_nat j.
Proof.
  intros r f m ps cats k j D R J. unfold code, pattern. pose proof (num_bits_enough (length cats)) as P. rewrite <- (ds_len _ _ _ _ _ D) in P.
  destruct (ps_cons r f m ps cats D) as (p & t & E).
  assert (Hk : p = k) by (rewrite R in E; destruct (length ps); [discriminate|]; unfold in_row in E; cbn in E; injection E as <- _; lia).
  assert (LB : lowest_bit m = k).
  { subst p. destruct D as [D1 D2 D3 _ _ _ _]. rewrite E in D1, D2, D3. apply (lowest_bit_head m k t D1); [apply D2; now left|exact D3]. }
  rewrite LB. rewrite R. rewrite spread_row by lia. rewrite N.shiftr_shiftl_l by lia. rewrite N.sub_diag. apply N.shiftl_0_r.
Qed.

Section States.
Variables (rnd : Z -> Z) (ex : excludes) (f : bytes) (ts : list Z) (xs : list bytes) (us : list Z) (ws : list N).
Let member (i : nat) (x : bytes) : Prop := in_state (fun x => x) (is_excluded ex xs) (map rnd ts) xs (rnd (nth i us 0%Z)) x.
Lemma states_cut : forall ops ops' e r1,
  state_file f ts xs -> nondecreasing (map rnd ts) -> nondecreasing (map rnd us) -> length us = length ws ->
  (forall x, In x xs -> plain_label x) -> (forall x, In x xs -> ~ is_excluded ex xs x -> to_name x <> no_state) ->
  esf_parse rnd f (esf_init ex) = Some e ->
  Forall registers ops -> Forall op_short ops -> Forall op_short ops' -> Forall (not_unreg state_field) ops' ->
  ~ In state_field (map fst (cdesc (run ops init_registry))) -> register_states e (run ops init_registry) = Some r1 ->
  let r := run ops' r1 in ~ In state_field (map fst (bdesc r)) ->
  exists ws', parse_states rnd (Some e) r us ws = Some ws' /\ length ws' = length ws /\
  (forall x, In x xs -> ~ is_excluded ex xs x -> exists sel, select_category r [(state_field, to_name x)] ws' = Some sel /\ selects sel (length ws) (fun i => member i x)) /\
  (exists sel, select_category r [(state_field, no_state)] ws' = Some sel /\ selects sel (length ws) (fun i => forall x, ~ member i x)) /\
  (forall g, In g (fields r) -> fst g <> state_field -> map (field_bits g) ws' = map (field_bits g) ws).
Proof.
  intros ops ops' e r1 SF ST SU LU PL NU He R O O' U New Reg r NB.
  destruct (state_file_lengths f ts xs SF) as (LT & _).
  rewrite (parse_file rnd ex f ts xs SF) in He. injection He as <-. set (e := parsed rnd ex (length f) ts xs) in *. set (labels := unaliased e).
  assert (EL : labels = apply_excludes (resolve ex xs) [] xs) by reflexivity.
  assert (IL : forall x, In x labels <-> In x xs /\ ~ is_excluded ex xs x).
  { intros x. rewrite EL, apply_excludes_in, resolve_spec. cbn. tauto. }
  assert (NL : NoDup labels) by (rewrite EL; apply nodup_excludes; constructor).
  assert (NN : NoDup (map to_name labels)).
  { assert (G : forall l, NoDup l -> (forall x, In x l -> plain_label x) -> NoDup (map to_name l)).
    { induction l as [|a l IH]; intros N P; [constructor|]. cbn. inversion N; subst. constructor; [|apply IH; [assumption|intros x X; apply P; now right]].
      intros I. apply in_map_iff in I as (b & E & I). apply to_name_inj in E; [subst; contradiction|apply P; now right|apply P; now left]. }
    apply G; [exact NL|]. intros x X. apply PL. now apply IL in X. }
  assert (ND : ~ In no_state (map to_name labels)).
  { intros I. apply in_map_iff in I as (b & E & I). apply IL in I as [I1 I2]. exact (NU b I1 I2 E). }
  assert (SH : op_short (RegC state_field (map to_name labels) no_state)).
  { split; [unfold short; cbn; lia|]. split; [|unfold short; cbn; lia]. apply Forall_forall. intros n I. apply in_map_iff in I as (b & <- & I). unfold short. rewrite to_name_length. apply IL in I as [I _]. now apply PL. }
  assert (ER : r = run (ops ++ RegC state_field (map to_name labels) no_state :: ops') init_registry).
  { unfold r, run. rewrite fold_left_app. cbn [fold_left]. f_equal. unfold register_states in Reg. fold labels in Reg. fold (run ops init_registry). unfold step at 1. cbn [try_op]. now rewrite Reg. }
  destruct (registered_row ops (map to_name labels) no_state ops' state_field R O SH O' U New) as (CI & m & ps & k & Hin & HD & HR).
  { cbn [try_op]. unfold register_states in Reg. fold labels in Reg. congruence. }
  rewrite <- ER in CI, Hin, HD. rewrite (order_plain _ _ NN ND) in HD. set (cats := no_state :: map to_name labels) in *.
  assert (HX : XInv r) by apply CI.
  unfold parse_states. rewrite calc_fresh by (cbn; now rewrite map_length). set (d := add_all _ _ _ _ _ _).
  assert (KD : map fst d = labels).
  { unfold d. rewrite (keys_labels (resolve ex xs)).
    - reflexivity.
    - unfold inds_of. cbn. now rewrite !map_length.
    - intros x X. cbn [e parsed allLabels unaliased] in *. apply eq_true_iff_eq. rewrite (unaliased_ok ex xs x X), negb_true_iff, mem_false, resolve_spec. tauto. }
  destruct (partition rnd (fun x => x) f ts xs ex us SF ST SU) as (e2 & d2 & E2 & D2 & K).
  rewrite (parse_file rnd ex f ts xs SF) in E2. injection E2 as <-. fold e in D2. rewrite calc_fresh in D2 by (cbn; now rewrite map_length). fold d in D2. injection D2 as <-.
  assert (MI : forall i x, (i < length ws)%nat -> (member i x <-> In i (indices d x))).
  { intros i x I. split.
    - intros M. eapply in_kept; [apply K| |exact M]. apply in_seq. lia.
    - intros M. apply (kept_in _ _ _ _ (K x)) in M as [_ M]. exact M. }
  assert (ME : forall i a b, member i a -> member i b -> a = b).
  { intros i a b (p & (P1 & P2 & P3) & _ & <-) (q & (Q1 & Q2 & Q3) & _ & <-). destruct (Nat.lt_trichotomy p q) as [C|[->|C]]; [|reflexivity|].
    - specialize (P3 q ltac:(lia)). lia.
    - specialize (Q3 p ltac:(lia)). lia. }
  set (codes := state_codes d (length ws)).
  assert (CL : length codes = length ws) by apply codes_length.
  assert (NK : NoDup (map fst d)) by now rewrite KD.
  assert (CV : forall i j x, (i < length ws)%nat -> nth_error labels j = Some x -> member i x -> nth_error codes i = Some (N.of_nat (S j))).
  { intros i j x I J M. destruct (codes_from d 1%N (repeat 0%N (length ws)) i 0%N) as (y & Y & Y1 & Y2).
    - now apply nth_error_repeat.
    - intros p q [a v] [b w] P Q C C'. cbn [snd] in *. apply (covers_indices d p a v i NK P) in C. apply (covers_indices d q b w i NK Q) in C'. apply MI in C; [|exact I]. apply MI in C'; [|exact I].
      assert (a = b) by (eapply ME; eassumption). subst b. apply (proj1 (NoDup_nth_error _) NK); [rewrite map_length; apply nth_error_Some; congruence|]. rewrite !nth_error_map, P, Q. reflexivity.
    - unfold codes, state_codes. rewrite Y. f_equal. rewrite <- KD, nth_error_map in J. destruct (nth_error d j) as [[a v]|] eqn:Dj; [|discriminate]. cbn in J. injection J as ->.
      rewrite (Y1 j (x, v) Dj); [lia|]. cbn [snd]. apply (covers_indices d j x v i NK Dj). now apply MI. }
  assert (CU : forall i, (i < length ws)%nat -> (forall x, ~ member i x) -> nth_error codes i = Some 0%N).
  { intros i I M. destruct (codes_from d 1%N (repeat 0%N (length ws)) i 0%N) as (y & Y & Y1 & Y2).
    - now apply nth_error_repeat.
    - intros p q [a v] [b w] P Q C C'. cbn [snd] in *. apply (covers_indices d p a v i NK P) in C. apply MI in C; [|exact I]. destruct (M _ C).
    - unfold codes, state_codes. rewrite Y. f_equal. apply Y2. intros [a v] E C. apply In_nth_error in E as (j & J). cbn [snd] in C. apply (covers_indices d j a v i NK J) in C. apply MI in C; [|exact I]. destruct (M _ C). }
  (* every pulse is in a state or in none *)
  assert (MS : forall i, (i < length ws)%nat -> exists j, nth_error codes i = Some (code m ps j) /\ (j < length cats)%nat /\
     ((j = 0%nat /\ forall x, ~ member i x) \/ exists x j', j = S j' /\ nth_error labels j' = Some x /\ member i x)).
  { intros i I. destruct (existsb (fun x => existsb (Nat.eqb i) (indices d x)) labels) eqn:X.
    - apply existsb_exists in X as (x & Lx & X). apply existsb_exists in X as (i' & Hi & Q). apply Nat.eqb_eq in Q. subst i'. apply MI in Hi; [|exact I].
      apply In_nth_error in Lx as (j & J). assert (JL : (S j < length cats)%nat) by (cbn; rewrite map_length; apply -> Nat.succ_lt_mono; apply nth_error_Some; congruence).
      exists (S j). rewrite (row_code r state_field m ps cats k (S j) HD HR JL). split; [eapply CV; eassumption|]. split; [exact JL|]. right. exists x, j. auto.
    - assert (M : forall x, ~ member i x).
      { intros x M. rewrite <- not_true_iff_false, existsb_exists in X. apply X. exists x. split.
        - apply IL. pose proof M as (p & (P1 & _) & P4 & P5). cbn in P5. subst x. split; [|exact P4]. apply nth_In. rewrite map_length in P1. lia.
        - apply existsb_exists. exists i. split; [now apply MI|apply Nat.eqb_refl]. }
      exists 0%nat. assert (JL : (0 < length cats)%nat) by (cbn; lia). rewrite (row_code r state_field m ps cats k 0 HD HR JL). split; [now apply CU|]. split; [exact JL|]. left. auto. }
  unfold cut. cbn [mask_size as_uint32]. rewrite (proj2 (Nat.eqb_eq _ _) CL). cbn [negb]. rewrite (lookup_None _ _ NB), (lookup_f r state_field m HX Hin).
  set (ws' := map _ (combine ws codes)). exists ws'. split; [reflexivity|].
  assert (LW : length ws' = length ws) by (unfold ws'; rewrite map_length, combine_length; lia). split; [exact LW|].
  assert (SEL : forall j c (P : nat -> Prop), nth_error cats j = Some c -> (forall i j', (i < length ws)%nat -> nth_error codes i = Some (code m ps j') -> (j' < length cats)%nat -> (P i <-> j' = j)) ->
     exists sel, select_category r [(state_field, c)] ws' = Some sel /\ selects sel (length ws) P).
  { intros j c P J H. rewrite (select_known r state_field m ps cats HX Hin HD j c _ J). eexists. split; [reflexivity|]. split; [now rewrite map_length|].
    intros i I. destruct (nth_error ws i) as [w|] eqn:Ew; [|apply nth_error_None in Ew; lia]. destruct (MS i I) as (j' & C & JL & _).
    unfold ws'. rewrite nth_error_map, (map2_combine_nth _ ws codes i w (code m ps j') Ew C). cbn [option_map fst snd]. rewrite (set_category_spec r state_field m ps cats HD w j').
    rewrite (H i j' I C JL). split.
    - intros Q. injection Q as Q. apply N.eqb_eq in Q. apply (pattern_inj r state_field m ps cats HD) in Q; [exact Q|exact JL|apply nth_error_Some; congruence].
    - intros ->. now rewrite N.eqb_refl. }
  split; [|split].
  - intros x X NX. assert (Lx : In x labels) by (apply IL; auto). apply In_nth_error in Lx as (j & J).
    apply (SEL (S j) (to_name x)); [unfold cats; change (nth_error (map to_name labels) j = Some (to_name x)); rewrite nth_error_map, J; reflexivity|]. intros i j' I C JL. destruct (MS i I) as (j2 & C2 & JL2 & W). assert (j2 = j') by (eapply (code_inj r state_field m ps cats HD); [exact JL2|exact JL|congruence]). subst j2.
    destruct W as [[-> W]|(y & j3 & -> & Y & M)].
    + split; [intros M; destruct (W _ M)|discriminate].
    + split.
      * intros M'. assert (y = x) by (eapply ME; eassumption). subst y. f_equal. apply (proj1 (NoDup_nth_error _) NL); [apply nth_error_Some; congruence|congruence].
      * intros Q. injection Q as ->. assert (y = x) by congruence. now subst.
  - apply (SEL 0%nat no_state); [reflexivity|]. intros i j' I C JL. destruct (MS i I) as (j2 & C2 & JL2 & W). assert (j2 = j') by (eapply (code_inj r state_field m ps cats HD); [exact JL2|exact JL|congruence]). subst j2.
    destruct W as [[-> W]|(y & j3 & -> & Y & M)]; [tauto|]. split; [intros N; destruct (N _ M)|discriminate].
  - intros g Hg Hgf. assert (Hdisj : disj m (snd g)).
    { unfold fields in Hg. apply in_app_iff in Hg as [Hg|Hg].
      - apply filter_In in Hg as [Hg _]. apply disj_sym. apply (wi_bc r (xi_w r HX) g (state_field, m) Hg Hin).
      - apply (FOP_disj_In disj (cdesc r) (state_field, m) g disj_sym (wi_cc r (xi_w r HX)) Hin Hg). intros E. subst g. cbn in Hgf. congruence. }
    unfold ws'. rewrite map_map. clear - Hdisj CL. revert CL. generalize codes. intros l. revert l. induction ws as [|w v IH]; intros [|x l] L1; cbn in *; try lia; [reflexivity|].
    f_equal; [apply set_category_frame, Hdisj|apply IH; lia].
Qed.
End States.
