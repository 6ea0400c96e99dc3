(** Copying, appending and truncating LJH files; segments. *)
From Coq Require Import ZArith Ascii String Bool QArith QArith.Qcanon Lia List.
From Coq Require Import DecimalZ.
From Verif Require Import LjhModel LjhSpec LjhProofs.
Import ListNotations.
Open Scope Z_scope.

(** * Reading and writing single pulses *)

Lemma np_index_some n i k : np_index n i = Some k -> (k < n)%nat.
Proof.
  unfold np_index. destruct ((0 <=? i) && (i <? Z.of_nat n)) eqn:E.
  - apply andb_true_iff in E. destruct E as [A B]. apply Z.leb_le in A. apply Z.ltb_lt in B.
    intros [= <-]. lia.
  - destruct ((- Z.of_nat n <=? i) && (i <? 0)) eqn:F; [|discriminate].
    apply andb_true_iff in F. destruct F as [A B]. apply Z.leb_le in A. apply Z.ltb_lt in B.
    intros [= <-]. lia.
Qed.

Lemma np_index_nat n i : (i < n)%nat -> np_index n (Z.of_nat i) = Some i.
Proof.
  intros. unfold np_index.
  replace ((0 <=? Z.of_nat i) && (Z.of_nat i <? Z.of_nat n)) with true
    by (symmetry; apply andb_true_iff; split; [apply Z.leb_le | apply Z.ltb_lt]; lia).
  now rewrite Nat2Z.id.
Qed.

Lemma np_index_out n i : (n <= i)%nat -> np_index n (Z.of_nat i) = None.
Proof.
  intros. unfold np_index.
  replace ((0 <=? Z.of_nat i) && (Z.of_nat i <? Z.of_nat n)) with false
    by (symmetry; apply andb_false_iff; right; apply Z.ltb_ge; lia).
  replace ((- Z.of_nat n <=? Z.of_nat i) && (Z.of_nat i <? 0)) with false
    by (symmetry; apply andb_false_iff; right; apply Z.ltb_ge; lia).
  reflexivity.
Qed.

Lemma samples_valid o i : is_bytes (body o) -> (i < nPulses o)%nat ->
  length (samples o i) = nSamples o /\ Forall (fun s => 0 <= s < 65536) (samples o i).
Proof.
  intros B Hi. unfold samples. split; [now rewrite map_length, seq_length|].
  rewrite Forall_forall. intros x Hx. apply in_map_iff in Hx. destruct Hx as (j & <- & Hj). apply in_seq in Hj.
  assert (Br : is_bytes (rec_bytes o i)) by now apply field_is_bytes.
  pose proof (le_value_bound (field (rec_bytes o i) (rec_hdr o + 2 * j) 2) (field_is_bytes _ _ _ Br)) as H.
  rewrite field_length in H.
  - exact H.
  - rewrite rec_bytes_length by assumption. unfold rec_hdr, pulse_size. destruct (v22 o); lia.
Qed.

Lemma read_pulse_valid o i p : is_bytes (body o) -> read_pulse o i = Some p -> storable p ->
  valid_pulse (nSamples o) p.
Proof.
  intros B R S. unfold read_pulse in R. destruct (np_index (nPulses o) i) as [k|] eqn:K; [|discriminate].
  destruct (usec o k) as [t|]; [|discriminate]. injection R as <-.
  apply np_index_some in K. destruct S as [S1 S2]. cbn [p_sub p_usec] in *.
  destruct (samples_valid o k B K) as [L F]. unfold valid_pulse. cbn [p_sub p_usec p_data].
  repeat split; auto; lia.
Qed.

Lemma write_selected o l ps : selected o l ps -> Forall storable ps ->
  write_pulses o l = (flat_map record_bytes ps, true).
Proof.
  induction 1; intros S; auto. inversion S; subst. cbn [write_pulses flat_map].
  unfold helper_write_pulse. rewrite H, write_record by assumption. now rewrite IHForall2.
Qed.

Lemma selected_valid o l ps : is_bytes (body o) -> selected o l ps -> Forall storable ps ->
  Forall (valid_pulse (nSamples o)) ps.
Proof.
  intros B. induction 1; intros S; auto. inversion S; subst. constructor; auto.
  eapply read_pulse_valid; eauto.
Qed.

Lemma read_pulse_nth o i : v22 o = true -> (i < nPulses o)%nat ->
  read_pulse o (Z.of_nat i) = Some (nth i (all_pulses o) (mkPulse 0 0 [])).
Proof.
  intros V Hi. unfold read_pulse. rewrite np_index_nat by assumption.
  unfold all_pulses.
  set (g := fun i0 : nat => mkPulse (subframecount o i0)
         (match usec o i0 with Some t => t | None => 0 end) (samples o i0)).
  rewrite (nth_indep _ _ (g 0%nat)) by (rewrite map_length, seq_length; assumption).
  rewrite map_nth, seq_nth by assumption. cbn [Nat.add]. unfold g.
  unfold usec. rewrite V. reflexivity.
Qed.

(** Negative indices count from the end; others outside the file fail. *)
Lemma read_pulse_index o i : v22 o = true ->
  let n := Z.of_nat (nPulses o) in
  (0 <= i < n -> read_pulse o i = nth_error (all_pulses o) (Z.to_nat i)) /\
  (- n <= i < 0 -> read_pulse o i = nth_error (all_pulses o) (Z.to_nat (n + i))) /\
  (i < - n \/ n <= i -> read_pulse o i = None).
Proof.
  intros V n.
  assert (G : forall k, (k < nPulses o)%nat -> read_pulse o (Z.of_nat k) = nth_error (all_pulses o) k).
  { intros k K. rewrite read_pulse_nth by assumption. symmetry. apply nth_error_nth'. now rewrite nPulses_all. }
  split; [|split].
  - intros H. rewrite <- G by lia. f_equal. lia.
  - intros H. rewrite <- G by lia. unfold read_pulse. rewrite np_index_nat by lia. unfold np_index. fold n.
    destruct (Z.leb_spec 0 i); [lia|]. cbn [andb].
    destruct (Z.leb_spec (- n) i); [|lia]. destruct (Z.ltb_spec i 0); [|lia]. reflexivity.
  - intros H. unfold read_pulse, np_index. fold n.
    destruct (Z.leb_spec 0 i), (Z.ltb_spec i n), (Z.leb_spec (- n) i), (Z.ltb_spec i 0); cbn [andb]; try lia; reflexivity.
Qed.

Lemma forall2_seq {A : Type} (P : nat -> A -> Prop) (d : A) (l : list A) :
  (forall i, (i < length l)%nat -> P i (nth i l d)) -> Forall2 P (seq 0 (length l)) l.
Proof.
  assert (G : forall l s, (forall i, (i < length l)%nat -> P (s + i)%nat (nth i l d)) ->
            Forall2 P (seq s (length l)) l).
  { clear l. induction l as [|x l IH]; intros s H; cbn; constructor.
    - specialize (H 0%nat). cbn in H. rewrite Nat.add_0_r in H. apply H. lia.
    - apply IH. intros i Hi. specialize (H (S i)). cbn in H.
      replace (S s + i)%nat with (s + S i)%nat by lia. apply H. lia. }
  intros H. apply G. exact H.
Qed.

Lemma forall2_map_l {A B C : Type} (f : A -> B) (P : B -> C -> Prop) l m :
  Forall2 (fun a c => P (f a) c) l m -> Forall2 P (map f l) m.
Proof. induction 1; cbn; constructor; auto. Qed.

Lemma selected_all o : v22 o = true -> selected o (map Z.of_nat (seq 0 (nPulses o))) (all_pulses o).
Proof.
  intros V. unfold selected. apply forall2_map_l. rewrite <- nPulses_all.
  apply (forall2_seq (fun i p => read_pulse o (Z.of_nat i) = Some p) (mkPulse 0 0 [])).
  intros i Hi. rewrite nPulses_all in Hi. now apply read_pulse_nth.
Qed.

Lemma is_bytes_body fl f o : ljh_open fl f = Some o -> is_bytes f -> is_bytes (body o).
Proof.
  intros O B. apply open_some in O. destruct O as (_ & -> & _).
  unfold is_bytes in *. rewrite Forall_forall in *. intros x Hx. apply B.
  rewrite <- (firstn_skipn (hsize o) f). apply in_or_app. now right.
Qed.

Lemma firstn_seq k : forall s n, firstn k (seq s n) = seq s (Nat.min k n).
Proof. induction k; intros s [|n]; cbn; auto. f_equal. apply IHk. Qed.

(** * Appending *)

Lemma file_split fl f o : ljh_open fl f = Some o -> f = firstn (hsize o) f ++ body o.
Proof. intros O. apply open_some in O. destruct O as (_ & -> & _). symmetry. apply firstn_skipn. Qed.

Lemma open_append fl f o c : ljh_open fl f = Some o -> ends_in_newline (firstn (hsize o) f) ->
  ljh_open fl (f ++ c) = Some (with_body o (hsize o) (body o ++ c)).
Proof.
  intros O NL. rewrite (file_split _ _ _ O) at 1. rewrite <- app_assoc. now apply open_new_body.
Qed.

Lemma append_reads fl src dest o od l ps :
  ljh_open fl src = Some o -> is_bytes src ->
  ljh_open fl dest = Some od -> is_bytes dest -> v22 od = true -> nSamples od = nSamples o ->
  ends_in_newline (firstn (hsize od) dest) -> (length (body od) mod pulse_size od = 0)%nat ->
  selected o l ps -> Forall storable ps ->
  exists f o', append_traces fl src dest (Some l) = (f, true) /\ ljh_open fl f = Some o' /\
     same_header od o' /\ all_pulses o' = all_pulses od ++ ps.
Proof.
  intros O B Od Bd V N NL M S St. unfold append_traces. rewrite O, (write_selected _ _ _ S St).
  eexists _, _. split; [reflexivity|]. split; [exact (open_append _ _ _ _ Od NL)|]. split; [apply with_body_same|].
  assert (Hb : body od = flat_map record_bytes (all_pulses od)).
  { rewrite <- records_body; auto; [|eapply is_bytes_body; eauto].
    unfold nPulses. rewrite firstn_all2; auto.
    assert (P : pulse_size od <> 0%nat) by (unfold pulse_size; destruct (v22 od); lia).
    pose proof (Nat.div_mod (length (body od)) _ P). lia. }
  apply (body_records _ _ []).
  - exact V.
  - cbn [with_body body]. rewrite Hb at 1. now rewrite flat_map_app, app_nil_r.
  - cbn [with_body nSamples]. apply Forall_app. split.
    + apply records_valid; auto. eapply is_bytes_body; eauto.
    + rewrite N. eapply selected_valid; eauto. eapply is_bytes_body; eauto.
  - unfold pulse_size. cbn. destruct (v22 od); lia.
Qed.

Lemma append_all fl src dest o od :
  ljh_open fl src = Some o -> is_bytes src -> v22 o = true ->
  ljh_open fl dest = Some od -> is_bytes dest -> v22 od = true -> nSamples od = nSamples o ->
  ends_in_newline (firstn (hsize od) dest) -> (length (body od) mod pulse_size od = 0)%nat ->
  Forall storable (all_pulses o) ->
  exists f o', append_traces fl src dest None = (f, true) /\ ljh_open fl f = Some o' /\
     same_header od o' /\ all_pulses o' = all_pulses od ++ all_pulses o.
Proof.
  intros O B Vo Od Bd V N NL M St.
  destruct (append_reads fl src dest o od (map Z.of_nat (seq 0 (nPulses o))) (all_pulses o))
    as (f & o' & A & R); auto.
  - now apply selected_all.
  - exists f, o'. split; auto. unfold append_traces in *. rewrite O in *. exact A.
Qed.

(** Whatever happens during an append, the records already in the file stay readable. *)
Lemma append_keeps fl src dest od pulses :
  ljh_open fl dest = Some od -> ends_in_newline (firstn (hsize od) dest) ->
  exists o' more, ljh_open fl (fst (append_traces fl src dest pulses)) = Some o' /\
     same_header od o' /\ all_pulses o' = all_pulses od ++ more.
Proof.
  intros Od NL.
  assert (G : exists c, fst (append_traces fl src dest pulses) = dest ++ c).
  { unfold append_traces. destruct (ljh_open fl src) as [o|].
    - destruct (write_pulses o _) as [b ok]. now exists b.
    - exists []. now rewrite app_nil_r. }
  destruct G as [c ->]. set (o' := with_body od (hsize od) (body od ++ c)).
  exists o', (skipn (nPulses od) (all_pulses o')). split; [exact (open_append _ _ _ _ Od NL)|].
  split; [apply with_body_same|].
  rewrite <- (firstn_skipn (nPulses od) (all_pulses o')) at 1. f_equal.
  assert (PS : pulse_size o' = pulse_size od) by reflexivity.
  assert (P : pulse_size od <> 0%nat) by (unfold pulse_size; destruct (v22 od); lia).
  assert (LE : (nPulses od <= nPulses o')%nat).
  { unfold nPulses. rewrite PS. apply Nat.div_le_mono; auto. cbn. rewrite app_length. lia. }
  unfold all_pulses. rewrite firstn_map, firstn_seq.
  rewrite Nat.min_l by assumption.
  apply map_ext_in. intros i Hi. apply in_seq in Hi.
  assert (R : rec_bytes o' i = rec_bytes od i).
  { unfold rec_bytes. rewrite PS. cbn [o' with_body body]. apply field_app_l.
    pose proof (nPulses_bound od). nia. }
  assert (FC : frame_count o' i = frame_count od i) by (unfold frame_count; now rewrite R).
  unfold subframecount, usec, samples. rewrite R, FC. reflexivity.
Qed.

(** * Truncating *)

Lemma skipn_cons_nth {A : Type} (d : A) l : forall s, (s < length l)%nat -> skipn s l = nth s l d :: skipn (S s) l.
Proof.
  induction l as [|x l IH]; intros [|s] Hs; cbn [length] in Hs; try lia; auto.
  cbn [nth]. change (skipn (S s) (x :: l)) with (skipn s l).
  change (skipn (S (S s)) (x :: l)) with (skipn (S s) l). apply IH. lia.
Qed.

Lemma trunc_loop_count o : v22 o = true -> forall n s, (s + n <= nPulses o)%nat ->
  trunc_loop o None (seq s n) = (flat_map record_bytes (firstn n (skipn s (all_pulses o))), true).
Proof.
  intros V. induction n; intros s H; auto.
  cbn [seq trunc_loop]. rewrite read_pulse_nth by (auto; lia).
  rewrite IHn by lia. cbn [Datatypes.length]. rewrite wrap_record.
  rewrite (skipn_cons_nth (mkPulse 0 0 []) _ s) by (rewrite nPulses_all; lia). reflexivity.
Qed.

Lemma trunc_loop_over o : v22 o = true -> forall n s, (s <= nPulses o)%nat -> (nPulses o < s + n)%nat ->
  trunc_loop o None (seq s n) = (flat_map record_bytes (skipn s (all_pulses o)), false).
Proof.
  intros V. induction n; intros s H1 H2; [lia|].
  cbn [seq trunc_loop]. destruct (Nat.eq_dec s (nPulses o)) as [->|N].
  - unfold read_pulse. rewrite np_index_out by lia. rewrite skipn_all2 by (rewrite nPulses_all; lia). reflexivity.
  - rewrite read_pulse_nth by (auto; lia). rewrite IHn by lia. rewrite wrap_record.
    rewrite (skipn_cons_nth (mkPulse 0 0 []) _ s) by (rewrite nPulses_all; lia). reflexivity.
Qed.

Lemma late_spec (t s : Qc) : Qle_bool (this (t / qz 1000000)%Qc) (this s) = true <-> (t <= s * qz 1000000)%Qc.
Proof.
  rewrite Qle_bool_iff.
  assert (P : (0 < qz 1000000)%Qc) by reflexivity.
  assert (N : qz 1000000 <> 0%Qc).
  { intros C. apply (f_equal (fun q => this q)) in C. vm_compute in C. discriminate C. }
  assert (E : t = (t / qz 1000000 * qz 1000000)%Qc) by (field; exact N).
  change (this (t / qz 1000000)%Qc <= this s)%Q with (t / qz 1000000 <= s)%Qc.
  split; intros H.
  - rewrite E. apply Qcmult_le_compat_r; auto. apply Qclt_le_weak. exact P.
  - rewrite E in H. apply Qcmult_lt_0_le_reg_r in H; auto.
Qed.

Lemma trunc_loop_time o stop : v22 o = true -> forall n s, (s + n = nPulses o)%nat ->
  exists r, until stop (skipn s (all_pulses o)) r /\
    trunc_loop o (Some stop) (seq s n) = (flat_map record_bytes r, true).
Proof.
  intros V. induction n; intros s H.
  - exists []. rewrite skipn_all2 by (rewrite nPulses_all; lia). split; [constructor | reflexivity].
  - cbn [seq trunc_loop]. rewrite read_pulse_nth by (auto; lia).
    rewrite (skipn_cons_nth (mkPulse 0 0 []) _ s) by (rewrite nPulses_all; lia). set (p := nth s (all_pulses o) (mkPulse 0 0 [])).
    destruct (Qle_bool (this (qz (p_usec p) / qz 1000000)%Qc) (this stop)) eqn:Q; cbn [negb].
    + destruct (IHn (S s)) as (r & U & T); [lia|]. exists (p :: r). split.
      * apply until_go; auto. now apply late_spec.
      * rewrite T, wrap_record. reflexivity.
    + exists []. split; auto. apply until_stop. apply Qcnot_le_lt. intros C. apply late_spec in C. congruence.
Qed.

Lemma until_prefix stop l r : until stop l r -> r = firstn (length r) l.
Proof. induction 1; cbn; auto. now f_equal. Qed.

Lemma dict_header_newline d : ends_in_newline (dict_header d).
Proof. unfold dict_header, crlf. eexists. rewrite !app_assoc. apply (app_assoc _ [13] [10]). Qed.

Lemma open_dict_header fl src o c : ljh_open fl src = Some o ->
  Forall (fun kv => starts end_mark (fst kv) = false) (hdict o) ->
  ljh_open fl (dict_header (hdict o) ++ c) = Some (with_body o (length (dict_header (hdict o))) c).
Proof.
  intros O S. apply open_some in O. destruct O as (R & _ & _ & W).
  destruct (read_header_clean _ _ _ R) as [C L].
  rewrite open_eq. unfold read_header. rewrite (parse_dict_header (hdict o) []) by auto.
  cbn [fst snd app Nat.add]. rewrite W. f_equal. f_equal.
  rewrite skipn_app, skipn_all, Nat.sub_diag. reflexivity.
Qed.

Lemma open_truncated fl src o ps : ljh_open fl src = Some o -> v22 o = true ->
  Forall (fun kv => starts end_mark (fst kv) = false) (hdict o) ->
  Forall (valid_pulse (nSamples o)) ps ->
  exists o', ljh_open fl (dict_header (hdict o) ++ flat_map record_bytes ps) = Some o' /\
     same_header o o' /\ all_pulses o' = ps.
Proof.
  intros O V S F. eexists. split; [exact (open_dict_header fl src o _ O S)|]. split; [apply with_body_same|].
  apply (body_records _ _ []); auto.
  - cbn. now rewrite app_nil_r.
  - unfold pulse_size. cbn. destruct (v22 o); lia.
Qed.

Lemma forall_firstn {A : Type} (P : A -> Prop) n l : Forall P l -> Forall P (firstn n l).
Proof. intros H. revert n. induction H; intros [|n]; cbn; constructor; auto. Qed.

Lemma truncate_count fl src o out n :
  ljh_open fl src = Some o -> is_bytes src -> v22 o = true ->
  Forall (fun kv => starts end_mark (fst kv) = false) (hdict o) ->
  0 <= n <= Z.of_nat (nPulses o) ->
  exists f o', truncate fl src out (Some n) None None = (Some f, true) /\
     ljh_open fl f = Some o' /\ same_header o o' /\ all_pulses o' = firstn (Z.to_nat n) (all_pulses o).
Proof.
  intros O B V S Hn. unfold truncate. rewrite O, V.
  rewrite trunc_loop_count by (auto; lia). cbn [skipn].
  destruct (open_truncated fl src o (firstn (Z.to_nat n) (all_pulses o)) O V S) as (o' & R).
  - apply forall_firstn, records_valid; auto. eapply is_bytes_body; eauto.
  - eexists _, o'. split; [reflexivity|]. exact R.
Qed.

Lemma truncate_too_many fl src o out n :
  ljh_open fl src = Some o -> is_bytes src -> v22 o = true ->
  Forall (fun kv => starts end_mark (fst kv) = false) (hdict o) ->
  Z.of_nat (nPulses o) < n ->
  exists f o', truncate fl src out (Some n) None None = (Some f, false) /\
     ljh_open fl f = Some o' /\ same_header o o' /\ all_pulses o' = all_pulses o.
Proof.
  intros O B V S Hn. unfold truncate. rewrite O, V.
  rewrite trunc_loop_over by (auto; lia). cbn [skipn].
  destruct (open_truncated fl src o (all_pulses o) O V S) as (o' & R).
  - apply records_valid; auto. eapply is_bytes_body; eauto.
  - eexists _, o'. split; [reflexivity|]. exact R.
Qed.

Lemma truncate_time fl src o out stop :
  ljh_open fl src = Some o -> is_bytes src -> v22 o = true ->
  Forall (fun kv => starts end_mark (fst kv) = false) (hdict o) ->
  exists f o', truncate fl src out None (Some stop) None = (Some f, true) /\
     ljh_open fl f = Some o' /\ same_header o o' /\ until stop (all_pulses o) (all_pulses o').
Proof.
  intros O B V S. unfold truncate. rewrite O, V.
  destruct (trunc_loop_time o stop V (nPulses o) 0 eq_refl) as (r & U & ->). cbn [skipn] in U.
  destruct (open_truncated fl src o r O V S) as (o' & R1 & R2 & R3).
  - rewrite (until_prefix _ _ _ U). apply forall_firstn, records_valid; auto. eapply is_bytes_body; eauto.
  - eexists _, o'. split; [reflexivity|]. rewrite R3. auto.
Qed.

(** * Decimal numbers *)

Lemma digits_pos u : forall a, digits (Zpos a) (of_uint u) = Some (Zpos (Pos.of_uint_acc u a)).
Proof.
  induction u; intros a; cbn [of_uint digits Pos.of_uint_acc]; auto.
  all: match goal with |- (if is_digit ?c then _ else _) = _ => change (is_digit c) with true end; cbn [negb];
    rewrite <- IHu; f_equal; lia.
Qed.

Lemma digits_zero u : digits 0 (of_uint u) = Some (Z.of_N (Pos.of_uint u)).
Proof.
  induction u; cbn [of_uint digits Pos.of_uint]; auto.
  all: match goal with |- (if is_digit ?c then _ else _) = _ => change (is_digit c) with true end; cbv iota.
  all: cbn [Z.of_N]; rewrite <- digits_pos; reflexivity.
Qed.

Lemma of_uint_digit u : Forall (fun c => is_digit c = true) (of_uint u).
Proof. induction u; constructor; auto. Qed.

Lemma unsigned_uint u : u <> Decimal.Nil -> unsigned_int (of_uint u) = Some (Z.of_N (Pos.of_uint u)).
Proof. intros N. rewrite <- digits_zero. destruct u; try reflexivity. congruence. Qed.

Lemma not_space_stripped l : Forall (fun c => is_space c = false) l -> stripped l.
Proof.
  intros F. split.
  - destruct F; auto. cbn. now rewrite H.
  - apply Forall_rev in F. destruct F; auto. cbn. now rewrite H.
Qed.

Lemma digit_not_space c : is_digit c = true -> is_space c = false.
Proof.
  unfold is_digit, is_space. intros H. apply andb_true_iff in H. destruct H as [A B].
  apply Z.leb_le in A. apply Z.leb_le in B.
  destruct (Z.eqb_spec c 32); [lia|]. destruct (Z.leb_spec 9 c); auto. destruct (Z.leb_spec c 13); auto; lia.
Qed.

Lemma py_str_stripped z : stripped (py_str z).
Proof.
  apply not_space_stripped. unfold py_str. destruct (Z.to_int z) as [u|u].
  - eapply Forall_impl; [|apply of_uint_digit]. intros c. apply digit_not_space.
  - constructor; auto. eapply Forall_impl; [|apply of_uint_digit]. intros c. apply digit_not_space.
Qed.

Lemma py_int_str z : py_int (py_str z) = Some z.
Proof.
  unfold py_int. rewrite stripped_strip by apply py_str_stripped.
  pose proof (DecimalZ.of_to z) as E. unfold py_str.
  destruct (Z.to_int z) as [u|u] eqn:T; unfold Z.of_int in E.
  - assert (Nu : u <> Decimal.Nil) by (intros ->; cbn in E; subst z; cbn in T; discriminate T).
    rewrite <- E. change (Z.of_uint u) with (Z.of_N (Pos.of_uint u)). rewrite <- (unsigned_uint u Nu).
    destruct u; reflexivity.
  - assert (Nu : u <> Decimal.Nil) by (intros ->; cbn in E; subst z; cbn in T; discriminate T).
    cbn [Z.eqb Pos.eqb]. rewrite (unsigned_uint u Nu). f_equal. exact E.
Qed.

(** * Copying *)

Lemma parse_joined ls : forall acc n pos c,
  Forall (fun l => ~ In 10 l /\ starts end_mark l = false) ls -> (length ls <= n)%nat ->
  parse_lines n acc pos (join_lines (ls ++ [end_mark]) ++ c) =
  Some (fold_left (fun d l => add_line d (l ++ [10])) ls acc, (pos + length (join_lines (ls ++ [end_mark])))%nat).
Proof.
  induction ls as [|l ls IH]; intros acc n pos c F L.
  - cbn [app join_lines flat_map fold_left]. rewrite app_nil_r.
    assert (T : take_line ((end_mark ++ [10]) ++ c) = (end_mark ++ [10], c)).
    { rewrite <- app_assoc. cbn [app]. now rewrite take_line_nl by apply mark_no_newline. }
    destruct n; cbn [parse_lines]; rewrite T; reflexivity.
  - inversion F as [|? ? [Hn Hs] F']; subst. cbn [length] in L. destruct n; [lia|].
    cbn [parse_lines].
    assert (T : take_line (join_lines ((l :: ls) ++ [end_mark]) ++ c) =
                (l ++ [10], join_lines (ls ++ [end_mark]) ++ c)).
    { cbn [app join_lines flat_map]. rewrite <- !app_assoc. cbn [app]. now rewrite take_line_nl. }
    rewrite T.
    replace (starts end_mark (l ++ [10])) with false
      by (rewrite starts_snoc by apply mark_no_newline; now rewrite Hs).
    destruct (l ++ [10]) as [|z t] eqn:El; [destruct l; discriminate|]. rewrite <- El.
    rewrite IH by (auto; lia). cbn [fold_left]. f_equal. f_equal.
    cbn [app join_lines flat_map]. rewrite !app_length. unfold join_lines. lia.
Qed.

Definition head_lines (ver av at_ tb : bytes) (nps ns : Z) : list bytes :=
  removelast (header_lines av at_ tb nps ns ver).

Lemma header_split ver av at_ tb nps ns :
  header_lines av at_ tb nps ns ver = head_lines ver av at_ tb nps ns ++ [end_mark].
Proof. reflexivity. Qed.

Lemma not_in_app (x : Z) a b : ~ In x a -> ~ In x b -> ~ In x (a ++ b).
Proof. intros A B C. apply in_app_or in C. tauto. Qed.

Lemma py_str_no_newline z : ~ In 10 (py_str z).
Proof.
  assert (G : forall u, ~ In 10 (of_uint u)).
  { intros u C. pose proof (of_uint_digit u) as F. rewrite Forall_forall in F. apply F in C. discriminate. }
  unfold py_str. destruct (Z.to_int z); [apply G|]. intros [C|C]; [lia | now apply G in C].
Qed.

Lemma head_lines_ok av at_ tb nps ns : ~ In 10 av -> ~ In 10 at_ -> ~ In 10 tb ->
  Forall (fun l => ~ In 10 l /\ starts end_mark l = false) (head_lines (bs "2.2.0") av at_ tb nps ns).
Proof.
  intros A B C. unfold head_lines. cbn [removelast header_lines].
  repeat (apply Forall_cons; [split; [|reflexivity]|]); try apply Forall_nil.
  all: repeat apply not_in_app; auto; try apply py_str_no_newline.
  all: cbn; lia.
Qed.

(** The dictionary read back from a generated header. *)
Lemma head_dict av at_ tb nps ns :
  fold_left (fun d l => add_line d (l ++ [10])) (head_lines (bs "2.2.0") av at_ tb nps ns) [] =
  [ (bs "Save File Format Version", bs "2.2.0");
    (bs "Software Version", strip (bs " MASS-generated LJH file, MASS version " ++ av ++ [10]));
    (bs "Software Driver Version", bs "n/a");
    (bs "Date", strip (bs " " ++ at_ ++ bs " GMT" ++ [10]));
    (bs "Acquisition Mode", bs "0");
    (bs "Digitized Word Size in bytes", bs "2");
    (bs "Operator", bs "Unknown");
    (bs "SYSTEM DESCRIPTION OF THIS FILE", []);
    (bs "USER DESCRIPTION OF THIS FILE", []);
    (bs "Number of Digitizers", bs "1");
    (bs "Number of Active Channels", bs "1");
    (bs "Timestamp offset (s)", bs "1000000000.000000");
    (bs "Digitizer", bs "1");
    (bs "Master", bs "Yes");
    (bs "Bits", bs "16");
    (bs "Timebase", strip (bs " " ++ tb ++ [10]));
    (bs "Number of samples per point", bs "1");
    (bs "Presamples", strip (bs " " ++ py_str nps ++ [10]));
    (bs "Total Samples", strip (bs " " ++ py_str ns ++ [10]));
    (bs "Channel", bs "1.0");
    (bs "Description", bs "A (Voltage)");
    (bs "Range", bs "0.500000");
    (bs "Offset", bs "-0.000122");
    (bs "Inverted", bs "No") ].
Proof.
  unfold head_lines. cbn [removelast header_lines fold_left].
  rewrite <- !app_assoc. reflexivity.
Qed.

Lemma starts_in p l x : starts (x :: p) l = true -> In x l.
Proof. destruct l as [|y l]; cbn; [discriminate|]. destruct (Z.eqb_spec x y); [now left | discriminate]. Qed.

Lemma contains_in p l x : contains (x :: p) l = true -> In x l.
Proof.
  induction l as [|y l IH]; intros H; cbn [contains] in H.
  - discriminate.
  - apply orb_true_iff in H. destruct H as [H|H]; [now apply starts_in in H | right; auto].
Qed.

Lemma spaced l : strip (bs " " ++ l ++ [10]) = strip l.
Proof. cbn [bs app]. rewrite strip_cons by reflexivity. now rewrite strip_snoc. Qed.

Lemma spaced_int z : py_int (strip (bs " " ++ py_str z ++ [10])) = Some z.
Proof. rewrite spaced, stripped_strip by apply py_str_stripped. apply py_int_str. Qed.

Lemma join_newline ls : ends_in_newline (join_lines (ls ++ [end_mark])).
Proof.
  unfold join_lines. rewrite flat_map_app. cbn [flat_map]. rewrite app_nil_r, app_assoc. eexists. reflexivity.
Qed.

Lemma open_generated fl av at_ tbs nps ns tb c :
  ~ In 10 av -> ~ In 10 at_ -> ~ In 10 tbs -> ~ In 68 av -> fl (strip tbs) = Some tb ->
  16 + 2 * Z.of_nat ns <= 2 ^ 24 ->
  exists o, ljh_open fl (join_lines (header_lines av at_ tbs nps (Z.of_nat ns) (bs "2.2.0")) ++ c) = Some o /\
    v22 o = true /\ nSamples o = ns /\ nPresamples o = nps + 3 /\ timebase o = tb /\ body o = c /\
    hsize o = length (join_lines (header_lines av at_ tbs nps (Z.of_nat ns) (bs "2.2.0"))).
Proof.
  intros A B C D F L. rewrite header_split, open_eq. unfold read_header.
  rewrite parse_joined; [|now apply head_lines_ok | cbn; lia].
  cbn [Nat.add fst snd]. rewrite head_dict.
  set (hs := length _).
  assert (E : skipn hs (join_lines (head_lines (bs "2.2.0") av at_ tbs nps (Z.of_nat ns) ++ [end_mark]) ++ c) = c)
    by (unfold hs; rewrite skipn_app, skipn_all, Nat.sub_diag; reflexivity).
  rewrite E. clearbody hs.
  assert (CL : contains (bs "DASTARD") (strip (bs " MASS-generated LJH file, MASS version " ++ av ++ [10])) = false).
  { destruct (contains _ _) eqn:X; auto. exfalso. apply contains_in in X. apply strip_In in X.
    apply in_app_or in X. destruct X as [X|X]; [cbn in X; lia|].
    apply in_app_or in X. destruct X as [X|X]; [auto | cbn in X; lia]. }
  unfold open_with.
  change (dget _ (bs "Save File Format Version")) with (Some (bs "2.2.0")).
  match goal with |- context [dget ?d (bs "Timebase")] =>
    change (dget d (bs "Timebase")) with (Some (strip (bs " " ++ tbs ++ [10])));
    change (dget d (bs "Total Samples")) with (Some (strip (bs " " ++ py_str (Z.of_nat ns) ++ [10])));
    change (dget d (bs "Presamples")) with (Some (strip (bs " " ++ py_str nps ++ [10])));
    change (dget d (bs "Software Version")) with (Some (strip (bs " MASS-generated LJH file, MASS version " ++ av ++ [10])));
    change (dget d (bs "Number of rows")) with (@None bytes);
    change (dget d (bs "Data source")) with (@None bytes);
    change (dget d (bs "Subframe divisions")) with (@None bytes);
    change (dget d (bs "Subframe offset")) with (@None bytes);
    change (find_prefix (bs "Row number") d) with (@None bytes)
  end.
  cbv iota beta zeta. change (version (bs "2.2.0")) with (Some [2; 2; 0]). cbv iota beta zeta.
  rewrite !spaced_int, spaced, F, CL.
  change (contains (bs "Abaco") (bs "Lancero (assumed)")) with false.
  cbn [int_default Z.leb Z.compare].
  replace (Z.of_nat ns <? 0) with false by (symmetry; apply Z.ltb_ge; lia).
  change (negb (version_lt [2; 2; 0] [2; 2; 0])) with true.
  rewrite Nat2Z.id.
  match goal with |- context [set_segment_size ?o ?s] =>
    assert (SEG : exists x, set_segment_size o s = Some x) end.
  { apply seg_ok. unfold pulse_size. cbn [v22 nSamples].
    apply Z.div_le_lower_bound; lia. }
  destruct SEG as [x ->]. eexists. split; [reflexivity|]. repeat split.
Qed.

Lemma copy_valid e fl src o dest l ps overwrite tb :
  ljh_open fl src = Some o -> selected o l ps -> Forall storable ps -> Forall (valid_pulse (nSamples o)) ps ->
  (dest = None \/ overwrite = true) ->
  ~ In 10 (massver e) -> ~ In 68 (massver e) -> ~ In 10 (asctime e) -> ~ In 10 (fmt e (timebase o)) ->
  fl (strip (fmt e (timebase o))) = Some tb -> 16 + 2 * Z.of_nat (nSamples o) <= 2 ^ 24 ->
  exists f o', copy_traces e fl src dest l overwrite = (Some f, true) /\ ljh_open fl f = Some o' /\
    v22 o' = true /\ nSamples o' = nSamples o /\ nPresamples o' = nPresamples o + 3 /\ timebase o' = tb /\
    all_pulses o' = ps.
Proof.
  intros O S St Va Ow A1 A2 A3 A4 T L. unfold copy_traces.
  rewrite O, (write_selected _ _ _ S St).
  destruct (open_generated fl (massver e) (asctime e) (fmt e (timebase o)) (nPresamples o) (nSamples o) tb
              (flat_map record_bytes ps)) as (o' & O' & V & N & P & Tb & Bd & _); auto.
  eexists _, o'. split.
  - destruct Ow as [-> | ->]; [reflexivity|]. destruct dest; reflexivity.
  - split; [exact O'|]. repeat (split; auto).
    apply (body_records _ _ []); auto.
    + now rewrite app_nil_r.
    + rewrite N. exact Va.
    + unfold pulse_size. destruct (v22 o'); cbn; lia.
Qed.

Lemma copy_reads e fl src o dest l ps overwrite tb :
  ljh_open fl src = Some o -> is_bytes src -> selected o l ps -> Forall storable ps ->
  (dest = None \/ overwrite = true) ->
  ~ In 10 (massver e) -> ~ In 68 (massver e) -> ~ In 10 (asctime e) -> ~ In 10 (fmt e (timebase o)) ->
  fl (strip (fmt e (timebase o))) = Some tb -> 16 + 2 * Z.of_nat (nSamples o) <= 2 ^ 24 ->
  exists f o', copy_traces e fl src dest l overwrite = (Some f, true) /\ ljh_open fl f = Some o' /\
    v22 o' = true /\ nSamples o' = nSamples o /\ nPresamples o' = nPresamples o + 3 /\ timebase o' = tb /\
    all_pulses o' = ps.
Proof.
  intros O B S St. apply copy_valid; auto.
  eapply selected_valid; eauto. eapply is_bytes_body; eauto.
Qed.

Lemma copies_drift e fl k f g o :
  copies e fl k f g -> ljh_open fl f = Some o -> is_bytes f -> v22 o = true ->
  Forall storable (all_pulses o) ->
  ~ In 10 (massver e) -> ~ In 68 (massver e) -> ~ In 10 (asctime e) ->
  (forall q, ~ In 10 (fmt e q)) -> (forall q, fl (strip (fmt e q)) <> None) ->
  16 + 2 * Z.of_nat (nSamples o) <= 2 ^ 24 ->
  exists o', ljh_open fl g = Some o' /\ v22 o' = true /\ nSamples o' = nSamples o /\
     nPresamples o' = nPresamples o + 3 * Z.of_nat k /\ all_pulses o' = all_pulses o.
Proof.
  intros C O B V St A1 A2 A3 A4 A5 L.
  assert (Va : Forall (valid_pulse (nSamples o)) (all_pulses o))
    by (apply records_valid; auto; eapply is_bytes_body; eauto).
  induction C as [f | k f g h og C IH Og Cp].
  - exists o. rewrite Z.add_0_r. auto.
  - destruct (IH O B) as (o1 & O1 & V1 & N1 & P1 & E1). rewrite Og in O1. injection O1 as <-.
    destruct (fl (strip (fmt e (timebase og)))) as [tb|] eqn:T; [|now apply A5 in T].
    destruct (copy_valid e fl g og None (map Z.of_nat (seq 0 (nPulses og))) (all_pulses og) false tb)
      as (f' & o' & Cp' & O' & V' & N' & P' & _ & E'); auto.
    + now apply selected_all.
    + now rewrite E1.
    + now rewrite E1, N1.
    + now rewrite N1.
    + rewrite Cp in Cp'. injection Cp' as <-. exists o'. repeat split; auto; try congruence. lia.
Qed.

(** A refused copy leaves the destination alone. *)
Lemma copy_refused e fl src d l : copy_traces e fl src (Some d) l false = (Some d, false).
Proof. reflexivity. Qed.

(** * Segments *)

Lemma seq_shift_by k m : forall s, map (fun j => k + j)%nat (seq s m) = seq (k + s) m.
Proof. induction m; intros s; cbn; auto. f_equal. rewrite IHm. f_equal. lia. Qed.

Lemma py_slice_app a b c : a <= b -> b <= c -> py_slice a b ++ py_slice b c = py_slice a c.
Proof.
  intros H1 H2. unfold py_slice.
  replace (Z.to_nat (c - a)) with (Z.to_nat (b - a) + Z.to_nat (c - b))%nat by lia.
  rewrite seq_app, map_app. f_equal. cbn [Nat.add].
  rewrite <- (Nat.add_0_r (Z.to_nat (b - a))) at 1. rewrite <- seq_shift_by, map_map.
  apply map_ext. intros k. lia.
Qed.

Lemma slices_prefix per n : 0 < per -> forall m, (m = 0%nat \/ (Z.of_nat m - 1) * per <= n) -> 0 <= n ->
  concat (map (fun k => py_slice (Z.of_nat k * per) (Z.min (Z.of_nat k * per + per) n)) (seq 0 m)) =
  py_slice 0 (Z.min (Z.of_nat m * per) n).
Proof.
  intros P. induction m; intros H N.
  - cbn. rewrite Z.min_l by lia. reflexivity.
  - rewrite seq_S, map_app, concat_app. cbn [map concat Nat.add]. rewrite app_nil_r.
    rewrite IHm; auto.
    2:{ destruct (Nat.eq_dec m 0); [now left|]. right. destruct H as [H|H]; [lia|]. nia. }
    assert (Z.of_nat m * per <= n) by (destruct H as [H|H]; [lia | nia]).
    rewrite (Z.min_l (Z.of_nat m * per)) by lia.
    rewrite py_slice_app by (try apply Z.min_glb; nia).
    f_equal. f_equal. nia.
Qed.

Lemma segments_cover o segs sl : segment_slices o segs = Some sl ->
  concat sl = map Z.of_nat (seq 0 (nPulses o)) /\
  exists s, set_segment_size o segs = Some s /\
    Forall (fun l => Z.of_nat (length l) <= fst s /\ fst s * Z.of_nat (pulse_size o) <= segs) sl.
Proof.
  unfold segment_slices. destruct (set_segment_size o segs) as [[per m]|] eqn:S; [|discriminate].
  cbn [fst snd]. intros [= <-].
  unfold set_segment_size in S. set (ps := Z.of_nat (pulse_size o)) in *.
  assert (P0 : 0 < ps) by (unfold ps, pulse_size; destruct (v22 o); lia).
  destruct (Z.ltb_spec (segs / ps) 1) as [|Q]; [discriminate|].
  assert (S0 : (segs / ps * ps / ps, 1 + (Z.of_nat (length (body o)) - 1) / (segs / ps * ps)) = (per, m))
    by congruence.
  apply pair_equal_spec in S0. destruct S0 as [S1 S2]. clear S.
  rewrite Z.div_mul in S1 by lia.
  assert (Pp : 0 < per) by lia.
  assert (Np : Z.of_nat (nPulses o) = Z.of_nat (length (body o)) / ps)
    by (unfold nPulses; rewrite Nat2Z.inj_div; reflexivity).
  set (B := Z.of_nat (length (body o))) in *. assert (B0 : 0 <= B) by (unfold B; lia).
  rewrite S1 in S2.
  pose proof (Z.div_mod (B - 1) (per * ps) ltac:(nia)) as DM.
  pose proof (Z.mod_pos_bound (B - 1) (per * ps) ltac:(nia)) as MB.
  pose proof (Z.div_mod B ps ltac:(lia)) as DN.
  pose proof (Z.mod_pos_bound B ps ltac:(lia)) as MN.
  set (q := (B - 1) / (per * ps)) in *.
  assert (Q0 : -1 <= q) by (unfold q; apply Z.div_le_lower_bound; nia).
  assert (M : Z.of_nat (Z.to_nat m) = m) by lia.
  split.
  - rewrite slices_prefix; try lia.
    + rewrite M. rewrite Z.min_r.
      * unfold py_slice. rewrite Z.sub_0_r, Nat2Z.id. apply map_ext. intros; lia.
      * rewrite Np. apply Z.lt_succ_r. apply Z.mul_lt_mono_pos_r with ps; [lia|]. nia.
    + rewrite M, Np. right. apply Z.div_le_lower_bound; [lia|]. nia.
  - exists (per, m). split; auto. cbn [fst]. apply Forall_forall. intros l Hl.
    apply in_map_iff in Hl. destruct Hl as (k & <- & Hk). unfold py_slice. rewrite map_length, seq_length.
    split; [lia|]. pose proof (Z.mul_div_le segs ps P0). lia.
Qed.

Lemma segments_exist o segs : Z.of_nat (pulse_size o) <= segs <-> exists sl, segment_slices o segs = Some sl.
Proof.
  assert (P0 : 0 < Z.of_nat (pulse_size o)) by (unfold pulse_size; destruct (v22 o); lia).
  split.
  - intros H. assert (X : exists s, set_segment_size o segs = Some s)
      by (apply seg_ok; apply Z.div_le_lower_bound; lia).
    destruct X as [s E]. unfold segment_slices. rewrite E. eauto.
  - intros [sl E]. unfold segment_slices in E. destruct (set_segment_size o segs) as [s|] eqn:S; [|discriminate].
    assert (X : exists s, set_segment_size o segs = Some s) by eauto. apply seg_ok in X.
    pose proof (Z.mul_div_le segs _ P0). nia.
Qed.
