From Coq Require Import ZArith Ascii String Bool QArith QArith.Qcanon Lia List.
From Verif Require Import LjhModel LjhSpec.
Import ListNotations.
Open Scope Z_scope.

(** * Little-endian numbers *)

Lemma byte_of_S v i : byte_of (v / 256) i = byte_of v (S i).
Proof.
  unfold byte_of. rewrite Z.div_div by lia. f_equal. f_equal.
  rewrite Nat2Z.inj_succ, Z.pow_succ_r by lia. reflexivity.
Qed.

Lemma le_bytes_spec n : forall v, le_bytes n v = map (byte_of v) (seq 0 n).
Proof.
  induction n; intros; cbn [le_bytes seq map]; auto.
  f_equal.
  - unfold byte_of. cbn. now rewrite Z.div_1_r.
  - rewrite IHn, <- seq_shift, map_map. apply map_ext. intros. apply byte_of_S.
Qed.

Lemma le_bytes_length n v : length (le_bytes n v) = n.
Proof. revert v; induction n; intros; cbn; auto. Qed.

Lemma le_value_bytes n : forall v, le_value (le_bytes n v) = v mod 256 ^ Z.of_nat n.
Proof.
  induction n; intros.
  - cbn. now rewrite Z.mod_1_r.
  - cbn [le_bytes le_value]. rewrite IHn, Nat2Z.inj_succ, Z.pow_succ_r by lia.
    rewrite (Z.rem_mul_r v 256 (256 ^ Z.of_nat n)) by (try apply Z.pow_nonzero; lia). reflexivity.
Qed.

Lemma le_bytes_mod n : forall v, le_bytes n (v mod 256 ^ Z.of_nat n) = le_bytes n v.
Proof.
  induction n; intros; auto.
  cbn [le_bytes]. rewrite Nat2Z.inj_succ, Z.pow_succ_r by lia.
  assert (P : 0 < 256 ^ Z.of_nat n) by (apply Z.pow_pos_nonneg; lia).
  rewrite (Z.rem_mul_r v 256 (256 ^ Z.of_nat n)) by lia.
  rewrite (Z.mul_comm 256 ((v / 256) mod _)).
  rewrite Z.mod_add, Z.mod_mod by lia. f_equal.
  rewrite Z.div_add, (Z.div_small (v mod 256)) by (try apply Z.mod_pos_bound; lia).
  rewrite Z.add_0_l. apply IHn.
Qed.

Lemma le_bytes_value l : is_bytes l -> le_bytes (length l) (le_value l) = l.
Proof.
  induction 1; auto. cbn [length le_bytes le_value].
  rewrite (Z.mul_comm 256). rewrite Z.mod_add, Z.div_add, Z.mod_small, Z.div_small by lia.
  now rewrite Z.add_0_l, IHForall.
Qed.

Lemma le_value_bound l : is_bytes l -> 0 <= le_value l < 256 ^ Z.of_nat (length l).
Proof.
  induction 1; [cbn; lia|]. cbn [length le_value]. rewrite Nat2Z.inj_succ, Z.pow_succ_r by lia. lia.
Qed.

Lemma int64_mod v : - 2 ^ 63 <= v < 2 ^ 63 -> int64 (v mod 2 ^ 64) = v.
Proof.
  intros. unfold int64. destruct (Z_lt_ge_dec v 0).
  - replace (v mod 2 ^ 64) with (v + 2 ^ 64).
    + destruct (Z.ltb_spec (v + 2 ^ 64) (2 ^ 63)); lia.
    + apply Z.mod_unique with (-1); lia.
  - rewrite Z.mod_small by lia. destruct (Z.ltb_spec v (2 ^ 63)); lia.
Qed.

Lemma int64_bound v : 0 <= v < 2 ^ 64 -> - 2 ^ 63 <= int64 v < 2 ^ 63.
Proof. intros. unfold int64. destruct (Z.ltb_spec v (2 ^ 63)); lia. Qed.

Lemma int64_cong v : 0 <= v < 2 ^ 64 -> int64 v mod 2 ^ 64 = v.
Proof.
  intros. unfold int64. destruct (Z.ltb_spec v (2 ^ 63)).
  - apply Z.mod_small; lia.
  - symmetry. apply Z.mod_unique with (-1); lia.
Qed.

Lemma sample_bytes s : map (byte_of s) (seq 0 2) = [byte_of s 0; byte_of s 1].
Proof. reflexivity. Qed.

Lemma wrap_record p : wrap_fields p = record_bytes p.
Proof.
  unfold wrap_fields, record_bytes.
  change (2 ^ 64) with (256 ^ Z.of_nat 8). rewrite !le_bytes_mod, !le_bytes_spec.
  f_equal. f_equal. apply flat_map_ext. intros. now rewrite le_bytes_spec.
Qed.

Lemma write_record p : storable p -> write_fields p = (record_bytes p, true).
Proof.
  intros [A B]. unfold write_fields, pack_Q.
  replace ((0 <=? p_sub p) && (p_sub p <? 2 ^ 64)) with true
    by (symmetry; apply andb_true_iff; split; [apply Z.leb_le | apply Z.ltb_lt]; lia).
  replace ((0 <=? p_usec p) && (p_usec p <? 2 ^ 64)) with true
    by (symmetry; apply andb_true_iff; split; [apply Z.leb_le | apply Z.ltb_lt]; lia).
  f_equal. unfold record_bytes. rewrite !le_bytes_spec.
  f_equal. f_equal. apply flat_map_ext. intros. now rewrite le_bytes_spec.
Qed.

(** * Fields of a byte list *)

Lemma skip_skip {A : Type} a : forall b (l : list A), skipn a (skipn b l) = skipn (a + b) l.
Proof.
  intros b. induction b; intros l.
  - now rewrite Nat.add_0_r.
  - rewrite Nat.add_succ_r. destruct l; [now rewrite !skipn_nil | apply IHb].
Qed.

Lemma field_app_l a b off len : (off + len <= length a)%nat -> field (a ++ b) off len = field a off len.
Proof.
  intros. unfold field. rewrite skipn_app, firstn_app.
  replace (len - length (skipn off a))%nat with 0%nat by (rewrite skipn_length; lia).
  now rewrite firstn_O, app_nil_r.
Qed.

Lemma field_app_r a b off len : field (a ++ b) (length a + off) len = field b off len.
Proof.
  unfold field. rewrite skipn_app. rewrite skipn_all2 by lia. cbn. f_equal. f_equal. lia.
Qed.

Lemma field_all a b len : len = length a -> field (a ++ b) 0 len = a.
Proof. intros ->. unfold field. cbn. rewrite firstn_app, firstn_all, Nat.sub_diag. cbn. apply app_nil_r. Qed.

Lemma field_skip a b len : len = length b -> field (a ++ b) (length a) len = b.
Proof. intros ->. rewrite <- (Nat.add_0_r (length a)), field_app_r. unfold field. cbn. apply firstn_all. Qed.

Lemma field_is_bytes l off len : is_bytes l -> is_bytes (field l off len).
Proof.
  unfold is_bytes, field. rewrite !Forall_forall. intros H x Hx. apply H.
  rewrite <- (firstn_skipn off l). apply in_or_app. right.
  rewrite <- (firstn_skipn len (skipn off l)). apply in_or_app. now left.
Qed.

Lemma field_length l off len : (off + len <= length l)%nat -> length (field l off len) = len.
Proof. intros. unfold field. rewrite firstn_length, skipn_length. lia. Qed.

Lemma field_field l a b c d : (c + d <= b)%nat -> field (field l a b) c d = field l (a + c) d.
Proof.
  intros. unfold field. rewrite skipn_firstn_comm, firstn_firstn.
  rewrite Nat.min_l by lia. rewrite skip_skip. do 2 f_equal. lia.
Qed.

(** * Decoding one record *)

Definition decode (n : nat) (r : bytes) : pulse :=
  mkPulse (int64 (le_value (field r 0 8))) (int64 (le_value (field r 8 8)))
          (map (fun j => le_value (field r (16 + 2 * j) 2)) (seq 0 n)).

Lemma sample_bytes_length (l : list Z) :
  length (flat_map (fun s => [byte_of s 0; byte_of s 1]) l) = (2 * length l)%nat.
Proof. induction l; cbn [flat_map length app]; lia. Qed.

Lemma record_length p : length (record_bytes p) = (16 + 2 * length (p_data p))%nat.
Proof. unfold record_bytes. rewrite !app_length, !map_length, !seq_length, sample_bytes_length. lia. Qed.

Lemma sample_value s : 0 <= s < 65536 -> le_value [byte_of s 0; byte_of s 1] = s.
Proof.
  intros. rewrite <- sample_bytes, <- le_bytes_spec, le_value_bytes. apply Z.mod_small. cbn. lia.
Qed.

Lemma decode_samples l : Forall (fun s => 0 <= s < 65536) l ->
  map (fun j => le_value (field (flat_map (fun s => [byte_of s 0; byte_of s 1]) l) (2 * j) 2)) (seq 0 (length l)) = l.
Proof.
  induction 1; auto. cbn [length seq map flat_map].
  f_equal.
  - change (2 * 0)%nat with 0%nat. rewrite field_all by reflexivity. now apply sample_value.
  - rewrite <- seq_shift, map_map. etransitivity; [|apply IHForall].
    apply map_ext. intros j. do 1 f_equal.
    replace (2 * S j)%nat with (length [byte_of x 0; byte_of x 1] + 2 * j)%nat by (cbn [length]; lia).
    apply field_app_r.
Qed.

Lemma decode_record n p : valid_pulse n p -> decode n (record_bytes p) = p.
Proof.
  intros (A & B & C & D). destruct p as [s u d]. unfold decode, record_bytes. cbn [p_sub p_usec p_data] in *.
  rewrite <- !le_bytes_spec. f_equal.
  - rewrite field_all by now rewrite le_bytes_length.
    rewrite le_value_bytes. now apply int64_mod.
  - pose proof (field_app_r (le_bytes 8 s)
      (le_bytes 8 u ++ flat_map (fun s => [byte_of s 0; byte_of s 1]) d) 0 8) as E.
    rewrite le_bytes_length in E. change (8 + 0)%nat with 8%nat in E. rewrite E. clear E.
    rewrite field_all by now rewrite le_bytes_length.
    rewrite le_value_bytes. now apply int64_mod.
  - subst n. rewrite <- (decode_samples d D) at 2. apply map_ext. intros j. reflexivity.
Qed.

Lemma decode_valid n r : is_bytes r -> length r = (16 + 2 * n)%nat -> valid_pulse n (decode n r).
Proof.
  intros B L. unfold valid_pulse, decode. cbn [p_sub p_usec p_data].
  assert (F : forall off len, (off + len <= 16 + 2 * n)%nat ->
     0 <= le_value (field r off len) < 256 ^ Z.of_nat len).
  { intros. pose proof (le_value_bound (field r off len) (field_is_bytes _ _ _ B)) as H0.
    rewrite field_length in H0 by lia. exact H0. }
  repeat split.
  1,2: apply (int64_bound _ (F 0%nat 8%nat ltac:(lia))).
  1,2: apply (int64_bound _ (F 8%nat 8%nat ltac:(lia))).
  - now rewrite map_length, seq_length.
  - rewrite Forall_forall. intros x Hx. apply in_map_iff in Hx. destruct Hx as (j & <- & Hj).
    apply in_seq in Hj. apply (F (16 + 2 * j)%nat 2%nat). lia.
Qed.

Lemma bytes_samples n : forall r, is_bytes r -> length r = (2 * n)%nat ->
  flat_map (fun s => [byte_of s 0; byte_of s 1]) (map (fun j => le_value (field r (2 * j) 2)) (seq 0 n)) = r.
Proof.
  induction n; intros r B L.
  - now destruct r.
  - destruct r as [|a [|b r]]; cbn [length] in L; try lia.
    inversion B as [|? ? Ba B']; subst. inversion B' as [|? ? Bb B'']; subst.
    cbn [seq map flat_map]. rewrite <- seq_shift, map_map.
    replace (map (fun x => le_value (field (a :: b :: r) (2 * S x) 2)) (seq 0 n))
      with (map (fun j => le_value (field r (2 * j) 2)) (seq 0 n)).
    + rewrite IHn by (auto; lia). cbn [app].
      change (2 * 0)%nat with 0%nat.
      unfold field. cbn [skipn firstn].
      pose proof (le_bytes_value [a; b]) as E. rewrite le_bytes_spec in E. cbn [length seq map] in E.
      assert (Hb : is_bytes [a; b]) by (repeat constructor; lia).
      specialize (E Hb). congruence.
    + apply map_ext. intros j. do 1 f_equal. replace (2 * S j)%nat with (S (S (2 * j))) by lia. reflexivity.
Qed.

Lemma encode_decode n r : is_bytes r -> length r = (16 + 2 * n)%nat -> record_bytes (decode n r) = r.
Proof.
  intros B L. unfold record_bytes, decode. cbn [p_sub p_usec p_data].
  rewrite <- !le_bytes_spec.
  rewrite <- (le_bytes_mod 8 (int64 (le_value (field r 0 8)))), <- (le_bytes_mod 8 (int64 (le_value (field r 8 8)))).
  change (256 ^ Z.of_nat 8) with (2 ^ 64).
  pose proof (le_value_bound (field r 0 8) (field_is_bytes _ _ _ B)) as H0.
  pose proof (le_value_bound (field r 8 8) (field_is_bytes _ _ _ B)) as H1.
  rewrite field_length in H0, H1 by lia. change (256 ^ Z.of_nat 8) with (2 ^ 64) in H0, H1.
  rewrite !int64_cong by assumption.
  replace 8%nat with (length (field r 0 8)) at 1 by (apply field_length; lia).
  rewrite le_bytes_value by now apply field_is_bytes.
  replace 8%nat with (length (field r 8 8)) at 2 by (apply field_length; lia).
  rewrite le_bytes_value by now apply field_is_bytes.
  replace (map (fun j => le_value (field r (16 + 2 * j) 2)) (seq 0 n))
    with (map (fun j => le_value (field (skipn 16 r) (2 * j) 2)) (seq 0 n)).
  2:{ apply map_ext. intros. f_equal. unfold field. rewrite skip_skip. do 2 f_equal. lia. }
  rewrite bytes_samples.
  - unfold field. rewrite app_assoc.
    replace (firstn 8 (skipn 0 r) ++ firstn 8 (skipn 8 r)) with (firstn 16 r).
    + apply firstn_skipn.
    + cbn [skipn]. rewrite <- (firstn_skipn 8 r) at 1. rewrite firstn_app.
      rewrite firstn_length_le by lia. f_equal. rewrite firstn_firstn. f_equal.
  - unfold is_bytes. rewrite Forall_forall. intros x Hx. eapply Forall_forall in B; [exact B|].
    rewrite <- (firstn_skipn 16 r). apply in_or_app. now right.
  - rewrite skipn_length. lia.
Qed.

(** * The records of a body *)

Lemma pulse_size_22 o : v22 o = true -> pulse_size o = (16 + 2 * nSamples o)%nat.
Proof. intros H. unfold pulse_size. now rewrite H. Qed.

Lemma all_pulses_22 o : v22 o = true ->
  all_pulses o = map (fun i => decode (nSamples o) (rec_bytes o i)) (seq 0 (nPulses o)).
Proof.
  intros H. unfold all_pulses. apply map_ext. intros i.
  unfold subframecount, usec, samples, decode, rec_hdr. rewrite H. reflexivity.
Qed.

Lemma flat_length n ps : Forall (valid_pulse n) ps ->
  length (flat_map record_bytes ps) = (length ps * (16 + 2 * n))%nat.
Proof.
  induction 1; auto. cbn [flat_map length]. rewrite app_length, IHForall, record_length.
  destruct H as (_ & _ & -> & _). lia.
Qed.

Lemma flat_field n tail : forall ps, Forall (valid_pulse n) ps -> forall i d, (i < length ps)%nat ->
  field (flat_map record_bytes ps ++ tail) (i * (16 + 2 * n)) (16 + 2 * n) = record_bytes (nth i ps d).
Proof.
  induction 1 as [|p ps V _ IH]; intros i d Hi; cbn [length] in Hi; [lia|].
  assert (L : length (record_bytes p) = (16 + 2 * n)%nat)
    by (rewrite record_length; destruct V as (_ & _ & -> & _); lia).
  cbn [flat_map nth]. rewrite <- app_assoc. destruct i.
  - apply field_all. now rewrite L.
  - replace (S i * (16 + 2 * n))%nat with (length (record_bytes p) + i * (16 + 2 * n))%nat by lia.
    rewrite field_app_r. apply IH. lia.
Qed.

Lemma map_nth_seq {A : Type} (d : A) (l : list A) : map (fun i => nth i l d) (seq 0 (length l)) = l.
Proof.
  induction l; auto. cbn [length seq map nth]. f_equal. rewrite <- seq_shift, map_map. exact IHl.
Qed.

Lemma body_records o ps tail : v22 o = true -> body o = flat_map record_bytes ps ++ tail ->
  Forall (valid_pulse (nSamples o)) ps -> (length tail < pulse_size o)%nat -> all_pulses o = ps.
Proof.
  intros V B F T. rewrite all_pulses_22 by assumption.
  assert (N : nPulses o = length ps).
  { unfold nPulses. rewrite B, app_length, (flat_length _ _ F). rewrite (pulse_size_22 o V) in *.
    rewrite Nat.div_add_l by lia. rewrite Nat.div_small by lia. lia. }
  rewrite N. rewrite <- (map_nth_seq (mkPulse 0 0 []) ps) at 2.
  apply map_ext_in. intros i Hi. apply in_seq in Hi.
  unfold rec_bytes. rewrite B, (pulse_size_22 o V).
  rewrite (flat_field _ _ _ F i (mkPulse 0 0 [])) by lia. apply decode_record.
  rewrite Forall_forall in F. apply F. apply nth_In. lia.
Qed.

Lemma firstn_chunks {A : Type} (l : list A) m : forall n, (n * m <= length l)%nat ->
  firstn (n * m) l = flat_map (fun i => firstn m (skipn (i * m) l)) (seq 0 n).
Proof.
  revert l. intros l n. revert l. induction n; intros l H; auto.
  cbn [seq flat_map Nat.mul skipn]. rewrite <- seq_shift.
  rewrite flat_map_concat_map, map_map, <- flat_map_concat_map.
  rewrite <- (firstn_skipn m l) at 1. rewrite firstn_app, firstn_length.
  rewrite firstn_all2 by (rewrite firstn_length; lia).
  f_equal. replace (m + n * m - Nat.min m (length l))%nat with (n * m)%nat by lia.
  rewrite IHn by (rewrite skipn_length; lia).
  apply flat_map_ext. intros i. f_equal. rewrite skip_skip. f_equal. cbn. lia.
Qed.

Lemma nPulses_bound o : (nPulses o * pulse_size o <= length (body o))%nat.
Proof. unfold nPulses. rewrite Nat.mul_comm. apply Nat.mul_div_le. unfold pulse_size. destruct (v22 o); lia. Qed.

Lemma nPulses_rest o : (length (body o) - nPulses o * pulse_size o < pulse_size o)%nat.
Proof.
  unfold nPulses. assert (P : pulse_size o <> 0%nat) by (unfold pulse_size; destruct (v22 o); lia).
  pose proof (Nat.div_mod (length (body o)) _ P). pose proof (Nat.mod_upper_bound (length (body o)) _ P).
  lia.
Qed.

Lemma rec_bytes_length o i : (i < nPulses o)%nat -> length (rec_bytes o i) = pulse_size o.
Proof.
  intros. unfold rec_bytes. apply field_length. pose proof (nPulses_bound o). nia.
Qed.

Lemma records_valid o : v22 o = true -> is_bytes (body o) -> Forall (valid_pulse (nSamples o)) (all_pulses o).
Proof.
  intros V B. rewrite all_pulses_22 by assumption. rewrite Forall_forall. intros p Hp.
  apply in_map_iff in Hp. destruct Hp as (i & <- & Hi). apply in_seq in Hi.
  apply decode_valid; [now apply field_is_bytes|].
  rewrite rec_bytes_length by lia. now apply pulse_size_22.
Qed.

Lemma records_body o : v22 o = true -> is_bytes (body o) ->
  firstn (nPulses o * pulse_size o) (body o) = flat_map record_bytes (all_pulses o).
Proof.
  intros V B. rewrite all_pulses_22 by assumption.
  rewrite firstn_chunks by apply nPulses_bound.
  rewrite !flat_map_concat_map, map_map. f_equal. apply map_ext_in. intros i Hi. apply in_seq in Hi.
  symmetry. change (firstn (pulse_size o) (skipn (i * pulse_size o) (body o))) with (rec_bytes o i).
  apply encode_decode; [now apply field_is_bytes|].
  rewrite rec_bytes_length by lia. now apply pulse_size_22.
Qed.

Lemma nPulses_all o : length (all_pulses o) = nPulses o.
Proof. unfold all_pulses. now rewrite map_length, seq_length. Qed.

(** * The header *)

Lemma take_line_cases l a b : take_line l = (a, b) ->
  l = a ++ b /\ ((exists a', a = a' ++ [10] /\ ~ In 10 a') \/ (b = [] /\ ~ In 10 a)).
Proof.
  revert a b. induction l as [|c l IH]; intros a b H; cbn in H.
  - injection H as <- <-. split; auto.
  - destruct (Z.eqb_spec c 10) as [->|N].
    + injection H as <- <-. split; auto. left. exists []. auto.
    + destruct (take_line l) as [a1 b1] eqn:E. injection H as <- <-.
      destruct (IH _ _ eq_refl) as (-> & C). split; auto.
      destruct C as [(a' & -> & Hn) | (-> & Hn)].
      * left. exists (c :: a'). split; auto. cbn. intros [|]; auto.
      * right. split; auto. cbn. intros [|]; auto.
Qed.

Lemma take_line_nl a c : ~ In 10 a -> take_line (a ++ 10 :: c) = (a ++ [10], c).
Proof.
  induction a as [|x a IH]; intros H; cbn [app take_line].
  - reflexivity.
  - destruct (Z.eqb_spec x 10) as [->|N]; [exfalso; apply H; now left|].
    rewrite IH; auto. intros Hn. apply H. now right.
Qed.

Lemma take_line_nonl a : ~ In 10 a -> take_line a = (a, []).
Proof.
  induction a as [|x a IH]; intros H; cbn [take_line]; auto.
  destruct (Z.eqb_spec x 10) as [->|N]; [exfalso; apply H; now left|].
  rewrite IH; auto. intros Hn. apply H. now right.
Qed.

Lemma starts_app p : forall l c, starts p l = true -> starts p (l ++ c) = true.
Proof.
  induction p; intros [|y l] c H; cbn in *; auto; try discriminate.
  apply andb_true_iff in H. destruct H as [A B]. rewrite A. cbn. now apply IHp.
Qed.

Lemma parse_lines_size n : forall d pos l d' hs, parse_lines n d pos l = Some (d', hs) ->
  (pos <= hs /\ hs - pos <= length l)%nat.
Proof.
  induction n; intros d pos l d' hs H; cbn [parse_lines] in H;
    destruct (take_line l) as [a b] eqn:E; apply take_line_cases in E; destruct E as [-> _];
    rewrite app_length; destruct (starts end_mark a).
  - injection H as <- <-. lia.
  - destruct a; discriminate.
  - injection H as <- <-. lia.
  - destruct a; [discriminate|]. apply IHn in H. lia.
Qed.

(** What follows the header is irrelevant to it. *)
Lemma parse_lines_app n : forall d pos l d' hs c, parse_lines n d pos l = Some (d', hs) ->
  ends_in_newline (firstn (hs - pos) l) ->
  parse_lines n d pos (firstn (hs - pos) l ++ c) = Some (d', hs).
Proof.
  induction n; intros d pos l d' hs c H NL; cbn [parse_lines] in H |- *;
    destruct (take_line l) as [a b] eqn:E; apply take_line_cases in E; destruct E as [-> C].
  all: destruct (starts end_mark a) eqn:S.
  - injection H as <- <-. replace (pos + length a - pos)%nat with (length a) in * by lia.
    rewrite firstn_app, firstn_all, Nat.sub_diag in *. cbn [firstn] in *. rewrite app_nil_r in *.
    destruct C as [(a' & -> & Hn) | (-> & Hn)].
    + rewrite <- app_assoc. cbn [app]. rewrite take_line_nl, S by assumption. reflexivity.
    + exfalso. destruct NL as [x ->]. apply Hn. apply in_or_app. right. now left.
  - destruct a; discriminate.
  - injection H as <- <-. replace (pos + length a - pos)%nat with (length a) in * by lia.
    rewrite firstn_app, firstn_all, Nat.sub_diag in *. cbn [firstn] in *. rewrite app_nil_r in *.
    destruct C as [(a' & -> & Hn) | (-> & Hn)].
    + rewrite <- app_assoc. cbn [app]. rewrite take_line_nl, S by assumption. reflexivity.
    + exfalso. destruct NL as [x ->]. apply Hn. apply in_or_app. right. now left.
  - assert (Ha : a <> []) by (intros ->; discriminate).
    assert (H' : parse_lines n (add_line d a) (pos + length a) b = Some (d', hs))
      by (destruct a; [discriminate | exact H]).
    pose proof (parse_lines_size _ _ _ _ _ _ H') as [Z1 Z2].
    destruct C as [(a' & -> & Hn) | (-> & Hn)].
    + set (a := a' ++ [10]) in *.
      rewrite firstn_app in NL |- *. rewrite firstn_all2 in NL |- * by lia.
      replace (hs - pos - length a)%nat with (hs - (pos + length a))%nat in * by lia.
      replace (take_line ((a ++ firstn (hs - (pos + length a)) b) ++ c))
        with (a, firstn (hs - (pos + length a)) b ++ c).
      * rewrite S. destruct a eqn:Ea; [congruence|]. rewrite <- Ea in *.
        apply IHn; auto.
        destruct NL as [x Hx]. destruct (firstn (hs - (pos + length a)) b) as [|zz t] eqn:Ez.
        -- exfalso. assert (L0 : length (firstn (hs - (pos + length a)) b) = 0%nat) by now rewrite Ez.
           rewrite firstn_length in L0.
           assert (hs = pos + length a)%nat by lia. subst hs.
           (* the rest would have had to contain the end mark *)
           clear - H'. destruct n; cbn [parse_lines] in H'; destruct (take_line b) as [u w] eqn:E;
             apply take_line_cases in E; destruct E as [_ _];
             destruct (starts end_mark u) eqn:S; try (destruct u; discriminate).
           1,2: injection H' as <- H'; assert (length u = 0)%nat by lia; destruct u; discriminate.
           destruct u; [discriminate|]. apply parse_lines_size in H'. cbn [length] in H'. lia.
        -- rewrite <- Ez in *. destruct (exists_last (l := firstn (hs - (pos + length a)) b)) as (t' & y & Ey).
           { rewrite Ez. discriminate. }
           rewrite Ey in Hx. rewrite app_assoc in Hx. apply app_inj_tail in Hx. destruct Hx as [_ ->].
           exists t'. exact Ey.
      * subst a. rewrite <- !app_assoc. cbn [app]. now rewrite take_line_nl.
    + exfalso. destruct n; cbn in H'; discriminate.
Qed.

(** A header cut short either cannot be parsed, or is cut inside its last line and has no
    data behind it. *)
Lemma parse_lines_cut n : forall d pos l d' hs k, parse_lines n d pos l = Some (d', hs) ->
  (k <= hs - pos)%nat ->
  parse_lines n d pos (firstn k l) = None \/
  parse_lines n d pos (firstn k l) = Some (d', (pos + k)%nat).
Proof.
  induction n; intros d pos l d' hs k H K; cbn [parse_lines] in H |- *;
    destruct (take_line l) as [a b] eqn:E; apply take_line_cases in E; destruct E as [-> C].
  all: assert (CUT : (k <= length a)%nat -> ~ In 10 (firstn k a) ->
         take_line (firstn k (a ++ b)) = (firstn k a, []))
    by (intros; rewrite firstn_app; replace (k - length a)%nat with 0%nat by lia;
        cbn [firstn]; rewrite app_nil_r; now apply take_line_nonl).
  all: assert (NOEND : starts end_mark a = false -> starts end_mark (firstn k a) = false)
    by (intros S; destruct (starts end_mark (firstn k a)) eqn:S'; auto;
        apply (starts_app _ _ (skipn k a)) in S'; rewrite firstn_skipn in S'; congruence).
  all: assert (PRE : (k < length a)%nat -> ~ In 10 (firstn k a))
    by (intros Hk; destruct C as [(a' & -> & Hn) | (-> & Hn)];
        [ rewrite app_length in Hk; cbn [length] in Hk; rewrite firstn_app;
          replace (k - length a')%nat with 0%nat by lia; cbn [firstn]; rewrite app_nil_r;
          intros X; apply Hn; rewrite <- (firstn_skipn k a'); apply in_or_app; now left
        | intros X; apply Hn; rewrite <- (firstn_skipn k a); apply in_or_app; now left ]).
  - destruct (starts end_mark a) eqn:S; [|destruct a; discriminate].
    injection H as <- <-.
    destruct (Nat.lt_ge_cases k (length a)) as [Hk|Hk].
    + rewrite (CUT ltac:(lia) (PRE Hk)).
      destruct (starts end_mark (firstn k a)).
      * right. f_equal. f_equal. rewrite firstn_length. lia.
      * left. now destruct (firstn k a).
    + assert (k = length a) by lia. subst k. rewrite firstn_app, firstn_all, Nat.sub_diag. cbn [firstn].
      rewrite app_nil_r.
      replace (take_line a) with (a, @nil Z).
      * rewrite S. now right.
      * destruct C as [(a' & -> & Hn) | (-> & Hn)]; [now rewrite take_line_nl | now rewrite take_line_nonl].
  - destruct (starts end_mark a) eqn:S.
    + injection H as <- <-.
      destruct (Nat.lt_ge_cases k (length a)) as [Hk|Hk].
      * rewrite (CUT ltac:(lia) (PRE Hk)).
        destruct (starts end_mark (firstn k a)).
        -- right. f_equal. f_equal. rewrite firstn_length. lia.
        -- left. destruct (firstn k a); auto. destruct n; reflexivity.
      * assert (k = length a) by lia. subst k. rewrite firstn_app, firstn_all, Nat.sub_diag. cbn [firstn].
        rewrite app_nil_r.
        replace (take_line a) with (a, @nil Z).
        -- rewrite S. now right.
        -- destruct C as [(a' & -> & Hn) | (-> & Hn)]; [now rewrite take_line_nl | now rewrite take_line_nonl].
    + assert (H' : parse_lines n (add_line d a) (pos + length a) b = Some (d', hs))
        by (destruct a; [discriminate | exact H]).
      destruct (Nat.lt_ge_cases k (length a)) as [Hk|Hk].
      * rewrite (CUT ltac:(lia) (PRE Hk)), (NOEND eq_refl).
        left. destruct (firstn k a); auto. destruct n; reflexivity.
      * destruct C as [(a' & Ea & Hn) | (-> & Hn)].
        2:{ exfalso. destruct n; cbn in H'; discriminate. }
        rewrite firstn_app, firstn_all2 by lia.
        replace (take_line (a ++ firstn (k - length a) b)) with (a, firstn (k - length a) b)
          by (rewrite Ea, <- app_assoc; cbn [app]; now rewrite take_line_nl).
        rewrite S. replace (pos + k)%nat with (pos + length a + (k - length a))%nat by lia.
        destruct a; [discriminate|]. apply (IHn _ _ _ _ _ _ H'). lia.
Qed.

(** * Stripping *)

Lemma lstrip_idem l : lstrip (lstrip l) = lstrip l.
Proof. induction l; auto. cbn. destruct (is_space a) eqn:E; auto. cbn. now rewrite E. Qed.

Lemma lstrip_suffix l : exists p, l = p ++ lstrip l.
Proof.
  induction l as [|a l [p IH]]; [now exists []|]. cbn. destruct (is_space a).
  - exists (a :: p). cbn. now rewrite <- IH.
  - now exists [].
Qed.

Lemma lstrip_app_space l s : is_space s = true -> lstrip (l ++ [s]) = match lstrip l with [] => [] | m => m ++ [s] end.
Proof.
  intros H. induction l as [|a l IH]; cbn.
  - now rewrite H.
  - destruct (is_space a); auto.
Qed.

Definition stripped (l : bytes) : Prop := lstrip l = l /\ lstrip (rev l) = rev l.

Lemma strip_stripped l : stripped (strip l).
Proof.
  unfold stripped, strip. set (m := lstrip l).
  assert (M : lstrip m = m) by apply lstrip_idem.
  rewrite rev_involutive. split; [|apply lstrip_idem].
  destruct (lstrip_suffix (rev m)) as [p Hp].
  assert (Q : m = rev (lstrip (rev m)) ++ rev p)
    by (rewrite <- rev_app_distr, <- Hp; now rewrite rev_involutive).
  destruct (rev (lstrip (rev m))) as [|c t] eqn:E; auto.
  rewrite Q in M. cbn [app lstrip] in M. cbn [lstrip]. destruct (is_space c) eqn:Sc; auto.
  exfalso. destruct (lstrip_suffix (t ++ rev p)) as [u Hu]. rewrite M in Hu.
  apply (f_equal (@length Z)) in Hu. rewrite !app_length in Hu. cbn [length] in Hu.
  rewrite app_length in Hu. lia.
Qed.

Lemma stripped_strip l : stripped l -> strip l = l.
Proof. intros [A B]. unfold strip. rewrite A, B. apply rev_involutive. Qed.

Lemma strip_idem l : strip (strip l) = strip l.
Proof. apply stripped_strip, strip_stripped. Qed.

Lemma strip_cons s l : is_space s = true -> strip (s :: l) = strip l.
Proof. intros H. unfold strip. cbn. now rewrite H. Qed.

Lemma strip_snoc s l : is_space s = true -> strip (l ++ [s]) = strip l.
Proof.
  intros H. unfold strip. rewrite lstrip_app_space by assumption.
  destruct (lstrip l) as [|c t]; auto. rewrite rev_app_distr. cbn [rev app lstrip]. now rewrite H.
Qed.

Lemma strip_In x l : In x (strip l) -> In x l.
Proof.
  unfold strip. intros H. apply in_rev in H.
  destruct (lstrip_suffix (rev (lstrip l))) as [p Hp].
  assert (In x (rev (lstrip l))) by (rewrite Hp; apply in_or_app; now right).
  apply in_rev in H0. destruct (lstrip_suffix l) as [q Hq]. rewrite Hq. apply in_or_app. now right.
Qed.

(** * The header dictionary *)

Lemma beq_spec a : forall b, reflect (a = b) (beq a b).
Proof.
  induction a as [|x a IH]; intros [|y b]; cbn; try (constructor; congruence).
  destruct (Z.eqb_spec x y) as [->|N]; cbn; [|constructor; congruence].
  destruct (IH b) as [->|N]; constructor; congruence.
Qed.

Lemma split1_some l a b : split1 l = Some (a, b) -> l = a ++ 58 :: b /\ ~ In 58 a.
Proof.
  revert a b. induction l as [|c l IH]; intros a b H; cbn in H; [discriminate|].
  destruct (Z.eqb_spec c 58) as [->|N].
  - injection H as <- <-. auto.
  - destruct (split1 l) as [[a1 b1]|] eqn:E; [|discriminate]. injection H as <- <-.
    destruct (IH _ _ eq_refl) as [-> Hn]. split; auto. intros [|]; auto.
Qed.

Lemma split1_colon a b : ~ In 58 a -> split1 (a ++ 58 :: b) = Some (a, b).
Proof.
  induction a as [|c a IH]; intros H; cbn.
  - reflexivity.
  - destruct (Z.eqb_spec c 58) as [->|N]; [exfalso; apply H; now left|].
    rewrite IH; auto. intros Hn. apply H. now right.
Qed.

Definition clean_entry (kv : bytes * bytes) : Prop :=
  ~ In 58 (fst kv) /\ ~ In 10 (fst kv) /\ ~ In 10 (snd kv) /\ strip (fst kv) = fst kv /\ strip (snd kv) = snd kv.
Definition clean_dict (d : dict) : Prop := Forall clean_entry d /\ NoDup (map fst d).

Lemma dset_keys d k v x : In x (map fst (dset d k v)) <-> In x (map fst d) \/ x = k.
Proof.
  induction d as [|[k' v'] d IH]; cbn; [intuition|].
  destruct (beq_spec k' k) as [->|N]; cbn; [intuition|]. rewrite IH. intuition.
Qed.

Lemma dset_length d k v : (length (dset d k v) <= S (length d))%nat.
Proof.
  induction d as [|[k' v'] d IH]; cbn; auto. destruct (beq k' k); cbn; lia.
Qed.

Lemma dset_new d k v : ~ In k (map fst d) -> dset d k v = d ++ [(k, v)].
Proof.
  induction d as [|[k' v'] d IH]; cbn; auto. intros H.
  destruct (beq_spec k' k) as [->|N]; [exfalso; auto|]. rewrite IH; auto.
Qed.

Lemma dset_clean d k v : clean_dict d -> clean_entry (k, v) -> clean_dict (dset d k v).
Proof.
  intros [F N] C. split.
  - induction d as [|[k' v'] d IH]; cbn; [constructor; auto|].
    inversion F; subst. inversion N; subst. destruct (beq_spec k' k) as [->|Nk]; constructor; auto.
  - induction d as [|[k' v'] d IH]; cbn; [repeat constructor; auto|].
    inversion F; subst. inversion N; subst. destruct (beq_spec k' k) as [->|Nk]; cbn; [constructor; auto|].
    constructor; auto. rewrite dset_keys. intuition.
Qed.

Lemma add_line_clean d line : clean_dict d ->
  ((exists a', line = a' ++ [10] /\ ~ In 10 a') \/ ~ In 10 line) -> clean_dict (add_line d line).
Proof.
  intros C L. unfold add_line. destruct (split1 line) as [[a b]|] eqn:E; auto.
  apply split1_some in E. destruct E as [E Hc]. apply dset_clean; auto.
  assert (Na : ~ In 10 a /\ ~ In 10 (strip b)).
  { destruct L as [(a' & El & Hn) | Hn].
    - rewrite El in E. destruct (exists_last (l := 58 :: b)) as (u & y & Eu); [discriminate|].
      rewrite Eu, app_assoc in E. apply app_inj_tail in E. destruct E as [E <-].
      destruct u as [|z u]; cbn in Eu.
      + injection Eu as Eu _. lia.
      + injection Eu as <- Eb. rewrite E in Hn. split.
        * intros X. apply Hn. apply in_or_app. now left.
        * rewrite Eb, strip_snoc by reflexivity. intros X. apply strip_In in X.
          apply Hn. apply in_or_app. right. now right.
    - rewrite E in Hn. split.
      + intros X. apply Hn. apply in_or_app. now left.
      + intros X. apply strip_In in X. apply Hn. apply in_or_app. right. now right. }
  unfold clean_entry. cbn [fst snd]. rewrite !strip_idem. repeat split; try tauto.
  - intros X. apply strip_In in X. auto.
  - intros X. apply strip_In in X. tauto.
Qed.

Lemma parse_lines_clean n : forall d pos l d' hs, parse_lines n d pos l = Some (d', hs) ->
  clean_dict d -> clean_dict d' /\ (length d' <= length d + n)%nat.
Proof.
  induction n; intros d pos l d' hs H C; cbn [parse_lines] in H;
    destruct (take_line l) as [a b] eqn:E; apply take_line_cases in E; destruct E as [_ L];
    destruct (starts end_mark a).
  - injection H as <- <-. split; auto; lia.
  - destruct a; discriminate.
  - injection H as <- <-. split; auto; lia.
  - destruct a as [|z a]; [discriminate|]. apply IHn in H.
    + destruct H as [A B]. split; auto. unfold add_line in B.
      destruct (split1 (z :: a)) as [[u w]|]; [|lia].
      pose proof (dset_length d (strip u) (strip w)). lia.
    + apply add_line_clean; auto. destruct L as [L | [_ L]]; auto.
Qed.

Lemma read_header_clean f d hs : read_header f = Some (d, hs) -> clean_dict d /\ (length d <= 256)%nat.
Proof.
  intros H. apply parse_lines_clean in H; [exact H|]. repeat constructor.
Qed.

Lemma starts_snoc p k c t : ~ In c p -> starts p (k ++ c :: t) = starts p k.
Proof.
  revert k. induction p as [|x p IH]; intros [|y k] H; cbn; auto.
  - destruct (Z.eqb_spec x c) as [->|N]; auto. exfalso. apply H. now left.
  - f_equal. apply IH. intros X. apply H. now right.
Qed.

Lemma mark_no_colon : ~ In 58 end_mark.
Proof. cbn. lia. Qed.
Lemma mark_no_newline : ~ In 10 end_mark.
Proof. cbn. lia. Qed.

Lemma entry_line d k v : clean_entry (k, v) -> ~ In k (map fst d) ->
  add_line d (k ++ [58; 32] ++ v ++ crlf) = d ++ [(k, v)].
Proof.
  intros (A & B & C & D & E) N. cbn [fst snd] in *. unfold add_line. cbn [app].
  rewrite split1_colon by assumption. rewrite D.
  rewrite strip_cons by reflexivity.
  replace (v ++ crlf) with ((v ++ [13]) ++ [10]) by (rewrite <- app_assoc; reflexivity).
  rewrite strip_snoc, strip_snoc, E by reflexivity. now apply dset_new.
Qed.

Lemma parse_dict_header : forall d acc n pos c, clean_dict (acc ++ d) ->
  Forall (fun kv => starts end_mark (fst kv) = false) d -> (length d <= n)%nat ->
  parse_lines n acc pos (dict_header d ++ c) = Some (acc ++ d, (pos + length (dict_header d))%nat).
Proof.
  induction d as [|[k v] d IH]; intros acc n pos c C S L.
  - cbn [dict_header flat_map app]. rewrite app_nil_r.
    assert (T : take_line ((end_mark ++ crlf) ++ c) = (end_mark ++ crlf, c)).
    { replace ((end_mark ++ crlf) ++ c) with ((end_mark ++ [13]) ++ 10 :: c) by reflexivity.
      rewrite take_line_nl by (cbn; lia). reflexivity. }
    destruct n; cbn [parse_lines]; rewrite T; reflexivity.
  - destruct C as [F N]. pose proof F as F'. apply Forall_app in F. destruct F as [Fa Fd].
    inversion Fd as [|? ? Ck Fd']; subst. inversion S as [|? ? Sk Sd]; subst. cbn [fst] in Sk.
    destruct n; [cbn in L; lia|].
    set (line := k ++ [58; 32] ++ v ++ crlf).
    assert (T : take_line (dict_header ((k, v) :: d) ++ c) = (line, dict_header d ++ c)).
    { unfold line, dict_header, crlf. cbn [flat_map fst snd].
      destruct Ck as (A & B & Cc & _). cbn [fst snd] in *.
      replace (((k ++ [58; 32] ++ v ++ [13; 10]) ++ flat_map (fun kv => fst kv ++ [58; 32] ++ snd kv ++ [13; 10]) d)
               ++ end_mark ++ [13; 10]) with
        ((k ++ [58; 32] ++ v ++ [13]) ++ 10 :: (flat_map (fun kv => fst kv ++ [58; 32] ++ snd kv ++ [13; 10]) d
               ++ end_mark ++ [13; 10])) by (repeat (rewrite <- app_assoc; cbn [app]); reflexivity).
      rewrite <- app_assoc. cbn [app]. rewrite take_line_nl.
      - f_equal. repeat (rewrite <- app_assoc; cbn [app]); reflexivity.
      - rewrite in_app_iff. cbn [In]. rewrite in_app_iff. cbn [In]. intuition lia. }
    cbn [parse_lines]. rewrite T.
    assert (S0 : starts end_mark line = false).
    { unfold line. cbn [app]. rewrite starts_snoc by apply mark_no_colon. exact Sk. }
    rewrite S0. destruct line as [|z l0] eqn:El; [exfalso; unfold line in El; destruct k; discriminate|].
    rewrite <- El. unfold line.
    rewrite map_app in N. cbn [map fst] in N.
    rewrite entry_line.
    + rewrite IH; auto.
      * rewrite <- app_assoc. cbn [app]. f_equal. f_equal.
        unfold dict_header. cbn [flat_map fst snd]. rewrite !app_length. cbn [length].
        rewrite ?app_length. lia.
      * split; [rewrite <- app_assoc; exact F'|]. rewrite <- app_assoc, map_app. exact N.
      * cbn in L. lia.
    + exact Ck.
    + apply NoDup_remove_2 in N. intros X. apply N. apply in_or_app. now left.
Qed.

(** * Opening *)

Definition open_with (fl : bytes -> option Qc) (d : dict) (hs : nat) (b : bytes) : option ljh :=
  do vs <- dget d (bs "Save File Format Version");
  do ver <- version vs;
  let new := negb (version_lt ver [2; 2; 0]) in
  do tbs <- dget d (bs "Timebase");
  do tb <- fl tbs;
  do nss <- dget d (bs "Total Samples");
  do ns <- py_int nss;
  do nps <- dget d (bs "Presamples");
  do np <- py_int nps;
  do row <- int_default (find_prefix (bs "Row number") d) 0;
  let client := match dget d (bs "Software Version") with Some c => c | None => bs "UNKNOWN" end in
  do nrows <- int_default (dget d (bs "Number of rows")) 1;
  let source := match dget d (bs "Data source") with Some s => s | None => bs "Lancero (assumed)" end in
  let abaco := contains (bs "Abaco") source in
  do sdiv <- int_default (dget d (bs "Subframe divisions"))
               (if abaco then 64 else if nrows <=? 0 then 1 else nrows);
  do soff <- int_default (dget d (bs "Subframe offset")) (if abaco then 0 else row);
  if ns <? 0 then None
  else
    let o := mkLjh d hs new (Z.to_nat ns)
               (if contains (bs "DASTARD") client then np else np + 3) tb sdiv soff b in
    do seg <- set_segment_size o (2 ^ 24);
    Some o.

Lemma open_eq fl f : ljh_open fl f =
  match read_header f with
  | Some hs => open_with fl (fst hs) (snd hs) (skipn (snd hs) f)
  | None => None
  end.
Proof. reflexivity. Qed.

Definition with_body (o : ljh) (hs : nat) (b : bytes) : ljh :=
  mkLjh (hdict o) hs (v22 o) (nSamples o) (nPresamples o) (timebase o) (sub_div o) (sub_off o) b.

Lemma seg_ok o segs : (exists s, set_segment_size o segs = Some s) <-> 1 <= segs / Z.of_nat (pulse_size o).
Proof.
  unfold set_segment_size. destruct (Z.ltb_spec (segs / Z.of_nat (pulse_size o)) 1).
  - split; [intros [s H0]; discriminate | lia].
  - split; intros; [lia | eauto].
Qed.

Lemma open_with_some fl d hs b o : open_with fl d hs b = Some o ->
  hdict o = d /\ hsize o = hs /\ body o = b /\
  forall hs' b', open_with fl d hs' b' = Some (with_body o hs' b').
Proof.
  unfold open_with.
  repeat match goal with
  | |- (match ?x with _ => _ end) = Some _ -> _ => destruct x eqn:?; try discriminate
  | |- (let x := ?t in _) = Some _ -> _ => cbv zeta
  end.
  intros [= <-]. cbn [hdict hsize body]. repeat split; auto. intros hs' b'.
  match goal with H : set_segment_size ?o ?s = Some ?p |- _ =>
    assert (X : exists s', set_segment_size o s = Some s') by eauto; apply seg_ok in X end.
  match goal with |- match ?x with _ => _ end = _ => assert (Y : exists s', x = Some s') by (apply seg_ok; exact X) end.
  destruct Y as [s' ->]. reflexivity.
Qed.

Lemma open_some fl f o : ljh_open fl f = Some o ->
  read_header f = Some (hdict o, hsize o) /\ body o = skipn (hsize o) f /\
  (hsize o <= length f)%nat /\
  forall hs' b', open_with fl (hdict o) hs' b' = Some (with_body o hs' b').
Proof.
  rewrite open_eq. destruct (read_header f) as [[d hs]|] eqn:R; [|discriminate].
  intros H. apply open_with_some in H. cbn [fst snd] in H. destruct H as (A & B & C & D).
  subst. repeat split; auto. unfold read_header in R. apply parse_lines_size in R. lia.
Qed.

Lemma open_new_body fl f o c : ljh_open fl f = Some o -> ends_in_newline (firstn (hsize o) f) ->
  ljh_open fl (firstn (hsize o) f ++ c) = Some (with_body o (hsize o) c).
Proof.
  intros H NL. apply open_some in H. destruct H as (R & B & L & W).
  rewrite open_eq. unfold read_header in *.
  pose proof (parse_lines_app _ _ _ _ _ _ c R) as P. rewrite Nat.sub_0_r in P. rewrite (P NL).
  cbn [fst snd]. rewrite W. f_equal. f_equal.
  rewrite skipn_app, firstn_length, Nat.min_l by assumption.
  rewrite skipn_all2 by (rewrite firstn_length; lia). rewrite Nat.sub_diag. reflexivity.
Qed.

Lemma header_open fl h n c : header_for fl h n ->
  exists o, ljh_open fl h = Some o /\ v22 o = true /\ nSamples o = n /\
            ljh_open fl (h ++ c) = Some (with_body o (length h) c).
Proof.
  intros (NL & o & O & V & N & S). exists o. repeat split; auto.
  pose proof (open_new_body fl h o c O) as P. rewrite S, firstn_all in P. auto.
Qed.

Lemma with_body_same o hs b : same_header o (with_body o hs b).
Proof. repeat split. Qed.

(** * C35 *)

Lemma read_back fl h n ps : header_for fl h n -> Forall (valid_pulse n) ps ->
  exists o oh, ljh_open fl (h ++ flat_map record_bytes ps) = Some o /\ ljh_open fl h = Some oh /\
            same_header oh o /\ all_pulses o = ps.
Proof.
  intros H F. destruct (header_open fl h n (flat_map record_bytes ps) H) as (o & O & V & N & E).
  eexists _, o. split; [exact E|]. split; [exact O|]. split; [apply with_body_same|].
  apply (body_records _ ps []).
  - exact V.
  - cbn [with_body body]. now rewrite app_nil_r.
  - cbn [with_body nSamples]. now rewrite N.
  - unfold pulse_size. cbn. destruct (v22 o); lia.
Qed.

Lemma flat_firstn n ps : Forall (valid_pulse n) ps -> forall m,
  exists tail, firstn m (flat_map record_bytes ps) = flat_map record_bytes (firstn (m / (16 + 2 * n)) ps) ++ tail
     /\ (length tail < 16 + 2 * n)%nat.
Proof.
  induction 1 as [|p ps V _ IH]; intros m.
  - exists []. rewrite !firstn_nil. cbn. split; auto; lia.
  - assert (L : length (record_bytes p) = (16 + 2 * n)%nat)
      by (rewrite record_length; destruct V as (_ & _ & -> & _); lia).
    destruct (Nat.lt_ge_cases m (16 + 2 * n)) as [Hm|Hm].
    + rewrite Nat.div_small by assumption. exists (firstn m (flat_map record_bytes (p :: ps))).
      split; auto. rewrite firstn_length. lia.
    + destruct (IH (m - (16 + 2 * n))%nat) as (tail & E & Lt). exists tail. split; auto.
      replace (m / (16 + 2 * n))%nat with (S ((m - (16 + 2 * n)) / (16 + 2 * n))).
      2:{ replace m with (1 * (16 + 2 * n) + (m - (16 + 2 * n)))%nat at 2 by lia.
          rewrite Nat.div_add_l by lia. lia. }
      cbn [flat_map firstn]. rewrite firstn_app, firstn_all2 by lia. rewrite L, E. now rewrite app_assoc.
Qed.

Lemma crash fl h n ps k : header_for fl h n -> Forall (valid_pulse n) ps ->
  let f := h ++ flat_map record_bytes ps in
  match ljh_open fl (firstn k f) with
  | Some o => all_pulses o = firstn ((k - length h) / (16 + 2 * n)) ps
  | None => (k < length h)%nat
  end.
Proof.
  intros H F f. unfold f. rewrite firstn_app.
  destruct (Nat.lt_ge_cases k (length h)) as [Hk|Hk].
  - replace (k - length h)%nat with 0%nat by lia. cbn [firstn]. rewrite app_nil_r.
    rewrite Nat.div_0_l by lia. cbn [firstn].
    destruct (ljh_open fl (firstn k h)) as [o|] eqn:O; [|exact Hk].
    destruct H as (_ & oh & Oh & _ & _ & S). apply open_some in Oh. destruct Oh as (R & _).
    unfold read_header in R. rewrite S in R.
    pose proof (parse_lines_cut _ _ _ _ _ _ k R ltac:(lia)) as P.
    apply open_some in O. destruct O as (R' & B & L & _). unfold read_header in R'.
    rewrite R' in P. destruct P as [P|P]; [discriminate|]. injection P as _ P.
    unfold all_pulses, nPulses. rewrite B, P. rewrite skipn_all2 by (rewrite firstn_length; lia).
    cbn [length]. rewrite Nat.div_0_l; auto. unfold pulse_size. destruct (v22 o); lia.
  - rewrite firstn_all2 by lia.
    destruct (header_open fl h n (firstn (k - length h) (flat_map record_bytes ps)) H) as (o & O & V & N & E).
    rewrite E. destruct (flat_firstn n ps F (k - length h)) as (tail & T & L).
    apply (body_records _ _ tail).
    + exact V.
    + exact T.
    + cbn [with_body nSamples]. rewrite N. apply Forall_forall. intros p Hp. rewrite Forall_forall in F. apply F.
      rewrite <- (firstn_skipn ((k - length h) / (16 + 2 * n)) ps). apply in_or_app. now left.
    + unfold pulse_size. cbn. rewrite V, N. lia.
Qed.
