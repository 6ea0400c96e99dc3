(** Proofs about the OFF files. *)
From Coq Require Import ZArith Ascii String Bool QArith Qcanon Lia List.
From Verif Require Import QcPre LagModel ToepProofs LjhModel LjhSpec LjhProofs OffModel OffSpec.
Import ListNotations.
Open Scope Z_scope.

Lemma some_inj {A : Type} (a b : A) : Some a = Some b -> a = b.
Proof. congruence. Qed.

(** * Records *)

Definition in_kind (k : kind) (v : Z) : Prop :=
  match k with I32 => int32 v | I64 => in64 v | F32 => bits32 v end.

Lemma signed_mod b v : 0 < b -> - 2 ^ (b - 1) <= v < 2 ^ (b - 1) -> signed b (v mod 2 ^ b) = v.
Proof.
  intros Hb H. unfold signed.
  assert (E : 2 ^ b = 2 * 2 ^ (b - 1)) by (rewrite <- Z.pow_succ_r by lia; f_equal; lia).
  assert (P : 0 < 2 ^ (b - 1)) by (apply Z.pow_pos_nonneg; lia).
  destruct (Z_le_gt_dec 0 v) as [Hv | Hv].
  - rewrite Z.mod_small by lia. destruct (Z.ltb_spec v (2 ^ (b - 1))); lia.
  - replace (v mod 2 ^ b) with (v + 2 ^ b).
    + destruct (Z.ltb_spec (v + 2 ^ b) (2 ^ (b - 1))); lia.
    + apply Z.mod_unique_pos with (-1); lia.
Qed.

Lemma element_encode k v : in_kind k v -> element k (encode k v) = v.
Proof.
  intros H. unfold encode. destruct k; cbn [element width]; rewrite le_value_bytes; cbn [in_kind] in H.
  - change (256 ^ Z.of_nat 4) with (2 ^ 32). apply signed_mod; [lia | exact H].
  - change (256 ^ Z.of_nat 8) with (2 ^ 64). apply signed_mod; [lia | exact H].
  - change (256 ^ Z.of_nat 4) with (2 ^ 32). apply Z.mod_small. exact H.
Qed.

Lemma encode_length k v : length (encode k v) = width k.
Proof. apply le_bytes_length. Qed.

Definition fits_field (f : string * kind * nat) (v : list Z) : Prop :=
  length v = snd f /\ Forall (in_kind (snd (fst f))) v.
Definition fits (dt : dtype) (vals : list (list Z)) : Prop := Forall2 fits_field dt vals.

Lemma encode_list_length k v : length (flat_map (encode k) v) = (width k * length v)%nat.
Proof. induction v as [| x t IH]; [cbn; lia |]. cbn [flat_map]. rewrite app_length, encode_length, IH. cbn; lia. Qed.

Lemma put_cons f dt v vals : put (f :: dt) (v :: vals) = flat_map (encode (snd (fst f))) v ++ put dt vals.
Proof. reflexivity. Qed.

Lemma put_length dt vals : fits dt vals -> length (put dt vals) = itemsize dt.
Proof.
  induction 1 as [| f v dt vals [L _] _ IH]; [reflexivity |].
  rewrite put_cons, app_length, encode_list_length, IH, L. reflexivity.
Qed.

Lemma decode_list k : forall v pre rest, Forall (in_kind k) v ->
  map (fun j => element k (field (pre ++ flat_map (encode k) v ++ rest) (length pre + width k * j) (width k)))
      (seq 0 (length v)) = v.
Proof.
  induction v as [| x t IH]; intros pre rest F; [reflexivity |].
  inversion F as [| ? ? Hx Ht]; subst. cbn [length seq map flat_map]. f_equal.
  - rewrite field_app_r, Nat.mul_0_r, <- app_assoc, field_all by (symmetry; apply encode_length).
    apply element_encode, Hx.
  - rewrite <- seq_shift, map_map. rewrite <- (IH (pre ++ encode k x) rest Ht) at 2.
    apply map_ext. intros j. f_equal. rewrite <- !app_assoc. f_equal. rewrite app_length, encode_length. lia.
Qed.

Fixpoint lookup (dt : dtype) (vals : list (list Z)) (name : string) : option (list Z) :=
  match dt, vals with
  | f :: t, v :: vs => if String.eqb (fst (fst f)) name then Some v else lookup t vs name
  | _, _ => None
  end.

Lemma get_from_put dt : forall vals pre rest name, fits dt vals ->
  get_from dt (length pre) name (pre ++ put dt vals ++ rest) = lookup dt vals name.
Proof.
  induction dt as [| [[nm k] n] dt IH]; intros vals pre rest name F;
    inversion F as [| ? v ? vals' [L Fv] F']; subst; [reflexivity |].
  cbn [get_from lookup fst snd]. destruct (String.eqb nm name).
  - f_equal. cbn [snd fst] in L, Fv. rewrite <- L, put_cons, <- app_assoc. apply decode_list, Fv.
  - rewrite put_cons. cbn [fst snd]. rewrite <- app_assoc, app_assoc.
    rewrite <- (IH vals' (pre ++ flat_map (encode k) v) rest name F').
    f_equal. rewrite app_length, encode_list_length. unfold field_size. cbn [fst snd] in *. lia.
Qed.

Lemma get_put dt vals name : fits dt vals -> get dt name (put dt vals) = lookup dt vals name.
Proof.
  intros F. rewrite <- (get_from_put dt vals [] [] name F), app_nil_r. reflexivity.
Qed.

(** The values of the fields of a record, in the two layouts. *)
Definition start_vals (r : orec) : list (list Z) :=
  [[r_samples r]; [r_pre r]; [r_frame r]; [r_nano r]; [r_mean r]]
  ++ (match r_delta r with Some d => [[d]] | None => [] end) ++ [[r_resid r]].
Definition coef_vals (r : orec) (descriptive : bool) : list (list Z) :=
  if descriptive then
    [[nth 0 (r_coefs r) 0]; [nth 1 (r_coefs r) 0]; [nth 2 (r_coefs r) 0]]
    ++ (if Nat.ltb 3 (length (r_coefs r)) then [skipn 3 (r_coefs r)] else [])
  else [r_coefs r].
Definition start_dtype (delta : bool) : dtype :=
  [("recordSamples", I32, 1%nat); ("recordPreSamples", I32, 1%nat); ("framecount", I64, 1%nat);
   ("unixnano", I64, 1%nat); ("pretriggerMean", F32, 1%nat)]%string
  ++ (if delta then [("pretriggerDelta"%string, F32, 1%nat)] else []) ++ [("residualStdDev"%string, F32, 1%nat)].

Lemma common_dtype v delta : version_of v delta -> common v = Some (start_dtype delta).
Proof. destruct 1; reflexivity. Qed.

Lemma dtype_of v delta nb d : version_of v delta ->
  record_dtype v nb d = Some (start_dtype delta ++ coef_fields nb d).
Proof. intros H. unfold record_dtype. rewrite (common_dtype _ _ H). reflexivity. Qed.

Lemma start_fits delta nb r : valid_record delta nb r -> fits (start_dtype delta) (start_vals r).
Proof.
  intros (H1 & H2 & H3 & H4 & H5 & H6 & H7 & _).
  unfold start_dtype, start_vals, fits. destruct (r_delta r) as [d |].
  - destruct H7 as [-> H7]. cbn [app].
    repeat (apply Forall2_cons; [split; [reflexivity | constructor; [assumption | constructor]] |]). apply Forall2_nil.
  - subst delta. cbn [app].
    repeat (apply Forall2_cons; [split; [reflexivity | constructor; [assumption | constructor]] |]). apply Forall2_nil.
Qed.

Lemma forall_nth (P : Z -> Prop) l i : Forall P l -> (i < length l)%nat -> P (nth i l 0).
Proof. intros F H. rewrite Forall_forall in F. apply F, nth_In, H. Qed.

Lemma coef_fits delta nb r d : (3 <= nb)%nat -> valid_record delta nb r -> fits (coef_fields nb d) (coef_vals r d).
Proof.
  intros Hnb (_ & _ & _ & _ & _ & _ & _ & L & F).
  unfold coef_fields, coef_vals, fits. destruct d.
  - rewrite L. cbn [app].
    do 3 (apply Forall2_cons;
          [split; [reflexivity | constructor; [apply (forall_nth _ _ _ F); lia | constructor]] |]).
    destruct (Nat.ltb_spec 3 nb); [| constructor].
    constructor; [| constructor]. split.
    + cbn [snd]. rewrite skipn_length. lia.
    + cbn [fst snd]. rewrite <- (firstn_skipn 3 (r_coefs r)) in F. apply Forall_app in F. apply F.
  - constructor; [| constructor]. split; [exact L | exact F].
Qed.

Lemma packed_fits delta nb r : valid_record delta nb r -> fits (coef_fields nb false) (coef_vals r false).
Proof.
  intros (_ & _ & _ & _ & _ & _ & _ & L & F).
  constructor; [| constructor]. split; [exact L | exact F].
Qed.

Lemma put_app a : forall va b vb, length a = length va -> put (a ++ b) (va ++ vb) = put a va ++ put b vb.
Proof.
  induction a as [| f a IH]; intros [| v va] b vb L; try discriminate L; [reflexivity |].
  cbn [app]. rewrite !put_cons, IH by (cbn in L; lia). apply app_assoc.
Qed.

Lemma fits_length dt vals : fits dt vals -> length dt = length vals.
Proof. induction 1; cbn; congruence. Qed.

Lemma number_encode n v : number n v = le_bytes n v.
Proof. unfold number. symmetry. apply le_bytes_spec. Qed.

Lemma flat_number l : flat_map (number 4) l = flat_map (encode F32) l.
Proof. induction l as [| x t IH]; [reflexivity |]. cbn [flat_map]. rewrite IH, number_encode. reflexivity. Qed.

Lemma put_start delta nb r : valid_record delta nb r ->
  put (start_dtype delta) (start_vals r) ++ flat_map (encode F32) (r_coefs r) = record_on_disk r.
Proof.
  intros (_ & _ & _ & _ & _ & _ & H7 & _). unfold record_on_disk. rewrite flat_number, !number_encode.
  unfold start_vals, start_dtype. destruct (r_delta r) as [d |].
  - destruct H7 as [-> _]. cbn [app put combine flat_map fst snd]. rewrite number_encode, !app_nil_r, <- !app_assoc.
    reflexivity.
  - subst delta. cbn [app put combine flat_map fst snd]. rewrite !app_nil_r, <- !app_assoc. reflexivity.
Qed.

Lemma put_coefs nb r : (3 <= nb)%nat -> length (r_coefs r) = nb ->
  put (coef_fields nb true) (coef_vals r true) = flat_map (encode F32) (r_coefs r).
Proof.
  intros Hnb L. unfold coef_fields, coef_vals. rewrite L.
  destruct (r_coefs r) as [| a [| b [| c t]]]; try (cbn in L; lia).
  cbn [app]. rewrite !put_cons. cbn [fst snd nth flat_map]. rewrite !app_nil_r. do 3 f_equal.
  destruct (Nat.ltb_spec 3 nb) as [H | H].
  - rewrite put_cons. cbn [skipn]. unfold put. cbn [combine flat_map fst snd]. apply app_nil_r.
  - destruct t; [reflexivity | cbn in L; lia].
Qed.

Lemma disk_desc delta nb r : (3 <= nb)%nat -> valid_record delta nb r ->
  put (start_dtype delta ++ coef_fields nb true) (start_vals r ++ coef_vals r true) = record_on_disk r.
Proof.
  intros Hnb V. rewrite put_app by apply fits_length, (start_fits _ _ _ V).
  rewrite put_coefs by (try lia; apply V). apply (put_start _ _ _ V).
Qed.

Lemma disk_packed delta nb r : valid_record delta nb r ->
  put (start_dtype delta ++ coef_fields nb false) (start_vals r ++ coef_vals r false) = record_on_disk r.
Proof.
  intros V. rewrite put_app by apply fits_length, (start_fits _ _ _ V).
  rewrite <- (put_start _ _ _ V). f_equal. unfold coef_fields, coef_vals, put.
  cbn [combine flat_map fst snd]. apply app_nil_r.
Qed.

Lemma disk_length delta nb r : valid_record delta nb r ->
  length (record_on_disk r) = itemsize (start_dtype delta ++ coef_fields nb false).
Proof.
  intros V. rewrite <- (disk_packed _ _ _ V). apply put_length.
  apply Forall2_app; [apply (start_fits _ _ _ V) | apply (packed_fits _ _ _ V)].
Qed.

Lemma itemsize_app a b : itemsize (a ++ b) = (itemsize a + itemsize b)%nat.
Proof. induction a as [| f a IH]; [reflexivity |]. cbn [app itemsize fold_right]. fold (itemsize (a ++ b)). rewrite IH. fold (itemsize a). lia. Qed.

Lemma itemsize_packed delta nb :
  itemsize (start_dtype delta ++ coef_fields nb false) = ((if delta then 36 else 32) + 4 * nb)%nat.
Proof. rewrite itemsize_app. destruct delta; cbn; lia. Qed.

Lemma itemsize_desc delta nb : (3 <= nb)%nat ->
  itemsize (start_dtype delta ++ coef_fields nb true) = ((if delta then 36 else 32) + 4 * nb)%nat.
Proof.
  intros H. rewrite itemsize_app. unfold coef_fields.
  destruct (Nat.ltb_spec 3 nb); destruct delta; unfold itemsize, field_size, start_dtype;
    cbn [app fold_right fst snd width]; lia.
Qed.

(** Records of one size after another. *)
Lemma flat_size {A : Type} (g : A -> bytes) m l : (forall x, In x l -> length (g x) = m) ->
  length (flat_map g l) = (length l * m)%nat.
Proof.
  induction l as [| x t IH]; intros H; [reflexivity |].
  cbn [flat_map length]. rewrite app_length, (H x), IH; [cbn; lia | intros y Hy; apply H; now right | now left].
Qed.

Lemma flat_nth {A : Type} (g : A -> bytes) m tail : forall l, (forall x, In x l -> length (g x) = m) ->
  forall i x, nth_error l i = Some x -> field (flat_map g l ++ tail) (i * m) m = g x.
Proof.
  induction l as [| y t IH]; intros H i x E; [destruct i; discriminate E |].
  cbn [flat_map]. rewrite <- app_assoc. destruct i as [| i].
  - injection E as <-. apply field_all. symmetry. apply H. now left.
  - replace (S i * m)%nat with (length (g y) + i * m)%nat by (rewrite (H y) by (now left); lia).
    rewrite field_app_r. apply IH; [intros z Hz; apply H; now right | exact E].
Qed.

(** * Headers *)

Lemma chars_ascii l : ascii_text l -> chars l = length l.
Proof.
  unfold chars. induction 1 as [| b t Hb _ IH]; [reflexivity |].
  cbn [filter]. destruct (Z.leb_spec 128 b); [lia |]. cbn [andb negb length]. now rewrite IH.
Qed.

Lemma beq_neq a b : a <> b -> beq a b = false.
Proof. intros H. destruct (beq_spec a b); congruence. Qed.
Lemma beq_refl a : beq a a = true.
Proof. destruct (beq_spec a a); congruence. Qed.

Lemma read_json_lines utf8 (U : forall l, ascii_text l -> utf8 l = true) c : forall ls n,
  Forall (fun l => ~ In 10 l /\ l <> [125]) ls ->
  ascii_text (flat_map (fun l => l ++ [10]) ls) -> (length ls < n)%nat ->
  read_json n utf8 (flat_map (fun l => l ++ [10]) ls ++ 125 :: 10 :: c)
  = Some (flat_map (fun l => l ++ [10]) ls ++ [125; 10]).
Proof.
  induction ls as [| l ls IH]; intros n F A Hn; destruct n as [| n]; try (cbn in Hn; lia).
  - cbn [flat_map app read_json]. cbn [take_line].
    change (125 =? 10) with false. cbv iota. rewrite Z.eqb_refl.
    rewrite U by (repeat constructor; lia). reflexivity.
  - cbn [flat_map] in *. apply Forall_app in A. destruct A as [A1 A2].
    inversion F as [| ? ? [Fl Fb] F']; subst.
    cbn [read_json]. rewrite <- !app_assoc. cbn [app]. rewrite take_line_nl by exact Fl.
    rewrite U by exact A1. cbn [negb]. rewrite beq_neq.
    2:{ intros E. apply Fb. change [125; 10] with ([125] ++ [10]) in E. apply app_inj_tail in E. apply E. }
    rewrite IH by (try assumption; cbn in Hn; lia).
    destruct (l ++ [10]) as [| x y] eqn:E; [destruct l; discriminate E |].
    change (l ++ 10 :: (flat_map (fun l0 => l0 ++ [10]) ls ++ [125; 10])) with
      (l ++ [10] ++ (flat_map (fun l0 => l0 ++ [10]) ls ++ [125; 10])).
    rewrite (app_assoc l [10]), E. reflexivity.
Qed.

Lemma lines_length (ls : list (list Z)) : (length ls <= length (flat_map (fun l => l ++ [10%Z]) ls))%nat.
Proof. induction ls as [| l t IH]; [apply le_n |]. cbn [flat_map length]. rewrite !app_length. cbn [length]. lia. Qed.

Lemma read_json_ok utf8 (U : forall l, ascii_text l -> utf8 l = true) hs c :
  header_text hs -> ascii_text hs -> read_json (S (length (hs ++ c))) utf8 (hs ++ c) = Some hs.
Proof.
  intros (ls & -> & F) A. apply Forall_app in A. destruct A as [A _].
  rewrite <- app_assoc. cbn [app]. apply read_json_lines; try assumption.
  rewrite !app_length. pose proof (lines_length ls). lia.
Qed.

Lemma header_end hs c : header_text hs -> fst (take_line (skipn (length hs - 2) (hs ++ c))) = [125; 10].
Proof.
  intros (ls & -> & _). set (a := flat_map _ ls). rewrite app_length. cbn [length].
  replace (length a + 2 - 2)%nat with (length a + 0)%nat by lia.
  rewrite <- app_assoc, skipn_app, skipn_all2 by lia.
  replace (length a + 0 - length a)%nat with 0%nat by lia. reflexivity.
Qed.

(** Opening a file with a proper header, in terms of what follows it. *)
Definition start_of (h : header) (hs P B : bytes) : nat := (length hs + length (model_bytes h P B))%nat.

Lemma open_ok utf8 json hs h delta nb n P B c :
  (forall l, ascii_text l -> utf8 l = true) -> header_text hs -> ascii_text hs -> json hs = Some h ->
  describes h delta nb n P B ->
  off_open utf8 json (hs ++ model_bytes h P B ++ c)
  = Some (mkOff h (start_dtype delta ++ coef_fields nb true) (start_dtype delta ++ coef_fields nb false)
                P B (length c / itemsize (start_dtype delta ++ coef_fields nb true))%nat c).
Proof.
  intros U HT A J (V & HF & HB & H1 & H2 & H3 & H4 & LP & LB & M).
  unfold off_open. rewrite (read_json_ok utf8 U hs _ HT A), J.
  rewrite !(dtype_of _ _ _ _ V), HB. rewrite (chars_ascii hs A), (header_end hs _ HT).
  change (beq [125; 10] [125; 10]) with true. rewrite HF, beq_refl. cbn [negb].
  assert (SS : same_shape h = true).
  { unfold same_shape. rewrite HB, H1, H2, H3, H4, !Nat.eqb_refl. reflexivity. }
  rewrite SS. cbn [negb]. rewrite H1, H2, H3, H4. unfold model_bytes.
  destruct M as [M | M]; rewrite M.
  - set (sz := (nb * n * 8)%nat).
    replace (8 * (nb * n))%nat with sz in * by (unfold sz; lia).
    destruct (Nat.leb_spec (length hs + sz) (length (hs ++ (P ++ B) ++ c))) as [L1 | L1];
      [| rewrite !app_length in L1; lia].
    destruct (Nat.leb_spec (length hs + sz + sz) (length (hs ++ (P ++ B) ++ c))) as [L2 | L2];
      [| rewrite !app_length in L2; lia].
    cbn [andb]. f_equal. f_equal.
    + rewrite <- (Nat.add_0_r (length hs)), field_app_r, <- app_assoc. apply field_all. lia.
    + rewrite field_app_r, <- app_assoc. replace sz with (length P + 0)%nat at 1 by lia.
      rewrite field_app_r. apply field_all. lia.
    + f_equal. rewrite !app_length. lia.
    + rewrite skipn_app, skipn_all2 by lia. cbn [app].
      replace (length hs + sz + sz - length hs)%nat with (length (P ++ B)) by (rewrite app_length; lia).
      rewrite skipn_app, skipn_all2, Nat.sub_diag by lia. reflexivity.
  - rewrite LP, LB. replace (n * nb)%nat with (nb * n)%nat by lia. rewrite !Nat.eqb_refl. cbn [andb app].
    f_equal. f_equal.
    + f_equal. rewrite app_length. lia.
    + rewrite skipn_app, skipn_all2, Nat.sub_diag by lia. reflexivity.
Qed.

(** * Reading back *)

Definition size_of (delta : bool) (nb : nat) : nat := ((if delta then 36 else 32) + 4 * nb)%nat.

Lemma lookup_all delta nb r d : valid_record delta nb r ->
  lookup (start_dtype delta ++ coef_fields nb d) (start_vals r ++ coef_vals r d) "recordSamples" = Some [r_samples r] /\
  lookup (start_dtype delta ++ coef_fields nb d) (start_vals r ++ coef_vals r d) "recordPreSamples" = Some [r_pre r] /\
  lookup (start_dtype delta ++ coef_fields nb d) (start_vals r ++ coef_vals r d) "framecount" = Some [r_frame r] /\
  lookup (start_dtype delta ++ coef_fields nb d) (start_vals r ++ coef_vals r d) "unixnano" = Some [r_nano r] /\
  lookup (start_dtype delta ++ coef_fields nb d) (start_vals r ++ coef_vals r d) "pretriggerMean" = Some [r_mean r] /\
  lookup (start_dtype delta ++ coef_fields nb d) (start_vals r ++ coef_vals r d) "residualStdDev" = Some [r_resid r].
Proof.
  intros (_ & _ & _ & _ & _ & _ & H7 & _). unfold start_dtype, start_vals.
  destruct (r_delta r) as [x |].
  - destruct H7 as [-> _]. repeat split.
  - subst delta. repeat split.
Qed.

Lemma reads_ok o delta nb i r :
  o_dtype o = start_dtype delta ++ coef_fields nb true -> o_packed o = start_dtype delta ++ coef_fields nb false ->
  (3 <= nb)%nat -> valid_record delta nb r -> field (o_body o) (i * size_of delta nb) (size_of delta nb) = record_on_disk r ->
  reads o i r.
Proof.
  intros E1 E2 Hnb V B.
  assert (Ft : fits (o_dtype o) (start_vals r ++ coef_vals r true)).
  { rewrite E1. apply Forall2_app; [apply (start_fits _ _ _ V) | apply (coef_fits _ _ _ _ Hnb V)]. }
  assert (Fp : fits (o_packed o) (start_vals r ++ coef_vals r false)).
  { rewrite E2. apply Forall2_app; [apply (start_fits _ _ _ V) | apply (packed_fits _ _ _ V)]. }
  assert (R : forall name, off_get o i name = lookup (o_dtype o) (start_vals r ++ coef_vals r true) name).
  { intros name. unfold off_get, off_record. rewrite E1, (itemsize_desc delta nb Hnb). fold (size_of delta nb).
    rewrite B, <- (disk_desc delta nb r Hnb V), <- E1. apply (get_put _ _ name Ft). }
  assert (C : off_coefs o i = lookup (o_packed o) (start_vals r ++ coef_vals r false) "coefs").
  { unfold off_coefs, packed_record. rewrite E2, (itemsize_packed delta nb). fold (size_of delta nb).
    rewrite B, <- (disk_packed delta nb r V), <- E2. apply (get_put _ _ "coefs"%string Fp). }
  destruct (lookup_all delta nb r true V) as (L1 & L2 & L3 & L4 & L5 & L6).
  unfold reads. rewrite !R, C, E1, E2, L1, L2, L3, L4, L5, L6. clear L1 L2 L3 L4 L5 L6 R C Ft Fp.
  destruct V as (_ & _ & _ & _ & _ & _ & H7 & L & _).
  unfold start_dtype, start_vals, coef_fields, coef_vals. rewrite L.
  destruct (r_delta r) as [x |]; [destruct H7 as [-> _] | subst delta];
    do 10 (split; [now destruct (Nat.ltb 3 nb) |]); split; try reflexivity;
    intros H3; destruct (Nat.ltb_spec 3 nb); try lia; reflexivity.
Qed.

Lemma off_reads utf8 json hs h delta nb n P B rs tail :
  (forall l, ascii_text l -> utf8 l = true) -> header_text hs -> ascii_text hs -> json hs = Some h ->
  describes h delta nb n P B -> (3 <= nb)%nat ->
  Forall (valid_record delta nb) rs -> (length tail < size_of delta nb)%nat ->
  exists o, off_open utf8 json (hs ++ model_bytes h P B ++ flat_map record_on_disk rs ++ tail) = Some o /\
            o_header o = h /\ holds o P B rs.
Proof.
  intros U HT A J D Hnb F Ht.
  rewrite (open_ok utf8 json hs h delta nb n P B _ U HT A J D).
  eexists. split; [reflexivity |]. split; [reflexivity |].
  assert (Sz : forall x, In x rs -> length (record_on_disk x) = size_of delta nb).
  { intros x Hx. rewrite Forall_forall in F. rewrite (disk_length _ _ _ (F x Hx)). apply itemsize_packed. }
  split; [reflexivity |]. split; [reflexivity |]. split.
  - cbn [o_nrecords]. rewrite (itemsize_desc delta nb Hnb). fold (size_of delta nb).
    rewrite app_length, (flat_size record_on_disk (size_of delta nb) rs Sz).
    symmetry. apply Nat.div_unique with (length tail); [exact Ht | lia].
  - intros i r E. apply (reads_ok _ delta nb); try reflexivity; try assumption.
    + rewrite Forall_forall in F. apply F. exact (nth_error_In _ _ E).
    + cbn [o_body]. apply flat_nth; assumption.
Qed.

(** ** Files that end early *)

Lemma firstn_flat {A : Type} (g : A -> bytes) m : forall l, (forall x, In x l -> length (g x) = m) -> (0 < m)%nat ->
  forall k, (k <= length (flat_map g l))%nat ->
  exists t, firstn k (flat_map g l) = flat_map g (firstn (k / m) l) ++ t /\ (length t < m)%nat.
Proof.
  intros l H Hm k Hk. exists (firstn (k - (k / m) * m) (skipn ((k / m) * m) (flat_map g l))).
  assert (Kd : (k / m * m <= k)%nat) by (rewrite Nat.mul_comm; apply Nat.mul_div_le; lia).
  assert (Kr : (k - k / m * m < m)%nat).
  { pose proof (Nat.mod_upper_bound k m). pose proof (Nat.div_mod k m). lia. }
  assert (Lf := flat_size g m l H).
  assert (Km : (k / m <= length l)%nat).
  { apply Nat.div_le_upper_bound; lia. }
  split.
  - assert (Ek : k = (k / m * m + (k - k / m * m))%nat) by lia.
    rewrite Ek at 1.
    assert (G : flat_map g (firstn (k / m) l) = firstn (k / m * m) (flat_map g l)).
    { rewrite <- (firstn_skipn (k / m) l) at 2. rewrite flat_map_app.
      assert (Lg : length (flat_map g (firstn (k / m) l)) = (k / m * m)%nat).
      { rewrite (flat_size g m); [rewrite firstn_length; f_equal; lia |].
        intros x Hx. apply H. rewrite <- (firstn_skipn (k / m) l). apply in_or_app. now left. }
      rewrite firstn_app, Lg, Nat.sub_diag, firstn_O, app_nil_r. symmetry. apply firstn_all2. lia. }
    rewrite G. set (a := (k / m * m)%nat) in *. set (b := (k - a)%nat).
    rewrite <- (firstn_skipn a (flat_map g l)) at 1.
    rewrite firstn_app, firstn_length. replace (Nat.min a (length (flat_map g l))) with a by lia.
    rewrite firstn_firstn. replace (Nat.min (a + b) a) with a by lia. f_equal. f_equal. lia.
  - rewrite firstn_length. lia.
Qed.

Lemma off_crash utf8 json hs h delta nb n P B rs k :
  (forall l, ascii_text l -> utf8 l = true) -> header_text hs -> ascii_text hs -> json hs = Some h ->
  describes h delta nb n P B -> (3 <= nb)%nat -> Forall (valid_record delta nb) rs ->
  (length (hs ++ model_bytes h P B) <= k)%nat ->
  exists o m, off_open utf8 json (firstn k (hs ++ model_bytes h P B ++ flat_map record_on_disk rs)) = Some o /\
              o_header o = h /\ holds o P B (firstn m rs) /\
              (forall j, (j <= length rs)%nat ->
                 ((j <= m)%nat <-> (length (hs ++ model_bytes h P B ++ flat_map record_on_disk (firstn j rs)) <= k)%nat)).
Proof.
  intros U HT A J D Hnb F Hk.
  assert (Sz : forall x, In x rs -> length (record_on_disk x) = size_of delta nb).
  { intros x Hx. rewrite Forall_forall in F. rewrite (disk_length _ _ _ (F x Hx)). apply itemsize_packed. }
  assert (Pz : (0 < size_of delta nb)%nat) by (unfold size_of; destruct delta; lia).
  assert (Lf := flat_size record_on_disk _ rs Sz).
  set (k' := (k - length (hs ++ model_bytes h P B))%nat).
  set (kk := Nat.min k' (length (flat_map record_on_disk rs))).
  destruct (firstn_flat record_on_disk _ rs Sz Pz kk ltac:(lia)) as (t & Et & Lt).
  assert (E : firstn k (hs ++ model_bytes h P B ++ flat_map record_on_disk rs)
              = hs ++ model_bytes h P B ++ flat_map record_on_disk (firstn (kk / size_of delta nb) rs) ++ t).
  { rewrite <- Et. rewrite !app_assoc. rewrite firstn_app. fold k'. rewrite firstn_all2 by lia. f_equal.
    unfold kk. destruct (Nat.le_gt_cases k' (length (flat_map record_on_disk rs))).
    - f_equal. lia.
    - rewrite !firstn_all2 by lia. reflexivity. }
  rewrite E.
  assert (F' : Forall (valid_record delta nb) (firstn (kk / size_of delta nb) rs)).
  { rewrite <- (firstn_skipn (kk / size_of delta nb) rs) in F. apply Forall_app in F. apply F. }
  destruct (off_reads utf8 json hs h delta nb n P B _ t U HT A J D Hnb F' Lt) as (o & Ho & Hh & Hd).
  exists o, (kk / size_of delta nb)%nat. split; [exact Ho |]. split; [exact Hh |]. split; [exact Hd |].
  intros j Hj. set (m := size_of delta nb) in *.
  assert (Lj : length (flat_map record_on_disk (firstn j rs)) = (j * m)%nat).
  { rewrite (flat_size record_on_disk m); [rewrite firstn_length; f_equal; lia |].
    intros x Hx. apply Sz. rewrite <- (firstn_skipn j rs). apply in_or_app. now left. }
  rewrite app_assoc, app_length, Lj.
  assert (Q : (j <= kk / m)%nat <-> (j * m <= kk)%nat).
  { split; intros X.
    - apply Nat.le_trans with (kk / m * m)%nat; [apply Nat.mul_le_mono_r; exact X |].
      rewrite Nat.mul_comm. apply Nat.mul_div_le. lia.
    - apply Nat.div_le_lower_bound; lia. }
  rewrite Q. unfold kk, k'. rewrite Lf. nia.
Qed.

Lemma read_json_prefix utf8 : forall n f hs, read_json n utf8 f = Some hs ->
  exists rest, f = hs ++ rest /\ exists a, hs = a ++ [125; 10].
Proof.
  induction n as [| n IH]; intros f hs H; [discriminate H |].
  cbn [read_json] in H. destruct (take_line f) as [line rest] eqn:T.
  destruct (negb (utf8 line)); [discriminate H |].
  assert (Ef : f = line ++ rest).
  { clear - T. revert line rest T. induction f as [| c t IHf]; intros line rest T.
    - injection T as <- <-. reflexivity.
    - cbn [take_line] in T. destruct (c =? 10); [injection T as <- <-; reflexivity |].
      destruct (take_line t) as [a b]. injection T as <- <-. cbn. f_equal. now apply IHf. }
  destruct (beq_spec line [125; 10]) as [El | _].
  - injection H as <-. exists rest. split; [exact Ef |]. exists []. exact El.
  - destruct line as [| x y]; [discriminate H |].
    destruct (read_json n utf8 rest) as [r |] eqn:R; [| discriminate H]. injection H as <-.
    destruct (IH _ _ R) as (rest' & E1 & a & E2). exists rest'. split.
    + rewrite Ef, E1. cbn. now rewrite app_assoc.
    + exists (x :: y ++ a). rewrite E2. cbn. now rewrite app_assoc.
Qed.

(** A header cannot be read from a proper prefix of one. *)
Lemma read_json_cut utf8 : forall ls k n, Forall (fun l => ~ In 10 l /\ l <> [125]) ls ->
  (k < length (flat_map (fun l => l ++ [10%Z]) ls ++ [125%Z; 10%Z]))%nat ->
  read_json n utf8 (firstn k (flat_map (fun l => l ++ [10]) ls ++ [125; 10])) = None.
Proof.
  induction ls as [| l ls IH]; intros k n F Hk; destruct n as [| n]; try reflexivity.
  - cbn [flat_map app length] in *.
    destruct k as [| [| k]]; [| | lia]; cbn [firstn read_json take_line].
    + destruct (negb (utf8 [])); reflexivity.
    + change (125 =? 10) with false. cbv iota. destruct (negb (utf8 [125])); [reflexivity |].
      change (beq [125] [125; 10]) with false. cbv iota.
      destruct n as [| n]; [reflexivity |]. cbn [read_json take_line].
      destruct (negb (utf8 [])); reflexivity.
  - inversion F as [| ? ? [Fl Fb] F']; subst. cbn [flat_map] in *. rewrite <- !app_assoc in *. cbn [app] in *.
    set (rest := flat_map (fun l0 => l0 ++ [10]) ls ++ [125; 10]) in *.
    destruct (Nat.le_gt_cases k (length l)) as [Lk | Lk].
    + rewrite firstn_app. replace (k - length l)%nat with 0%nat by lia. rewrite firstn_O, app_nil_r.
      assert (N : ~ In 10 (firstn k l)).
      { intros C. apply Fl. rewrite <- (firstn_skipn k l). apply in_or_app. now left. }
      cbn [read_json]. rewrite (take_line_nonl _ N). destruct (negb (utf8 (firstn k l))); [reflexivity |].
      rewrite beq_neq by (intros C; apply N; rewrite C; right; now left).
      destruct (firstn k l) as [| x y]; [reflexivity |].
      destruct n as [| n]; [reflexivity |]. cbn [read_json take_line].
      destruct (negb (utf8 [])); reflexivity.
    + rewrite firstn_app, firstn_all2 by lia.
      replace (k - length l)%nat with (S (k - length l - 1))%nat by lia. cbn [firstn].
      cbn [read_json]. rewrite take_line_nl by exact Fl. destruct (negb (utf8 (l ++ [10]))); [reflexivity |].
      rewrite beq_neq.
      2:{ intros E. apply Fb. change [125; 10] with ([125] ++ [10]) in E. apply app_inj_tail in E. apply E. }
      destruct (l ++ [10]) as [| x y] eqn:E; [reflexivity |].
      unfold rest. rewrite IH; [reflexivity | exact F' |].
      rewrite app_length in Hk. cbn [length] in Hk. fold rest. lia.
Qed.

Lemma off_incomplete utf8 json hs h delta nb n P B k :
  (forall l, ascii_text l -> utf8 l = true) -> header_text hs -> ascii_text hs -> json hs = Some h ->
  describes h delta nb n P B ->
  (k < length (hs ++ model_bytes h P B))%nat -> off_open utf8 json (firstn k (hs ++ model_bytes h P B)) = None.
Proof.
  intros U HT A J (V & HF & HB & H1 & H2 & H3 & H4 & LP & LB & M) Hk.
  destruct (Nat.lt_ge_cases k (length hs)) as [Lk | Lk].
  - rewrite firstn_app. replace (k - length hs)%nat with 0%nat by lia. rewrite firstn_O, app_nil_r.
    unfold off_open. destruct HT as (ls & -> & F). rewrite (read_json_cut utf8 ls k _ F Lk). reflexivity.
  - rewrite firstn_app, firstn_all2 by lia. unfold off_open.
    rewrite (read_json_ok utf8 U hs _ HT A), J, !(dtype_of _ _ _ _ V).
    rewrite (chars_ascii hs A), (header_end hs _ HT).
    change (beq [125; 10] [125; 10]) with true. rewrite HF, beq_refl. cbn [negb].
    unfold model_bytes in *. destruct M as [M | M]; rewrite M in *.
    + rewrite H1, H2, H3, H4.
      rewrite app_length, app_length in Hk.
      match goal with |- context [Nat.leb ?a ?b && Nat.leb ?c ?d] =>
        destruct (Nat.leb_spec c d) as [L2 | L2] end.
      * exfalso. rewrite app_length, firstn_length, app_length in L2. lia.
      * now rewrite andb_false_r.
    + rewrite app_nil_r in Hk. lia.
Qed.

(** * Sample times *)

Lemma sample_times_ok s p period : 0 <= s ->
  length (sample_times s p period) = Z.to_nat s /\
  (forall j, (j < Z.to_nat s)%nat -> nth j (sample_times s p period) 0%Qc = (qz (Z.of_nat j - p) * period)%Qc).
Proof.
  intros Hs. unfold sample_times. split; [now rewrite map_length, seq_length |].
  intros j Hj. rewrite nth_indep with (d' := (fun j => (qz (Z.of_nat j - p) * period)%Qc) 0%nat)
    by (rewrite map_length, seq_length; exact Hj).
  rewrite (map_nth (fun j => (qz (Z.of_nat j - p) * period)%Qc)), seq_nth by exact Hj. reflexivity.
Qed.

(** * Conversion *)

Lemma dot_row m v a n : Forall (fun r => length r = n) m -> length v = n -> (a < length m)%nat ->
  dot (nth a m []) v = row_dot m v a.
Proof.
  intros F L H. unfold row_dot. rewrite L. apply dot_sum; [| exact L].
  rewrite Forall_forall in F. apply F, nth_In, H.
Qed.

Lemma map_as_seq {A B : Type} (g : A -> B) d l : map g l = map (fun i => g (nth i l d)) (seq 0 (length l)).
Proof.
  rewrite <- (map_map (fun i => nth i l d) g). f_equal. symmetry. apply map_nth_seq.
Qed.

Lemma matvec_rows m v n : Forall (fun r => length r = n) m -> length v = n ->
  matvec m v = map (row_dot m v) (seq 0 (length m)).
Proof.
  intros F L. unfold matvec. rewrite (map_as_seq _ []). apply map_ext_in. intros a Ha.
  apply in_seq in Ha. apply (dot_row m v a n F L). lia.
Qed.

Lemma fold_qsum l : fold_right Qcplus 0%Qc l = qsum (length l) (fun j => nth j l 0%Qc).
Proof.
  induction l as [| x t IH] using rev_ind; [reflexivity |].
  rewrite fold_right_app. cbn [fold_right]. rewrite app_length, Nat.add_1_r. cbn [qsum].
  rewrite app_nth2, Nat.sub_diag by lia. cbn [nth].
  rewrite (qsum_ext _ _ (fun j => nth j t 0%Qc)) by (intros j Hj; rewrite app_nth1 by lia; reflexivity).
  rewrite <- IH. clear. generalize x. intros y. rewrite Qcplus_0_r.
  induction t as [| z t IHt]; cbn [fold_right]; [now rewrite Qcplus_0_l, Qcplus_0_r || ring |].
  rewrite IHt. ring.
Qed.

Lemma combine_seq {A B : Type} (da : A) (db : B) l m : length l = length m ->
  combine l m = map (fun i => (nth i l da, nth i m db)) (seq 0 (length l)).
Proof.
  revert m. induction l as [| x l IH]; intros [| y m] H; try discriminate H; [reflexivity |].
  cbn [combine length seq map]. f_equal. rewrite <- seq_shift, map_map. apply IH. cbn in H. lia.
Qed.

(** The pulse of record [i]. *)
Definition pulse_at (o : ljh) (i : nat) : pulse :=
  mkPulse (subframecount o i) (match usec o i with Some t => t | None => 0 end) (samples o i).

Lemma samples_length o i : length (samples o i) = nSamples o.
Proof. unfold samples. now rewrite map_length, seq_length. Qed.

Definition rec_vals (r : orec) : list (list Z) := start_vals r ++ coef_vals r false.

Lemma off_fields_ok e proj basis k o i nb n :
  matrix nb n proj -> matrix n nb basis -> nSamples o = n -> (k <= n)%nat ->
  off_fields e proj basis k o i = rec_vals (converted e proj basis (nPresamples o) (sub_div o) k (pulse_at o i)).
Proof.
  intros [Lp Fp] [Lb Fb] Hn Hk.
  unfold off_fields, rec_vals, converted, start_vals, coef_vals.
  cbn [r_samples r_pre r_frame r_nano r_mean r_delta r_resid r_coefs app pulse_at p_data p_sub p_usec].
  rewrite samples_length.
  set (d := map qz (samples o i)).
  assert (Ld : length d = n) by (unfold d; rewrite map_length, samples_length; exact Hn).
  rewrite (matvec_rows proj d n Fp Ld).
  set (c := map (row_dot proj d) (seq 0 (length proj))).
  assert (Lc : length c = nb) by (unfold c; rewrite map_length, seq_length; exact Lp).
  rewrite (matvec_rows basis c nb Fb Lc).
  assert (Lf : length (firstn k d) = k) by (rewrite firstn_length; lia).
  repeat f_equal.
  - rewrite fold_qsum, Lf. apply qsum_ext. intros j Hj. rewrite <- (firstn_skipn k d) at 2.
    rewrite app_nth1 by lia. reflexivity.
  - exact Lf.
  - rewrite (combine_seq 0%Qc 0%Qc) by (rewrite map_length, seq_length; lia).
    rewrite map_map, map_length, seq_length. rewrite Lb, Hn. apply map_ext_in. intros j Hj. apply in_seq in Hj.
    cbn [fst snd]. f_equal.
    rewrite nth_indep with (d' := row_dot basis c 0%nat) by (rewrite map_length, seq_length; lia).
    rewrite map_nth, seq_nth by lia. reflexivity.
Qed.

Lemma seq_app_split a b c : seq a (b + c) = seq a b ++ seq (a + b) c.
Proof. apply seq_app. Qed.

(** Segments of [per] records cover all the records in order. *)
Lemma segments {A : Type} (g : nat -> list A) per n : (0 < per)%nat ->
  flat_map (fun lo => flat_map g (seq lo (Nat.min (lo + per) n - lo)))
           (map (fun j => (j * per)%nat) (seq 0 ((n + per - 1) / per)))
  = flat_map g (seq 0 n).
Proof.
  intros Hp. set (f := fun lo => flat_map g (seq lo (Nat.min (lo + per) n - lo))).
  assert (G : forall m, flat_map f (map (fun j => (j * per)%nat) (seq 0 m)) = flat_map g (seq 0 (Nat.min (m * per) n))).
  { induction m as [| m IH]; [reflexivity |].
    rewrite seq_S, map_app, flat_map_app, IH. cbn [map flat_map Nat.add]. rewrite app_nil_r. unfold f.
    destruct (Nat.le_gt_cases (m * per) n) as [L | L].
    - replace (Nat.min (m * per) n) with (m * per)%nat by lia.
      rewrite <- flat_map_app.
      replace (seq 0 (m * per) ++ seq (m * per) (Nat.min (m * per + per) n - m * per))
        with (seq 0 (Nat.min (S m * per) n)); [reflexivity |].
      replace (Nat.min (S m * per) n) with (m * per + (Nat.min (m * per + per) n - m * per))%nat by (cbn; lia).
      apply seq_app.
    - replace (Nat.min (m * per + per) n - m * per)%nat with 0%nat by lia.
      cbn [seq flat_map]. rewrite app_nil_r. f_equal. f_equal. cbn. lia. }
  rewrite G. f_equal. f_equal. apply Nat.min_r.
  assert (D := Nat.div_mod (n + per - 1) per). assert (M := Nat.mod_upper_bound (n + per - 1) per). lia.
Qed.

Lemma all_pulses_at o : all_pulses o = map (pulse_at o) (seq 0 (nPulses o)).
Proof. reflexivity. Qed.

Lemma converted_valid e proj basis nps div k p nb :
  sound e -> length proj = nb -> int32 (Z.of_nat (length (p_data p))) -> int32 nps -> in64 (p_sub p / div) ->
  valid_record true nb (converted e proj basis nps div k p).
Proof.
  intros [S1 S2] L H1 H2 H3. unfold valid_record, converted.
  cbn [r_samples r_pre r_frame r_nano r_mean r_delta r_resid r_coefs].
  do 4 (split; [first [assumption | apply S2] |]).
  do 2 (split; [apply S1 |]). split; [split; [reflexivity | apply S1] |]. split.
  - now rewrite !map_length, seq_length.
  - apply Forall_forall. intros x Hx. apply in_map_iff in Hx. destruct Hx as (q & <- & _). apply S1.
Qed.

Definition out_dtype (nb : nat) : dtype := start_dtype true ++ coef_fields nb false.

Lemma records_written e proj basis n_ignore o nb n b :
  matrix nb n proj -> matrix n nb basis -> (0 < nb)%nat -> sound e -> representable o ->
  ljh_records_to_off e (out_dtype nb) proj basis n_ignore o = Some b ->
  b = flat_map record_on_disk (map (converted e proj basis (nPresamples o) (sub_div o) (Z.to_nat (nPresamples o - n_ignore)))
                                   (all_pulses o)).
Proof.
  intros MP MB Hnb S (F1 & F2 & F3) H. unfold ljh_records_to_off in H.
  destruct (Nat.eqb_spec (length (body o)) 0); [discriminate H |].
  destruct (Nat.eqb_spec (nPulses o) 0) as [Z0 | Z0].
  { injection H as <-. unfold all_pulses. rewrite Z0. reflexivity. }
  destruct proj as [| r0 proj']; [destruct MP as [MP _]; cbn in MP; lia |].
  destruct (Nat.eqb_spec (length r0) (nSamples o)) as [Ec |]; cbn [negb] in H; [| discriminate H].
  destruct (Z.ltb_spec (nPresamples o - n_ignore) 1); [discriminate H |].
  destruct (Z.ltb_spec (Z.of_nat (nSamples o)) (nPresamples o - n_ignore)); [discriminate H |].
  cbn [orb] in H.
  destruct (negb (v22 o) && (sub_div o =? 0)); [discriminate H |].
  set (proj := r0 :: proj') in *.
  assert (En : nSamples o = n).
  { destruct MP as [_ MP]. inversion MP; subst. lia. }
  set (k := Z.to_nat (nPresamples o - n_ignore)) in *.
  assert (Hk : (k <= n)%nat) by (unfold k; lia).
  assert (Hper : (0 < Z.to_nat (Z.max (2 ^ 21 / Z.of_nat (length (body o))) 1))%nat) by lia.
  set (per := Z.to_nat (Z.max (2 ^ 21 / Z.of_nat (length (body o))) 1)) in *. clearbody per.
  apply some_inj in H. rewrite <- H. clear H.
  rewrite (segments (fun i => put (out_dtype nb) (off_fields e proj basis k o i))) by lia.
  rewrite all_pulses_at, map_map.
  rewrite !flat_map_concat_map, map_map. f_equal. apply map_ext_in. intros i Hi.
  rewrite (off_fields_ok e proj basis k o i nb n MP MB En Hk). unfold rec_vals, out_dtype. apply disk_packed.
  apply converted_valid; try assumption; try apply MP.
  - unfold pulse_at. cbn [p_data]. rewrite samples_length. exact F1.
  - apply F3. rewrite all_pulses_at. apply in_map. exact Hi.
Qed.

Lemma all_some_spec {A : Type} (l : list (option A)) r : all_some l = Some r <-> l = map Some r.
Proof.
  revert r. induction l as [| [x |] t IH]; intros r.
  - cbn. split; [intros E; injection E as <-; reflexivity | destruct r; [reflexivity | discriminate]].
  - cbn [all_some]. destruct (all_some t) as [s |] eqn:E.
    + split.
      * intros F. injection F as <-. cbn. f_equal. now apply IH.
      * destruct r as [| y r]; [discriminate |]. cbn. intros F. injection F as <- F. do 2 f_equal.
        apply IH in F. now injection F.
    + split; [discriminate |]. destruct r as [| y r]; [discriminate |]. cbn. intros F. injection F as _ F.
      apply IH in F. discriminate F.
  - cbn. split; [discriminate | destruct r; discriminate].
Qed.

Lemma matrix_length e m rows cols : matrix rows cols m -> length (matrix_bytes e m) = (8 * (rows * cols))%nat.
Proof.
  intros [<- F]. unfold matrix_bytes. rewrite (flat_size _ (8 * cols)%nat).
  - lia.
  - intros r Hr. rewrite Forall_forall in F. rewrite <- (F r Hr).
    rewrite (flat_size _ 8%nat); [lia |]. intros x _. apply le_bytes_length.
Qed.

Lemma conversion e dumps json utf8 proj basis n_ignore files f nb n :
  (forall l, ascii_text l -> utf8 l = true) ->
  header_text (dumps (off_header proj basis)) -> ascii_text (dumps (off_header proj basis)) ->
  json (dumps (off_header proj basis)) = Some (off_header proj basis) ->
  matrix nb n proj -> matrix n nb basis -> (3 <= nb)%nat -> (0 < n)%nat -> sound e ->
  Forall representable files ->
  multi_ljh2off e dumps proj basis n_ignore files = Some f ->
  exists o, off_open utf8 json f = Some o /\
            holds o (matrix_bytes e proj) (matrix_bytes e basis) (converted_files e proj basis n_ignore files).
Proof.
  intros U HT A J MP MB Hnb Hn S F H.
  unfold multi_ljh2off in H. rewrite (dtype_of _ true) in H by constructor.
  destruct (all_some _) as [recs |] eqn:E; [| discriminate H].
  apply all_some_spec in E.
  destruct files as [| o0 os]; [discriminate H |]. set (files := o0 :: os) in *.
  injection H as <-.
  assert (R : concat recs = flat_map record_on_disk (converted_files e proj basis n_ignore files)).
  { clear U HT A J. clearbody files. assert (Lp : length proj = nb) by apply MP. rewrite Lp in E. fold (out_dtype nb) in E.
    revert recs E. induction files as [| o fs IH]; intros recs E.
    - destruct recs; [reflexivity | discriminate E].
    - destruct recs as [| b recs]; [discriminate E |]. cbn [map] in E. injection E as E1 E2.
      inversion F as [| ? ? Fo Ff]; subst.
      cbn [concat converted_files flat_map]. rewrite flat_map_app.
      rewrite (records_written e proj basis n_ignore o _ n b MP MB ltac:(lia) S Fo E1).
      rewrite (IH Ff recs E2). reflexivity. }
  rewrite R.
  set (h := off_header proj basis) in *.
  assert (D : describes h true nb n (matrix_bytes e proj) (matrix_bytes e basis)).
  { unfold describes, h, off_header.
    cbn [h_version h_format h_bases h_prows h_pcols h_brows h_bcols h_model].
    assert (C1 : match proj with [] => 0%nat | r :: _ => length r end = n).
    { destruct MP as [L MP]. destruct MP; [cbn in L; lia | assumption]. }
    assert (C2 : match basis with [] => 0%nat | r :: _ => length r end = nb).
    { destruct MB as [L MB]. destruct MB; [cbn in L; lia | assumption]. }
    split; [constructor |]. split; [reflexivity |]. split; [apply MP |]. split; [apply MP |].
    split; [exact C1 |]. split; [apply MB |]. split; [exact C2 |].
    split; [apply (matrix_length e proj nb n MP) |].
    split; [rewrite (matrix_length e basis n nb MB); lia | now left]. }
  destruct (off_reads utf8 json (dumps h) h true nb n (matrix_bytes e proj) (matrix_bytes e basis)
              (converted_files e proj basis n_ignore files) [] U HT A J D Hnb) as (o & Ho & _ & Hd).
  - apply Forall_forall. intros r Hr. unfold converted_files in Hr. apply in_flat_map in Hr.
    destruct Hr as (o & Ho & Hr). apply in_map_iff in Hr. destruct Hr as (p & <- & Hp).
    rewrite Forall_forall in F. destruct (F o Ho) as (F1 & F2 & F3).
    apply converted_valid; try assumption; [apply MP | | now apply F3].
    rewrite all_pulses_at in Hp. apply in_map_iff in Hp. destruct Hp as (i & <- & _).
    unfold pulse_at. cbn [p_data]. rewrite samples_length. exact F1.
  - unfold size_of. cbn. lia.
  - exists o. split; [| exact Hd]. rewrite <- Ho. f_equal. rewrite app_nil_r.
    unfold model_bytes, h, off_header. cbn [h_model]. now rewrite <- !app_assoc.
Qed.

Lemma records_success e dt proj basis n_ignore o n :
  Forall (fun r => length r = n) proj -> proj <> [] ->
  (exists b, ljh_records_to_off e dt proj basis n_ignore o = Some b) <-> convertible n n_ignore o.
Proof.
  intros F NE. destruct proj as [| r0 proj']; [congruence |].
  inversion F as [| ? ? L0 _]; subst. unfold ljh_records_to_off, convertible.
  destruct (Nat.eqb_spec (length (body o)) 0) as [E | E].
  { split; [intros (b & C); discriminate C |]. intros [C _]. apply length_zero_iff_nil in E. contradiction. }
  assert (E' : body o <> []) by (intros C; apply E; now rewrite C).
  destruct (Nat.eqb_spec (nPulses o) 0) as [Z0 | Z0].
  { split; [intros _; split; [exact E' | now left] | intros _; eexists; reflexivity]. }
  destruct (Nat.eqb_spec (length r0) (nSamples o)) as [Ec | Ec]; cbn [negb].
  2:{ split; [intros (b & C); discriminate C |]. intros (_ & [C | (C & _)]); [contradiction | congruence]. }
  destruct (Z.ltb_spec (nPresamples o - n_ignore) 1); cbn [orb].
  { split; [intros (b & C); discriminate C |]. intros (_ & [C | (_ & C & _)]); [contradiction | lia]. }
  destruct (Z.ltb_spec (Z.of_nat (nSamples o)) (nPresamples o - n_ignore)).
  { split; [intros (b & C); discriminate C |]. intros (_ & [C | (_ & C & _)]); [contradiction | lia]. }
  destruct (v22 o) eqn:V; cbn [negb andb].
  { split; [| intros _; eexists; reflexivity]. intros _. split; [exact E' |]. right.
    split; [congruence |]. split; [lia | now left]. }
  destruct (Z.eqb_spec (sub_div o) 0) as [S0 | S0].
  { split; [intros (b & C); discriminate C |]. intros (_ & [C | (_ & _ & [C | C])]); [contradiction | discriminate C | contradiction]. }
  split; [| intros _; eexists; reflexivity]. intros _. split; [exact E' |]. right.
  split; [congruence |]. split; [lia | now right].
Qed.

Lemma conversion_succeeds e dumps proj basis n_ignore files n :
  Forall (fun r => length r = n) proj -> proj <> [] ->
  (exists f, multi_ljh2off e dumps proj basis n_ignore files = Some f) <->
  files <> [] /\ Forall (convertible n n_ignore) files.
Proof.
  intros F NE. unfold multi_ljh2off. rewrite (dtype_of _ true) by constructor. fold (out_dtype (length proj)).
  set (g := ljh_records_to_off e (out_dtype (length proj)) proj basis n_ignore).
  assert (G : (exists r, all_some (map g files) = Some r) <-> Forall (convertible n n_ignore) files).
  { induction files as [| o fs IH].
    - split; [constructor | intros _; eexists; reflexivity].
    - cbn [map all_some]. destruct (g o) as [b |] eqn:E.
      + destruct (all_some (map g fs)) as [r |].
        * split; [| intros _; eexists; reflexivity]. intros _. constructor; [| apply IH; eexists; reflexivity].
          apply (records_success e (out_dtype (length proj)) proj basis n_ignore o n F NE). exists b. exact E.
        * split; [intros (r & C); discriminate C |]. intros C. inversion C as [| ? ? _ C']; subst.
          apply IH in C'. destruct C' as (r & C'). discriminate C'.
      + split; [intros (r & C); discriminate C |]. intros C. inversion C as [| ? ? C' _]; subst.
        apply (records_success e (out_dtype (length proj)) proj basis n_ignore o n F NE) in C'.
        destruct C' as (b & C'). unfold g in E. congruence. }
  destruct (all_some (map g files)) as [r |] eqn:E.
  - destruct files as [| o fs].
    + split; [intros (f & C); discriminate C | intros [C _]; congruence].
    + split; [| intros _; eexists; reflexivity]. intros _. split; [discriminate |]. apply G. eexists; reflexivity.
  - split; [intros (f & C); discriminate C |]. intros [_ C]. apply G in C. destruct C as (r & C). discriminate C.
Qed.
