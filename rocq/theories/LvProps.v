(** C103: the stored vectors of an LJH channel. *)
From Coq Require Import String Bool ZArith QArith Qcanon Lia List.
From Verif Require Import LvModel LvSpec LvProofs.
Import ListNotations.
Local Open Scope string_scope.
Local Open Scope list_scope.
Local Open Scope nat_scope.
Local Notation length := List.length.

(** * Vectors *)
(** The vectors can be set up exactly when nothing stored under their names has another length or type. *)
Theorem vectors_ready : forall h n m c, called h c -> (exists h', setup_vectors h n m = (h', true)) <-> compatible h (wanted c n m) /\ mask_usable h n.
Proof. intros h n m c C. split; [intros (h' & E); eapply setup_only; eassumption|]. intros [A B]. destruct (setup_ok h n m c C A B) as (h' & E & _). eauto. Qed.
Print Assumptions vectors_ready.

(** Then what was stored is kept, what was not is zero, and nothing else is stored; masks that had signs lose them. *)
Theorem vectors_result : forall h n m c h', called h c -> setup_vectors h n m = (h', true) ->
  (forall k, k <> "cuts/mask" -> filled (wanted c n m) h h' k) /\ present h' n m /\
  (get h "cuts/mask" = None -> exists d, get h' "cuts/mask" = Some d /\ dtyp d = U32 /\ length (vals d) = n /\ Forall (fun x => x = 0%Qc) (vals d)) /\
  (forall d, get h "cuts/mask" = Some d -> stands d U32 n -> get h' "cuts/mask" = Some d) /\
  (forall d l, get h "cuts/mask" = Some d -> ~ stands d U32 n -> vals d = map (fun z => Q2Qc (inject_Z z)) l -> Forall (fun z => - 2 ^ 31 <= z < 2 ^ 31)%Z l ->
     exists d', get h' "cuts/mask" = Some d' /\ dtyp d' = U32 /\ vals d' = map (fun z => Q2Qc (inject_Z (if (z <? 0)%Z then z + 2 ^ 32 else z)%Z)) l).
Proof.
  intros h n m c h' C E. destruct (setup_only h n m h' c C E) as [A B]. pose proof (setup_present _ _ _ _ E) as PR. destruct (setup_ok h n m c C A B) as (h2 & E2 & F & M1 & M2 & M3). rewrite E in E2. injection E2 as <-.
  split; [exact F|]. split; [exact PR|]. split; [|split; [exact M2|]].
  - intros G. exists (blank U32 n). split; [now apply M1|]. split; [reflexivity|]. split; [apply repeat_length|]. apply Forall_forall. intros x X. now apply repeat_spec in X.
  - intros d l G S V L. exists (mkSet U32 (map unsigned (vals d))). split; [exact (M3 d G S)|]. split; [reflexivity|]. cbn. rewrite V, map_map. apply map_ext_in. intros z I. rewrite Forall_forall in L. apply unsigned_spec, L, I.
Qed.
Print Assumptions vectors_result.

(** If it fails, everything stored before is still there. *)
Theorem vectors_refused : forall h n m h', setup_vectors h n m = (h', false) -> kept h h'.
Proof. exact setup_fails. Qed.
Print Assumptions vectors_refused.

(** * Opening channels *)
Section Channels.
Variable (cal scal corr scorr : Type).
Variable (save_cal : cal -> scal) (load_cal : scal -> option cal) (ph2energy : cal -> list Qc -> option (list Qc)).
Variable (save_corr : option scorr -> corr -> scorr) (load_corr : scorr -> option corr).
Variable (uniform : corr -> list Qc -> option (list Qc)) (correct : corr -> list Qc -> list Qc -> option (list Qc)).
Local Notation channel := (channel cal scal corr scorr).
Local Notation sound := (sound load_cal load_corr).

(** A channel that was opened is sound, and the group is its store. *)
Theorem opened : forall g n m c g' (ch : channel), open load_cal load_corr g n m c = (g', Some ch) ->
  sound ch /\ g' = Some (st ch) /\ npulses ch = n /\ nsamples ch = m /\ channum ch = c /\ last_used ch = None /\ peak_samplenumber ch = peak_attr (st ch).
Proof. intros g n m c g' ch E. apply opened_sound in E as (A & B & C & D & F & G & H & _). tauto. Qed.

(** An empty group gives a channel with vectors of zeros. *)
Theorem opened_new : forall n m c, exists ch : channel, open load_cal load_corr (Some no_store) n m c = (Some (st ch), Some ch) /\ sound ch /\ cals ch = [] /\ corrector ch = None /\
  (forall k t, In (k, t, n) (pulse_fields n) -> attribute ch (String.append "p_" k) = Some (repeat 0%Qc n)) /\ attribute ch "p_subframecount" = Some (repeat 0%Qc n).
Proof.
  intros n m c. assert (CA : called [] "subframecount") by (right; auto). destruct (setup_ok [] n m _ CA) as (h & E & F & _); [intros k t x d _ G; discriminate|intros d G; discriminate|].
  assert (O : open load_cal load_corr (Some no_store) n m c = (Some (mkStore (Some n) (Some c) h None [] None), Some (mkCh (mkStore (Some n) (Some c) h None [] None) n m c None [] None None))).
  { unfold open, check_attrs. cbn [a_npulses a_channum no_store dsets negb]. rewrite E. reflexivity. }
  exists (mkCh (mkStore (Some n) (Some c) h None [] None) n m c None [] None None). split; [exact O|]. apply opened_sound in O as [S _]. split; [exact S|]. split; [reflexivity|]. split; [reflexivity|].
  assert (Z : forall k t x, In (k, t, x) (wanted "subframecount" n m) -> option_map vals (get h k) = Some (repeat 0%Qc x)).
  { intros k t x I. assert (N : k <> "cuts/mask") by (intros ->; exact (mask_apart _ _ _ _ _ (or_intror eq_refl) I)). destruct (F k N) as (_ & F2 & _). destruct (F2 t x I eq_refl) as (d & -> & _ & L & Q). cbn. f_equal. subst x. clear -Q. induction Q; cbn; [reflexivity|]. congruence. }
  split.
  - intros k t I. rewrite (attribute_get _ k t n I).
    + apply (Z k t n). rewrite wanted_parts. apply in_app_iff. now left.
    + intros ->. cbn in I. repeat (destruct I as [I|I]; [discriminate I|]). exact I.
  - unfold attribute. cbn [String.eqb]. change ("p_subframecount" =? "p_subframecount")%string with true. cbn iota. cbn [st dsets].
    assert (CO : counter h = "subframecount"). { unfold counter, has. destruct (F "rowcount") as (_ & _ & F3); [discriminate|]. rewrite F3; [reflexivity..|]. intros t x I. cbn in I. repeat (destruct I as [I|I]; [discriminate I|]). exact I. }
    rewrite CO. apply (Z _ I64 n). rewrite wanted_parts. apply in_app_iff. right. now left.
Qed.

(** A group of a channel with another number of pulses, or another channel, is refused and not changed; without a group it raises. *)
Theorem open_refused : forall s n m c n' c', a_npulses s = Some n' -> a_channum s = Some c' -> n <> n' \/ c <> c' ->
  open (corr := corr) load_cal load_corr (Some s) n m c = (Some s, None) /\ snd (open (corr := corr) load_cal load_corr None n m c) = None.
Proof.
  intros s n m c n' c' A1 A2 H. split; [|reflexivity]. unfold open, check_attrs. rewrite A1, A2. destruct (Nat.eqb_spec n' n) as [->|]; [|reflexivity]. destruct (Z.eqb_spec c' c) as [->|]; [|reflexivity]. destruct H; congruence.
Qed.

(** Whatever was done to a channel, opening it again gives its vectors and calibrations, and the phase correction that was last saved. *)
Theorem reopened_same : (forall k, load_cal (save_cal k) = Some k) -> (forall o k, load_corr (save_corr o k) <> None) ->
  forall g n m c g' (ch : channel) steps, open load_cal load_corr g n m c = (g', Some ch) ->
  let ch' := fold_left (fun x s => perform save_cal ph2energy save_corr uniform correct s x) steps ch in
  exists ch'', open load_cal load_corr (Some (st ch')) n m c = (Some (st ch'), Some ch'') /\ st ch'' = st ch' /\ (forall a, attribute ch'' a = attribute ch' a) /\ cals ch'' = cals ch' /\ last_used ch'' = None /\
  corrector ch'' = match scorr_of (st ch') with None => None | Some x => load_corr x end.
Proof.
  intros H1 H2 g n m c g' ch steps O ch'. apply opened_sound in O as (S & _ & N1 & N2 & N3 & _).
  assert (S' : sound ch') by (apply session_sound; assumption). destruct (session_size _ _ _ _ save_cal ph2energy save_corr uniform correct steps ch) as (M1 & M2 & M3). fold ch' in M1, M2, M3.
  pose proof (reopened _ _ _ _ _ _ ch' S') as R. rewrite M1, M2, M3, N1, N2, N3 in R. eexists. split; [exact R|]. cbn. repeat split; reflexivity.
Qed.

(** resize works for the size the channel has only; for fewer pulses it raises after the size has been changed. *)
Theorem resize_raises : forall (ch : channel) n, sound ch ->
  (n = npulses ch -> n <> 0 -> exists ch', resize ch n = (ch', true) /\ st ch' = st ch /\ npulses ch' = n /\ cals ch' = cals ch) /\
  (npulses ch < n -> resize ch n = (ch, false)) /\
  (n < npulses ch -> exists ch', resize ch n = (ch', false) /\ st ch' = st ch /\ npulses ch' = n).
Proof.
  intros ch n (A1 & A2 & PR & LC & SC). unfold resize. split; [|split].
  - intros -> N. rewrite Nat.ltb_irrefl. destruct (npulses ch) as [|q] eqn:Q; [congruence|]. rewrite (setup_same _ _ _ PR). eexists. split; [reflexivity|]. cbn. repeat split. destruct (st ch); reflexivity.
  - intros L. apply Nat.ltb_lt in L. now rewrite L.
  - intros L. assert (X : (npulses ch <? n) = false) by (apply Nat.ltb_ge; lia). rewrite X. destruct n as [|n]; [eexists; split; [reflexivity|split; reflexivity]|].
    destruct PR as ((cn & CA & H) & _). destruct (H "timestamp" F64 (npulses ch)) as (d & G & LE & _); [now left|].
    assert (SV : setup_vectors (dsets (st ch)) (S n) (nsamples ch) = (dsets (st ch), false)).
    { unfold setup_vectors, pulse_fields. cbn [require_all]. unfold require at 1. rewrite G, LE. destruct (Nat.eqb_spec (npulses ch) (S n)); [lia|]. reflexivity. }
    rewrite SV. eexists. split; [reflexivity|]. cbn. split; [destruct (st ch); reflexivity|reflexivity].
Qed.

(** copy always raises. *)
Theorem copy_raises : forall ch : channel, copy load_cal load_corr ch = None.
Proof. reflexivity. Qed.

(** * Energies *)
(** convert_to_energy puts the calibrated values into p_energy and changes no other vector; or it raises and changes nothing. *)
Theorem energies_converted : forall (ch ch' : channel) attr cn, sound ch -> convert_to_energy ph2energy attr cn ch = (ch', true) ->
  exists k v e, get (cals ch) (match cn with None => attr | Some x => x end) = Some k /\ attribute ch attr = Some v /\ ph2energy k v = Some e /\
  last_used ch' = Some k /\ attribute ch' "p_energy" = Some e /\ (forall a, a <> "p_energy" -> attribute ch' a = attribute ch a) /\ cals ch' = cals ch /\ corrector ch' = corrector ch /\ scals (st ch') = scals (st ch).
Proof.
  intros ch ch' attr cn S E. apply convert_cases in E. destruct E as (k & v & e & c1 & G & A & P & W & ->). exists k, v, e. apply write_spec in W as (d & Gd & L & Q & _ & _ & _ & W4 & _ & _ & _ & _ & _ & W10 & _ & W12).
  do 3 (split; [assumption|]). split; [reflexivity|]. split.
  - change "p_energy" with (String.append "p_" "energy"). rewrite (attribute_get _ "energy" F32 0); [|cbn; tauto|discriminate]. cbn [st]. rewrite Q. reflexivity.
  - split; [|cbn; auto]. apply (attribute_apart ch _ "energy"); [discriminate..|]. intros x N. cbn [st]. rewrite Q. destruct (String.eqb_spec "energy" x); [congruence|reflexivity].
Qed.
Theorem energies_refused : forall (ch ch' : channel) attr cn, convert_to_energy ph2energy attr cn ch = (ch', false) -> ch' = ch.
Proof. intros ch ch' attr cn E. now apply convert_cases in E. Qed.
Theorem energies_possible : forall (ch : channel) attr cn, sound ch -> (forall k v e, ph2energy k v = Some e -> length e = length v) ->
  snd (convert_to_energy ph2energy attr cn ch) = true <-> exists k v e, get (cals ch) (match cn with None => attr | Some x => x end) = Some k /\ attribute ch attr = Some v /\ ph2energy k v = Some e.
Proof.
  intros ch attr cn S H. split.
  - intros T. destruct (convert_to_energy ph2energy attr cn ch) as [ch' ok] eqn:E. cbn in T. subst ok. destruct (energies_converted _ _ _ _ S E) as (k & v & e & A & B & C & _). eauto 6.
  - intros (k & v & e & G & A & P). unfold convert_to_energy. rewrite G, A, P. destruct S as (_ & _ & ((c & CA & PR) & _) & _).
    assert (X : forall a w, attribute ch a = Some w -> length w = npulses ch).
    { intros a w AW. unfold attribute in AW. destruct (String.eqb_spec a "p_subframecount").
      - rewrite <- (called_one _ _ _ CA (called_counter _)) in AW. destruct (PR c I64 (npulses ch)) as (d & D1 & D2 & _); [rewrite wanted_parts; apply in_app_iff; right; now left|]. rewrite D1 in AW. injection AW as <-. exact D2.
      - destruct (prefix "p_" a); [|discriminate]. destruct (existsb _ _) eqn:X; [|discriminate]. rewrite <- (pulse_names (npulses ch)) in X. apply existsb_exists in X as ([[x t] y] & I & EQ). apply String.eqb_eq in EQ. cbn in EQ. rewrite <- EQ in AW.
        assert (y = npulses ch). { unfold pulse_fields, float32_fields in I. cbn in I. repeat (destruct I as [I|I]; [injection I as _ _ <-; reflexivity|]). destruct I. } subst y.
        destruct (PR x t (npulses ch)) as (d & D1 & D2 & _); [rewrite wanted_parts; apply in_app_iff; now left|]. rewrite D1 in AW. injection AW as <-. exact D2. }
    destruct (PR "energy" F32 (npulses ch)) as (d & D1 & D2 & _); [cbn; tauto|]. unfold write. rewrite D1, D2, (H _ _ _ P), (X _ _ A), Nat.eqb_refl. reflexivity.
Qed.

(** calibrate returns a calibration of that name if there is one and it is not forced, and does nothing else then. *)
Theorem calibration_found : forall (ch : channel) fit attr ext good k, get (cals ch) (String.append attr ext) = Some k ->
  calibrate save_cal ph2energy fit attr ext good false ch = (ch, Returned k).
Proof. intros. rewrite calibrate_cases. now rewrite H. Qed.
(** Otherwise it fits the good values of the attribute; the calibration is kept and saved, also if the conversion raises, and the energies are its values. *)
Theorem calibration_made : forall (ch ch' : channel) fit attr ext good force r, sound ch -> calibrate save_cal ph2energy fit attr ext good force ch = (ch', r) ->
  force = true \/ get (cals ch) (String.append attr ext) = None ->
  (exists v w k, attribute ch attr = Some v /\ good_values good v w /\ fit w = Some k /\
     get (cals ch') (String.append attr ext) = Some k /\ get (scals (st ch')) (String.append attr ext) = Some (save_cal k) /\
     (forall x, x <> String.append attr ext -> get (cals ch') x = get (cals ch) x /\ get (scals (st ch')) x = get (scals (st ch)) x) /\
     (forall a, a <> "p_energy" -> attribute ch' a = attribute ch a) /\
     ((r = Nothing /\ last_used ch' = Some k /\ exists e, ph2energy k v = Some e /\ attribute ch' "p_energy" = Some e) \/
      (r = Raised /\ last_used ch' = last_used ch /\ attribute ch' "p_energy" = attribute ch "p_energy"))) \/
  (r = Raised /\ ch' = ch /\ (attribute ch attr = None \/ exists v w, attribute ch attr = Some v /\ good_values good v w /\ fit w = None)).
Proof.
  intros ch ch' fit attr ext good force r S E C. rewrite calibrate_cases in E. assert (X : (if force then None else get (cals ch) (String.append attr ext)) = None) by (destruct C as [-> | ->]; [reflexivity|now destruct force]). rewrite X in E. clear X.
  destruct (attribute ch attr) as [v|] eqn:A; [|injection E as <- <-; right; auto]. destruct (fit (select good v)) as [k|] eqn:F; [|injection E as <- <-; right; split; [reflexivity|]; split; [reflexivity|]; right; exists v, (select good v); repeat split; [apply select_spec|exact F]].
  left. exists v, (select good v), k. split; [reflexivity|]. split; [apply select_spec|]. split; [exact F|]. cbn zeta in E.
  set (ch1 := calibrated save_cal k (String.append attr ext) ch) in *. assert (AT : forall a, attribute ch1 a = attribute ch a) by reflexivity.
  assert (G1 : get (cals ch1) (String.append attr ext) = Some k) by (cbn; rewrite get_set, String.eqb_refl; reflexivity). assert (G2 : get (scals (st ch1)) (String.append attr ext) = Some (save_cal k)) by (cbn; rewrite get_set, String.eqb_refl; reflexivity).
  assert (G3 : forall x, x <> String.append attr ext -> get (cals ch1) x = get (cals ch) x /\ get (scals (st ch1)) x = get (scals (st ch)) x).
  { intros x N. cbn. rewrite !get_set. destruct (String.eqb_spec (String.append attr ext) x); [congruence|auto]. }
  destruct (convert_to_energy ph2energy attr (Some (String.append attr ext)) ch1) as [ch2 ok] eqn:CV. cbn [fst snd] in E. destruct ok; injection E as <- <-.
  - pose proof CV as CV0. apply convert_cases in CV as (k' & v' & e & c1 & G & A' & P & W & ->). apply write_spec in W as (d & Gd & L & Q & _ & _ & _ & W4 & _ & _ & _ & _ & _ & W10 & _ & W12). rewrite G1 in G. injection G as <-. rewrite AT, A in A'. injection A' as <-.
    cbn [cals st scals]. rewrite W4, W10. split; [exact G1|]. split; [exact G2|]. split; [exact G3|]. split.
    + intros a N. rewrite <- (AT a). apply (attribute_apart ch1 _ "energy"); [discriminate..| |exact N]. intros x M. cbn [st]. rewrite Q. destruct (String.eqb_spec "energy" x); [congruence|reflexivity].
    + left. split; [reflexivity|]. split; [reflexivity|]. exists e. split; [exact P|]. change "p_energy" with (String.append "p_" "energy"). rewrite (attribute_get _ "energy" F32 0); [|cbn; tauto|discriminate]. cbn [st]. rewrite Q. reflexivity.
  - apply convert_cases in CV. subst ch2. split; [exact G1|]. split; [exact G2|]. split; [exact G3|]. split; [intros; apply AT|]. right. repeat split; apply AT.
Qed.

(** * Phase correction *)
(** With a correction in place and not forced, phase_correct does nothing. *)
Theorem phase_skipped : forall (ch : channel) make attr good tofile k, corrector ch = Some k -> phase_correct save_corr uniform correct make attr good false tofile ch = (ch, true).
Proof. intros. unfold phase_correct. now rewrite H. Qed.
(** Otherwise the correction made from the good pulses is applied to all and kept. *)
Theorem phase_corrected : forall (ch ch' : channel) make attr good force tofile, sound ch -> phase_correct save_corr uniform correct make attr good force tofile ch = (ch', true) ->
  force = true \/ corrector ch = None -> attr <> "p_filt_phase_corr" -> exists ph v gp gv k u w,
  attribute ch "p_filt_phase" = Some ph /\ attribute ch attr = Some v /\ good_values good ph gp /\ good_values good v gv /\ make gp gv = Some k /\
  uniform k ph = Some u /\ correct k ph v = Some w /\ attribute ch' "p_filt_phase_corr" = Some u /\ attribute ch' "p_filt_value_phc" = Some w /\
  (forall a, a <> "p_filt_phase_corr" -> a <> "p_filt_value_phc" -> attribute ch' a = attribute ch a) /\ corrector ch' = Some k /\
  scorr_of (st ch') = (if tofile then Some (save_corr (scorr_of (st ch)) k) else scorr_of (st ch)) /\ cals ch' = cals ch.
Proof.
  intros ch ch' make attr good force tofile S E C NA. unfold phase_correct in E.
  assert (X : negb force && match corrector ch with Some _ => true | None => false end = false) by (destruct C as [-> | ->]; [reflexivity|now rewrite andb_false_r]). rewrite X in E. clear X.
  destruct (attribute ch "p_filt_phase") as [ph|] eqn:AP; [|discriminate]. destruct (attribute ch attr) as [v|] eqn:A; [|discriminate]. destruct (make _ _) as [k|] eqn:M; [|discriminate].
  destruct (uniform k ph) as [u|] eqn:U; [|discriminate]. destruct (write "filt_phase_corr" u (with_corrector k ch)) as [c1|] eqn:W1; [|discriminate].
  apply write_spec in W1 as (d & Gd & L & Q & _ & _ & _ & _ & R5 & _ & _ & _ & _ & R10 & _ & R12). cbn in R5, R10, R12.
  assert (AT1 : forall a, a <> "p_filt_phase_corr" -> attribute c1 a = attribute ch a).
  { intros a N. rewrite (attribute_apart (with_corrector k ch) c1 "filt_phase_corr"); [reflexivity|discriminate..| |exact N]. intros x M'. rewrite Q. destruct (String.eqb_spec "filt_phase_corr" x); [congruence|reflexivity]. }
  rewrite (AT1 attr NA), A in E. destruct (correct k ph v) as [w|] eqn:CO; [|discriminate]. destruct (write "filt_value_phc" w c1) as [c2|] eqn:W2; [|discriminate].
  apply write_spec in W2 as (d2 & Gd2 & L2 & Q2 & _ & _ & _ & _ & T5 & _ & _ & _ & _ & T10 & _ & T12).
  assert (AT2 : forall a, a <> "p_filt_value_phc" -> attribute c2 a = attribute c1 a).
  { intros a N. apply (attribute_apart c1 c2 "filt_value_phc"); [discriminate..| |exact N]. intros x M'. rewrite Q2. destruct (String.eqb_spec "filt_value_phc" x); [congruence|reflexivity]. }
  assert (U2 : attribute c2 "p_filt_phase_corr" = Some u).
  { rewrite AT2 by discriminate. change "p_filt_phase_corr" with (String.append "p_" "filt_phase_corr"). rewrite (attribute_get _ "filt_phase_corr" F32 0); [|cbn; tauto|discriminate]. now rewrite Q. }
  assert (V2 : attribute c2 "p_filt_value_phc" = Some w).
  { change "p_filt_value_phc" with (String.append "p_" "filt_value_phc"). rewrite (attribute_get _ "filt_value_phc" F32 0); [|cbn; tauto|discriminate]. now rewrite Q2. }
  exists ph, v, (select good ph), (select good v), k, u, w. do 2 (split; [reflexivity|]). do 2 (split; [apply select_spec|]). do 2 (split; [assumption|]). split; [first [exact CO|reflexivity]|].
  assert (AA : forall a, a <> "p_filt_phase_corr" -> a <> "p_filt_value_phc" -> attribute c2 a = attribute ch a) by (intros a N1 N2; rewrite AT2 by exact N2; now apply AT1).
  destruct tofile; injection E as <-.
  - split; [exact U2|]. split; [exact V2|]. split; [exact AA|]. cbn. rewrite T12, R12, T5, R5, T10, R10. auto.
  - split; [exact U2|]. split; [exact V2|]. split; [exact AA|]. rewrite T12, R12, T5, R5, T10, R10. auto.
Qed.
(** If the correction cannot be made nothing changes. *)
Theorem phase_not_made : forall (ch : channel) make attr good force tofile ph v, attribute ch "p_filt_phase" = Some ph -> attribute ch attr = Some v -> (forall a b, make a b = None) ->
  force = true \/ corrector ch = None -> phase_correct save_corr uniform correct make attr good force tofile ch = (ch, false).
Proof.
  intros ch make attr good force tofile ph v A1 A2 M C. unfold phase_correct. assert (X : negb force && match corrector ch with Some _ => true | None => false end = false) by (destruct C as [-> | ->]; [reflexivity|now rewrite andb_false_r]). rewrite X, A1, A2, M. reflexivity.
Qed.
End Channels.
Print Assumptions opened.
Print Assumptions opened_new.
Print Assumptions open_refused.
Print Assumptions reopened_same.
Print Assumptions resize_raises.
Print Assumptions copy_raises.
Print Assumptions energies_converted.
Print Assumptions energies_refused.
Print Assumptions energies_possible.
Print Assumptions calibration_found.
Print Assumptions calibration_made.
Print Assumptions phase_skipped.
Print Assumptions phase_corrected.
Print Assumptions phase_not_made.

(** * Examples and what does not hold *)
(** Calibrations are factors, corrections are numbers that are added; a negative one cannot be applied. *)
Definition q (z : Z) : Qc := Q2Qc (inject_Z z).
Definition times (k : Z) (v : list Qc) : option (list Qc) := Some (map (fun x => q k * x)%Qc v).
Definition shifted (k : Z) (ph v : list Qc) : option (list Qc) := if (k <? 0)%Z then None else Some (map (fun x => x + q k)%Qc v).
Definition demo_open (g : option (store Z Z)) := open (cal := Z) (corr := Z) Some Some g 2 4 7%Z.
Definition demo : channel Z Z Z Z := match snd (demo_open (Some no_store)) with Some c => c | None => mkCh no_store 0 0 0%Z None [] None None end.
Definition fit2 (v : list Qc) : option Z := match v with [] => None | _ => Some 2%Z end.
Definition demo_steps : list (step Z Z) :=
  [Write "filt_value_dc" [q 5; q 6]; Calibrate fit2 "p_filt_value_dc" "" [true; false] false; Correct (fun _ _ => Some 3%Z) "p_filt_value_dc" [true; true] false true].
Definition demo_do (l : list (step Z Z)) (c : channel Z Z Z Z) := fold_left (fun x s => perform (fun k => k) times (fun _ k => k) (fun _ v => Some v) shifted s x) l c.
Definition shown (c : channel Z Z Z Z) (a : string) : option (list Q) := option_map (map this) (attribute c a).

(** Calibrating again without force leaves the energies of another calibration in place. *)
Theorem energies_of_another_refuted : exists (c : channel Z Z Z Z), let c' := fst (calibrate (fun k => k) times fit2 "p_filt_value_dc" "" [true; true] false c) in
  get (cals c) "p_filt_value_dc" = Some 2%Z /\ snd (calibrate (fun k => k) times fit2 "p_filt_value_dc" "" [true; true] false c) = Returned 2%Z /\
  shown c' "p_filt_value_dc" = Some [5; 6]%Q /\ shown c' "p_energy" = Some [15; 18]%Q.
Proof.
  exists (demo_do (demo_steps ++ [Calibrate (fun _ => Some 3%Z) "p_filt_value_dc" "_b" [true; true] false]) demo). vm_compute. repeat split.
Qed.
Print Assumptions energies_of_another_refuted.

(** Two pairs of attribute and extension can have the same name: the calibration of one is taken for the other. *)
Theorem calibration_names_refuted : exists (c : channel Z Z Z Z), cals c = [("p_filt_value_dc", 2%Z)] /\ get (cals demo) "p_filt_value_dc" = None /\
  c = fst (calibrate (fun k => k) times fit2 "p_filt_value" "_dc" [true; true] false demo) /\ snd (calibrate (fun k => k) times fit2 "p_filt_value_dc" "" [true; true] false c) = Returned 2%Z.
Proof. exists (fst (calibrate (fun k => k) times fit2 "p_filt_value" "_dc" [true; true] false demo)). vm_compute. repeat split. Qed.
Print Assumptions calibration_names_refuted.

(** After a correction that could not be applied, the next call does nothing and raises nothing. *)
Theorem phase_retry_refuted : exists (c : channel Z Z Z Z),
  let p f := phase_correct (fun _ k => k) (fun _ v => Some v) shifted (fun _ _ => Some f) "p_filt_value_dc" [true; true] false true in
  snd (p (-1)%Z c) = false /\ snd (p 3%Z (fst (p (-1)%Z c))) = true /\ shown (fst (p 3%Z (fst (p (-1)%Z c)))) "p_filt_value_phc" = Some [0; 0]%Q.
Proof. exists (demo_do [Write "filt_value_dc" [q 5; q 6]] demo). vm_compute. repeat split. Qed.
Print Assumptions phase_retry_refuted.

Example channel_instance : demo_open (Some no_store) = (Some (st demo), Some demo) /\ shown (demo_do demo_steps demo) "p_energy" = Some [10; 12]%Q /\ shown (demo_do demo_steps demo) "p_filt_value_phc" = Some [8; 9]%Q /\
  (exists c, demo_open (Some (st (demo_do demo_steps demo))) = (Some (st (demo_do demo_steps demo)), Some c) /\ cals c = [("p_filt_value_dc", 2%Z)] /\ corrector c = Some 3%Z) /\
  snd (resize demo 1) = false /\ snd (resize demo 2) = true /\ snd (open (cal := Z) (corr := Z) Some Some (Some (st demo)) 3 4 7%Z) = None.
Proof. split; [vm_compute; reflexivity|]. split; [vm_compute; reflexivity|]. split; [vm_compute; reflexivity|]. split; [eexists; split; [vm_compute; reflexivity|]; split; vm_compute; reflexivity|]. repeat split; vm_compute; reflexivity. Qed.
Example old_file_instance : let old := [("rowcount", mkSet I64 [q 11; q 12]); ("cuts/mask", mkSet I32 [q (-1); q 3])] in
  called old "rowcount" /\ (let '(h, ok) := setup_vectors old 2 4 in (ok, counter h, option_map (fun d => map this (vals d)) (get h "cuts/mask"), get h "subframecount")) = (true, "rowcount", Some [4294967295; 3]%Q, None) /\
  snd (setup_vectors [("energy", mkSet F32 [q 1])] 2 4) = false.
Proof. split; [left; split; [reflexivity|discriminate]|]. split; vm_compute; reflexivity. Qed.
