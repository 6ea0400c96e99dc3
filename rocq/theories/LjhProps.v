(** Properties of the LJH files: C35, C36, C37, C40. *)
From Coq Require Import ZArith Ascii String Bool QArith QArith.Qcanon Lia List.
From Verif Require Import LjhModel LjhSpec LjhProofs LjhEdit.
Import ListNotations.
Open Scope Z_scope.

(** * C35 *)

(** Records written in the 2.2 format are read back unchanged. *)
Theorem ljh_read_back fl h n ps : header_for fl h n -> Forall (valid_pulse n) ps ->
  exists o oh, ljh_open fl (h ++ flat_map record_bytes ps) = Some o /\ ljh_open fl h = Some oh /\
            same_header oh o /\ all_pulses o = ps.
Proof. exact (read_back fl h n ps). Qed.
Print Assumptions ljh_read_back.

(** Cut at any byte: the complete records before the cut are read, no others; opening can
    fail only when the cut is in the header. *)
Theorem ljh_crash fl h n ps k : header_for fl h n -> Forall (valid_pulse n) ps ->
  let f := h ++ flat_map record_bytes ps in
  match ljh_open fl (firstn k f) with
  | Some o => all_pulses o = firstn ((k - length h) / (16 + 2 * n)) ps
  | None => (k < length h)%nat
  end.
Proof. exact (crash fl h n ps k). Qed.
Print Assumptions ljh_crash.

(** Reading is exact on any 2.2 file: the records read, written again, are the file's bytes
    up to the incomplete last record. *)
Theorem ljh_read_exact fl f o : ljh_open fl f = Some o -> is_bytes f -> v22 o = true ->
  Forall (valid_pulse (nSamples o)) (all_pulses o) /\
  exists tail, f = firstn (hsize o) f ++ flat_map record_bytes (all_pulses o) ++ tail /\
    (length tail < 16 + 2 * nSamples o)%nat.
Proof.
  intros O B V. pose proof (is_bytes_body _ _ _ O B) as Bb. split; [now apply records_valid|].
  exists (skipn (nPulses o * pulse_size o) (body o)). split.
  - rewrite <- records_body, firstn_skipn by assumption. now apply file_split with fl.
  - rewrite skipn_length, <- (pulse_size_22 o V). apply nPulses_rest.
Qed.
Print Assumptions ljh_read_exact.

(** * C36 *)

Theorem ljh_append fl src dest o od l ps :
  ljh_open fl src = Some o -> is_bytes src ->
  ljh_open fl dest = Some od -> is_bytes dest -> v22 od = true -> nSamples od = nSamples o ->
  ends_in_newline (firstn (hsize od) dest) -> (length (body od) mod pulse_size od = 0)%nat ->
  selected o l ps -> Forall storable ps ->
  exists f o', append_traces fl src dest (Some l) = (f, true) /\ ljh_open fl f = Some o' /\
     same_header od o' /\ all_pulses o' = all_pulses od ++ ps.
Proof. exact (append_reads fl src dest o od l ps). Qed.
Print Assumptions ljh_append.

(** Which pulse an index selects: as in Python, negative ones count from the end. *)
Theorem ljh_read_index o i : v22 o = true ->
  let n := Z.of_nat (nPulses o) in
  (0 <= i < n -> read_pulse o i = nth_error (all_pulses o) (Z.to_nat i)) /\
  (- n <= i < 0 -> read_pulse o i = nth_error (all_pulses o) (Z.to_nat (n + i))) /\
  (i < - n \/ n <= i -> read_pulse o i = None).
Proof. exact (read_pulse_index o i). Qed.
Print Assumptions ljh_read_index.

Theorem ljh_append_all fl src dest o od :
  ljh_open fl src = Some o -> is_bytes src -> v22 o = true ->
  ljh_open fl dest = Some od -> is_bytes dest -> v22 od = true -> nSamples od = nSamples o ->
  ends_in_newline (firstn (hsize od) dest) -> (length (body od) mod pulse_size od = 0)%nat ->
  Forall storable (all_pulses o) ->
  exists f o', append_traces fl src dest None = (f, true) /\ ljh_open fl f = Some o' /\
     same_header od o' /\ all_pulses o' = all_pulses od ++ all_pulses o.
Proof. exact (append_all fl src dest o od). Qed.
Print Assumptions ljh_append_all.

(** Whatever the source, the requested pulses and the outcome, no record already in the
    destination is lost or changed. *)
Theorem ljh_append_keeps fl src dest od pulses :
  ljh_open fl dest = Some od -> ends_in_newline (firstn (hsize od) dest) ->
  exists o' more, ljh_open fl (fst (append_traces fl src dest pulses)) = Some o' /\
     same_header od o' /\ all_pulses o' = all_pulses od ++ more.
Proof. exact (append_keeps fl src dest od pulses). Qed.
Print Assumptions ljh_append_keeps.

Theorem ljh_truncate_count fl src o out n :
  ljh_open fl src = Some o -> is_bytes src -> v22 o = true ->
  Forall (fun kv => starts end_mark (fst kv) = false) (hdict o) ->
  0 <= n <= Z.of_nat (nPulses o) ->
  exists f o', truncate fl src out (Some n) None None = (Some f, true) /\
     ljh_open fl f = Some o' /\ same_header o o' /\ all_pulses o' = firstn (Z.to_nat n) (all_pulses o).
Proof. exact (truncate_count fl src o out n). Qed.
Print Assumptions ljh_truncate_count.

(** More pulses than there are: an exception, but the whole file has been copied. *)
Theorem ljh_truncate_too_many fl src o out n :
  ljh_open fl src = Some o -> is_bytes src -> v22 o = true ->
  Forall (fun kv => starts end_mark (fst kv) = false) (hdict o) ->
  Z.of_nat (nPulses o) < n ->
  exists f o', truncate fl src out (Some n) None None = (Some f, false) /\
     ljh_open fl f = Some o' /\ same_header o o' /\ all_pulses o' = all_pulses o.
Proof. exact (truncate_too_many fl src o out n). Qed.
Print Assumptions ljh_truncate_too_many.

Theorem ljh_truncate_time fl src o out stop :
  ljh_open fl src = Some o -> is_bytes src -> v22 o = true ->
  Forall (fun kv => starts end_mark (fst kv) = false) (hdict o) ->
  exists f o', truncate fl src out None (Some stop) None = (Some f, true) /\
     ljh_open fl f = Some o' /\ same_header o o' /\ until stop (all_pulses o) (all_pulses o').
Proof. exact (truncate_time fl src o out stop). Qed.
Print Assumptions ljh_truncate_time.

(** * C37 *)

(** A copy keeps the chosen records and the record length; the pretrigger length read back is
    3 larger. *)
Theorem ljh_copy e fl src o dest l ps overwrite tb :
  ljh_open fl src = Some o -> is_bytes src -> selected o l ps -> Forall storable ps ->
  (dest = None \/ overwrite = true) ->
  ~ In 10 (massver e) -> ~ In 68 (massver e) -> ~ In 10 (asctime e) -> ~ In 10 (fmt e (timebase o)) ->
  fl (strip (fmt e (timebase o))) = Some tb -> 16 + 2 * Z.of_nat (nSamples o) <= 2 ^ 24 ->
  exists f o', copy_traces e fl src dest l overwrite = (Some f, true) /\ ljh_open fl f = Some o' /\
    v22 o' = true /\ nSamples o' = nSamples o /\ nPresamples o' = nPresamples o + 3 /\ timebase o' = tb /\
    all_pulses o' = ps.
Proof. exact (copy_reads e fl src o dest l ps overwrite tb). Qed.
Print Assumptions ljh_copy.

Theorem ljh_copies_drift e fl k f g o :
  copies e fl k f g -> ljh_open fl f = Some o -> is_bytes f -> v22 o = true ->
  Forall storable (all_pulses o) ->
  ~ In 10 (massver e) -> ~ In 68 (massver e) -> ~ In 10 (asctime e) ->
  (forall q, ~ In 10 (fmt e q)) -> (forall q, fl (strip (fmt e q)) <> None) ->
  16 + 2 * Z.of_nat (nSamples o) <= 2 ^ 24 ->
  exists o', ljh_open fl g = Some o' /\ v22 o' = true /\ nSamples o' = nSamples o /\
     nPresamples o' = nPresamples o + 3 * Z.of_nat k /\ all_pulses o' = all_pulses o.
Proof. exact (copies_drift e fl k f g o). Qed.
Print Assumptions ljh_copies_drift.

(** * C40 *)

(** The segments visit all the records once and in order, whatever the (admissible) segment
    size and the incomplete record at the end. *)
Theorem segments_visit_all o segs sl : segment_slices o segs = Some sl ->
  concat sl = map Z.of_nat (seq 0 (nPulses o)) /\
  exists s, set_segment_size o segs = Some s /\
    Forall (fun l => Z.of_nat (length l) <= fst s /\ fst s * Z.of_nat (pulse_size o) <= segs) sl.
Proof. exact (segments_cover o segs sl). Qed.
Print Assumptions segments_visit_all.

Theorem segments_defined o segs :
  Z.of_nat (pulse_size o) <= segs <-> exists sl, segment_slices o segs = Some sl.
Proof. exact (segments_exist o segs). Qed.
Print Assumptions segments_defined.

(** * Instances *)

Definition fl0 : bytes -> option Qc := fun _ => Some (Q2Qc (1 # 100000)).

Definition ex_header (client : string) (extra : list bytes) (ns : Z) : bytes :=
  flat_map (fun l => l ++ crlf)
    (extra ++
    [ bs "#LJH Memorial File Format"; bs "Save File Format Version: 2.2.1";
      bs "Software Version: " ++ bs client; bs "Timebase: 1e-5";
      bs "Number of rows: 4"; bs "Row number (from 0-3 inclusive): 2";
      bs "Presamples: 5"; bs "Total Samples: " ++ py_str ns; bs "#End of Header" ]).

Definition dastard (ns : Z) := ex_header "DASTARD 0.3" [] ns.
Definition p1 := mkPulse 1000 1700000000000000 [1; 65535; 3].
Definition p2 := mkPulse 70000 1700000001000000 [256; 2; 0].
Definition p3 := mkPulse 80000 1700000002000000 [7; 8; 9].
Definition ex_file : bytes := dastard 3 ++ flat_map record_bytes [p1; p2].

Lemma header_for_check fl h n :
  match ljh_open fl h with
  | Some o => v22 o && Nat.eqb (nSamples o) n && Nat.eqb (hsize o) (length h)
  | None => false
  end && (last h 0 =? 10) = true -> header_for fl h n.
Proof.
  intros H. apply andb_true_iff in H. destruct H as [H L]. split.
  - apply Z.eqb_eq in L. destruct h as [|x t] using rev_ind; [cbn in L; lia|].
    rewrite last_last in L. subst. now exists t.
  - destruct (ljh_open fl h) as [o|]; [|discriminate]. exists o.
    apply andb_true_iff in H. destruct H as [H A]. apply andb_true_iff in H. destruct H as [B C].
    apply Nat.eqb_eq in A, C. auto.
Qed.

Example header_instance : header_for fl0 (dastard 3) 3.
Proof. apply header_for_check. vm_compute. reflexivity. Qed.

Ltac valid := repeat (apply Forall_cons || apply Forall_nil); unfold valid_pulse; cbn; repeat split;
  try lia; repeat (apply Forall_cons || apply Forall_nil); lia.
Example pulses_instance : Forall (valid_pulse 3) [p1; p2].
Proof. valid. Qed.

(** Cut in the middle of the second record: one record is read; in the header: an error. *)
Example crash_instance :
  option_map (fun o => length (all_pulses o)) (ljh_open fl0 (firstn (length (dastard 3) + 40) ex_file)) = Some 1%nat /\
  option_map (fun o => length (all_pulses o)) (ljh_open fl0 (firstn (length (dastard 3) + 44) ex_file)) = Some 2%nat /\
  option_map (fun o => length (all_pulses o)) (ljh_open fl0 (firstn (length (dastard 3) - 2) ex_file)) = Some 0%nat /\
  option_map (fun o => length (all_pulses o)) (ljh_open fl0 (firstn (length (dastard 3) - 3) ex_file)) = None.
Proof. vm_compute. auto. Qed.

Definition pulses_of (f : bytes) : option (list pulse) := option_map all_pulses (ljh_open fl0 f).

Example append_instance : pulses_of (fst (append_traces fl0 ex_file ex_file (Some [-1; 0]))) = Some [p1; p2; p2; p1].
Proof. vm_compute. reflexivity. Qed.

Example truncate_instance :
  option_map pulses_of (fst (truncate fl0 ex_file None (Some 1) None None)) = Some (Some [p1]) /\
  option_map pulses_of (fst (truncate fl0 ex_file None None (Some (qz 1700000000)) None)) = Some (Some [p1]).
Proof. vm_compute. auto. Qed.

Definition env0 := mkEnv (bs "0.8.4") (bs "Mon Nov 16 03:00:00 2026") (fun _ => bs "1.0000e-05").

Example copies_instance : exists f g, copies env0 fl0 2 ex_file g /\
  f = g /\ option_map nPresamples (ljh_open fl0 ex_file) = Some 5 /\
  option_map nPresamples (ljh_open fl0 g) = Some 11.
Proof.
  destruct (ljh_open fl0 ex_file) as [o|] eqn:O; [|vm_compute in O; discriminate].
  assert (N : nPulses o = 2%nat).
  { assert (H : option_map nPulses (ljh_open fl0 ex_file) = Some 2%nat) by (vm_compute; reflexivity).
    rewrite O in H. now injection H. }
  set (g1 := match fst (copy_traces env0 fl0 ex_file None [0; 1] false) with Some x => x | None => [] end).
  destruct (ljh_open fl0 g1) as [o1|] eqn:O1; [|vm_compute in O1; discriminate].
  assert (N1 : nPulses o1 = 2%nat).
  { assert (H : option_map nPulses (ljh_open fl0 g1) = Some 2%nat) by (vm_compute; reflexivity).
    rewrite O1 in H. now injection H. }
  set (g2 := match fst (copy_traces env0 fl0 g1 None [0; 1] false) with Some x => x | None => [] end).
  exists g2, g2. split; [|split; [reflexivity|split]].
  - apply (copies_S env0 fl0 1 ex_file g1 g2 o1).
    + apply (copies_S env0 fl0 0 ex_file ex_file g1 o); [constructor | exact O|].
      rewrite N. vm_compute. reflexivity.
    + exact O1.
    + rewrite N1. vm_compute. reflexivity.
  - rewrite <- O. vm_compute. reflexivity.
  - vm_compute. reflexivity.
Qed.

Example segments_instance : option_map (fun o => segment_slices o 30) (ljh_open fl0 (ex_file ++ [1; 2; 3])) =
  Some (Some [[0]; [1]; []]).
Proof. vm_compute. reflexivity. Qed.

(** * Claims that do not hold *)

Ltac differ := let C := fresh in intros C; vm_compute in C; discriminate C.

Definition bytes_of (r : option bytes * bool) : bytes := match fst r with Some f => f | None => [] end.

(** Appending behind an incomplete last record (a file left by a crash): the appended
    record is read shifted. *)
Theorem ljh_append_partial_refuted : exists src dest,
  pulses_of src = Some [p3] /\ pulses_of dest = Some [p1; p2] /\
  option_map nSamples (ljh_open fl0 src) = option_map nSamples (ljh_open fl0 dest) /\
  snd (append_traces fl0 src dest None) = true /\
  pulses_of (fst (append_traces fl0 src dest None)) <> Some [p1; p2; p3].
Proof.
  exists (dastard 3 ++ record_bytes p3), (ex_file ++ [0; 0; 0]). vm_compute. repeat split; auto. discriminate.
Qed.
Print Assumptions ljh_append_partial_refuted.

(** Appending records of another length is not refused. *)
Theorem ljh_append_other_length_refuted : exists src dest,
  pulses_of src = Some [mkPulse 5 6 [7; 8]] /\ pulses_of dest = Some [p1; p2] /\
  snd (append_traces fl0 src dest None) = true /\
  pulses_of (fst (append_traces fl0 src dest None)) = Some [p1; p2].
Proof.
  exists (dastard 2 ++ record_bytes (mkPulse 5 6 [7; 8])), ex_file. vm_compute. auto.
Qed.
Print Assumptions ljh_append_other_length_refuted.

(** "only pulses with timestamp earlier than this number": one at the time itself is kept. *)
Theorem ljh_truncate_strict_refuted : exists src f,
  pulses_of src = Some [p1; p2] /\
  truncate fl0 src None None (Some (qz 1700000001)) None = (Some f, true) /\
  pulses_of f = Some [p1; p2] /\ p_usec p2 = 1700000001 * 1000000.
Proof.
  exists ex_file, (bytes_of (truncate fl0 ex_file None None (Some (qz 1700000001)) None)).
  vm_compute. repeat split.
Qed.
Print Assumptions ljh_truncate_strict_refuted.

(** An indented "#End of Header" entry is moved to the start of its line by truncation and
    ends the header there. *)
Theorem ljh_truncate_header_refuted : exists src f,
  pulses_of src = Some [p1] /\ truncate fl0 src None (Some 1) None None = (Some f, true) /\ ljh_open fl0 f = None.
Proof.
  set (src := ex_header "DASTARD 0.3" [bs " #End of Header: no"] 3 ++ record_bytes p1).
  exists src, (bytes_of (truncate fl0 src None (Some 1) None None)). vm_compute. repeat split.
Qed.
Print Assumptions ljh_truncate_header_refuted.

(** Without overwrite an existing destination is left as it is, and the copy fails. *)
Theorem ljh_copy_refused e fl src d l : copy_traces e fl src (Some d) l false = (Some d, false).
Proof. exact (copy_refused e fl src d l). Qed.
Print Assumptions ljh_copy_refused.

(** The pretrigger length is not kept by a copy. *)
Theorem ljh_copy_presamples_refuted : exists src f,
  copy_traces env0 fl0 src None [0] false = (Some f, true) /\
  option_map nPresamples (ljh_open fl0 src) = Some 5 /\ option_map nPresamples (ljh_open fl0 f) = Some 8 /\
  option_map sub_div (ljh_open fl0 src) = Some 4 /\ option_map sub_div (ljh_open fl0 f) = Some 1.
Proof.
  exists ex_file, (bytes_of (copy_traces env0 fl0 ex_file None [0] false)). vm_compute. repeat split.
Qed.
Print Assumptions ljh_copy_presamples_refuted.

(** A negative count cannot be copied (it is read as signed and written as unsigned), though
    truncation keeps it. *)
Theorem ljh_copy_negative_refuted : exists src p,
  pulses_of src = Some [p] /\ snd (copy_traces env0 fl0 src None [0] false) = false /\
  option_map pulses_of (fst (truncate fl0 src None (Some 1) None None)) = Some (Some [p]).
Proof.
  exists (dastard 3 ++ record_bytes (mkPulse (-1) 5 [1; 2; 3])), (mkPulse (-1) 5 [1; 2; 3]).
  vm_compute. repeat split.
Qed.
Print Assumptions ljh_copy_negative_refuted.
