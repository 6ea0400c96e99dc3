(** Properties of OFF files (C41) and of the conversion from LJH (C61). *)
From Coq Require Import ZArith Ascii String Bool QArith Qcanon Lia List.
From Verif Require Import QcPre LagModel LjhModel LjhSpec LjhProps OffModel OffSpec OffProofs.
Import ListNotations.
Open Scope Z_scope.

(** * C41: OFF files *)

(** A file in the format, with at least three basis elements, an ASCII header and any number of
    records, followed by less than one record: the projectors, the basis, the number of records
    and every field of every record are read as written, the coefficients both together and
    under their names. *)
Theorem off_read_back : forall utf8 json hs h delta nb n P B rs tail,
  (forall l, ascii_text l -> utf8 l = true) -> header_text hs -> ascii_text hs -> json hs = Some h ->
  describes h delta nb n P B -> (3 <= nb)%nat ->
  Forall (valid_record delta nb) rs -> (length tail < (if delta then 36 else 32) + 4 * nb)%nat ->
  exists o, off_open utf8 json (hs ++ model_bytes h P B ++ flat_map record_on_disk rs ++ tail) = Some o /\
            o_header o = h /\ holds o P B rs.
Proof. exact off_reads. Qed.
Print Assumptions off_read_back.

(** A file whose writing stopped after the header and the model holds exactly the records
    completely written. *)
Theorem off_stopped : forall utf8 json hs h delta nb n P B rs k,
  (forall l, ascii_text l -> utf8 l = true) -> header_text hs -> ascii_text hs -> json hs = Some h ->
  describes h delta nb n P B -> (3 <= nb)%nat -> Forall (valid_record delta nb) rs ->
  (length (hs ++ model_bytes h P B) <= k)%nat ->
  exists o m, off_open utf8 json (firstn k (hs ++ model_bytes h P B ++ flat_map record_on_disk rs)) = Some o /\
              o_header o = h /\ holds o P B (firstn m rs) /\
              (forall j, (j <= length rs)%nat ->
                 ((j <= m)%nat <-> (length (hs ++ model_bytes h P B ++ flat_map record_on_disk (firstn j rs)) <= k)%nat)).
Proof. exact off_crash. Qed.
Print Assumptions off_stopped.

(** A file whose writing stopped before is refused. *)
Theorem off_incomplete_refused : forall utf8 json hs h delta nb n P B k,
  (forall l, ascii_text l -> utf8 l = true) -> header_text hs -> ascii_text hs -> json hs = Some h ->
  describes h delta nb n P B ->
  (k < length (hs ++ model_bytes h P B))%nat -> off_open utf8 json (firstn k (hs ++ model_bytes h P B)) = None.
Proof. exact off_incomplete. Qed.
Print Assumptions off_incomplete_refused.

(** The sample times: one for each sample, the one after the presamples is zero. *)
Theorem off_sample_times : forall s p period, 0 <= s ->
  length (sample_times s p period) = Z.to_nat s /\
  (forall j, (j < Z.to_nat s)%nat -> nth j (sample_times s p period) 0%Qc = (qz (Z.of_nat j - p) * period)%Qc).
Proof. exact sample_times_ok. Qed.
Print Assumptions off_sample_times.

(** A small file: three basis elements of length 1, two records. *)
Definition h3 : header := mkHeader (bs "0.3.0") (bs "OFF") 3 3 1 1 3 Appended.
Definition hs3 : bytes := bs "{""FileFormat"": ""OFF""" ++ [10] ++ bs "}" ++ [10].
Definition P3 : bytes := map Z.of_nat (seq 1 24).
Definition B3 : bytes := map Z.of_nat (seq 101 24).
Definition r1 : orec := mkRec 1000 200 (-5) 1600000000000000000 1 (Some 2) 3 [10; 11; 12].
Definition r2 : orec := mkRec 1000 (-1) (2 ^ 40) (-7) 4294967295 (Some 0) 8 [20; 21; 4294967295].

Ltac ands := repeat match goal with |- _ /\ _ => split end.
Ltac records := repeat (apply Forall_cons || apply Forall_nil); unfold valid_record; cbn; ands;
  repeat (apply Forall_cons || apply Forall_nil); unfold int32, in64, bits32; first [reflexivity | lia].

Example off_hypotheses : header_text hs3 /\ ascii_text hs3 /\ describes h3 true 3 1 P3 B3 /\
  Forall (valid_record true 3) [r1; r2].
Proof.
  split; [| split; [| split]].
  - exists [bs "{""FileFormat"": ""OFF"""]. split; [reflexivity |].
    constructor; [| constructor]. split; [| discriminate].
    intros H. repeat (destruct H as [H | H]; [discriminate H |]). exact H.
  - repeat constructor; lia.
  - unfold describes. repeat (split; [first [constructor | reflexivity] |]). now left.
  - records.
Qed.
Example off_read_instance :
  let f := hs3 ++ P3 ++ B3 ++ record_on_disk r1 ++ record_on_disk r2 ++ [1; 2; 3] in
  let o := off_open (fun _ => true) (fun _ => Some h3) f in
  option_map o_nrecords o = Some 2%nat /\ option_map o_projectors o = Some P3 /\
  option_map (fun o => off_get o 1 "framecount") o = Some (Some [2 ^ 40]) /\
  option_map (fun o => off_get o 1 "filtValue") o = Some (Some [4294967295]) /\
  option_map (fun o => off_coefs o 0) o = Some (Some [10; 11; 12]).
Proof. vm_compute. repeat split. Qed.
Example off_stopped_instance :
  option_map o_nrecords
    (off_open (fun _ => true) (fun _ => Some h3)
       (firstn (length hs3 + 48 + 60) (hs3 ++ P3 ++ B3 ++ record_on_disk r1 ++ record_on_disk r2))) = Some 1%nat /\
  off_open (fun _ => true) (fun _ => Some h3) (firstn (length hs3 + 47) (hs3 ++ P3 ++ B3)) = None.
Proof. vm_compute. split; reflexivity. Qed.
Example off_sample_times_instance :
  map this (sample_times 4 1 (Q2Qc (1 # 2))) = [(-1 # 2)%Q; 0%Q; (1 # 2)%Q; 1%Q].
Proof. reflexivity. Qed.

(** With fewer than three basis elements records are read with the wrong size. *)
Theorem off_two_bases_refuted : exists utf8 json hs h P B rs,
  (forall l, ascii_text l -> utf8 l = true) /\ header_text hs /\ ascii_text hs /\ json hs = Some h /\
  describes h true 2 1 P B /\ Forall (valid_record true 2) rs /\
  exists o, off_open utf8 json (hs ++ model_bytes h P B ++ flat_map record_on_disk rs) = Some o /\
            o_nrecords o <> length rs.
Proof.
  pose (r := mkRec 1000 200 5 6 1 (Some 2) 3 [10; 11]).
  exists (fun _ => true), (fun _ => Some (mkHeader (bs "0.3.0") (bs "OFF") 2 2 1 1 2 Appended)),
    hs3, (mkHeader (bs "0.3.0") (bs "OFF") 2 2 1 1 2 Appended), (repeat 0 16), (repeat 0 16), [r; r].
  destruct off_hypotheses as (H1 & H2 & _).
  split; [reflexivity |]. split; [exact H1 |]. split; [exact H2 |]. split; [reflexivity |].
  split. { unfold describes. repeat (split; [first [constructor | reflexivity] |]). now left. }
  split; [records |].
  eexists. split; [vm_compute; reflexivity |]. cbn. discriminate.
Qed.
Print Assumptions off_two_bases_refuted.

(** With a header that is not ASCII a file may be opened with everything after the header read
    from the wrong place. *)
Theorem off_non_ascii_refuted : exists utf8 json hs h P B rs,
  (forall l, ascii_text l -> utf8 l = true) /\ header_text hs /\ json hs = Some h /\
  describes h true 3 1 P B /\ Forall (valid_record true 3) rs /\
  exists o, off_open utf8 json (hs ++ model_bytes h P B ++ flat_map record_on_disk rs) = Some o /\
            o_projectors o <> P /\ off_get o 0 "recordSamples" <> Some [1000].
Proof.
  exists (fun _ => true), (fun _ => Some h3),
    (bs "{""a"": {""b"": """ ++ [206; 188; 206; 169] ++ bs """" ++ [10] ++ bs "  }" ++ [10] ++ bs "}" ++ [10]),
    h3, P3, B3, [r1; r2].
  destruct off_hypotheses as (_ & _ & H3 & H4).
  split; [reflexivity |]. split.
  { exists [bs "{""a"": {""b"": """ ++ [206; 188; 206; 169] ++ bs """"; bs "  }"]. split; [reflexivity |].
    repeat constructor; try discriminate; intros H; repeat (destruct H as [H | H]; [discriminate H |]); exact H. }
  split; [reflexivity |]. split; [exact H3 |]. split; [exact H4 |].
  eexists. split; [vm_compute; reflexivity |]. split; vm_compute; discriminate.
Qed.
Print Assumptions off_non_ascii_refuted.

(** * C61: conversion of LJH files *)

(** The file written, read back, holds the given projectors and basis and one record for each
    pulse of the LJH files, in order, with its frame number, time, pretrigger level and slope,
    residual and coefficients, however the files are divided into segments. *)
Theorem off_conversion : forall e dumps json utf8 proj basis n_ignore files f nb n,
  (forall l, ascii_text l -> utf8 l = true) ->
  header_text (dumps (off_header proj basis)) -> ascii_text (dumps (off_header proj basis)) ->
  json (dumps (off_header proj basis)) = Some (off_header proj basis) ->
  matrix nb n proj -> matrix n nb basis -> (3 <= nb)%nat -> (0 < n)%nat -> sound e ->
  Forall representable files ->
  multi_ljh2off e dumps proj basis n_ignore files = Some f ->
  exists o, off_open utf8 json f = Some o /\
            holds o (matrix_bytes e proj) (matrix_bytes e basis) (converted_files e proj basis n_ignore files).
Proof. exact conversion. Qed.
Print Assumptions off_conversion.

(** When the conversion succeeds. *)
Theorem off_conversion_succeeds : forall e dumps proj basis n_ignore files n,
  Forall (fun r => length r = n) proj -> proj <> [] ->
  (exists f, multi_ljh2off e dumps proj basis n_ignore files = Some f) <->
  files <> [] /\ Forall (convertible n n_ignore) files.
Proof. exact conversion_succeeds. Qed.
Print Assumptions off_conversion_succeeds.

(** An LJH file without pulses is not converted. *)
Theorem off_conversion_empty_refuted : exists e dumps proj basis n_ignore o,
  nPulses o = 0%nat /\ matrix 1 (nSamples o) proj /\ multi_ljh2off e dumps proj basis n_ignore [o] = None.
Proof.
  exists (mkFloats (fun _ => 0) (fun _ => 0) (fun _ => 0) (fun _ => 0%Qc) (fun _ => 0%Qc)), (fun _ => []),
    [[1%Qc]], [[1%Qc]], 0, (mkLjh [] 0 true 1 0 1%Qc 1 0 []).
  split; [reflexivity |]. split; [split; [reflexivity | repeat constructor] | reflexivity].
Qed.
Print Assumptions off_conversion_empty_refuted.

(** Two files of two pulses and one pulse of 2 samples; projectors take the first sample, the
    second, and their sum. *)
Definition ex_floats : floats :=
  mkFloats (fun q => Z.abs (Qnum (this q)) mod 2 ^ 32) (fun q => Qnum (this q)) (fun t => (t * 1000) mod 2 ^ 63)
           (fun _ => 0%Qc) (fun _ => 0%Qc).
Definition ex_proj : list (list Qc) := [[1; 0]; [0; 1]; [1; 1]]%Qc.
Definition ex_basis : list (list Qc) := [[1; 0; 0]; [0; 1; 0]]%Qc.
Definition ex_ljh (ps : list pulse) : ljh := mkLjh [] 0 true 2 1 1%Qc 4 0 (flat_map record_bytes ps).
Definition ex_files : list ljh :=
  [ex_ljh [mkPulse 40 7 [5; 6]; mkPulse 83 8 [7; 9]]; ex_ljh [mkPulse 100 9 [65535; 1]]].
Definition ex_json (b : bytes) : option header := Some (off_header ex_proj ex_basis).

Example off_conversion_hypotheses : matrix 3 2 ex_proj /\ matrix 2 3 ex_basis /\ sound ex_floats /\
  Forall representable ex_files /\ Forall (convertible 2 0) ex_files.
Proof.
  split; [split; [reflexivity | repeat constructor] |].
  split; [split; [reflexivity | repeat constructor] |].
  split.
  { split; intros x.
    - unfold bits32. cbn [ex_floats f32]. apply Z.mod_pos_bound. reflexivity.
    - unfold in64. cbn [ex_floats nano]. pose proof (Z.mod_pos_bound (x * 1000) (2 ^ 63) eq_refl). lia. }
  split.
  - apply Forall_cons; [| apply Forall_cons; [| apply Forall_nil]];
      (split; [vm_compute; split; congruence |]; split; [vm_compute; split; congruence |];
       intros p H; vm_compute in H; repeat destruct H as [<- | H]; try destruct H; vm_compute; split; congruence).
  - repeat constructor; try discriminate; right; repeat split; try (cbn; lia); now left.
Qed.
Example off_conversion_instance :
  let f := multi_ljh2off ex_floats (fun _ => hs3) ex_proj ex_basis 0 ex_files in
  let o := match f with Some f => off_open (fun _ => true) ex_json f | None => None end in
  option_map o_nrecords o = Some 3%nat /\
  option_map (fun o => map (fun i => off_get o i "framecount") [0; 1; 2]%nat) o = Some [Some [10]; Some [20]; Some [25]] /\
  option_map (fun o => map (off_coefs o) [0; 1; 2]%nat) o
  = Some [Some [5; 6; 11]; Some [7; 9; 16]; Some [65535; 1; 65536]] /\
  option_map (fun o => off_get o 1 "pretriggerMean") o = Some (Some [7]).
Proof. vm_compute. repeat split. Qed.
