(** The OFF format, stated without the model's layouts, readers and writers. *)
From Coq Require Import ZArith Ascii String Bool QArith Qcanon List.
From Verif Require Import QcPre LagModel LjhModel LjhSpec OffModel.
Import ListNotations.
Open Scope Z_scope.

(** ASCII text. *)
Definition ascii_text (l : bytes) : Prop := Forall (fun b => 0 <= b < 128) l.

(** A header: lines, of which only the last is a closing brace alone. *)
Definition header_text (hs : bytes) : Prop :=
  exists ls, hs = flat_map (fun l => l ++ [10]) ls ++ [125; 10] /\
             Forall (fun l => ~ In 10 l /\ l <> [125]) ls.

(** A record; floating-point numbers by their bits.  The change of the pretrigger level is
    missing before version 0.3.0. *)
Record orec := mkRec {
  r_samples : Z; r_pre : Z; r_frame : Z; r_nano : Z;
  r_mean : Z; r_delta : option Z; r_resid : Z; r_coefs : list Z }.

(** Little-endian bytes. *)
Definition number (n : nat) (v : Z) : bytes := map (byte_of v) (seq 0 n).
Definition record_on_disk (r : orec) : bytes :=
  number 4 (r_samples r) ++ number 4 (r_pre r) ++ number 8 (r_frame r) ++ number 8 (r_nano r)
  ++ number 4 (r_mean r) ++ (match r_delta r with Some d => number 4 d | None => [] end)
  ++ number 4 (r_resid r) ++ flat_map (number 4) (r_coefs r).

Definition int32 (v : Z) : Prop := - 2 ^ 31 <= v < 2 ^ 31.
Definition in64 (v : Z) : Prop := - 2 ^ 63 <= v < 2 ^ 63.
Definition bits32 (v : Z) : Prop := 0 <= v < 2 ^ 32.
Definition valid_record (delta : bool) (nb : nat) (r : orec) : Prop :=
  int32 (r_samples r) /\ int32 (r_pre r) /\ in64 (r_frame r) /\ in64 (r_nano r) /\
  bits32 (r_mean r) /\ bits32 (r_resid r) /\
  (match r_delta r with Some d => delta = true /\ bits32 d | None => delta = false end) /\
  length (r_coefs r) = nb /\ Forall bits32 (r_coefs r).

(** The versions, and whether their records have the extra number. *)
Inductive version_of : bytes -> bool -> Prop :=
| version_1 : version_of (bs "0.1.0") false
| version_2 : version_of (bs "0.2.0") false
| version_3 : version_of (bs "0.3.0") true.

(** A header for [nb] basis elements of length [n], with projectors [P] and basis [B] that are
    either in the header or follow it. *)
Definition describes (h : header) (delta : bool) (nb n : nat) (P B : bytes) : Prop :=
  version_of (h_version h) delta /\ h_format h = bs "OFF" /\ h_bases h = nb /\
  h_prows h = nb /\ h_pcols h = n /\ h_brows h = n /\ h_bcols h = nb /\
  length P = (8 * (nb * n))%nat /\ length B = (8 * (nb * n))%nat /\
  (h_model h = Appended \/ h_model h = Inline P B).
Definition model_bytes (h : header) (P B : bytes) : bytes :=
  match h_model h with Inline _ _ => [] | Appended => P ++ B end.

(** Reading record [i] of an open file by name gives the record [r]. *)
Definition reads (o : off) (i : nat) (r : orec) : Prop :=
  off_get o i "recordSamples" = Some [r_samples r] /\
  off_get o i "recordPreSamples" = Some [r_pre r] /\
  off_get o i "framecount" = Some [r_frame r] /\
  off_get o i "unixnano" = Some [r_nano r] /\
  off_get o i "pretriggerMean" = Some [r_mean r] /\
  off_get o i "pretriggerDelta" = option_map (fun d => [d]) (r_delta r) /\
  off_get o i "residualStdDev" = Some [r_resid r] /\
  off_get o i "pulseMean" = Some [nth 0 (r_coefs r) 0] /\
  off_get o i "derivativeLike" = Some [nth 1 (r_coefs r) 0] /\
  off_get o i "filtValue" = Some [nth 2 (r_coefs r) 0] /\
  ((3 < length (r_coefs r))%nat -> off_get o i "extraCoefs" = Some (skipn 3 (r_coefs r))) /\
  off_coefs o i = Some (r_coefs r).

(** [o] is an open file with the given model, holding the records [rs]. *)
Definition holds (o : off) (P B : bytes) (rs : list orec) : Prop :=
  o_projectors o = P /\ o_basis o = B /\ o_nrecords o = length rs /\
  forall i r, nth_error rs i = Some r -> reads o i r.

(** ** Conversion *)

(** A matrix: its rows, of one length. *)
Definition matrix (rows cols : nat) (m : list (list Qc)) : Prop :=
  length m = rows /\ Forall (fun r => length r = cols) m.

(** Entry [a] of a matrix times a vector. *)
Definition row_dot (m : list (list Qc)) (v : list Qc) (a : nat) : Qc :=
  qsum (length v) (fun j => (nth j (nth a m []) 0 * nth j v 0)%Qc).

(** Results of the floating-point operations fit their types. *)
Definition sound (e : floats) : Prop :=
  (forall q, bits32 (f32 e q)) /\ (forall t, in64 (nano e t)).

(** The record for a pulse of an LJH file with [nps] presamples and [div] subframes per frame;
    the first [k] samples are used for the pretrigger level. *)
Definition converted (e : floats) (proj basis : list (list Qc)) (nps div : Z) (k : nat) (p : pulse) : orec :=
  let n := length (p_data p) in
  let d := map LjhModel.qz (p_data p) in
  let coefs := map (row_dot proj d) (seq 0 (length proj)) in
  mkRec (Z.of_nat n) nps (p_sub p / div) (nano e (p_usec p))
        (f32 e (qsum k (fun j => nth j d 0%Qc) / LjhModel.qz (Z.of_nat k))%Qc)
        (Some (f32 e (slope e (firstn k d))))
        (f32 e (std e (map (fun j => (row_dot basis coefs j - nth j d 0)%Qc) (seq 0 n))))
        (map (f32 e) coefs).

(** All the pulses of the files, in order. *)
Definition converted_files (e : floats) (proj basis : list (list Qc)) (n_ignore : Z) (files : list ljh) : list orec :=
  flat_map (fun o => map (converted e proj basis (nPresamples o) (sub_div o) (Z.to_nat (nPresamples o - n_ignore)))
                         (all_pulses o)) files.

(** A file that can be converted: it holds some data, and if it holds pulses, they have the
    length of the projectors, and the samples used for the pretrigger level are at least one
    and at most all of the record. *)
Definition convertible (cols : nat) (n_ignore : Z) (o : ljh) : Prop :=
  body o <> [] /\
  (nPulses o = 0%nat \/
   (nSamples o = cols /\ 1 <= nPresamples o - n_ignore <= Z.of_nat (nSamples o) /\
    (v22 o = true \/ sub_div o <> 0))).

(** The integers of the records to be written fit their fields. *)
Definition representable (o : ljh) : Prop :=
  int32 (Z.of_nat (nSamples o)) /\ int32 (nPresamples o) /\
  forall p, In p (all_pulses o) -> in64 (p_sub p / sub_div o).
