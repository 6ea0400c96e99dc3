(** Model of the OFF files: reading, mass/off/off.py, and the conversion of LJH files,
    mass/core/ljh2off.py:64-134.

    A file is a list of bytes.  JSON is not modelled: [json] turns the text of a header into the
    entries used, [dumps] is the text written for them.  Floating-point numbers appear as their
    bit patterns; their computation enters through the functions in [floats].
    Not modelled: numpy's refusal to map zero bytes of a file, [_nRecords], the window of
    [framePeriodSeconds].  [None] is an exception. *)
From Coq Require Import ZArith Ascii String Bool QArith Qcanon List.
From Verif Require Import QcPre LagModel LjhModel.
Import ListNotations.
Open Scope Z_scope.

(** * Record layouts *)

Inductive kind := I32 | I64 | F32.
Definition width (k : kind) : nat := match k with I32 => 4 | I64 => 8 | F32 => 4 end.
(** A packed numpy dtype: fields with a name, a kind and a number of elements. *)
Definition dtype := list (string * kind * nat).
Definition field_size (f : string * kind * nat) : nat := (width (snd (fst f)) * snd f)%nat.
Definition itemsize (dt : dtype) : nat := fold_right (fun f s => (field_size f + s)%nat) 0%nat dt.

(** off.py:20-46, [recordDtype]. *)
Definition common (version : bytes) : option dtype :=
  let start := [("recordSamples", I32, 1%nat); ("recordPreSamples", I32, 1%nat); ("framecount", I64, 1%nat);
                ("unixnano", I64, 1%nat); ("pretriggerMean", F32, 1%nat)]%string in
  if beq version (bs "0.1.0") || beq version (bs "0.2.0")
  then Some (start ++ [("residualStdDev"%string, F32, 1%nat)])
  else if beq version (bs "0.3.0")
  then Some (start ++ [("pretriggerDelta", F32, 1%nat); ("residualStdDev", F32, 1%nat)]%string)
  else None.
Definition coef_fields (nBasis : nat) (descriptive : bool) : dtype :=
  if descriptive then
    [("pulseMean", F32, 1%nat); ("derivativeLike", F32, 1%nat); ("filtValue", F32, 1%nat)]%string
    ++ (if Nat.ltb 3 nBasis then [("extraCoefs"%string, F32, (nBasis - 3)%nat)] else [])
  else [("coefs"%string, F32, nBasis)].
Definition record_dtype (version : bytes) (nBasis : nat) (descriptive : bool) : option dtype :=
  do c <- common version;
  Some (c ++ coef_fields nBasis descriptive).

(** [rec[name]]: the elements of a field. *)
Definition signed (bits v : Z) : Z := if v <? 2 ^ (bits - 1) then v else v - 2 ^ bits.
Definition element (k : kind) (b : bytes) : Z :=
  match k with I32 => signed 32 (le_value b) | I64 => signed 64 (le_value b) | F32 => le_value b end.
Fixpoint get_from (dt : dtype) (off : nat) (name : string) (r : bytes) : option (list Z) :=
  match dt with
  | [] => None
  | f :: t =>
      let '(nm, k, n) := f in
      if String.eqb nm name then Some (map (fun j => element k (field r (off + width k * j) (width k))) (seq 0 n))
      else get_from t (off + field_size f) name r
  end.
Definition get (dt : dtype) (name : string) (r : bytes) : option (list Z) := get_from dt 0 name r.

(** * Opening *)

(** off.py:49-61, [readJsonString]: the bytes of the header.  Each line is decoded. *)
Fixpoint read_json (fuel : nat) (utf8 : bytes -> bool) (f : bytes) : option bytes :=
  match fuel with
  | O => None
  | S n =>
      let (line, rest) := take_line f in
      if negb (utf8 line) then None
      else if beq line [125; 10] then Some line
      else match line with
           | [] => None
           | _ => do r <- read_json n utf8 rest; Some (line ++ r)
           end
  end.

(** [len] of the decoded header: bytes that do not continue a character. *)
Definition chars (b : bytes) : nat := length (filter (fun c => negb ((128 <=? c) && (c <? 192))) b).

(** The entries of the header that are used. *)
Inductive model_info :=
| Inline (projectors basis : bytes)    (* the decoded base64 strings *)
| Appended.
Record header := mkHeader {
  h_version : bytes; h_format : bytes; h_bases : nat;
  h_prows : nat; h_pcols : nat; h_brows : nat; h_bcols : nat; h_model : model_info }.

Record off := mkOff {
  o_header : header; o_dtype : dtype; o_packed : dtype;
  o_projectors : bytes; o_basis : bytes;
  o_nrecords : nat; o_body : bytes }.

Definition same_shape (h : header) : bool :=
  Nat.eqb (h_brows h) (h_pcols h) && Nat.eqb (h_bcols h) (h_prows h) && Nat.eqb (h_bases h) (h_prows h).

(** off.py:75-174: [OffFile.__init__], [validateHeader], [_updateMmap], [_decodeModelInfo...].
    A map beyond the end of the file fails. *)
Definition off_open (utf8 : bytes -> bool) (json : bytes -> option header) (f : bytes) : option off :=
  do hs <- read_json (S (length f)) utf8 f;
  let n := chars hs in
  do h <- json hs;
  do dt <- record_dtype (h_version h) (h_bases h) true;
  do dp <- record_dtype (h_version h) (h_bases h) false;
  if negb (beq (fst (take_line (skipn (n - 2) f))) [125; 10]) then None
  else if negb (beq (h_format h) (bs "OFF")) then None
  else
    do m <- match h_model h with
            | Inline p b =>
                if Nat.eqb (length p) (8 * (h_prows h * h_pcols h)) && Nat.eqb (length b) (8 * (h_brows h * h_bcols h))
                then Some (p, b, n) else None
            | Appended =>
                let size := (h_bcols h * h_brows h * 8)%nat in
                let psize := (8 * (h_prows h * h_pcols h))%nat in
                if Nat.leb (n + psize) (length f) && Nat.leb (n + size + size) (length f)
                then Some (field f n psize, field f (n + size) size, (n + size + size)%nat)
                else None
            end;
    let '(p, b, after) := m in
    if negb (same_shape h) then None
    else
      Some (mkOff h dt dp p b ((length f - after) / itemsize dt)%nat (skipn after f)).

(** [off[i]] for a record number. *)
Definition off_record (o : off) (i : nat) : bytes := field (o_body o) (i * itemsize (o_dtype o)) (itemsize (o_dtype o)).
Definition off_records (o : off) : list bytes := map (off_record o) (seq 0 (o_nrecords o)).
(** [off[i][name]], and the same through [_mmap_with_coefs] (off.py:204-206). *)
Definition off_get (o : off) (i : nat) (name : string) : option (list Z) := get (o_dtype o) name (off_record o i).
Definition packed_record (o : off) (i : nat) : bytes := field (o_body o) (i * itemsize (o_packed o)) (itemsize (o_packed o)).
Definition off_coefs (o : off) (i : nat) : option (list Z) := get (o_packed o) "coefs" (packed_record o i).

(** off.py:180-184, [sampleTimes], for the two fields read from the record. *)
Definition sample_times (samples pre : Z) (period : Qc) : list Qc :=
  map (fun j => (qz (Z.of_nat j - pre) * period)%Qc) (seq 0 (Z.to_nat samples)).

(** * Conversion from LJH *)

Record floats := mkFloats {
  f32 : Qc -> Z;                 (* rounding to float32, as bits *)
  f64 : Qc -> Z;                 (* rounding to float64, as bits *)
  nano : Z -> Z;                 (* int64(usec / 1e6 * 1e9) *)
  std : list Qc -> Qc;           (* np.std *)
  slope : list Qc -> Qc }.       (* last less first value of a fitted line *)

(** Elements as bytes. *)
Definition encode (k : kind) (v : Z) : bytes := le_bytes (width k) v.
(** [offdata[...] = ...; offdata.tofile(f)], one record. *)
Definition put (dt : dtype) (vals : list (list Z)) : bytes :=
  flat_map (fun fv => flat_map (encode (snd (fst (fst fv)))) (snd fv)) (combine dt vals).

Definition matvec (m : list (list Qc)) (v : list Qc) : list Qc := map (fun row => dot row v) m.

(** ljh2off.py:107-127, one record; [k] is nPresamples - n_ignore_presamples. *)
Definition off_fields (e : floats) (proj basis : list (list Qc)) (k : nat) (o : ljh) (i : nat) : list (list Z) :=
  let data := map qz (samples o i) in
  let mpc := matvec proj data in
  let residual := map (fun p => (fst p - snd p)%Qc) (combine (matvec basis mpc) data) in
  let pre := firstn k data in
  [ [Z.of_nat (nSamples o)]; [nPresamples o];
    [subframecount o i / sub_div o];
    [nano e (match usec o i with Some t => t | None => 0 end)];
    [f32 e (fold_right Qcplus 0 pre / qz (Z.of_nat (length pre)))%Qc];
    [f32 e (slope e pre)];
    [f32 e (std e residual)];
    map (f32 e) mpc ].

(** ljh2off.py:82-130, [ljh_records_to_off]: the bytes written.  The length of a segment is
    computed from the size of all the data (binary_size), which must not be zero. *)
Definition ljh_records_to_off (e : floats) (dt : dtype) (proj basis : list (list Qc)) (n_ignore : Z) (o : ljh) : option bytes :=
  if Nat.eqb (length (body o)) 0 then None
  else
    let per := Z.to_nat (Z.max (2 ^ 21 / Z.of_nat (length (body o))) 1) in
    let n := nPulses o in
    let starts := map (fun j => j * per)%nat (seq 0 ((n + per - 1) / per)) in
    let k := nPresamples o - n_ignore in
    let cols := match proj with r :: _ => length r | [] => 0%nat end in
    if Nat.eqb n 0 then Some []
    else if negb (Nat.eqb cols (nSamples o)) then None
    else if (k <? 1) || (Z.of_nat (nSamples o) <? k) then None
    else if negb (v22 o) && (sub_div o =? 0) then None
    else Some (flat_map (fun lo => flat_map (fun i => put dt (off_fields e proj basis (Z.to_nat k) o i))
                                            (seq lo (Nat.min (lo + per) n - lo))) starts).

(** ljh2off.py:64-80, [multi_ljh2off], to version 0.3.0 (the only one for which the fields
    assigned exist), for [proj] with at least one row, rows of one length, and [basis] of the
    transposed shape.  What an exception leaves in the file is not modelled. *)
Definition off_header (proj basis : list (list Qc)) : header :=
  mkHeader (bs "0.3.0") (bs "OFF") (length proj)
           (length proj) (match proj with r :: _ => length r | [] => 0%nat end)
           (length basis) (match basis with r :: _ => length r | [] => 0%nat end) Appended.
Definition matrix_bytes (e : floats) (m : list (list Qc)) : bytes := flat_map (flat_map (fun x => le_bytes 8 (f64 e x))) m.
Definition multi_ljh2off (e : floats) (dumps : header -> bytes) (proj basis : list (list Qc)) (n_ignore : Z)
           (files : list ljh) : option bytes :=
  do dt <- record_dtype (bs "0.3.0") (length proj) false;
  do recs <- all_some (map (ljh_records_to_off e dt proj basis n_ignore) files);
  match files with [] => None | _ =>
  Some (dumps (off_header proj basis) ++ matrix_bytes e proj ++ matrix_bytes e basis ++ concat recs)
  end.
