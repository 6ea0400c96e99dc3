(** Model of the LJH pulse files: mass/core/files.py (reading) and
    mass/core/ljh_modify.py (copying, appending, truncating).

    A file is a list of bytes (numbers 0..255).  [None] is a Python exception.
    [float()] and the [.4e] formatting of a float are not modelled: they enter as
    the arguments [fl] and [fmt], about which nothing is assumed. *)
From Coq Require Import ZArith Ascii String Bool QArith QArith.Qcanon List.
Import ListNotations.
Open Scope Z_scope.

Definition bytes := list Z.

(** A bytes literal. *)
Fixpoint bs (s : string) : bytes :=
  match s with
  | EmptyString => []
  | String a t => Z.of_N (N_of_ascii a) :: bs t
  end.

Fixpoint beq (a b : bytes) : bool :=
  match a, b with
  | [], [] => true
  | x :: a', y :: b' => (x =? y) && beq a' b'
  | _, _ => false
  end.

(** [fp.readline()] on a binary file: the line with its newline, and the rest. *)
Fixpoint take_line (l : bytes) : bytes * bytes :=
  match l with
  | [] => ([], [])
  | c :: t => if c =? 10 then ([c], t) else let (a, b) := take_line t in (c :: a, b)
  end.

(** [l.startswith(p)] and [p in l]. *)
Fixpoint starts (p l : bytes) : bool :=
  match p, l with
  | [], _ => true
  | x :: p', y :: l' => (x =? y) && starts p' l'
  | _ :: _, [] => false
  end.

Fixpoint contains (p l : bytes) : bool :=
  starts p l || match l with [] => false | _ :: t => contains p t end.

(** [bytes.strip()]: ASCII white space. *)
Definition is_space (c : Z) : bool := (c =? 32) || ((9 <=? c) && (c <=? 13)).
Fixpoint lstrip (l : bytes) : bytes :=
  match l with
  | [] => []
  | c :: t => if is_space c then lstrip t else l
  end.
Definition strip (l : bytes) : bytes := rev (lstrip (rev (lstrip l))).

(** [line.split(b":", 1)] when there is a colon. *)
Fixpoint split1 (l : bytes) : option (bytes * bytes) :=
  match l with
  | [] => None
  | c :: t =>
      if c =? 58 then Some ([], t)
      else match split1 t with Some (a, b) => Some (c :: a, b) | None => None end
  end.

(** The ordered dictionary: a repeated key keeps its place and gets the new value. *)
Definition dict := list (bytes * bytes).
Fixpoint dset (d : dict) (k v : bytes) : dict :=
  match d with
  | [] => [(k, v)]
  | (k', v') :: t => if beq k' k then (k', v) :: t else (k', v') :: dset t k v
  end.
Fixpoint dget (d : dict) (k : bytes) : option bytes :=
  match d with
  | [] => None
  | (k', v) :: t => if beq k' k then Some v else dget t k
  end.

Definition end_mark : bytes := bs "#End of Header".

(** One line of the header; lines without a colon are ignored (files.py:153-162). *)
Definition add_line (d : dict) (line : bytes) : dict :=
  match split1 line with
  | Some (a, b) => dset d (strip a) (strip b)
  | None => d
  end.

(** files.py:130-165, [read_ljh_header].  [n] counts down the lines still allowed
    before the 257th, at which the loop raises OSError. *)
Fixpoint parse_lines (n : nat) (d : dict) (pos : nat) (l : bytes) : option (dict * nat) :=
  let (line, rest) := take_line l in
  if starts end_mark line then Some (d, (pos + length line)%nat)
  else match line with
       | [] => None
       | _ => match n with
              | O => None
              | S n' => parse_lines n' (add_line d line) (pos + length line)%nat rest
              end
       end.

Definition read_header (f : bytes) : option (dict * nat) := parse_lines 256 [] 0 f.

(** [int(b)] on bytes: surrounding white space, an optional sign, decimal digits with
    single underscores between them. *)
Definition is_digit (c : Z) : bool := (48 <=? c) && (c <=? 57).
Fixpoint digits (acc : Z) (l : bytes) : option Z :=
  match l with
  | [] => Some acc
  | c :: t =>
      if is_digit c then digits (acc * 10 + (c - 48)) t
      else if c =? 95 then
        match t with
        | e :: _ => if is_digit e then digits acc t else None
        | [] => None
        end
      else None
  end.
Definition unsigned_int (l : bytes) : option Z :=
  match l with
  | c :: _ => if is_digit c then digits 0 l else None
  | [] => None
  end.
Definition py_int (b : bytes) : option Z :=
  match strip b with
  | c :: t =>
      if c =? 45 then match unsigned_int t with Some v => Some (- v) | None => None end
      else if c =? 43 then unsigned_int t
      else unsigned_int (c :: t)
  | [] => None
  end.

(** [str(int)]. *)
Fixpoint of_uint (u : Decimal.uint) : bytes :=
  match u with
  | Decimal.Nil => []
  | Decimal.D0 u => 48 :: of_uint u
  | Decimal.D1 u => 49 :: of_uint u
  | Decimal.D2 u => 50 :: of_uint u
  | Decimal.D3 u => 51 :: of_uint u
  | Decimal.D4 u => 52 :: of_uint u
  | Decimal.D5 u => 53 :: of_uint u
  | Decimal.D6 u => 54 :: of_uint u
  | Decimal.D7 u => 55 :: of_uint u
  | Decimal.D8 u => 56 :: of_uint u
  | Decimal.D9 u => 57 :: of_uint u
  end.
Definition py_str (z : Z) : bytes :=
  match Z.to_int z with
  | Decimal.Pos u => of_uint u
  | Decimal.Neg u => 45 :: of_uint u
  end.

(** [packaging.version.Version], for plain dotted release numbers only (suffixes such
    as "rc1" are treated as unparsable), and the comparison [< Version("2.2.0")]. *)
Fixpoint split_dots (cur : bytes) (l : bytes) : list bytes :=
  match l with
  | [] => [rev cur]
  | c :: t => if c =? 46 then rev cur :: split_dots [] t else split_dots (c :: cur) t
  end.
Definition plain_int (l : bytes) : option Z :=
  if forallb is_digit l then unsigned_int l else None.
Fixpoint all_some {A : Type} (l : list (option A)) : option (list A) :=
  match l with
  | [] => Some []
  | Some x :: t => match all_some t with Some r => Some (x :: r) | None => None end
  | None :: _ => None
  end.
Definition version (b : bytes) : option (list Z) := all_some (map plain_int (split_dots [] (strip b))).
Fixpoint version_lt (a b : list Z) : bool :=
  match a, b with
  | [], [] => false
  | [], y :: b' => (0 <? y) || ((0 =? y) && version_lt [] b')
  | x :: a', [] => false
  | x :: a', y :: b' => (x <? y) || ((x =? y) && version_lt a' b')
  end.

Notation "'do' x <- a ; b" :=
  (match a with Some x => b | None => None end) (at level 200, x name, a at level 100, b at level 200).

Definition int_default (o : option bytes) (dflt : Z) : option Z :=
  match o with Some v => py_int v | None => Some dflt end.

(** The first key starting with [p], and its value (files.py:240-245). *)
Fixpoint find_prefix (p : bytes) (d : dict) : option bytes :=
  match d with
  | [] => None
  | (k, v) :: t => if starts p k then Some v else find_prefix p t
  end.

(** An opened file.  [body] is what follows the header. *)
Record ljh := mkLjh {
  hdict : dict;
  hsize : nat;
  v22 : bool;              (* class LJHFile2_2, else LJHFile2_1 *)
  nSamples : nat;
  nPresamples : Z;
  timebase : Qc;
  sub_div : Z;
  sub_off : Z;
  body : bytes }.

Definition pulse_size (o : ljh) : nat := ((if v22 o then 16 else 6) + 2 * nSamples o)%nat.
Definition nPulses (o : ljh) : nat := (length (body o) / pulse_size o)%nat.

(** files.py:289-305, [set_segment_size]: the number of pulses per segment and the
    number of segments; ValueError if a segment does not hold a pulse. *)
Definition set_segment_size (o : ljh) (segmentsize : Z) : option (Z * Z) :=
  let ps := Z.of_nat (pulse_size o) in
  let maxitems := segmentsize / ps in
  if maxitems <? 1 then None
  else let ss := maxitems * ps in
       Some (ss / ps, 1 + (Z.of_nat (length (body o)) - 1) / ss).

(** files.py:181-287, [LJHFile.open], [LJHFile.__init__] and [_parse_header].
    Not modelled: the channel number from the file name (see NameModel), the column
    number, "Number of columns" and the timestamp offset (assumed to parse), the logged
    warnings, [sample_usec].  A negative number of samples raises. *)
Definition ljh_open (fl : bytes -> option Qc) (f : bytes) : option ljh :=
  do hs <- read_header f;
  let d := fst hs in
  do vs <- dget d (bs "Save File Format Version");
  do ver <- version vs;
  let new := negb (version_lt ver [2; 2; 0]) in
  do tbs <- dget d (bs "Timebase");
  do tb <- fl tbs;
  do nss <- dget d (bs "Total Samples");
  do ns <- py_int nss;
  do nps <- dget d (bs "Presamples");
  do np <- py_int nps;
  do row <- int_default (find_prefix (bs "Row number") d) 0;
  let client := match dget d (bs "Software Version") with Some c => c | None => bs "UNKNOWN" end in
  do nrows <- int_default (dget d (bs "Number of rows")) 1;
  let source := match dget d (bs "Data source") with Some s => s | None => bs "Lancero (assumed)" end in
  let abaco := contains (bs "Abaco") source in
  do sdiv <- int_default (dget d (bs "Subframe divisions"))
               (if abaco then 64 else if nrows <=? 0 then 1 else nrows);
  do soff <- int_default (dget d (bs "Subframe offset")) (if abaco then 0 else row);
  if ns <? 0 then None
  else
    let o := mkLjh d (snd hs) new (Z.to_nat ns)
               (if contains (bs "DASTARD") client then np else np + 3)
               tb sdiv soff (skipn (snd hs) f) in
    do seg <- set_segment_size o (2 ^ 24);
    Some o.

(** numpy memory map of the body (files.py:307-309): little-endian numbers. *)
Fixpoint le_value (l : bytes) : Z :=
  match l with
  | [] => 0
  | b :: t => b + 256 * le_value t
  end.
Definition int64 (v : Z) : Z := if v <? 2 ^ 63 then v else v - 2 ^ 64.
Definition field (f : bytes) (off len : nat) : bytes := firstn len (skipn off f).

(** The bytes of record [i]. *)
Definition rec_bytes (o : ljh) (i : nat) : bytes := field (body o) (i * pulse_size o) (pulse_size o).
Definition rec_hdr (o : ljh) : nat := if v22 o then 16%nat else 6%nat.

(** The samples of record [i] ([alldata[i]], files.py:318-336, data not inverted). *)
Definition samples (o : ljh) (i : nat) : list Z :=
  map (fun j => le_value (field (rec_bytes o i) (rec_hdr o + 2 * j) 2)) (seq 0 (nSamples o)).

Definition qz (z : Z) : Qc := Q2Qc (inject_Z z).
(** Truncation of a rational towards zero ([int(x)], [np.int64(x)]). *)
Definition qtrunc (q : Qc) : Z := Z.quot (Qnum (this q)) (Zpos (Qden (this q))).

(** Version 2.1 time stamps (files.py:364-404), with exact instead of floating-point
    arithmetic.  numpy's integer division by zero gives 0. *)
Definition frame_count (o : ljh) (i : nat) : Z :=
  let r := rec_bytes o i in
  let ns := 4000 * le_value (field r 0 1) + 1000000 * le_value (field r 2 4) in
  4 + (ns - 1) / qtrunc (timebase o * qz 1000000000).

(** [subframecount[i]] and [datatimes_raw[i]]. *)
Definition subframecount (o : ljh) (i : nat) : Z :=
  if v22 o then int64 (le_value (field (rec_bytes o i) 0 8))
  else frame_count o i * sub_div o + sub_off o.
Definition usec (o : ljh) (i : nat) : option Z :=
  if v22 o then Some (int64 (le_value (field (rec_bytes o i) 8 8)))
  else if sub_div o =? 0 then None
  else Some (qtrunc ((qz (frame_count o i) + qz (sub_off o) / qz (sub_div o)) * timebase o
                     * qz 1000000 + Q2Qc (1 # 2))).

(** A pulse record as the user sees it (files.py:338-341). *)
Record pulse := mkPulse { p_sub : Z; p_usec : Z; p_data : list Z }.

(** Indexing a numpy array of length [n] by an integer. *)
Definition np_index (n : nat) (i : Z) : option nat :=
  if (0 <=? i) && (i <? Z.of_nat n) then Some (Z.to_nat i)
  else if (- Z.of_nat n <=? i) && (i <? 0) then Some (Z.to_nat (Z.of_nat n + i))
  else None.

Definition read_pulse (o : ljh) (i : Z) : option pulse :=
  do k <- np_index (nPulses o) i;
  do t <- usec o k;
  Some (mkPulse (subframecount o k) t (samples o k)).

(** All the records of the file. *)
Definition all_pulses (o : ljh) : list pulse :=
  map (fun i => mkPulse (subframecount o i) (match usec o i with Some t => t | None => 0 end) (samples o i))
      (seq 0 (nPulses o)).

(** * Writing *)

Fixpoint le_bytes (n : nat) (v : Z) : bytes :=
  match n with
  | O => []
  | S n' => (v mod 256) :: le_bytes n' (v / 256)
  end.

(** [struct.pack('<Q', v)]. *)
Definition pack_Q (v : Z) : option bytes :=
  if (0 <=? v) && (v <? 2 ^ 64) then Some (le_bytes 8 v) else None.

(** ljh_modify.py:104-110, [helper_write_pulse]: the bytes written, and whether the call
    returned normally. *)
Definition write_fields (p : pulse) : bytes * bool :=
  match pack_Q (p_sub p) with
  | None => ([], false)
  | Some a =>
      match pack_Q (p_usec p) with
      | None => (a, false)
      | Some b => (a ++ b ++ flat_map (le_bytes 2) (p_data p), true)
      end
  end.
Definition helper_write_pulse (o : ljh) (i : Z) : bytes * bool :=
  match read_pulse o i with
  | None => ([], false)
  | Some p => write_fields p
  end.

(** The loop over the requested pulses stops at the first exception; what was written
    before stays in the file. *)
Fixpoint write_pulses (o : ljh) (l : list Z) : bytes * bool :=
  match l with
  | [] => ([], true)
  | i :: t =>
      let (b, ok) := helper_write_pulse o i in
      if ok then let (r, ok') := write_pulses o t in (b ++ r, ok') else (b, false)
  end.

(** files.py:442-485, [make_ljh_header]; [massver] is [mass.__version__]. *)
Definition header_lines (massver asctime tb : bytes) (nps ns : Z) (ver : bytes) : list bytes :=
  [ bs "#LJH Memorial File Format";
    bs "Save File Format Version: " ++ ver;
    bs "Software Version: MASS-generated LJH file, MASS version " ++ massver;
    bs "Software Driver Version: n/a";
    bs "Date: " ++ asctime ++ bs " GMT";
    bs "Acquisition Mode: 0";
    bs "Digitized Word Size in bytes: 2";
    bs "Operator: Unknown";
    bs "SYSTEM DESCRIPTION OF THIS FILE:";
    bs "USER DESCRIPTION OF THIS FILE:";
    bs "#End of description";
    bs "Number of Digitizers: 1";
    bs "Number of Active Channels: 1";
    bs "Timestamp offset (s): 1000000000.000000";
    bs "Digitizer: 1";
    bs "Master: Yes";
    bs "Bits: 16";
    bs "Timebase: " ++ tb;
    bs "Number of samples per point: 1";
    bs "Presamples: " ++ py_str nps;
    bs "Total Samples: " ++ py_str ns;
    bs "Channel: 1.0";
    bs "Description: A (Voltage)";
    bs "Range: 0.500000";
    bs "Offset: -0.000122";
    bs "Inverted: No";
    bs "#End of Header" ].
Definition join_lines (l : list bytes) : bytes := flat_map (fun x => x ++ [10]) l.

(** The run's surroundings: version of mass, date, float formatting. *)
Record env := mkEnv { massver : bytes; asctime : bytes; fmt : Qc -> bytes }.

(** ljh_modify.py:113-141, [ljh_copy_traces], to a destination that either does not exist
    or holds [dest] bytes.  Returns the destination after the call ([None]: no file) and
    whether the call returned normally.  Source and destination are different files. *)
Definition copy_traces (e : env) (fl : bytes -> option Qc) (src : bytes) (dest : option bytes)
           (pulses : list Z) (overwrite : bool) : option bytes * bool :=
  match dest, overwrite with
  | Some _, false => (dest, false)
  | _, _ =>
      match ljh_open fl src with
      | None => (dest, false)
      | Some o =>
          let h := join_lines (header_lines (massver e) (asctime e) (fmt e (timebase o))
                                 (nPresamples o) (Z.of_nat (nSamples o)) (bs "2.2.0")) in
          let (b, ok) := write_pulses o pulses in
          (Some (h ++ b), ok)
      end
  end.

(** ljh_modify.py:144-161, [ljh_append_traces]; [None] pulses means all of them. *)
Definition append_traces (fl : bytes -> option Qc) (src dest : bytes) (pulses : option (list Z))
  : bytes * bool :=
  match ljh_open fl src with
  | None => (dest, false)
  | Some o =>
      let l := match pulses with
               | Some l => l
               | None => map Z.of_nat (seq 0 (nPulses o))
               end in
      let (b, ok) := write_pulses o l in
      (dest ++ b, ok)
  end.

(** ljh_modify.py:201-205: the header of a truncated file. *)
Definition crlf : bytes := [13; 10].
Definition dict_header (d : dict) : bytes :=
  flat_map (fun kv => fst kv ++ [58; 32] ++ snd kv ++ crlf) d ++ end_mark ++ crlf.

(** ljh_modify.py:210-218: the loop; [stop] is the timestamp limit in seconds.  Here
    [np.uint64] of a numpy integer wraps, so packing cannot fail. *)
Definition wrap_fields (p : pulse) : bytes :=
  le_bytes 8 (p_sub p mod 2 ^ 64) ++ le_bytes 8 (p_usec p mod 2 ^ 64) ++ flat_map (le_bytes 2) (p_data p).

Fixpoint trunc_loop (o : ljh) (stop : option Qc) (l : list nat) : bytes * bool :=
  match l with
  | [] => ([], true)
  | i :: t =>
      match read_pulse o (Z.of_nat i) with
      | None => ([], false)
      | Some p =>
          let late := match stop with
                      | Some s => negb (Qle_bool (this (qz (p_usec p) / qz 1000000)) (this s))
                      | None => false
                      end in
          if late then ([], true)
          else let (r, ok) := trunc_loop o stop t in (wrap_fields p ++ r, ok)
      end
  end.

(** ljh_modify.py:164-218, [ljh_truncate], for an output name different from the input;
    [out] is the output file before the call.  [segmentsize] only has its error effect. *)
Definition truncate (fl : bytes -> option Qc) (src : bytes) (out : option bytes)
           (n_pulses : option Z) (timestamp : option Qc) (segmentsize : option Z)
  : option bytes * bool :=
  match n_pulses, timestamp with
  | None, None | Some _, Some _ => (out, false)
  | _, _ =>
      match ljh_open fl src with
      | None => (out, false)
      | Some o =>
          match (match segmentsize with Some s => set_segment_size o s | None => Some (0, 0) end) with
          | None => (out, false)
          | Some _ =>
              if v22 o then
                let n := match n_pulses with Some n => Z.to_nat n | None => nPulses o end in
                let (b, ok) := trunc_loop o timestamp (seq 0 n) in
                (Some (dict_header (hdict o) ++ b), ok)
              else (out, false)
          end
      end
  end.

(** channel.py:953-973: the slices of record numbers visited segment by segment
    ([self.pulse_records.n_segments] etc. from [set_segment_size]). *)
Definition py_slice (first stop : Z) : list Z :=
  map (fun k => first + Z.of_nat k) (seq 0 (Z.to_nat (stop - first))).
Definition segment_slices (o : ljh) (segmentsize : Z) : option (list (list Z)) :=
  do s <- set_segment_size o segmentsize;
  let n := Z.of_nat (nPulses o) in
  Some (map (fun k => let first := Z.of_nat k * fst s in
                      py_slice first (Z.min (first + fst s) n))
            (seq 0 (Z.to_nat (snd s)))).
