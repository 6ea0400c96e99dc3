(** The LJH 2.2 format, stated without the model's encoders and decoders. *)
From Coq Require Import ZArith Bool QArith QArith.Qcanon List.
From Verif Require Import LjhModel.
Import ListNotations.
Open Scope Z_scope.

(** Byte [i] of the (two's complement) number [v]. *)
Definition byte_of (v : Z) (i : nat) : Z := (v / 256 ^ Z.of_nat i) mod 256.

(** A record on disk: 8 bytes of subframe count, 8 bytes of microseconds, 2 per sample. *)
Definition record_bytes (p : pulse) : bytes :=
  map (byte_of (p_sub p)) (seq 0 8) ++ map (byte_of (p_usec p)) (seq 0 8)
  ++ flat_map (fun s => [byte_of s 0; byte_of s 1]) (p_data p).

Definition valid_pulse (n : nat) (p : pulse) : Prop :=
  - 2 ^ 63 <= p_sub p < 2 ^ 63 /\ - 2 ^ 63 <= p_usec p < 2 ^ 63 /\
  length (p_data p) = n /\ Forall (fun s => 0 <= s < 65536) (p_data p).

(** Bytes proper. *)
Definition is_bytes (l : bytes) : Prop := Forall (fun b => 0 <= b < 256) l.

Definition ends_in_newline (l : bytes) : Prop := exists a, l = a ++ [10].

(** [h] alone is a file with a complete header and no data, for records of [n] samples in
    the 2.2 format. *)
Definition header_for (fl : bytes -> option Qc) (h : bytes) (n : nat) : Prop :=
  ends_in_newline h /\
  exists o, ljh_open fl h = Some o /\ v22 o = true /\ nSamples o = n /\ hsize o = length h.

(** The two opened files agree in everything read from the header. *)
Definition same_header (o o' : ljh) : Prop :=
  hdict o = hdict o' /\ v22 o = v22 o' /\ nSamples o = nSamples o' /\
  nPresamples o = nPresamples o' /\ timebase o = timebase o' /\
  sub_div o = sub_div o' /\ sub_off o = sub_off o'.

(** The pulses at the given indices, when all the indices are valid. *)
Definition selected (o : ljh) (l : list Z) (ps : list pulse) : Prop :=
  Forall2 (fun i p => read_pulse o i = Some p) l ps.

(** Both time stamps fit the writer's unsigned and the reader's signed 64-bit field. *)
Definition storable (p : pulse) : Prop := 0 <= p_sub p < 2 ^ 63 /\ 0 <= p_usec p < 2 ^ 63.

(** The longest prefix of records whose time does not exceed [s] seconds. *)
Inductive until (s : Qc) : list pulse -> list pulse -> Prop :=
| until_nil : until s [] []
| until_stop p t : (s * qz 1000000 < qz (p_usec p))%Qc -> until s (p :: t) []
| until_go p t r : (qz (p_usec p) <= s * qz 1000000)%Qc -> until s t r -> until s (p :: t) (p :: r).

(** [dst] is the result of [k] successive copies of [src], each of all its traces. *)
Inductive copies (e : env) (fl : bytes -> option Qc) : nat -> bytes -> bytes -> Prop :=
| copies_0 f : copies e fl 0 f f
| copies_S k f g h o : copies e fl k f g -> ljh_open fl g = Some o ->
    copy_traces e fl g None (map Z.of_nat (seq 0 (nPulses o))) false = (Some h, true) ->
    copies e fl (S k) f h.
