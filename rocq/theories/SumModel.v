(** Pulse summaries: summarize_data_cython, mass/core/cython_channel.pyx; summarize_data and _summarize_data_segment,
    mass/core/channel.py:898-1044; estimateRiseTime, mass/core/analysis_algorithms.pyx:29-92.

    Samples are integers from 0 to 65535.  Sums of samples and of their squares are exact in the code too (below 2^53);
    quotients are exact rationals here, and the conversion of results to float32 is not modelled.  Square roots are not
    taken: of the rms values the model returns the squares, and a comparison with an rms value is one of squares.
    [None] is an exception; where a field of the result is an option, [None] is an undefined or not-a-number value. *)
From Coq Require Import ZArith QArith Qround Qcanon List Bool.
From Verif Require Import QcPre LagModel DerModel.
Import ListNotations.
Local Open Scope Z_scope.

(** Conversion of an integer to unsigned short. *)
Definition ushort (z : Z) : Z := z mod 65536.
(** Conversion of a non-negative double to an integer. *)
Definition trunc (q : Qc) : Z := Qfloor (this q).

(** cython_channel.pyx:44-51, 97-108: the variables of the loop over the samples of one record. *)
Record acc := mkAcc {
  a_peak : Z; a_index : Z; a_min : Z; a_pre : Z; a_pre2 : Z; a_prompt : Z; a_from : Z; a_to : Z;
  a_pulse : Z; a_pulse2 : Z;
  a_base : option (Qc * Qc * bool)   (* ptm, ptrms squared, shift1 *)
}.
Definition add_if (b : bool) (s x : Z) : Z := if b then s + x else s.

(** cython_channel.pyx:131: is [signal - ptm > 4.3 * ptrms]?  The right-hand side is not negative. *)
Definition shifted (x : Z) (ptm var : Qc) : bool :=
  (qltb 0 (qz x - ptm) && qltb (qd 43 10 * qd 43 10 * var) ((qz x - ptm) * (qz x - ptm)))%Qc.

(** cython_channel.pyx:112-140, the loop body for sample [x] at [k].  [epre] is e_nPresamples. *)
Definition sample_step (npre epre k x : Z) (a : acc) : option acc :=
  let bigger := a_peak a <? x in
  let pre := add_if (k <? epre) (a_pre a) x in
  let pre2 := add_if (k <? epre) (a_pre2 a) (x * x) in
  let prompt := add_if ((a_from a <=? k) && (k <? a_to a)) (a_prompt a) x in
  let pulse := add_if (npre - 1 <=? k) (a_pulse a) x in
  let pulse2 := add_if (npre - 1 <=? k) (a_pulse2 a) (x * x) in
  let peak := if bigger then x else a_peak a in
  let index := if bigger then ushort k else a_index a in
  let mn := if x <? a_min a then x else a_min a in
  if k =? npre - 1 then
    if epre =? 0 then None
    else
      let ptm := (qz pre / qz epre)%Qc in
      let var := (qz pre2 / qz epre - ptm * ptm)%Qc in
      let s := shifted x ptm var in
      Some (mkAcc peak index mn pre pre2 prompt
              (if s then ushort (a_from a - 1) else a_from a) (if s then ushort (a_to a - 1) else a_to a)
              pulse pulse2 (Some (ptm, var, s)))
  else Some (mkAcc peak index mn pre pre2 prompt (a_from a) (a_to a) pulse pulse2 (a_base a)).

Fixpoint scan (npre epre k : Z) (l : list Z) (a : acc) : option acc :=
  match l with
  | [] => Some a
  | x :: t => match sample_step npre epre k x a with None => None | Some a' => scan npre epre (k + 1) t a' end
  end.

(** cython_channel.pyx:97-108 *)
Definition start_acc (npre : Z) : acc :=
  mkAcc 0 0 65535 0 0 0 (ushort (npre + 2)) (ushort (npre + 8)) 0 0 None.

(** Position of the first element above a threshold. *)
Fixpoint first_above (th : Z) (l : list Z) : option nat :=
  match l with
  | [] => None
  | x :: t => if th <? x then Some O else option_map S (first_above th t)
  end.

(** cython_channel.pyx:161-191.  Undefined: a threshold that does not fit an unsigned short, or a record that ends at
    the trigger.  [high_idx - low_idx] is an int and may be -1. *)
Definition rise_time (timebase : Qc) (npre : nat) (pulse : list Z) (ptm : Qc) (peak : Z) : option Qc :=
  let low := trunc (qd 1 10 * qz peak + ptm)%Qc in
  let high := trunc (qd 9 10 * qz peak + ptm)%Qc in
  if (65536 <=? low) || (65536 <=? high) then None
  else
    match skipn npre pulse with
    | [] => None
    | after =>
        match first_above low after with
        | None => Some timebase
        | Some i =>
            match first_above high (skipn i after) with
            | None => Some timebase
            | Some j =>
                let lowv := nth (npre + i) pulse 0 in
                let highv := nth (npre + i + j - 1) pulse 0 in
                if lowv <? highv
                then Some (timebase * qz (Z.of_nat j - 1) * qz peak / qz (highv - lowv))%Qc
                else Some timebase
            end
        end
    end.

(** cython_channel.pyx:56, 200, 203, 209: the kernel (-2, -1, 0, 1, 2). *)
Definition kernel5 (s0 s1 s3 s4 : Z) : Z := -2 * s0 + -1 * s1 + 1 * s3 + 2 * s4.
(** cython_channel.pyx:206-215: one turn; state (s1, s2, s3, s4, t0, t1, t_max_deriv) before it. *)
Definition deriv_step (s : Z * Z * Z * Z * Z * Z * Z) (x : Z) : Z * Z * Z * Z * Z * Z * Z :=
  let '(s1, s2, s3, s4, t0, t1, m) := s in
  let t2 := kernel5 s1 s2 s4 x in
  let t3 := if t2 <? t0 then t2 else t0 in
  (s2, s3, s4, x, t1, t2, if m <? t3 then t3 else m).
(** cython_channel.pyx:195-217.  Undefined: reading outside of the record. *)
Definition postpeak (peak_sample : Z) (n : nat) (pulse : list Z) : option Qc :=
  if peak_sample <? 0 then None
  else
    let p := Z.to_nat peak_sample in
    match skipn p pulse with
    | s0 :: s1 :: s2 :: s3 :: s4 :: s5 :: rest =>
        let '(_, _, _, _, _, _, m) :=
          fold_left deriv_step (firstn (n - (p + 6)) rest)
                    (s2, s3, s4, s5, kernel5 s0 s1 s3 s4, kernel5 s1 s2 s4 s5, - 2 ^ 63) in
        Some (qd 1 10 * qz m)%Qc
    | _ => None
    end.

Record summary := mkSum {
  pretrig_mean : Qc; pretrig_ms : Qc; shift1 : bool; peak_index : Z; peak_value : Z; promptness : Qc;
  min_value : Z; pulse_average : Qc; pulse_ms : Qc; rise : option Qc; postpeak_deriv : option Qc }.

(** cython_channel.pyx:96-217 for one record. *)
Definition summarize_row (timebase : Qc) (peak_sample ignore npre : Z) (pulse : list Z) : option summary :=
  let n := Z.to_nat (ushort (Z.of_nat (length pulse))) in
  match scan npre (ushort (npre - ignore)) 0 (firstn n pulse) (start_acc npre) with
  | None => None
  | Some a =>
      match a_base a with
      | None => None    (* ptm is used without having been set *)
      | Some (ptm, var, s) =>
          let count := Z.of_nat n - npre + 1 in
          if count =? 0 then None
          else
            let avg := (qz (a_pulse a) / qz count - ptm)%Qc in
            let ms := (qz (a_pulse2 a) / qz count - ptm * avg * qz 2 - ptm * ptm)%Qc in
            if qltb ptm (qz (a_peak a)) then
              let peak := ushort (a_peak a - ushort (trunc (ptm + qd 1 2)%Qc)) in
              if peak =? 0 then None
              else Some (mkSum ptm var s (a_index a) peak ((qz (a_prompt a) / qz 6 - ptm) / qz peak)%Qc (a_min a) avg ms
                           (rise_time timebase (Z.to_nat npre) (firstn n pulse) ptm peak) (postpeak peak_sample n pulse))
            else Some (mkSum ptm var s 0 0 0%Qc (a_min a) avg ms
                         (rise_time timebase (Z.to_nat npre) (firstn n pulse) ptm (a_peak a)) (postpeak peak_sample n pulse))
      end
  end.

(** Apply a function that may raise to all elements. *)
Fixpoint map_opt {A B} (f : A -> option B) (l : list A) : option (list B) :=
  match l with
  | [] => Some []
  | x :: t => match f x, map_opt f t with Some y, Some r => Some (y :: r) | _, _ => None end
  end.

(** cython_channel.pyx:61-66, 95: the whole of [rows], called with first = 0 and end = their number.
    seg_size is an unsigned short. *)
Definition summarize_segment (timebase : Qc) (peak_sample ignore npre : Z) (rows : list (list Z)) : option (list summary) :=
  map_opt (summarize_row timebase peak_sample ignore npre) (firstn (Z.to_nat (ushort (Z.of_nat (length rows)))) rows).

(** channel.py:952-973: the segments of a file.  h5py accepts a slice assignment of the right length or of length one,
    which it repeats, and raises for others. *)
Definition segment (per_seg i : nat) (rows : list (list Z)) : list (list Z) := firstn per_seg (skipn (i * per_seg) rows).
Definition store {A} (n : nat) (r : list A) : option (list A) :=
  if Nat.eqb (length r) n then Some r else match r with [x] => Some (repeat x n) | _ => None end.
Definition summarize_data (timebase : Qc) (peak_sample ignore npre : Z) (per_seg n_segments : nat) (rows : list (list Z))
  : option (list summary) :=
  option_map (@concat summary)
    (map_opt (fun i => match summarize_segment timebase peak_sample ignore npre (segment per_seg i rows) with
                       | Some r => store (length (segment per_seg i rows)) r
                       | None => None
                       end) (seq 0 n_segments)).

(** ** The Python version *)

(** x[a:b] for 0 <= a and 0 <= b. *)
Definition slice {A} (a b : nat) (l : list A) : list A := firstn (b - a) (skipn a l).
Definition zsum (l : list Z) : Z := fold_right Z.add 0 l.
(** np.mean; [None] is not a number (with a warning). *)
Definition mean (l : list Z) : option Qc :=
  match l with [] => None | _ => Some (qz (zsum l) / qz (Z.of_nat (length l)))%Qc end.
Definition squares (l : list Z) : list Z := map (fun x => x * x) l.
(** np.std, squared *)
Definition variance (l : list Z) : option Qc :=
  match mean l with
  | None => None
  | Some m => Some (fold_right Qcplus 0 (map (fun x => (qz x - m) * (qz x - m)) l) / qz (Z.of_nat (length l)))%Qc
  end.
Definition zmax (l : list Z) : option Z :=
  match l with [] => None | x :: t => Some (fold_left Z.max t x) end.
Definition zmin (l : list Z) : option Z :=
  match l with [] => None | x :: t => Some (fold_left Z.min t x) end.
(** np.argmax: the first position of the maximum. *)
Fixpoint index_of (v : Z) (l : list Z) : nat :=
  match l with [] => O | x :: t => if x =? v then O else S (index_of v t) end.
Definition argmax (l : list Z) : option nat :=
  match zmax l with None => None | Some m => Some (index_of m l) end.

Record pysum := mkPy {
  py_mean : Qc; py_ms : Qc; py_shift1 : bool; py_peak_index : Z; py_peak_value : Z; py_promptness : option Qc;
  py_min : Z; py_average : Qc; py_pulse_ms : Qc; py_postpeak : option Qc }.

(** channel.py:1000-1044 for one record, but for the rise time and the optional line through the pretrigger samples.
    [None]: ValueError for empty slices, or not a number; slices with negative bounds are not modelled. *)
Definition python_summary (cut_pre cut_post npre ignore peak_sample : nat) (x : list Z) : option pysum :=
  let n := length x in
  if Nat.ltb npre (ignore + 1) || Nat.ltb n cut_post || Nat.ltb peak_sample cut_pre || Nat.ltb n npre then None
  else
    let pre := slice cut_pre (npre - ignore) x in
    let post := slice npre (n - cut_post) x in
    let all := slice cut_pre (n - cut_post) x in
    match mean pre, variance pre, argmax post, zmax post, zmin all, mean post, mean (squares post) with
    | Some ptm, Some var, Some ipk, Some pk, Some mn, Some av, Some av2 =>
        let average := (av - ptm)%Qc in
        let peak := ushort (pk - ushort (trunc ptm)) in
        let s := shifted (nth (npre - 1) x 0) ptm var in
        let half := Nat.div (npre + 2 + peak_sample) 2 in
        let window := if s then slice (npre + 1) (half - 1) x else slice (npre + 2) half x in
        let prompt := match mean window with
                      | Some m => if peak =? 0 then None else Some ((m - ptm) / qz peak)%Qc
                      | None => None
                      end in
        Some (mkPy ptm var s (Z.of_nat (ipk + npre)) peak prompt mn average (av2 - ptm * (ptm + qz 2 * average))%Qc
                (row_spike (qd 2 10) (qd 1 10) 0 (qd (-1) 10) (qd (-2) 10) (skipn (peak_sample - cut_pre) (map qz all))))
    | _, _, _, _, _, _, _ => None
    end.

(** analysis_algorithms.pyx:62-66: baseline and the number of samples before the rise. *)
Definition baseline (npre : nat) (x : list Z) : option Qc :=
  if Nat.leb 4 npre then mean (slice 0 npre x) else option_map qz (zmin x).
(** (data > threshold).argmax(): the first position, 0 when there is none. *)
Fixpoint first_over (th : Qc) (l : list Qc) : option nat :=
  match l with [] => None | x :: t => if qltb th x then Some O else option_map S (first_over th t) end.
Definition argmax_over (th : Qc) (l : list Qc) : nat := match first_over th l with Some i => i | None => O end.

(** analysis_algorithms.pyx:71-88 for one record with baseline [b] and height [h] when the rising parts of all records
    end before [upto].  When [h] is 0 the result is not a number. *)
Definition rise_row (timebase : Qc) (npre upto : nat) (b h : Qc) (x : list Z) : option Qc :=
  if Qc_eq_dec h 0 then None
  else
    let r := map (fun v => ((qz v - b) / h)%Qc) (slice npre upto x) in
    let first := argmax_over (qd 1 10) r in
    let high := argmax_over (qd 9 10) r in
    let last := if Nat.leb high first then S first else (high - 1)%nat in
    let last := if Nat.eqb last (length r) then (length r - 1)%nat else last in
    let y := (nth last r 0 - nth first r 0)%Qc in
    let y := if qltb y timebase then timebase else y in
    if qleb y 0 then Some (qd (-99) 10000000)
    else Some (timebase * qz (Z.of_nat last - Z.of_nat first) / y)%Qc.

Definition opt_max (l : list nat) : nat := fold_right Nat.max O l.

(** analysis_algorithms.pyx:29-92 for records of one length.  [None]: ValueError for records without samples. *)
Definition estimate_rise (timebase : Qc) (npretrig : nat) (rows : list (list Z)) : option (list (option Qc)) :=
  match map_opt (baseline npretrig) rows, map_opt zmax rows, map_opt argmax rows with
  | Some bs, Some ms, Some idx =>
      let npre := if Nat.leb 4 npretrig then npretrig else O in
      let upto := S (opt_max idx) in
      Some (map (fun p => let '(x, (b, m)) := p in
                          if Nat.leb upto npre then Some (qd (-99) 10000000) else rise_row timebase npre upto b (qz m - b)%Qc x)
                (combine rows (combine bs ms)))
  | _, _, _ => None
  end.
