(** Model of the noise analysis: padding and autocorrelation of noise records,
    mass/core/channel.py:270-403, and the segments used by the power spectra,
    mass/mathstat/power_spectrum.py and mass/core/channel.py:159-205.

    Samples are exact rationals.  The discrete Fourier transforms are not modelled:
    [irfft(|rfft(x)|^2)] enters as what it computes, the circular autocorrelation of [x], and of a
    power spectrum only the data segments it is computed from are modelled.
    [None] is an exception, or a division by zero. *)
From Coq Require Import ZArith QArith Qcanon Bool List.
From Verif Require Import QcPre LagModel ToepModel OptModel.
Import ListNotations.
Open Scope Z_scope.

(** [np.round] of [a / b] for [0 < b]: halves go to the even neighbour. *)
Definition round_even (a b : Z) : Z :=
  let q := a / b in
  let r := a - b * q in
  if 2 * r <? b then q
  else if b <? 2 * r then q + 1
  else if Z.even q then q else q + 1.

(** channel.py:281-296, [padded_length]; [np.log2] is taken to be exact. *)
Definition padded_length (n : Z) : Z :=
  let pow2 := 2 ^ Z.log2_up n in
  if n =? pow2 then n
  else if 3 * pow2 <? 4 * n then pow2
  else if 5 * pow2 <? 8 * n then round_even (3 * pow2) 4
  else round_even (5 * pow2) 8.

(** [reshape(n, size)] of the first [n * size] entries. *)
Fixpoint chunks {A : Type} (n size : nat) (l : list A) : list (list A) :=
  match n with
  | O => []
  | S k => firstn size l :: chunks k size (skipn size l)
  end.

(** [data - data.mean()] *)
Definition mean (l : list Qc) : Qc := (total l / qz (Z.of_nat (length l)))%Qc.
Definition centred (l : list Qc) : list Qc := map (fun x => (x - mean l)%Qc) l.

Definition qabs (x : Qc) : Qc := if qltb x 0%Qc then (- x)%Qc else x.

(** The circular autocorrelation at lag [k], with the contribution of the mean removed
    ([ft[0] = 0]). *)
Definition circular (x : list Qc) (k : nat) : Qc :=
  let m := length x in
  (qsum m (fun i => nth i x 0 * nth ((i + k) mod m)%nat x 0)
   - total x * total x / qz (Z.of_nat m))%Qc.

(** Sums of vectors of a given length, and division of each entry. *)
Definition vsum (n : nat) (ls : list (list Qc)) : list Qc :=
  fold_left (fun acc l => map (fun i => (nth i acc 0 + nth i l 0)%Qc) (seq 0 n)) ls (repeat 0%Qc n).

(** channel.py:270-344, [_compute_continuous_autocorrelation], up to the assignment.  [rows] is
    [datafile.alldata], [rps] is records_per_segment.  The range given in samples indexes
    records, as in the code (line 321). *)
Definition ac_continuous (nSamples rps : nat) (rows : list (list Qc)) (n_lags : option nat)
           (data_samples : option (nat * nat)) (max_excursion : Qc) : option (list Qc) :=
  let '(first, last) := match data_samples with Some r => r | None => (0, nSamples * length rows)%nat end in
  let n_data := (last - first)%nat in
  let sps := (rps * nSamples)%nat in
  let lags0 := Nat.min (match n_lags with Some l => l | None => sps end) sps in
  let short := Nat.ltb n_data (15 * lags0) in
  let lags := if short then (n_data / 15)%nat else lags0 in
  if short && Nat.ltb lags nSamples then None
  else
    let chunksize := (15 * lags)%nat in
    let padded := Z.to_nat (padded_length (Z.of_nat (lags + chunksize))) in
    let data := concat (firstn (last - first) (skipn first rows)) in
    let pad_chunk c := centred c ++ repeat 0%Qc (padded - chunksize) in
    let used := filter (fun c => negb (existsb (fun x => qltb max_excursion (qabs x)) (pad_chunk c)))
                       (chunks (length data / chunksize) chunksize data) in
    match used with
    | [] => None
    | _ =>
        let acs := map (fun c => map (circular (pad_chunk c)) (seq 0 lags)) used in
        Some (map (fun k => (nth k (vsum lags acs) 0 / qz (Z.of_nat (length used))
                             / qz (Z.of_nat (chunksize - k)))%Qc) (seq 0 lags))
    end.

(** [np.correlate(d, d, 'full')[n-1:]] *)
Definition linear (x : list Qc) (k : nat) : Qc :=
  qsum (length x - k) (fun i => nth (i + k)%nat x 0 * nth i x 0)%Qc.

(** channel.py:370-402, [_compute_broken_autocorrelation].  A record outside the data raises. *)
Definition ac_broken (nSamples : nat) (rows : list (list Qc)) (n_lags : option nat)
           (data_samples : option (nat * nat)) (max_excursion : Qc) : option (list Qc) :=
  let lags := match n_lags with Some l => l | None => nSamples end in
  if Nat.ltb nSamples lags then None
  else
    let '(first, last) := match data_samples with Some r => r | None => (0, nSamples * length rows)%nat end in
    let idx_first := (first / nSamples + (if Nat.ltb 0 (first mod nSamples) then 1 else 0))%nat in
    let idx_last := (last / nSamples)%nat in
    if Nat.ltb (length rows) idx_last && Nat.ltb idx_first idx_last then None
    else
      let recs := firstn (idx_last - idx_first) (skipn idx_first rows) in
      let used := filter (fun r => match lmax r, lmin r with
                                   | Some hi, Some lo => negb (qltb max_excursion (hi - lo)%Qc)
                                   | _, _ => false
                                   end) recs in
      match used with
      | [] => None
      | _ =>
          let acs := map (fun r => map (linear (centred r)) (seq 0 nSamples)) used in
          Some (firstn lags
                  (map (fun k => (nth k (vsum nSamples acs) 0 / qz (Z.of_nat (length used))
                                  / qz (Z.of_nat (nSamples - k)))%Qc) (seq 0 nSamples)))
      end.

(** [self.autocorrelation[:] = ac], a data set of [nSamples] entries: a single value is
    broadcast, any other length is refused.  Then compute_autocorrelation, channel.py:346-366. *)
Definition store (nSamples : nat) (ac : option (list Qc)) : option (list Qc) :=
  match ac with
  | None => None
  | Some [x] => Some (repeat x nSamples)
  | Some l => if Nat.eqb (length l) nSamples then Some l else None
  end.
Definition compute_autocorrelation (continuous : bool) (nSamples rps : nat) (rows : list (list Qc))
           (n_lags : option nat) (data_samples : option (nat * nat)) (max_excursion : Qc) : option (list Qc) :=
  store nSamples (if continuous then ac_continuous nSamples rps rows n_lags data_samples max_excursion
                  else ac_broken nSamples rows n_lags data_samples max_excursion).

(** * Segments of the power spectra *)

Definition sub {A : Type} (a len : nat) (l : list A) : list A := firstn len (skipn a l).

(** power_spectrum.py:98-118, [PowerSpectrum.addDataSegment], as far as the segment goes: it is
    added if it has the length 2m. *)
Fixpoint add_segments {A : Type} (m2 : nat) (segs : list (list A)) : option (list (list A)) :=
  match segs with
  | [] => Some []
  | s :: t => if Nat.eqb (length s) m2
              then match add_segments m2 t with Some r => Some (s :: r) | None => None end
              else None
  end.

(** power_spectrum.py:126-134, [PowerSpectrum.addLongData]. *)
Definition long_data {A : Type} (m : nat) (data : list A) : option (list (list A)) :=
  add_segments (2 * m) (map (fun k => sub (k * (2 * m)) (2 * m) data) (seq 0 (length data / (2 * m)))).

(** power_spectrum.py:199-212, [PowerSpectrumOverlap.addLongData]: the offset of segment [k],
    [int(k * delta_el + 0.5)]. *)
Definition overlap_count (m nt : nat) : nat := ((nt - 1) / m)%nat.
Definition overlap_offset (m nt k : nat) : nat :=
  let nk := overlap_count m nt in
  if Nat.ltb 1 nk then ((2 * k * (nt - 2 * m) + (nk - 1)) / (2 * (nk - 1)))%nat else 0%nat.
Definition overlap_data {A : Type} (m : nat) (data : list A) : option (list (list A)) :=
  add_segments (2 * m) (map (fun k => sub (overlap_offset m (length data) k) (2 * m) data)
                            (seq 0 (overlap_count m (length data)))).

(** power_spectrum.py:186-197, [PowerSpectrumOverlap.addDataSegment] on a sequence of pieces:
    [full] is self.fullseg, [None] before the first piece.  The second half of fullseg is
    assigned a piece, which must have its length. *)
Fixpoint overlap_pieces {A : Type} (m : nat) (full : option (list A)) (pieces : list (list A)) : option (list (list A)) :=
  match pieces with
  | [] => Some []
  | p :: t =>
      match full with
      | None => overlap_pieces m (Some p) t
      | Some prev =>
          if Nat.eqb (length p) (length prev) then
            match overlap_pieces m (Some p) t with
            | Some r => Some ((prev ++ p) :: r)
            | None => None
            end
          else None
      end
  end.

(** power_spectrum.py:279-302, [computeSpectrum]: the segments. *)
Definition compute_spectrum {A : Type} (data : list A) (segfactor : nat) : option (list (list A)) :=
  let m := (length data / (2 * segfactor))%nat in
  if Nat.eqb segfactor 1 then add_segments (2 * m) [firstn (2 * (length data / 2)) data]
  else match overlap_pieces m None (map (fun i => sub (i * m) m data) (seq 0 (2 * segfactor - 1))) with
       | Some segs => add_segments (2 * m) segs
       | None => None
       end.

(** channel.py:187-199, [compute_power_spectrum_reshape]: the segments before the cut on the
    excursion.  [data[:n]] takes records, and [reshape] needs exactly [n] samples. *)
Definition reshape_segments {A : Type} (nSamples : nat) (continuous : bool) (rows : list (list A))
           (seg_length : nat) : option (list (list A)) :=
  if negb continuous && negb (Nat.eqb seg_length nSamples) then None
  else
    let data :=
      if continuous then
        let n := (length (concat rows) / seg_length * seg_length)%nat in
        let taken := concat (firstn n rows) in
        if Nat.eqb (length taken) n then Some (chunks (n / seg_length) seg_length taken) else None
      else Some rows in
    match data with
    | None => None
    | Some d => Some (filter (fun s => Nat.eqb (length s) (2 * (seg_length / 2))) d)
    end.

(** power_spectrum.py:136-147, [spectrum(nbins)]: the new bin of each of the m+1 entries, and the
    entries averaged into each new bin. *)
Definition new_bin (m nbins i : nat) : nat := ((2 * i * nbins + (m + 1)) / (2 * (m + 1)))%nat.
Definition rebin (m nbins : nat) (specsum : list Qc) (nsegments : nat) : option (list (option Qc)) :=
  if Nat.ltb m nbins then None
  else Some (map (fun b =>
      let mine := map (fun i => nth i specsum 0%Qc) (filter (fun i => Nat.eqb (new_bin m nbins i) b) (seq 0 (m + 1))) in
      match qdiv (total mine) (qz (Z.of_nat (length mine))) with
      | Some v => qdiv v (qz (Z.of_nat nsegments))
      | None => None
      end) (seq 0 (nbins + 1))).
