(** Properties of the noise analysis: C53, C54, C58, C59. *)
From Coq Require Import ZArith QArith Qcanon Bool Lia List.
From Verif Require Import QcPre LagModel OptModel Kept NoiModel NoiSpec NoiProofs.
Import ListNotations.

(** * C53 *)

Theorem padded_length_smallest n : (1 <= n)%Z ->
  (n <= padded_length n < 2 * n)%Z /\ good_length (padded_length n) /\
  forall m, good_length m -> (n <= m)%Z -> (padded_length n <= m)%Z.
Proof. exact (padded_ok n). Qed.
Print Assumptions padded_length_smallest.

Example padded_instance : map padded_length [1; 3; 5; 7; 33; 41; 49; 1000; 1300]%Z = [1; 3; 5; 8; 40; 48; 64; 1024; 1536]%Z.
Proof. vm_compute. reflexivity. Qed.

(** * C58 *)

(** Continuous noise: the average, over the consecutive stretches of 15 times the number of lags
    whose samples are all within [x] of their mean, of the autocovariance of a stretch. *)
Theorem continuous_autocorrelation nSamples rps rows L x used :
  (1 <= L)%nat -> (L <= rps * nSamples)%nat -> Forall (fun r => length r = nSamples) rows ->
  (15 * L <= nSamples * length rows)%nat ->
  kept (quiet x) (pieces (15 * L) (concat rows)) used -> used <> [] ->
  ac_continuous nSamples rps rows (Some L) None x = Some (map (mean_autocov used) (seq 0 L)).
Proof. exact (continuous_ok nSamples rps rows L x used). Qed.
Print Assumptions continuous_autocorrelation.

(** Separate records: the average over the records wholly inside the range of samples whose range
    of values is at most [x]. *)
Theorem broken_autocorrelation nSamples rows L first last x used :
  (1 <= nSamples)%nat -> (L <= nSamples)%nat -> Forall (fun r => length r = nSamples) rows ->
  (first <= last)%nat -> (last <= nSamples * length rows)%nat ->
  let a := ((first + nSamples - 1) / nSamples)%nat in
  let b := (last / nSamples)%nat in
  kept (small_range x) (firstn (b - a) (skipn a rows)) used -> used <> [] ->
  ac_broken nSamples rows (Some L) (Some (first, last)) x = Some (map (mean_autocov used) (seq 0 L)).
Proof. exact (broken_ok nSamples rows L first last x used). Qed.
Print Assumptions broken_autocorrelation.

(** What compute_noise stores for [L] lags: all of them if [L] is the record length, the
    variance everywhere if [L] is 1, and otherwise it fails. *)
Theorem stored_autocorrelation nSamples rps rows L x used (continuous : bool) :
  (1 <= L)%nat -> (1 <= nSamples)%nat -> Forall (fun r => length r = nSamples) rows ->
  (if continuous then (L <= rps * nSamples /\ 15 * L <= nSamples * length rows)%nat else (L <= nSamples)%nat) ->
  kept (if continuous then quiet x else small_range x) (if continuous then pieces (15 * L) (concat rows) else rows) used ->
  used <> [] ->
  compute_autocorrelation continuous nSamples rps rows (Some L) None x =
    (if Nat.eqb L nSamples then Some (map (mean_autocov used) (seq 0 nSamples))
     else if Nat.eqb L 1 then Some (repeat (mean_autocov used 0) nSamples)
     else None).
Proof.
  intros HL S F C U NE. unfold compute_autocorrelation.
  assert (E : (if continuous then ac_continuous nSamples rps rows (Some L) None x
               else ac_broken nSamples rows (Some L) None x) = Some (map (mean_autocov used) (seq 0 L))).
  { destruct continuous.
    - apply continuous_ok; try assumption; lia.
    - change (ac_broken nSamples rows (Some L) None x) with
        (ac_broken nSamples rows (Some L) (Some (0, nSamples * length rows)%nat) x).
      apply broken_ok; try assumption; try lia.
      replace (nSamples * length rows / nSamples)%nat with (length rows) by (rewrite Nat.mul_comm, Nat.div_mul; lia).
      rewrite (Nat.div_small (0 + nSamples - 1)) by lia. rewrite Nat.sub_0_r. cbn [skipn]. rewrite firstn_all. exact U. }
  rewrite E. unfold store. destruct (Nat.eqb_spec L nSamples) as [<-|N].
  - destruct L as [|[|n]]; [lia | reflexivity |].
    cbn [seq map]. cbn [length]. rewrite map_length, seq_length, Nat.eqb_refl. reflexivity.
  - destruct L as [|[|n]]; [lia | reflexivity |].
    cbn [seq map]. cbn [length]. rewrite map_length, seq_length.
    destruct (Nat.eqb_spec (Datatypes.S (Datatypes.S n)) nSamples); [contradiction | reflexivity].
Qed.
Print Assumptions stored_autocorrelation.

Definition ex_rows : list (list Qc) := map (fun j => [qz (Z.of_nat (j mod 3)); qz (Z.of_nat (j mod 2))]) (seq 0 15).

Example stored_instance :
  Forall (fun r => length r = 2%nat) ex_rows /\ (15 <= length ex_rows)%nat /\
  existsb (fun c => negb (existsb (fun v => qltb (qz 5) (qabs v)) (centred c))) (pieces (15 * 2) (concat ex_rows)) = true /\
  option_map (map this) (compute_autocorrelation true 2 1 ex_rows (Some 2%nat) None (qz 5)) =
    Some [119 # 225; -376 # 6525]%Q /\
  option_map (map this) (compute_autocorrelation false 2 1 ex_rows (Some 2%nat) None (qz 1)) =
    Some [1 # 8; -1 # 8]%Q /\
  option_map (map this) (compute_autocorrelation false 2 1 ex_rows (Some 1%nat) None (qz 1)) =
    Some [1 # 8; 1 # 8]%Q.
Proof. split; [repeat constructor|]. split; [cbn; lia|]. vm_compute. repeat split. Qed.

(** A number of lags other than the record length cannot be stored. *)
Theorem stored_lags_refuted : exists nSamples rps rows L x,
  (1 <= L)%nat /\ (L <= rps * nSamples)%nat /\ Forall (fun r => length r = nSamples) rows /\
  (15 * L <= nSamples * length rows)%nat /\
  ac_continuous nSamples rps rows (Some L) None x <> None /\
  compute_autocorrelation true nSamples rps rows (Some L) None x = None.
Proof.
  exists 2%nat, 2%nat, (ex_rows ++ ex_rows), 3%nat, (qz 5).
  split; [lia|]. split; [cbn; lia|]. split; [repeat constructor|]. split; [cbn; lia|].
  split; [vm_compute; discriminate | vm_compute; reflexivity].
Qed.
Print Assumptions stored_lags_refuted.

(** A range of samples is applied to the records of continuous noise: here the range contains all
    samples of every record but the first, enough for one stretch, and nothing is found. *)
Theorem continuous_range_refuted : exists nSamples rps rows L first last x,
  Forall (fun r => length r = nSamples) rows /\ (first <= last)%nat /\ (last <= nSamples * length rows)%nat /\
  (15 * L <= last - first)%nat /\
  quiet x (firstn (15 * L) (skipn first (concat rows))) /\
  ac_continuous nSamples rps rows (Some L) (Some (first, last)) x = None.
Proof.
  exists 16%nat, 1%nat, [repeat 0%Qc 16; repeat 0%Qc 16], 1%nat, 16%nat, 32%nat, (qz 5).
  split; [repeat constructor|]. split; [lia|]. split; [cbn; lia|]. split; [lia|]. split; [|vm_compute; reflexivity].
  assert (E : firstn (15 * 1) (skipn 16 (concat [repeat 0%Qc 16; repeat 0%Qc 16])) = repeat 0%Qc 15) by reflexivity.
  rewrite E. intros v V. apply repeat_spec in V. subst v.
  assert (A : average (repeat 0%Qc 15) = 0%Qc) by (apply Qc_is_canon; vm_compute; reflexivity).
  rewrite A. split; vm_compute; discriminate.
Qed.
Print Assumptions continuous_range_refuted.

(** * C54 *)

(** Overlapping segments of a long data set. *)
Theorem overlap_segments {A : Type} m (data : list A) : (1 <= m)%nat -> (2 * m <= length data)%nat ->
  exists offs, overlap_data m data = Some (map (fun o => firstn (2 * m) (skipn o data)) offs) /\
    offs <> [] /\ tiles offs (2 * m) m (length data) /\ (length offs = (length data - 1) / m)%nat.
Proof. exact (overlap_ok m data). Qed.
Print Assumptions overlap_segments.

(** Hence every sample is in a segment, and no segment goes beyond the data. *)
Theorem overlap_covers offs m n : (1 <= m)%nat -> offs <> [] -> tiles offs (2 * m) m n ->
  (forall k, (k < length offs)%nat -> (nth k offs 0 + 2 * m <= n)%nat) /\
  forall i, (i < n)%nat -> exists k, (k < length offs)%nat /\ (nth k offs 0 <= i < nth k offs 0 + 2 * m)%nat.
Proof.
  intros M N T. split; [exact (tiles_bound _ _ _ _ T)|]. intros i I. apply (tiles_cover _ _ _ _ _ T); [lia | exact N | exact I].
Qed.
Print Assumptions overlap_covers.

(** Data shorter than a segment: nothing, or an exception. *)
Theorem overlap_short_data {A : Type} m (data : list A) : (1 <= m)%nat ->
  ((length data <= m)%nat -> overlap_data m data = Some []) /\
  ((m < length data < 2 * m)%nat -> overlap_data m data = None).
Proof. exact (overlap_short m data). Qed.
Print Assumptions overlap_short_data.

(** Non-overlapping segments. *)
Theorem plain_segments {A : Type} m (data : list A) : (1 <= m)%nat -> long_data m data = Some (pieces (2 * m) data).
Proof. exact (long_data_ok m data). Qed.
Print Assumptions plain_segments.

(** [computeSpectrum] with several segments. *)
Theorem compute_spectrum_segments {A : Type} (data : list A) s : (2 <= s)%nat ->
  let m := (length data / (2 * s))%nat in
  compute_spectrum data s = Some (map (fun i => firstn (2 * m) (skipn (i * m) data)) (seq 0 (2 * s - 2))).
Proof. exact (compute_spectrum_ok data s). Qed.
Print Assumptions compute_spectrum_segments.

(** Continuous noise cut again into segments of another, even, length dividing the total. *)
Theorem reshaped_segments nSamples (rows : list (list Qc)) L : (1 <= nSamples)%nat -> (1 <= L)%nat -> Nat.even L = true ->
  Forall (fun r => length r = nSamples) rows -> ((nSamples * length rows) mod L = 0)%nat ->
  reshape_segments nSamples true rows L = Some (pieces L (concat rows)).
Proof. exact (reshape_ok nSamples rows L). Qed.
Print Assumptions reshaped_segments.

Example segments_instance :
  overlap_data 2 (seq 0 9) = Some [[0; 1; 2; 3]; [2; 3; 4; 5]; [3; 4; 5; 6]; [5; 6; 7; 8]]%nat /\
  compute_spectrum (seq 0 9) 2 = Some [[0; 1; 2; 3]; [2; 3; 4; 5]]%nat /\
  reshape_segments 3 true [[0; 1; 2]; [3; 4; 5]; [6; 7; 8]; [9; 10; 11]]%nat 4 =
    Some [[0; 1; 2; 3]; [4; 5; 6; 7]; [8; 9; 10; 11]]%nat.
Proof. vm_compute. repeat split. Qed.

(** The segments of computeSpectrum do not cover the data: the last half segment is never used. *)
Theorem compute_spectrum_cover_refuted : exists (data data' : list nat) s,
  (2 <= s)%nat /\ length data = length data' /\ data <> data' /\ (length data mod (2 * s) = 0)%nat /\
  compute_spectrum data s = compute_spectrum data' s.
Proof.
  exists (seq 0 8), (seq 0 6 ++ [100; 101])%nat, 2%nat. split; [lia|]. vm_compute. repeat split. discriminate.
Qed.
Print Assumptions compute_spectrum_cover_refuted.

(** Segment lengths that are odd use no data at all; ones that do not divide the total raise. *)
Theorem reshaped_refuted : exists nSamples (rows : list (list nat)),
  reshape_segments nSamples true rows 3 = Some [] /\ reshape_segments nSamples true rows 5 = None.
Proof. exists 4%nat, [[0; 1; 2; 3]; [4; 5; 6; 7]; [8; 9; 10; 11]]%nat. vm_compute. split; reflexivity. Qed.
Print Assumptions reshaped_refuted.

(** * C59 *)

(** With at least two entries per coarse bin, each coarse bin is the mean of the entries nearest to
    it, which are not none; and each entry belongs to one bin only. *)
Theorem rebin_means m nbins specsum nseg : (1 <= nbins)%nat -> (2 * nbins <= m + 1)%nat -> (1 <= nseg)%nat ->
  exists r, rebin m nbins specsum nseg = Some r /\ (length r = nbins + 1)%nat /\
    forall b idx, (b <= nbins)%nat -> kept (fun i => in_bin m nbins i b) (seq 0 (m + 1)) idx ->
      nth b r None = Some (average (map (fun i => nth i specsum 0%Qc) idx) / qn nseg)%Qc.
Proof. exact (rebin_ok m nbins specsum nseg). Qed.
Print Assumptions rebin_means.

Theorem rebin_one_bin m nbins i : (i <= m)%nat ->
  exists b, (b <= nbins)%nat /\ in_bin m nbins i b /\ forall b', in_bin m nbins i b' -> b' = b.
Proof.
  intros I. exists (new_bin m nbins i).
  assert (H := proj1 (new_bin_spec m nbins i _ I) eq_refl).
  split; [exact (bin_range _ _ _ _ H)|]. split; [exact H|]. intros b' B. symmetry. now apply new_bin_spec.
Qed.
Print Assumptions rebin_one_bin.

Example rebin_instance :
  option_map (map (option_map this)) (rebin 7 3 (map (fun j => qz (Z.of_nat j)) (seq 0 8)) 2) =
    Some [Some (1 # 4); Some (5 # 4); Some (5 # 2); Some (7 # 2)]%Q.
Proof. vm_compute. reflexivity. Qed.

(** With more bins, up to the number allowed, the last one is empty and its mean not a number. *)
Theorem rebin_many_nan m nbins specsum nseg r : (nbins <= m)%nat -> (m + 1 < 2 * nbins)%nat ->
  rebin m nbins specsum nseg = Some r -> nth nbins r None = None.
Proof. exact (rebin_nan m nbins specsum nseg r). Qed.
Print Assumptions rebin_many_nan.
Example rebin_many_instance : exists r, rebin 7 6 (repeat 1%Qc 8) 1 = Some r /\ nth 6 r None = None.
Proof. eexists. split; [reflexivity|]. vm_compute. reflexivity. Qed.
