(** C52: the first n good pulses.  C60: the average pulse. *)
From Coq Require Import ZArith QArith Qcanon Bool List.
From Verif Require Import QcPre QSort LagModel NoiSpec Kept AvgModel AvgSpec AvgProofs.
Import ListNotations.
Local Open Scope Qc_scope.

(** first_n_good_pulses(n) returns the records and the numbers of the good pulses, cut to the
    first n of them as [:n] does in Python (for negative n: all but the last -n). *)
Theorem first_n_good {A : Type} (d : A) data g n : length g = length data ->
  exists good, marked g good /\
    first_n_good_pulses data g n = Some (map (fun i => nth i data d) (py_upto n good), py_upto n good).
Proof. exact (first_n_ok d data g n). Qed.
Print Assumptions first_n_good.

(** For n at least 0 that is the first n, for n below 0 the rest after leaving out the last. *)
Theorem upto_meaning {A : Type} (l : list A) :
  (forall n, py_upto (Z.of_nat n) l = firstn n l) /\
  (forall n, (0 < n)%nat -> exists last, l = py_upto (- Z.of_nat n) l ++ last /\ length last = Nat.min n (length l)).
Proof.
  split.
  - intros n. unfold py_upto. destruct (Z.leb_spec 0 (Z.of_nat n)); [now rewrite Nat2Z.id | exfalso; apply (Z.lt_irrefl 0); eapply Z.le_lt_trans; [apply Nat2Z.is_nonneg | eassumption]].
  - intros n N. unfold py_upto. destruct (Z.leb_spec 0 (- Z.of_nat n)) as [C|C]; [exfalso; Lia.lia|].
    exists (skipn (Z.to_nat (Z.of_nat (length l) + - Z.of_nat n)) l). split; [symmetry; apply firstn_skipn|].
    rewrite skipn_length. Lia.lia.
Qed.
Print Assumptions upto_meaning.

(** The mask for the average pulse marks the first [c] of the good pulses within 5% of the
    median, or all of them if there are fewer; without any the call fails. *)
Theorem auto_mask_first use vals c good med sel :
  length use = length vals -> (1 <= c)%Z -> marked use good -> good <> [] ->
  is_median (map (fun i => nth i vals 0) good) med ->
  kept (fun i => within_5_percent med (nth i vals 0)) good sel ->
  (sel = [] -> auto_mask use vals c = None) /\
  (sel <> [] -> exists m, auto_mask use vals c = Some m /\ length m = length use /\ marked m (firstn (Z.to_nat c) sel)).
Proof. exact (auto_mask_ok use vals c good med sel). Qed.
Print Assumptions auto_mask_first.

Theorem auto_mask_no_good use vals c : marked use [] -> auto_mask use vals c = None.
Proof. exact (auto_mask_none use vals c). Qed.
Print Assumptions auto_mask_no_good.

(** Asking for none selects one, if it is the first pulse of the file. *)
Theorem auto_mask_zero_refuted : exists use vals m,
  length use = length vals /\ auto_mask use vals 0 = Some m /\ marked m [0%nat].
Proof.
  exists [true; true], [qz 100; qz 101]. exists [true; false]. split; [reflexivity|].
  split; [vm_compute; reflexivity|]. exact (nonzero_marked [true; false]).
Qed.
Print Assumptions auto_mask_zero_refuted.

(** The average pulse is the mean of the selected records, sample by sample, from which the
    mean of its part before the trigger is subtracted; that part then has mean zero. *)
Theorem average_pulse_is_mean ns data mask stored nsamp force idx :
  (force = true \/ Forall (fun x => x = 0) stored) -> length mask = length data -> marked mask idx -> idx <> [] ->
  let mean j := average (map (fun i => nth j (nth i data []) 0) idx) in
  let avg := map mean (seq 0 ns) in
  compute_average_pulse ns data mask stored nsamp false force = Some avg /\
  (py_upto nsamp avg <> [] ->
   let base := average (py_upto nsamp avg) in
   exists r, compute_average_pulse ns data mask stored nsamp true force = Some r /\ length r = ns /\
     (forall j, (j < ns)%nat -> nth j r 0 = mean j - base) /\ average (py_upto nsamp r) = 0).
Proof. exact (average_pulse_ok ns data mask stored nsamp force idx). Qed.
Print Assumptions average_pulse_is_mean.

(** An average pulse that has been computed is kept unless a new one is asked for. *)
Theorem average_pulse_not_recomputed ns data mask stored nsamp sub : Exists (fun x => x <> 0) stored ->
  compute_average_pulse ns data mask stored nsamp sub false = Some stored.
Proof. exact (average_pulse_kept ns data mask stored nsamp sub). Qed.
Print Assumptions average_pulse_not_recomputed.

(** Without selected pulses there is no average. *)
Theorem average_pulse_of_none ns data mask stored nsamp sub : (0 < ns)%nat -> marked mask [] ->
  length mask = length data -> compute_average_pulse ns data mask stored nsamp sub true = None.
Proof. exact (average_pulse_empty ns data mask stored nsamp sub). Qed.
Print Assumptions average_pulse_of_none.

Example first_n_instance :
  first_n_good_pulses [10; 11; 12; 13; 14]%Z [true; false; true; true; true] 2 = Some ([10; 12]%Z, [0; 2]%nat) /\
  first_n_good_pulses [10; 11; 12; 13; 14]%Z [true; false; true; true; true] 9 = Some ([10; 12; 13; 14]%Z, [0; 2; 3; 4]%nat) /\
  first_n_good_pulses [10; 11; 12; 13; 14]%Z [true; false; true; true; true] (-1) = Some ([10; 12; 13]%Z, [0; 2; 3]%nat).
Proof. repeat split. Qed.
Example auto_mask_instance :
  auto_mask [true; true; false; true; true; true] (map qz [100; 150; 100; 104; 101; 102]%Z) 2
  = Some [true; false; false; true; false; false].
Proof. vm_compute. reflexivity. Qed.
Example average_pulse_instance :
  option_map (map this)
    (compute_average_pulse 4 (map (map qz) [[0; 2; 9; 5]; [7; 7; 7; 7]; [2; 4; 11; 5]]%Z) [true; false; true]
       (map qz [0; 0; 0; 0]%Z) 2 true false) = Some [-1; 1; 8; 3]%Q.
Proof. vm_compute. reflexivity. Qed.
