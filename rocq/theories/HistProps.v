(** C48: histograms. *)
From Coq Require Import ZArith QArith Bool Lia List.
From Verif Require Import Kept CutModel CutHistProofs GrpModel HistModel HistSpec HistProofs.
Import ListNotations.
Local Open Scope nat_scope.

(** Every bin contains the number of values in it: bins are closed below and open above, except
    the last, which is closed. *)
Theorem histogram_counts : forall vs e, ordered e ->
  exists c, histogram vs e = Some c /\ histogram_of (fun i v => in_bin e i v) (length e - 1) vs c.
Proof. exact histogram_ok. Qed.
Print Assumptions histogram_counts.

(** A value within the edges is in exactly one bin, and no other value is in any. *)
Theorem histogram_one_bin : forall e v, ordered e -> 2 <= length e ->
  (within e v <-> exists i, in_bin e i v) /\ (forall i j, in_bin e i v -> in_bin e j v -> i = j).
Proof.
  intros e v O L. split; [split|].
  - exact (one_bin e v O L).
  - intros [i B]. exact (in_bin_within e i v O B).
  - intros i j. exact (bins_disjoint e v i j O).
Qed.
Print Assumptions histogram_one_bin.

(** MicrocalDataSet.hist: bin i counts the pulses that are good, strictly between the times, not
    NaN, accepted by g_func, and whose value is in the bin. *)
Theorem channel_histogram : forall r e t0 tlast cat gf d gd, ordered e -> good r [] cat (masks d) = Some gd ->
  length gd = length (vals d) -> length (times d) = length (vals d) -> length (accepted_by gf d) = length (vals d) ->
  exists b c, ds_hist r e t0 tlast cat gf d = Some (b, c) /\ middles e b /\
    histogram_of (fun i k => counted gd (accepted_by gf d) (times d) (vals d) t0 tlast k /\ value_in_bin e (vals d) i k)
                 (length e - 1) (seq 0 (length (vals d))) c /\
    (2 <= length e ->
     tally (fun k => counted gd (accepted_by gf d) (times d) (vals d) t0 tlast k /\
                     exists v, nth_error (vals d) k = Some v /\ within e v) (seq 0 (length (vals d))) (list_sum c)).
Proof.
  intros r e t0 tlast cat gf d gd O G Lg Lt La.
  destruct (ds_hist_ok r e t0 tlast cat gf d gd O G Lg Lt La) as (c & H & T).
  exists (centers e), c. split; [exact H|]. split; [apply centers_ok|]. split; [exact T|].
  intros L. exact (ds_hist_total r e t0 tlast cat gf d gd (centers e) c O L G Lg Lt La H).
Qed.
Print Assumptions channel_histogram.

(** TESGroup.hist is the sum of the histograms of the good channels (and raises only if one of
    them does). *)
Theorem group_histogram : forall r s l e t0 tlast cat gf, NoDup (map fst l) ->
  exists gl, kept (fun p => ~ In (fst p) (map fst (bads s))) l gl /\
  match tes_hist r s l e t0 tlast cat gf with
  | Some (b, c) => middles e b /\ exists per, sum_of (length e - 1) per c /\
      Forall2 (fun p x => ds_hist r e t0 tlast cat gf (snd p) = Some (b, x)) gl per /\
      tes_hists r s l e t0 tlast cat gf = Some (b, combine (map fst gl) per)
  | None => exists p, In p gl /\ ds_hist r e t0 tlast cat gf (snd p) = None
  end.
Proof.
  intros r s l e t0 tlast cat gf N. exists (good_datasets s l). split; [apply good_datasets_kept|].
  pose proof (tes_hist_ok r s l e t0 tlast cat gf N) as H. unfold tes_hist in *.
  destruct (tes_hists r s l e t0 tlast cat gf) as [[b c]|]; [|exact H].
  destruct H as (-> & per & H1 & H2 & H3). split; [apply centers_ok|]. exists per.
  split; [exact H1|]. split; [exact H2|]. cbn in H3. now injection H3 as ->.
Qed.
Print Assumptions group_histogram.

(** Channel.hist of OFF files: NaN values are in no bin. *)
Theorem off_histogram : forall vs e cal, ordered e ->
  forall v, (match cal with None => Some vs | Some f => f vs end) = Some v ->
  exists b c, off_hist (Some vs) e cal = Some (b, c) /\ middles e b /\
    histogram_of (fun i x => in_bin e i x) (length e - 1) v c /\
    (2 <= length e -> tally (within e) v (list_sum c)).
Proof.
  intros vs e cal O v E. destruct (off_hist_ok vs e cal O v E) as (c & H1 & H2 & H3).
  exists (centers e), c. split; [exact H1|]. split; [apply centers_ok|]. split; [exact H2 | exact H3].
Qed.
Print Assumptions off_histogram.

(** ChannelGroup.hist is the sum over the channels the group iterates over. *)
Theorem off_group_histogram : forall (C : Type) (attr : chan C -> option (list xval)) (g : group C) e,
  NoDup (map fst (chans g)) ->
  match group_hist attr g e None with
  | Some (b, c) => middles e b /\ exists per, sum_of (length e - 1) per c /\
      Forall2 (fun p x => off_hist (attr (snd p)) e None = Some (b, x)) (items g) per
  | None => exists p, In p (items g) /\ off_hist (attr (snd p)) e None = None
  end.
Proof.
  intros C attr g e N. pose proof (group_hist_ok attr g e N) as H.
  destruct (group_hist attr g e None) as [[b c]|]; [|exact H].
  destruct H as (-> & H). split; [apply centers_ok | exact H].
Qed.
Print Assumptions off_group_histogram.

(** ChannelGroup.hists of a list of channels gives the histogram of every one of them. *)
Theorem off_group_histograms : forall (C : Type) (attr : chan C -> option (list xval)) (g : group C) e ks, NoDup ks ->
  let one k := match dget (chans g) k with
               | None => None
               | Some c => option_map snd (off_hist (attr c) e None)
               end in
  match group_hists attr g e (Some ks) with
  | Some (b, d) => middles e b /\ exists per, Forall2 (fun k x => one k = Some x) ks per /\ d = combine ks per
  | None => exists k, In k ks /\ one k = None
  end.
Proof.
  intros C attr g e ks N one. pose proof (group_hists_ok attr g e ks N) as H. cbv zeta in H.
  destruct (group_hists attr g e (Some ks)) as [[b d]|]; [|exact H].
  destruct H as (-> & H). split; [apply centers_ok | exact H].
Qed.
Print Assumptions off_group_histograms.

(** Edges that decrease somewhere are refused. *)
Theorem histogram_unordered : forall vs e i a b, nth_error e i = Some a -> nth_error e (S i) = Some b -> xlt b a ->
  histogram vs e = None.
Proof.
  intros vs e i a b H K L. unfold histogram.
  assert (decreases e = true) as ->; [|reflexivity].
  revert e H K. induction i as [|i IH]; intros [|x [|y t]] H K; try discriminate; try (destruct i; discriminate).
  - cbn in H, K. injection H as ->. injection K as ->. cbn [decreases]. apply xltb_spec in L. now rewrite L.
  - change (decreases (x :: y :: t)) with (xltb y x || decreases (y :: t)).
    rewrite (IH (y :: t) H K). apply orb_true_r.
Qed.
Print Assumptions histogram_unordered.

(** With the default times, a good pulse at time zero is not counted. *)
Theorem histogram_time_zero_refuted : exists r d e, ordered e /\ vals d = [Fin 1] /\ times d = [Fin 0] /\
  good r [] [] (masks d) = Some [true] /\ within e (Fin 1) /\
  option_map snd (ds_hist r e (Fin 0) (Fin (10 ^ 20)) [] None d) = Some [0].
Proof.
  exists init_registry, (mkDs [0%N] [Fin 0] [Fin 1]), [Fin 0; Fin 2].
  split; [split|].
  - repeat constructor; discriminate.
  - intros [|[|i]] a b H K; try discriminate. cbn in H, K. injection H as <-. injection K as <-.
    split; [discriminate|]. split; [discriminate|]. cbn. intros L. inversion L.
  - split; [reflexivity|]. split; [reflexivity|]. split; [vm_compute; reflexivity|]. split; [|vm_compute; reflexivity].
    exists (Fin 0), (Fin 2). split; [reflexivity|]. split; [reflexivity|].
    split; (split; [discriminate|]; split; [discriminate|]; cbn; intros L; inversion L).
Qed.
Print Assumptions histogram_time_zero_refuted.

(** Two data sets with one channel number: only the second is counted. *)
Theorem histogram_twice_refuted : exists r s a b e x y z,
  option_map snd (ds_hist r e NegInf PosInf [] None a) = Some [x] /\ option_map snd (ds_hist r e NegInf PosInf [] None b) = Some [y] /\
  option_map snd (tes_hist r s [(1%Z, a); (1%Z, b)] e NegInf PosInf [] None) = Some [z] /\ z <> x + y.
Proof.
  exists init_registry, (mkTes [1; 1]%Z 2 [] [1%Z] []), (mkDs [0%N] [Fin 1] [Fin 1]), (mkDs [0%N; 0%N] [Fin 1; Fin 2] [Fin 1; Fin 1]), [Fin 0; Fin 2], 1, 2, 2.
  split; [vm_compute; reflexivity|]. split; [vm_compute; reflexivity|]. split; [vm_compute; reflexivity|]. discriminate.
Qed.
Print Assumptions histogram_twice_refuted.

(** * Examples *)

Definition edges_ex : list xval := [Fin 0; Fin 1; Fin 1; Fin 3].
Example edges_ordered : ordered edges_ex.
Proof.
  split; [repeat constructor; discriminate|].
  intros [|[|[|[|i]]]] a b H K; try discriminate; cbn in H, K; injection H as <-; injection K as <-;
    (split; [discriminate|]; split; [discriminate|]; cbn; intros L; inversion L).
Qed.
(** A value on the last edge, one on inner edges, infinities and NaN. *)
Example histogram_instance :
  histogram [Fin 3; NaN; Fin 1; Fin 0; Fin (1 # 2); PosInf; NegInf; Fin (7 # 2)] edges_ex = Some [2; 0; 2].
Proof. vm_compute. reflexivity. Qed.
(** Four pulses: cut, too late, NaN, and counted; two channels, and a third that is bad. *)
Definition ds_ex : dset_ := mkDs [1%N; 0%N; 0%N; 0%N] [Fin 1; Fin 9; Fin 2; Fin 3] [Fin 1; Fin 1; NaN; Fin 3].
Example channel_histogram_instance :
  good init_registry [] [] (masks ds_ex) = Some [false; true; true; true] /\
  option_map snd (ds_hist init_registry edges_ex (Fin 0) (Fin 8) [] None ds_ex) = Some [0; 0; 1].
Proof. split; vm_compute; reflexivity. Qed.
Example group_histogram_instance :
  option_map snd (tes_hist init_registry (mkTes [1; 2; 3]%Z 3 [(3%Z, [])] [1; 2; 3]%Z [])
                           [(1%Z, ds_ex); (2%Z, ds_ex); (3%Z, ds_ex)] edges_ex (Fin 0) (Fin 10) [] None) = Some [0; 0; 4].
Proof. vm_compute. reflexivity. Qed.
Example off_group_histogram_instance :
  option_map snd (group_hist (fun c => Some (data c)) (mkGroup [(1%Z, mkChan false [] [Fin 1; NaN]); (2%Z, mkChan true [] [Fin 0]); (3%Z, mkChan false [] [Fin 0; Fin 2])] false false) edges_ex None)
  = Some [1; 0; 2].
Proof. vm_compute. reflexivity. Qed.
Example off_group_histograms_instance :
  option_map snd (group_hists (fun c => Some (data c)) (mkGroup [(1%Z, mkChan false [] [Fin 1; NaN]); (2%Z, mkChan true [] [Fin 0]); (3%Z, mkChan false [] [Fin 0; Fin 2])] false false) edges_ex (Some [3%Z; 2%Z]))
  = Some [(3%Z, [1; 0; 1]); (2%Z, [1; 0; 0])].
Proof. vm_compute. reflexivity. Qed.
