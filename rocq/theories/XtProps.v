(** C49, C50: crosstalk. *)
From Coq Require Import String ZArith QArith Qcanon Bool Lia Sorting.Sorted List.
From Verif Require Import QcPre HistSpec XtModel XtSpec XtProofs.
Import ListNotations.
Local Open Scope string_scope.
Local Open Scope list_scope.
Local Open Scope Z_scope.

(** A veto can be made unless there is no channel or a channel has no pulse; it starts [a] ms from
    the earliest pulse. *)
Theorem veto_made : forall a b limit dss, dss <> [] -> Forall (fun ds => ds <> []) dss -> Forall chronological dss -> a <= b ->
  exists v e, veto_init a b limit dss = Some v /\ earliest dss e /\ time0 v = (ms e + q a)%Qc.
Proof.
  intros a b limit dss N F C Hab.
  assert (E : exists es, ends dss = Some es).
  { clear N C. induction F as [|ds dss H F IH]; [now exists []|]. destruct ds as [|p t]; [contradiction|].
    destruct IH as [es IH]. cbn [ends]. rewrite IH. eexists. reflexivity. }
  destruct E as [[|[f l] es] E].
  { destruct dss as [|[|p t] dss]; [contradiction | discriminate |]. cbn [ends] in E. destruct (ends dss); discriminate. }
  destruct (ends_earliest dss f l es C E) as [M1 M2]. unfold veto_init. rewrite E.
  set (ms0 := (ms _ + q a)%Qc) at 1. set (ms9 := (ms _ + q b)%Qc).
  assert (L : (0 <= ms9 - ms0 + 1)%Qc).
  { destruct M1 as [(ds & p & I1 & I2 & Ep) _]. pose proof (proj2 M2 ds p I1 I2) as M. rewrite Ep in M.
    apply ms_le in M. apply (proj2 (q_le a b)) in Hab. unfold ms0, ms9. qlra. }
  destruct (trunc_nonneg _ L) as [_ T]. apply Z.ltb_ge in T. rewrite T.
  eexists. eexists. split; [reflexivity|]. split; [exact M1 | reflexivity].
Qed.
Print Assumptions veto_made.

(** The veto at a time, as a number of pulses whose windows (and tails of pile-ups) cover its
    millisecond, which is counted in eight bits. *)
Theorem veto_hits : forall a b limit dss v t j, a <= 0 -> a <= b + 1 -> Forall chronological dss ->
  veto_init a b limit dss = Some v ->
  int_part (ms t - time0 v + Q2Qc (1 # 2))%Qc j -> 0 <= j < Z.of_nat (length (nhits v)) ->
  exists n, tally (hit a b limit (time0 v) j) (concat dss) n /\ veto v t = Some (1 <? wrap8 (Z.of_nat n)) /\
            ((n < 128)%nat -> (veto v t = Some true <-> (2 <= n)%nat)).
Proof.
  intros a b limit dss v t j Ha Hab C H P J. destruct (veto_hits_ok a b limit dss v t j Ha Hab C H P J) as (n & T & V).
  exists n. split; [exact T|]. split; [exact V|]. intros L. rewrite V, wrap8_small by lia.
  destruct (Z.ltb_spec 1 (Z.of_nat n)) as [X | X]; split; try lia; try discriminate; reflexivity.
Qed.
Print Assumptions veto_hits.

(** A good pulse is vetoed exactly when the window of another pulse, of any channel (its own
    included), covers its millisecond, if fewer than 128 do. *)
Theorem veto_pulse : forall a b limit dss v l1 p l2 n j, a <= 0 -> 1 <= b -> Forall chronological dss ->
  veto_init a b limit dss = Some v -> concat dss = l1 ++ p :: l2 -> ok p = true ->
  int_part (ms (time p) - time0 v + Q2Qc (1 # 2))%Qc j ->
  tally (hit a b limit (time0 v) j) (concat dss) n -> (n < 128)%nat ->
  exists x, veto v (time p) = Some x /\ (x = true <-> exists r, In r (l1 ++ l2) /\ hit a b limit (time0 v) j r).
Proof. exact veto_pulse_ok. Qed.
Print Assumptions veto_pulse.

(** What covering means for the times of a pulse [p] and of a good pulse [r], in ms: certainly if
    the difference is between a - 1/2 and b - 1/2; and, if [r] is no pile-up, only if it is between
    a - 3/2 and b + 1/2. *)
Theorem veto_window : forall a b limit ms0 p r j, ok r = true -> int_part (ms (time p) - ms0 + Q2Qc (1 # 2))%Qc j ->
  let d := (ms (time p) - ms (time r))%Qc in
  ((q a - Q2Qc (1 # 2) <= d)%Qc -> (d <= q b - Q2Qc (1 # 2))%Qc -> hit a b limit ms0 j r) /\
  (~ (limit < deriv r)%Qc -> hit a b limit ms0 j r -> (q a - 1 - Q2Qc (1 # 2) < d)%Qc /\ (d < q b + Q2Qc (1 # 2))%Qc).
Proof. exact window_time. Qed.
Print Assumptions veto_window.

(** Asking about any pulse does not raise, if the window extends at least 1 ms after a pulse. *)
Theorem veto_in_range : forall a b limit dss v p, a <= 0 -> 1 <= b -> Forall chronological dss -> veto_init a b limit dss = Some v ->
  In p (concat dss) -> exists x, veto v (time p) = Some x.
Proof.
  intros a b limit dss v p Ha Hb C H I. destruct (pulse_index a b limit dss v p Ha Hb C H I) as (j & P & J).
  destruct (veto_hits_ok a b limit dss v (time p) j Ha ltac:(lia) C H P J) as (n & _ & V). eexists. exact V.
Qed.
Print Assumptions veto_in_range.

(** With a window that ends with the pulse, it may raise. *)
Theorem veto_index_refuted : exists limit dss v p, Forall chronological dss /\ veto_init 0 0 limit dss = Some v /\
  In p (concat dss) /\ veto v (time p) = None.
Proof.
  exists (q 100), [[mkPulse true 0%Qc 0%Qc; mkPulse true (Q2Qc (1 # 2000)) 0%Qc]]. eexists. exists (mkPulse true (Q2Qc (1 # 2000)) 0%Qc).
  split; [|split; [vm_compute; reflexivity | split; [right; now left | vm_compute; reflexivity]]].
  constructor; [|constructor]. repeat constructor. discriminate.
Qed.
Print Assumptions veto_index_refuted.

(** A pulse is vetoed without a pulse in any other channel. *)
Theorem veto_same_channel_refuted : exists limit ds v p, chronological ds /\ veto_init (-10) 3 limit [ds] = Some v /\
  In p ds /\ ok p = true /\ veto v (time p) = Some true.
Proof.
  exists (q 100), [mkPulse true 0%Qc 0%Qc; mkPulse true (Q2Qc (1 # 1000)) 0%Qc]. eexists. exists (mkPulse true (Q2Qc (1 # 1000)) 0%Qc).
  split; [repeat constructor; discriminate|]. split; [vm_compute; reflexivity|]. split; [right; now left|]. split; [reflexivity | vm_compute; reflexivity].
Qed.
Print Assumptions veto_same_channel_refuted.

(** A pulse at the time of 129 others, in other channels, is not vetoed. *)
Theorem veto_overflow_refuted : exists limit dss v p, Forall chronological dss /\ veto_init (-10) 3 limit dss = Some v /\
  length dss = 130%nat /\ Forall (fun ds => ds = [p]) dss /\ ok p = true /\ veto v (time p) = Some false.
Proof.
  exists (q 100), (repeat [mkPulse true 0%Qc 0%Qc] 130). eexists. exists (mkPulse true 0%Qc 0%Qc).
  split; [|split; [vm_compute; reflexivity|]].
  - apply Forall_forall. intros ds I. apply repeat_spec in I. subst ds. repeat constructor.
  - split; [reflexivity|]. split; [|split; [reflexivity | vm_compute; reflexivity]].
    apply Forall_forall. intros ds I. now apply repeat_spec in I.
Qed.
Print Assumptions veto_overflow_refuted.

(** * flag_crosstalking_pulses *)

(** The loop flags a pulse exactly when a pulse of the given channels lies in its window, if the
    windows of different pulses do not overlap.  (The end of the last window belongs to it.) *)
Theorem crosstalk_loop_flags : forall ps prior post others channels, NoDup (map fst others) -> (0 <= prior + post)%Qc ->
  separated ps prior post ->
  exists fl, flagging_loop (combined_edges ps prior post) others channels = Some fl /\ length fl = length ps /\
    forall k p b, nth_error ps k = Some p -> nth_error fl k = Some b ->
      (b = true <-> exists t, pulse_of others channels t /\ (p - prior <= t)%Qc /\
                     ((t < p + post)%Qc \/ (S k = length ps /\ t = p + post)%Qc)).
Proof. exact flagging_loop_ok. Qed.
Print Assumptions crosstalk_loop_flags.

(** If the flags change, they are those of the loop for the neighbours of all categories, whatever
    the test whether there are any is. *)
Theorem crosstalk_combined : forall any ps others cs prior post ds force f f',
  flag_crosstalking any ps others (Some cs) prior post true ds force f = Some f' ->
  f' = f \/ (per_category f' = per_category f /\ exists ns, (forall c, In c ns <-> neighbour cs ds c) /\
    flagging_loop (combined_edges ps (prior / q 1000)%Qc (post / q 1000)%Qc) others ns = Some (combined f')).
Proof. exact combined_ok. Qed.
Print Assumptions crosstalk_combined.

(** With the test of the code, the flags never change. *)
Theorem crosstalk_never_flags : forall ps others cs prior post comb ds force f f',
  flag_crosstalking any_member_view ps others cs prior post comb ds force f = Some f' -> f' = f.
Proof.
  intros ps others cs prior post comb ds force f f' H.
  destruct (never_flags ps others cs prior post comb ds force f) as [E | E]; rewrite E in H; [now injection H | discriminate].
Qed.
Print Assumptions crosstalk_never_flags.

(** A neighbour's pulse at the same instant is not flagged. *)
Theorem crosstalk_not_flagged_refuted : exists ps others cs prior post,
  separated ps prior post /\ In 0%Qc ps /\ pulse_of others [2] 0%Qc /\ neighbour cs [1] 2 /\ (0 < prior)%Qc /\ (0 < post)%Qc /\
  flag_crosstalking any_member_view ps others (Some cs) prior post true [1] true (mkFlags [false] []) = Some (mkFlags [false] []).
Proof.
  exists [0%Qc], [(1, [0%Qc]); (2, [0%Qc])], [("physical"%string, [(2, 1, 1)])], 1%Qc, 1%Qc.
  split; [intros [|[|i]] x y H K; discriminate|]. split; [now left|]. split; [exists 2, [0%Qc]; split; [now left | split; [right; now left | now left]]|].
  split; [exists "physical"%string, [(2, 1, 1)], 1, 1; split; [now left | split; now left]|].
  split; [reflexivity|]. split; [reflexivity|]. vm_compute. reflexivity.
Qed.
Print Assumptions crosstalk_not_flagged_refuted.

(** Where windows overlap, even the loop misses pulses: two pulses 1 s apart, windows of 1 s on
    each side, a neighbour's pulse in both windows. *)
Theorem crosstalk_overlap_refuted : exists ps prior post others channels t,
  Forall (fun p => (p - prior < t)%Qc /\ (t < p + post)%Qc) ps /\ length ps = 2%nat /\ pulse_of others channels t /\
  flagging_loop (combined_edges ps prior post) others channels = Some [false; false].
Proof.
  exists [0%Qc; 1%Qc], 1%Qc, 1%Qc, [(2, [Q2Qc (1 # 2)])], [2], (Q2Qc (1 # 2)).
  split; [repeat constructor|]. split; [reflexivity|].
  split; [exists 2, [Q2Qc (1 # 2)]; split; [now left | split; now left]|]. vm_compute. reflexivity.
Qed.
Print Assumptions crosstalk_overlap_refuted.

(** It flags only pulses with a neighbour's pulse in their windows, though, if the pulses are in
    the order of time. *)
Theorem crosstalk_loop_sound : forall ps prior post others channels, NoDup (map fst others) -> (0 <= prior + post)%Qc ->
  Sorted Qcle ps ->
  exists fl, flagging_loop (combined_edges ps prior post) others channels = Some fl /\ length fl = length ps /\
    forall k p, nth_error ps k = Some p -> nth_error fl k = Some true ->
      exists t, pulse_of others channels t /\ (p - prior <= t)%Qc /\ (t <= p + post)%Qc.
Proof.
  intros ps prior post others channels N W S. apply flagging_loop_sound; [exact N | exact W|].
  apply Sorted_StronglySorted in S; [|intros x y z; apply Qcle_trans].
  induction S as [|x l S IH F]; [exact I|]. split; [|exact IH]. rewrite Forall_forall in F. exact F.
Qed.
Print Assumptions crosstalk_loop_sound.

(** If they are not, another pulse is flagged. *)
Theorem crosstalk_order_refuted : exists prior post others channels t,
  pulse_of others channels t /\ t = q 10 /\
  flagging_loop (combined_edges [q 10; 0%Qc] prior post) others channels = Some [false; true].
Proof.
  exists 1%Qc, 1%Qc, [(2, [q 10])], [2], (q 10).
  split; [exists 2, [q 10]; split; [now left | split; now left]|]. split; [reflexivity|]. vm_compute. reflexivity.
Qed.
Print Assumptions crosstalk_order_refuted.

(** Categories one by one: a pulse is flagged if it was or if the loop for the neighbours of some
    category flags it; and every category gets its own flags. *)
Theorem crosstalk_categories : forall any ps others cs prior post ds force f f', NoDup (map fst others) -> NoDup (map fst cs) ->
  length (combined f) = length ps ->
  flag_crosstalking any ps others (Some cs) prior post false ds force f = Some f' ->
  let flagged c l v := In (c, l) cs /\ any (map fst others) (select ds l) = true /\
      flagging_loop (combined_edges ps (prior / q 1000)%Qc (post / q 1000)%Qc) others (select ds l) = Some v in
  if existsb (fun x => x) (combined f) && negb force then f' = f
  else (forall k, nth_error (combined f') k = Some true <->
         nth_error (combined f) k = Some true \/ exists c l v, flagged c l v /\ nth_error v k = Some true) /\
       (forall c l v, flagged c l v -> category_flags (per_category f') c = Some v) /\
       (forall c, (forall l v, ~ flagged c l v) -> category_flags (per_category f') c = category_flags (per_category f) c).
Proof. exact categories_ok. Qed.
Print Assumptions crosstalk_categories.

(** The channels chosen for a category are those at one of the distances. *)
Theorem crosstalk_selected : forall ds l c, In c (select ds l) <-> exists d2 n, In (c, d2, n) l /\ In n ds.
Proof. exact select_in. Qed.
Print Assumptions crosstalk_selected.

(** A time more than half a millisecond before the first counter is looked up from the end of the
    counters, or in the first one if it is less than 1.5 ms before. *)
Theorem veto_before : forall v t j, (ms t - time0 v + Q2Qc (1 # 2) < 0)%Qc ->
  int_part (- (ms t - time0 v + Q2Qc (1 # 2)))%Qc j -> (0 < length (nhits v))%nat -> j <= Z.of_nat (length (nhits v)) ->
  veto v t = option_map (fun h => 1 <? h)
    (nth_error (nhits v) (if (j =? 0)%Z then 0 else length (nhits v) - Z.to_nat j)%nat).
Proof. exact veto_before_ok. Qed.
Print Assumptions veto_before.

(** * Examples *)

Example veto_before_instance :
  let v := mkVeto [0; 2; 5; 1] (q 10) in
  map (veto v) [Q2Qc (9 # 1000); Q2Qc (8 # 1000); Q2Qc (7 # 1000); Q2Qc (6 # 1000); Q2Qc (5 # 1000); Q2Qc (4 # 1000)]
  = [Some false; Some false; Some true; Some true; Some false; None].
Proof. vm_compute. reflexivity. Qed.
Example crosstalk_categories_instance :
  flag_crosstalking any_member_list [0%Qc; q 1; q 2] [(1, [q 100]); (2, [q 1]); (3, [q 2])]
    (Some [("a", [(2, 1, 1); (1, 0, 0)]); ("b", [(3, 1, 1)]); ("c", [(3, 1, 2)])]) (q 100) (q 200) false [1] false (mkFlags [false; false; false] [("c", [true; true; true])])
  = Some (mkFlags [false; true; true] [("c", [true; true; true]); ("a", [false; true; false]); ("b", [false; false; true])]).
Proof. vm_compute. reflexivity. Qed.

(** Two channels: pulses at 20, 40 and 23 ms, the last a pile-up. *)
Definition dss_ex : list (list pulse) :=
  [[mkPulse true (Q2Qc (20 # 1000)) 0%Qc; mkPulse true (Q2Qc (40 # 1000)) 0%Qc]; [mkPulse true (Q2Qc (23 # 1000)) (q 500)]].
Example dss_ex_ok : Forall chronological dss_ex.
Proof. repeat constructor; discriminate. Qed.
Example veto_instance : match veto_init (-10) 3 (q 100) dss_ex with
  | Some v => map (veto v) (map time (concat dss_ex)) = [Some true; Some false; Some true] /\ time0 v = q 10 /\ veto v (Q2Qc (33 # 1000)) = Some true
  | None => False
  end.
Proof. vm_compute. split; [reflexivity|]. split; [apply Qc_is_canon; vm_compute; reflexivity | reflexivity]. Qed.
Example crosstalk_instance :
  flagging_loop (combined_edges [0%Qc; q 10; q 20] 1%Qc (q 2)) [(1, [q 100]); (2, [q 3; q 9]); (3, [q 22])] [2; 3; 7] = Some [false; true; true].
Proof. vm_compute. reflexivity. Qed.
Example crosstalk_separated : separated [0%Qc; q 10; q 20] 1%Qc (q 2).
Proof. intros [|[|[|i]]] x y H K; try discriminate; cbn in H, K; injection H as <-; injection K as <-; discriminate. Qed.
(** With a list of channels, neighbours of two categories. *)
Example crosstalk_combined_instance :
  flag_crosstalking any_member_list [0%Qc; q 1; q 2] [(1, [q 100]); (2, [q 1]); (3, [q 2])]
    (Some [("a", [(2, 1, 1); (1, 0, 0)]); ("b", [(3, 1, 1)])]) (q 100) (q 200) true [1] false (mkFlags [false; false; false] [])
  = Some (mkFlags [false; true; true] []).
Proof. vm_compute. reflexivity. Qed.
