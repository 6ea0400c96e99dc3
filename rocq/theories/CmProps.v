(** Properties C111 and C112: smaller methods of a channel. *)
From Coq Require Import ZArith NArith QArith Qround Qcanon Bool Arith Lia Lqa String List.
From Verif Require Import Kept CutModel CutMaskProofs CutHistProofs HistModel HistSpec HistProofs CmModel CmSpec CmProofs.
From Verif Require CutProps NoiModel.
Import ListNotations.
Local Open Scope nat_scope.

(** * Count rate *)
(** the times of the pulses that count *)
Definition pulses (goodonly : bool) (g : list bool) (times ts : list Q) : Prop :=
  length g = length times /\ exists pairs, kept (fun p => goodonly = true -> fst p = true) (combine g times) pairs /\ ts = map snd pairs.
Lemma pulses_chosen goodonly g times ts : pulses goodonly g times ts -> chosen (if goodonly then g else map (fun _ => true) g) times = ts.
Proof.
  intros (L & pairs & K & ->). unfold chosen. revert times L pairs K. induction g as [|b g IH]; intros [|t times] L pairs K; try discriminate; cbn in *.
  - inversion K. now destruct goodonly.
  - injection L as L. destruct goodonly; cbn in *.
    + inversion K; subst; [specialize (H1 eq_refl); cbn in H1; subst b; cbn; f_equal; now apply IH|]. destruct b; [elim H1; reflexivity|]. now apply IH.
    + inversion K; subst; [cbn; f_equal; now apply IH|]. elim H1. discriminate.
Qed.
(** With a width, and pulses over more than it: regular bins from the first pulse, their middles, and in each bin the number of pulses over the width.
    The last edge lies before the last pulse. *)
Theorem rate_by_width goodonly w g times t0 ts : pulses goodonly g times (t0 :: ts) -> (0 < w)%Q -> (w < last (t0 :: ts) t0 - t0)%Q ->
  exists n c r, count_rate goodonly (Width w) g times = Some (c, r) /\ 1 <= n /\ S n = Z.to_nat (Qceiling ((last (t0 :: ts) t0 - t0) / w)) /\ rates_of t0 w n (t0 :: ts) c r.
Proof.
  intros P W L. unfold count_rate. rewrite (pulses_chosen _ _ _ _ P). set (t1 := last (t0 :: ts) t0) in *. destruct (arange_regular t0 t1 w W) as (e & A & R). rewrite A. assert (G : 2 <= Z.to_nat (Qceiling ((t1 - t0) / w))) by (apply ceiling_ge; apply Qlt_shift_div_l; lra).
  destruct (Z.to_nat (Qceiling ((t1 - t0) / w))) as [|n] eqn:N; [lia|]. destruct (with_edges_regular t0 w n e (t0 :: ts) W R ltac:(lia)) as (c & r & E & RO). exists n, c, r. split; [exact E|]. split; [lia|]. split; [reflexivity|exact RO].
Qed.
(** The last pulse is in no bin: it is never counted. *)
Theorem rate_last_lost w t0 ts n edges : (0 < w)%Q -> n = Z.to_nat (Qceiling ((last (t0 :: ts) t0 - t0) / w)) -> regular t0 w n edges -> forall i, ~ in_bin (map Fin edges) i (Fin (last (t0 :: ts) t0)).
Proof.
  intros W N [L R] i (a & b & A & B & _ & C). rewrite nth_error_map in B. destruct (nth_error edges (S i)) as [q|] eqn:Q; [|discriminate]. injection B as <-. assert (Li : S i < n) by (rewrite <- L; apply nth_error_Some; congruence). destruct (R (S i) Li) as (q' & Q' & E). rewrite Q in Q'. injection Q' as <-.
  rewrite N in Li. pose proof (last_edge_before _ _ w (S i) W Li) as LT. rewrite <- E in LT. revert LT C. generalize (last (t0 :: ts) t0). intros z LT C. unfold xlt, xleq in C. destruct C as [C|[_ C]]; cbn in C; lra.
Qed.
(** Pulses over no more than one width, or no pulse at all: an exception. *)
Theorem rate_raises goodonly w g times ts : pulses goodonly g times ts -> (0 < w)%Q -> (forall t0 r, ts = t0 :: r -> last ts t0 - t0 <= w)%Q -> count_rate goodonly (Width w) g times = None.
Proof.
  intros P W L. unfold count_rate. rewrite (pulses_chosen _ _ _ _ P). destruct ts as [|t0 ts]; [reflexivity|]. specialize (L t0 ts eq_refl). set (t1 := last (t0 :: ts) t0) in *. destruct (arange_regular t0 t1 w W) as (e & A & R). rewrite A. apply with_edges_few. rewrite (proj1 R). apply ceiling_two. apply Qle_shift_div_r; [exact W|lra].
Qed.
(** With edges that are regular: the same. *)
Theorem rate_by_edges goodonly g times ts t0 w n e : pulses goodonly g times ts -> (0 < w)%Q -> 1 <= n -> regular t0 w (S n) e -> exists c r, count_rate goodonly (Edges e) g times = Some (c, r) /\ rates_of t0 w n ts c r.
Proof. intros P W N R. unfold count_rate. rewrite (pulses_chosen _ _ _ _ P). now apply with_edges_regular. Qed.
(** "The rate of each bin is its count over its width": not if the widths differ; all are divided by the first. *)
Theorem rate_widths_refuted : exists e ts c, count_rate false (Edges e) (map (fun _ => true) ts) ts = Some (c, [1; 4]%Q) /\ e = [0; 1; 5]%Q /\ ts = [0; 1; 2; 3; 4]%Q.
Proof. exists [0; 1; 5]%Q, [0; 1; 2; 3; 4]%Q. eexists. split; [vm_compute; reflexivity|]. now split. Qed.
Example ex_rate : exists c r, count_rate true (Width 2) [true; true; false; true; true; true] [0; 1; 2; 3; 4; 5]%Q = Some (c, r) /\ map Qred c = [1; 3]%Q /\ map Qred r = [1; 1]%Q /\ pulses true [true; true; false; true; true; true] [0; 1; 2; 3; 4; 5]%Q [0; 1; 3; 4; 5]%Q.
Proof.
  eexists. eexists. split; [vm_compute; reflexivity|]. split; [reflexivity|]. split; [reflexivity|]. split; [reflexivity|]. exists [(true, 0); (true, 1); (true, 3); (true, 4); (true, 5)]%Q. split; [|reflexivity]. cbn. repeat (apply kept_yes; [reflexivity|]). apply kept_no; [intros X; discriminate (X eq_refl)|]. repeat (apply kept_yes; [reflexivity|]). constructor.
Qed.

(** * Summary of cuts *)
(** For each two fields the number of pulses cut by both and by one of them; then an empty line, a line with braces per field, whatever the
    pulses, and the number of pulses. *)
Theorem summary_printed r ws : let f := boolean_fields r in
  exists pairs, cut_summary r ws = Some (pairs ++ [Empty] ++ map (fun _ => Braces) f ++ [Total (length ws)]) /\ length pairs = length f * (length f - 1) /\
  forall p, In p pairs <-> exists i j c1 c2 b1 b2 n m, i <> j /\ nth_error f i = Some c1 /\ nth_error f j = Some c2 /\ bad r [c1] [] ws = Some b1 /\ bad r [c2] [] ws = Some b2 /\ p = Pair n m c1 c2 /\
    tally (fun k => nth_error b1 k = Some true /\ nth_error b2 k = Some true) (seq 0 (length ws)) n /\ tally (fun k => nth_error b1 k = Some true \/ nth_error b2 k = Some true) (seq 0 (length ws)) m.
Proof.
  intros f. set (cutby := fun c => match bad r [c] [] ws with Some b => b | None => [] end). set (P := fun c1 c2 => Pair (tally_ (map2 andb (cutby c1) (cutby c2))) (tally_ (map2 orb (cutby c1) (cutby c2))) c1 c2).
  assert (PL : forall c1 c2, In c1 f -> In c2 f -> pair_line r ws c1 c2 = Some (P c1 c2)).
  { intros c1 c2 I J. destruct (field_bad r ws c1 I) as (b1 & B1 & _), (field_bad r ws c2 J) as (b2 & B2 & _). unfold pair_line, P, cutby. now rewrite B1, B2. }
  set (pairs := flat_map (fun c1 => flat_map (fun c2 => if fst c1 =? fst c2 then [] else [P (snd c1) (snd c2)]) (numbered f)) (numbered f)).
  assert (NI : forall c, In c (numbered f) -> In (snd c) f) by (intros [i c] I; apply in_numbered in I; cbn; eapply nth_error_In; exact I).
  exists pairs. split; [|split].
  - unfold cut_summary. fold f. assert (E : flat_map (fun c1 => flat_map (fun c2 => if fst c1 =? fst c2 then [] else [pair_line r ws (snd c1) (snd c2)]) (numbered f)) (numbered f) = map Some pairs).
    { unfold pairs. assert (G1 : forall l l' c1, In (snd c1) f -> (forall c, In c l' -> In (snd c) f) -> l = l' -> flat_map (fun c2 => if fst c1 =? fst c2 then [] else [pair_line r ws (snd c1) (snd c2)]) l = map Some (flat_map (fun c2 : nat * string => if fst c1 =? fst c2 then [] else [P (snd c1) (snd c2)]) l')).
      { intros l l' c1 I N ->. induction l' as [|c2 l' IH]; [reflexivity|]. cbn [flat_map]. rewrite map_app, <- IH by (intros; apply N; now right). destruct (fst c1 =? fst c2); [reflexivity|]. cbn. f_equal. apply PL; [exact I|apply N; now left]. }
      assert (G2 : forall l, (forall c, In c l -> In (snd c) f) -> flat_map (fun c1 => flat_map (fun c2 => if fst c1 =? fst c2 then [] else [pair_line r ws (snd c1) (snd c2)]) (numbered f)) l = map Some (flat_map (fun c1 => flat_map (fun c2 => if fst c1 =? fst c2 then [] else [P (snd c1) (snd c2)]) (numbered f)) l)).
      { induction l as [|c1 l IH]; intros N; [reflexivity|]. cbn [flat_map]. rewrite map_app, <- IH by (intros; apply N; now right). f_equal. apply G1; [apply N; now left|exact NI|reflexivity]. }
      now apply G2. }
    rewrite E, all_ok_some. do 4 f_equal. f_equal. unfold numbered. clear. generalize 0 as s. induction f as [|x f IH]; intros s; [reflexivity|]. cbn. now rewrite IH.
  - unfold pairs. assert (G : forall l, (forall c, In c l -> fst c < length f) -> length (flat_map (fun c1 => flat_map (fun c2 => if fst c1 =? fst c2 then [] else [P (snd c1) (snd c2)]) (numbered f)) l) = length l * (length f - 1)).
    { induction l as [|c l IH]; intros N; [reflexivity|]. cbn [flat_map length]. rewrite app_length, IH by (intros; apply N; now right). unfold numbered. rewrite (others_length (fun c2 => P (snd c) (snd c2)) f 0 (fst c)) by (specialize (N c (or_introl eq_refl)); lia). lia. }
    rewrite G; [|intros [i c] I; apply in_numbered in I; cbn; apply nth_error_Some; congruence]. unfold numbered. rewrite combine_length, seq_length, Nat.min_id. reflexivity.
  - intros p. unfold pairs. rewrite in_flat_map. split.
    + intros ([i c1] & I & H). apply in_flat_map in H. destruct H as ([j c2] & J & H). cbn [fst snd] in H. destruct (Nat.eqb_spec i j) as [|N]; [contradiction|]. destruct H as [<-|[]]. apply in_numbered in I. apply in_numbered in J. destruct (field_bad r ws c1 (nth_error_In _ _ I)) as (b1 & B1 & L1), (field_bad r ws c2 (nth_error_In _ _ J)) as (b2 & B2 & L2).
      exists i, j, c1, c2, b1, b2, (tally_ (map2 andb b1 b2)), (tally_ (map2 orb b1 b2)). unfold P, cutby. rewrite B1, B2. repeat (split; [assumption || reflexivity|]). rewrite <- L1. split.
      * pose proof (tally_nth (map2 andb b1 b2)) as T. rewrite map2_len in T by congruence. eapply tally_ext; [|exact T]. intros k _. cbn. rewrite nth_map2 by congruence. destruct (nth_error b1 k) as [[]|], (nth_error b2 k) as [[]|]; cbn; split; intros H; try discriminate; try (destruct H; discriminate); try (split; reflexivity); reflexivity.
      * pose proof (tally_nth (map2 orb b1 b2)) as T. rewrite map2_len in T by congruence. eapply tally_ext; [|exact T]. intros k Ik. apply in_seq in Ik. cbn. rewrite nth_map2 by congruence. assert (X1 : nth_error b1 k <> None) by (apply nth_error_Some; lia). assert (X2 : nth_error b2 k <> None) by (apply nth_error_Some; lia). destruct (nth_error b1 k) as [[]|], (nth_error b2 k) as [[]|]; try contradiction; cbn; split; intros H; try discriminate; try (destruct H; discriminate); try (left; reflexivity); try (right; reflexivity); reflexivity.
    + intros (i & j & c1 & c2 & b1 & b2 & n & m & N & I & J & B1 & B2 & -> & T1 & T2). exists (i, c1). split; [now apply in_numbered|]. apply in_flat_map. exists (j, c2). split; [now apply in_numbered|]. cbn [fst snd]. destruct (Nat.eqb_spec i j); [contradiction|]. left. unfold P, cutby. rewrite B1, B2.
      destruct (field_bad r ws c1 (nth_error_In _ _ I)) as (b1' & B1' & L1), (field_bad r ws c2 (nth_error_In _ _ J)) as (b2' & B2' & L2). rewrite B1 in B1'. rewrite B2 in B2'. injection B1' as <-. injection B2' as <-. f_equal.
      * eapply tally_unique; [|exact T1]. pose proof (tally_nth (map2 andb b1 b2)) as T. rewrite map2_len in T by congruence. rewrite L1 in T. eapply tally_ext; [|exact T]. intros k _. cbn. rewrite nth_map2 by congruence. destruct (nth_error b1 k) as [[]|], (nth_error b2 k) as [[]|]; cbn; split; intros H; try discriminate; try (destruct H; discriminate); try (split; reflexivity); reflexivity.
      * eapply tally_unique; [|exact T2]. pose proof (tally_nth (map2 orb b1 b2)) as T. rewrite map2_len in T by congruence. rewrite L1 in T. eapply tally_ext; [|exact T]. intros k Ik. apply in_seq in Ik. cbn. rewrite nth_map2 by congruence. assert (X1 : nth_error b1 k <> None) by (apply nth_error_Some; lia). assert (X2 : nth_error b2 k <> None) by (apply nth_error_Some; lia). destruct (nth_error b1 k) as [[]|], (nth_error b2 k) as [[]|]; try contradiction; cbn; split; intros H; try discriminate; try (destruct H; discriminate); try (left; reflexivity); try (right; reflexivity); reflexivity.
Qed.
(** "The number of pulses cut by each cut is printed": no number of that part depends on the pulses. *)
Theorem summary_counts_refuted : exists r ws ws' a b, cut_summary r ws = Some a /\ cut_summary r ws' = Some b /\ boolean_fields r = ["x"%string] /\ bad r ["x"%string] [] ws <> bad r ["x"%string] [] ws' /\ a = b.
Proof. exists (mkReg [("x"%string, 1%N)] [] [] 1%N), [0%N], [1%N]. do 2 eexists. split; [vm_compute; reflexivity|]. split; [vm_compute; reflexivity|]. split; [reflexivity|]. split; [discriminate|reflexivity]. Qed.
Example ex_summary : cut_summary (mkReg [("x"%string, 1%N); ("y"%string, 2%N)] [] [] 3%N) [1%N; 3%N; 0%N; 2%N; 2%N] = Some [Pair 1 4 "x" "y"; Pair 1 4 "y" "x"; Empty; Braces; Braces; Total 5].
Proof. reflexivity. Qed.

(** * smart_cuts *)
(** If no pulse is cut by smart_cuts yet, or by force: the pulses whose distance, by the fit to the first ones, exceeds the threshold are cut in
    addition; nothing else changes.  Otherwise nothing happens. *)
Theorem smart_cuts_done ops fit threshold n force rows ws dist marked : let r := run ops init_registry in In "smart_cuts"%string (map fst (bdesc r)) -> length rows = length ws ->
  bad_for r "smart_cuts" ws = Some marked -> (force = true \/ ~ In true marked) -> fit (firstn n rows) = Some dist ->
  exists ws' far, smart_cuts r fit threshold n force rows ws = Some ws' /\ length far = length rows /\
  (forall k x, nth_error rows k = Some x -> nth_error far k = Some true <-> (threshold * threshold < dist x)%Qc) /\
  bad_for r "smart_cuts" ws' = Some (map2 orb far marked) /\
  (forall g, g <> "smart_cuts"%string -> bad_for r g ws' = bad_for r g ws) /\ (forall h, category_codes r h ws' = category_codes r h ws).
Proof.
  intros r I L M F D. unfold smart_cuts. assert (G : exists g, good r ["smart_cuts"%string] [] ws = Some g /\ g = map negb marked).
  { unfold bad_for, bad in M. unfold good. destruct (bool_bit_mask r ["smart_cuts"%string]) as [bm|]; [|discriminate]. injection M as <-. eexists. split; [reflexivity|]. rewrite map_map. apply map_ext. intros w. now rewrite negb_involutive. }
  destruct G as (g & -> & ->). assert (T : forallb (fun b => b) (map negb marked) || force = true).
  { destruct F as [-> |F]; [apply orb_true_r|]. apply orb_true_iff. left. apply forallb_forall. intros x J. apply in_map_iff in J. destruct J as ([] & <- & J); [contradiction|reflexivity]. }
  rewrite T, D. set (far := map (fun x => if Qclt_le_dec (threshold * threshold)%Qc (dist x) then true else false) rows). destruct (CutProps.boolean_cut_succeeds r "smart_cuts"%string far ws I ltac:(unfold far; rewrite map_length; exact L)) as [ws' C]. exists ws', far. split; [exact C|]. split; [apply map_length|]. split.
  { intros k x K. unfold far. rewrite nth_error_map, K. cbn. destruct (Qclt_le_dec (threshold * threshold)%Qc (dist x)) as [Q|Q]; split; try tauto; try discriminate. intros Q'. exfalso. exact (Qcle_not_lt _ _ Q Q'). }
  destruct (CutProps.boolean_cut_frame ops "smart_cuts"%string far ws ws' ltac:(discriminate) I C) as (_ & (b & b' & B1 & B2 & _ & ->) & O & K & _). fold r in B1, B2, O, K. rewrite M in B1. injection B1 as <-. split; [exact B2|]. split; [exact O|exact K].
Qed.
Theorem smart_cuts_skipped r fit threshold n rows ws marked : bad_for r "smart_cuts" ws = Some marked -> In true marked -> smart_cuts r fit threshold n false rows ws = Some ws.
Proof.
  intros M I. unfold smart_cuts. unfold bad_for, bad in M. unfold good. destruct (bool_bit_mask r ["smart_cuts"%string]) as [bm|]; [|discriminate]. injection M as <-. set (g := map (fun w => N.eqb (N.land w bm) 0) ws). assert (F : forallb (fun b => b) g = false).
  { apply not_true_is_false. intros T. rewrite forallb_forall in T. apply in_map_iff in I. destruct I as (w & E & I). assert (X : N.eqb (N.land w bm) 0 = true) by (apply T; apply in_map_iff; now exists w). rewrite X in E. discriminate. }
  now rewrite F.
Qed.
(** "With forceNew the cuts are those of the new threshold": the old ones stay. *)
Theorem smart_cuts_force_refuted : exists fit rows ws1 ws2, smart_cuts init_registry fit 1 9 false rows [0%N] = Some ws1 /\ smart_cuts init_registry fit (Q2Qc 100) 9 true rows ws1 = Some ws2 /\ bad_for init_registry "smart_cuts" ws2 = Some [true] /\
  (exists ws3, smart_cuts init_registry fit (Q2Qc 100) 9 true rows [0%N] = Some ws3 /\ bad_for init_registry "smart_cuts" ws3 = Some [false]).
Proof.
  exists (fun _ => Some (fun x => nth 0 x 0%Qc)), [[Q2Qc 5]]. eexists. eexists. split; [vm_compute; reflexivity|]. split; [vm_compute; reflexivity|]. split; [vm_compute; reflexivity|]. eexists. split; vm_compute; reflexivity.
Qed.
Example ex_smart : In "smart_cuts"%string (map fst (bdesc init_registry)) /\ bad_for init_registry "smart_cuts" [0%N; 0%N] = Some [false; false].
Proof. split; vm_compute; [tauto|reflexivity]. Qed.

(** * compute_noise *)
Theorem noise_skipped s a ac psd : (exists x, In x ac /\ x <> 0%Qc) -> compute_noise false s a ac psd = ((ac, psd), true).
Proof.
  intros (x & I & N). unfold compute_noise. assert (F : forallb (fun x => if Qc_eq_dec x 0 then true else false) ac = false).
  { apply not_true_is_false. intros T. rewrite forallb_forall in T. specialize (T x I). cbn in T. destruct (Qc_eq_dec x 0); congruence. }
  now rewrite F.
Qed.
(** Otherwise the first entries of what the noise records give are stored. *)
Theorem noise_stored force s a ac psd : force = true \/ (forall x, In x ac -> x = 0%Qc) -> length ac <= length a -> length psd <= length s -> length ac <> 1 -> length psd <> 1 ->
  compute_noise force (Some s) (Some a) ac psd = ((firstn (length ac) a, firstn (length psd) s), true).
Proof.
  intros F LA LS N1 N2. unfold compute_noise. assert (T : force || forallb (fun x => if Qc_eq_dec x 0 then true else false) ac = true).
  { destruct F as [-> |F]; [reflexivity|]. apply orb_true_iff. right. apply forallb_forall. intros x I. rewrite (F x I). reflexivity. }
  rewrite T. assert (ST : forall l m, m <= length l -> m <> 1 -> NoiModel.store m (Some (firstn m l)) = Some (firstn m l)).
  { intros l m LM NM. unfold NoiModel.store. assert (LF : length (firstn m l) = m) by (rewrite firstn_length; lia). destruct (firstn m l) as [|x [|y t]] eqn:E; cbn in LF; try lia; rewrite <- LF; cbn; [reflexivity|]. now rewrite Nat.eqb_refl. }
  rewrite (ST a (length ac) LA N1). now rewrite (ST s (length psd) LS N2).
Qed.
(** Noise records shorter than the pulse records raise, and nothing is stored (unless they have one sample). *)
Theorem noise_short force s a ac psd : force = true \/ (forall x, In x ac -> x = 0%Qc) -> length a < length ac -> length a <> 1 -> compute_noise force (Some s) (Some a) ac psd = ((ac, psd), false).
Proof.
  intros F L N. unfold compute_noise. assert (T : force || forallb (fun x => if Qc_eq_dec x 0 then true else false) ac = true).
  { destruct F as [-> |F]; [reflexivity|]. apply orb_true_iff. right. apply forallb_forall. intros x I. rewrite (F x I). reflexivity. }
  rewrite T. rewrite firstn_all2 by lia. unfold NoiModel.store. assert (E : (length a =? length ac) = false) by (apply Nat.eqb_neq; lia). destruct a as [|x [|y t]]; [rewrite E; reflexivity| |rewrite E; reflexivity]. elim N; reflexivity.
Qed.
Example ex_noise : compute_noise false (Some [1; 1; 1]%Qc) (Some [1; 0; 0]%Qc) [0; 0]%Qc [0; 0]%Qc = (([1; 0]%Qc, [1; 1]%Qc), true).
Proof. reflexivity. Qed.

(** * Peak *)
(** The sample number of the peak is the most common place of the (first) largest sample between the cut ends; the smallest of several. *)
Theorem peak_common cut_pre cut_post nSamples data p : peak_samplenumber cut_pre cut_post nSamples data = Some p ->
  exists places, Forall2 (fun row k => exists j, k = j + cut_pre /\ first_largest (firstn (nSamples - cut_post - cut_pre) (skipn cut_pre row)) j) data places /\ most_common places p.
Proof.
  unfold peak_samplenumber. set (g := fun row => option_map (fun k => k + cut_pre) (argmax (firstn (nSamples - cut_post - cut_pre) (skipn cut_pre row)))). pose proof (all_ok_spec (map g data)) as A. destruct (all_ok (map g data)) as [idx|]; [|discriminate]. intros M. exists idx. split; [|now apply mode_common].
  clear M. revert idx A. induction data as [|row data IH]; intros [|k idx] A; try discriminate; constructor; cbn in A; injection A as A1 A2; [|now apply IH].
  unfold g in A1. destruct (argmax _) as [j|] eqn:E; [|discriminate]. injection A1 as <-. exists j. split; [reflexivity|]. now apply argmax_first.
Qed.
(** There is one if there are pulses and samples between the ends; otherwise it raises. *)
Theorem peak_exists cut_pre cut_post nSamples data : Forall (fun row => length row = nSamples) data -> peak_samplenumber cut_pre cut_post nSamples data <> None <-> data <> [] /\ cut_pre + cut_post < nSamples.
Proof.
  intros L. unfold peak_samplenumber. set (g := fun row => option_map (fun k => k + cut_pre) (argmax (firstn (nSamples - cut_post - cut_pre) (skipn cut_pre row)))). pose proof (all_ok_spec (map g data)) as A.
  assert (GN : forall row, length row = nSamples -> g row = None <-> nSamples <= cut_pre + cut_post).
  { intros row LR. unfold g. assert (LL : length (firstn (nSamples - cut_post - cut_pre) (skipn cut_pre row)) = nSamples - cut_post - cut_pre) by (rewrite firstn_length, skipn_length; lia). destruct (firstn _ _) as [|x l]; cbn in *; split; intros H; try reflexivity; try discriminate; lia. }
  destruct (all_ok (map g data)) as [idx|].
  - split.
    + intros M. destruct data as [|row data]; [destruct idx; [elim M; reflexivity|discriminate]|]. split; [discriminate|]. inversion L; subst. destruct idx as [|k idx]; [discriminate|]. cbn in A. injection A as A1 A2. destruct (Nat.lt_ge_cases (cut_pre + cut_post) (length row)); [assumption|]. rewrite (proj2 (GN row eq_refl)) in A1 by assumption. discriminate.
    + intros [N _]. apply mode_some. intros ->. destruct data; [contradiction|discriminate].
  - split; [intros M; elim M; reflexivity|]. intros [N S]. exfalso. apply in_map_iff in A. destruct A as (row & E & I). rewrite Forall_forall in L. apply GN in E; [|now apply L]. lia.
Qed.
Example ex_peak : peak_samplenumber 1 1 5 [[9; 1; 3; 3; 9]; [9; 5; 3; 3; 9]; [0; 1; 4; 2; 7]]%Z = Some 2.
Proof. reflexivity. Qed.

Print Assumptions rate_by_width.
Print Assumptions rate_last_lost.
Print Assumptions rate_raises.
Print Assumptions rate_by_edges.
Print Assumptions rate_widths_refuted.
Print Assumptions summary_printed.
Print Assumptions summary_counts_refuted.
Print Assumptions smart_cuts_done.
Print Assumptions smart_cuts_skipped.
Print Assumptions smart_cuts_force_refuted.
Print Assumptions noise_skipped.
Print Assumptions noise_stored.
Print Assumptions noise_short.
Print Assumptions peak_common.
Print Assumptions peak_exists.
