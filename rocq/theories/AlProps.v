(** Property C113: automatic calibration. *)
From Coq Require Import ZArith QArith Qround Qcanon Bool Lia Lqa List Permutation.
From Verif Require Import QcPre QSort LagModel Kept HistSpec HistProofs NameModel FitModel FitSpec FitProofs FitProps AsgModel AsgSpec AsgProps AlModel AlSpec AlProofs.
Import ListNotations.
Local Open Scope Qc_scope.

Lemma half_nonneg w : 0 <= w -> 0 <= w / (1 + 1).
Proof. intros H. unfold Qcle in *. rewrite this_div, this_add. change (this 0) with 0%Q in *. change (this 1) with 1%Q. apply Qle_shift_div_l; lra. Qed.

Section Autocal.
Context {A F C : Type}.
Variable energy : A -> Qc.
Variable fit : A -> list nat -> list Qc -> Qc -> option F.
Variables peak_ph fwhm : F -> Qc.
Variable add : C -> Qc -> Qc -> A -> C * bool.
Variable approx : list (Qc * Qc) -> option ((Qc -> Qc) * (Qc -> Qc)).

(** * One line *)
(** What is fitted: the histogram of the pulse heights in bins from [lo], as many as end before [hi]. *)
Theorem single_fitted ph line lo hi b slope : 0 < b -> b < hi - lo -> hi - lo <= qz 5000 * b ->
  exists n counts middles, (1 <= n)%nat /\ fits_before lo hi b n /\ binned ph lo b n counts middles /\ singlefit fit ph line lo hi b slope = fit line counts middles slope.
Proof.
  intros B L U. unfold singlefit. destruct (Qc_eq_dec b 0) as [->|NZ]; [qlra|]. assert (E : ((hi - lo) / b) * b = hi - lo) by (field; exact NZ).
  assert (T : qltb (qz 5000) ((hi - lo) / b) = false).
  { apply qltb_ge. destruct (Qclt_le_dec (qz 5000) ((hi - lo) / b)) as [X|X]; [|exact X]. exfalso. apply (Qcmult_lt_compat_r _ _ b B) in X. rewrite E in X. exact (Qclt_not_le _ _ X U). }
  rewrite T. destruct (Z.to_nat (Qceiling (this ((hi - lo) / b)))) as [|n] eqn:N.
  - exfalso. assert (X : (1 < this ((hi - lo) / b))%Q).
    { destruct (Qclt_le_dec 1 ((hi - lo) / b)) as [X|X]; [exact X|]. exfalso. apply (Qcmult_le_compat_r _ _ b) in X; [|now apply Qclt_le_weak]. rewrite E in X. qlra. }
    pose proof (Qle_ceiling (this ((hi - lo) / b))) as Q. assert (Y : (1 < inject_Z (Qceiling (this ((hi - lo) / b))))%Q) by (eapply Qlt_le_trans; eassumption). change 1%Q with (inject_Z 1) in Y. rewrite <- Zlt_Qlt in Y. lia.
  - pose proof (ceiling_before lo hi b n B N) as FB. destruct n as [|n].
    { exfalso. destruct FB as [_ X]. change (qz (Z.of_nat (0 + 1))) with 1 in X. qlra. }
    assert (D : edge_at lo b 1 - edge_at lo b 0 = b) by (unfold edge_at; change (qz (Z.of_nat 1)) with 1; change (qz (Z.of_nat 0)) with 0; ring).
    assert (I : qltb (edge_at lo b 1) (edge_at lo b 0) = false) by (apply qltb_ge; qlra). rewrite I. eexists (S n), _, _. split; [lia|]. split; [exact FB|]. split; [|reflexivity]. split; [now rewrite map_length, seq_length|]. split; [now rewrite map_length, seq_length|]. intros i Li. split.
    + rewrite nth_error_map, (nth_error_nth' _ 0%nat) by (rewrite seq_length; exact Li). rewrite seq_nth by exact Li. cbn [option_map Nat.add]. rewrite D. reflexivity.
    + exists (count_in ph lo b (S n) i). split; [rewrite nth_error_map, (nth_error_nth' _ 0%nat) by (rewrite seq_length; exact Li); rewrite seq_nth by exact Li; reflexivity|]. now apply count_spec.
Qed.
(** Otherwise it raises: bins not positive, not two edges, or more than 5000 bins. *)
Theorem single_raises ph line lo hi b slope : b <= 0 \/ hi - lo <= b \/ qz 5000 * b < hi - lo -> singlefit fit ph line lo hi b slope = None.
Proof.
  intros H. unfold singlefit. destruct (Qc_eq_dec b 0) as [->|NZ]; [reflexivity|]. assert (E : ((hi - lo) / b) * b = hi - lo) by (field; exact NZ). destruct (qltb (qz 5000) ((hi - lo) / b)) eqn:T; [reflexivity|]. apply qltb_ge in T.
  destruct (Qclt_le_dec b 0) as [NB|PB].
  - destruct (Z.to_nat _) as [|[|n]]; [reflexivity|reflexivity|]. assert (I : qltb (edge_at lo b 1) (edge_at lo b 0) = true).
    { apply qltb_lt. unfold edge_at. change (qz (Z.of_nat 1)) with 1. change (qz (Z.of_nat 0)) with 0. qlra. }
    now rewrite I.
  - assert (B : 0 < b) by (destruct (Qcle_lt_or_eq _ _ PB) as [X|X]; [exact X|congruence]). destruct H as [H|[H|H]]; [exfalso; exact (Qclt_not_le _ _ B H)| |].
    + assert (X : (this ((hi - lo) / b) <= 1)%Q).
      { destruct (Qclt_le_dec 1 ((hi - lo) / b)) as [X|X]; [|exact X]. exfalso. apply (Qcmult_lt_compat_r _ _ b B) in X. rewrite E in X. qlra. }
      assert (Y : (Qceiling (this ((hi - lo) / b)) <= 1)%Z) by (change 1%Z with (Qceiling 1); now apply Qceiling_resp_le). destruct (Z.to_nat _) as [|[|n]] eqn:N; [reflexivity|reflexivity|lia].
    + exfalso. apply (Qcmult_le_compat_r _ _ b) in T; [|exact PB]. rewrite E in T. exact (Qclt_not_le _ _ H T).
Qed.

(** * All lines *)
(** the bin width of line [i], in the order of energies *)
Definition width_of (bs : binsize) (i : nat) (b : Qc) : Prop := match bs with Same c => b = c | Each l => nth_error l i = Some b end.
(** Line number [i] is fitted in the energies nearest to it, within half the width, converted to pulse heights. *)
Definition line_fitted (e2ph e2dedph : Qc -> Qc) (ph : list Qc) (width : Qc) (bs : binsize) (names : list A) (i : nat) (n : A) (f : F) : Prop :=
  exists lo hi b, (forall x, lo <= x <= hi <-> nearby (map energy names) (width / qz 2) (energy n) x) /\ width_of bs i b /\ e2dedph (energy n) <> 0 /\
    singlefit fit ph n (e2ph lo) (e2ph hi) (b * (1 / e2dedph (energy n))) (1 / e2dedph (energy n)) = Some f.

Lemma ranges_of e2dedph e2ph (e : list Qc) width es ranges slopes : build_fit_ranges_ph (fun x => x) e2dedph e2ph e [] width = Some (es, ranges, slopes) -> qsorted e ->
  NoDup e /\ slopes = map e2dedph e /\ length ranges = length e /\
  exists r, ranges = map (fun r => (e2ph (fst r), e2ph (snd r))) r /\ length r = length e /\ forall i, (i < length e)%nat -> forall x, fst (nth i r (0, 0)) <= x <= snd (nth i r (0, 0)) <-> nearby e (width / qz 2) (nth i e 0) x.
Proof.
  unfold build_fit_ranges_ph. destruct (build_fit_ranges (fun x => x) e2dedph e [] width) as [[[es' r] sl]|] eqn:B; [|discriminate]. intros H S. injection H as <- <- <-.
  assert (D : build_fit_ranges (fun x => x) e2dedph e [] width <> None) by (rewrite B; discriminate). apply fit_ranges_succeed in D. rewrite app_nil_r, map_id in D. destruct (fit_ranges_exact _ _ _ _ _ _ _ _ B) as (E & SL & L & N). rewrite map_id in E. assert (ES : es' = e).
  { rewrite E. clear - S. induction e as [|x e IH]; [reflexivity|]. destruct S as [H S]. cbn [qsort]. rewrite IH by exact S. destruct e as [|y e]; [reflexivity|]. cbn [qinsert]. assert (Q : qleb x y = true) by (apply qleb_le, H; now left). now rewrite Q. }
  rewrite app_nil_r, map_id in N. rewrite ES in *. split; [exact D|]. split; [exact SL|]. split; [now rewrite map_length|]. exists r. split; [reflexivity|]. split; [exact L|exact N].
Qed.
(** the lines [l] are fitted one after the other, with [fs] *)
Lemma fits_of (P : nat -> A -> option F) names : forall fs, all_fine (map (fun p => P (fst p) (snd p)) (combine (seq 0 (length names)) names)) = Some fs -> length fs = length names /\ forall i n, nth_error names i = Some n -> exists f, nth_error fs i = Some f /\ P i n = Some f.
Proof.
  intros fs H. pose proof (all_fine_spec (map (fun p => P (fst p) (snd p)) (combine (seq 0 (length names)) names))) as S. rewrite H in S. split.
  - apply (f_equal (@length _)) in S. rewrite !map_length, combine_length, seq_length, Nat.min_id in S. now symmetry.
  - intros i n N. apply (f_equal (fun l => nth_error l i)) in S. rewrite !nth_error_map in S. assert (E : nth_error (combine (seq 0 (length names)) names) i = Some (i, n)).
    { assert (Li : (i < length names)%nat) by (apply nth_error_Some; congruence). assert (CN : forall (a : list nat) (b : list A) j, nth_error (combine a b) j = match nth_error a j, nth_error b j with Some x, Some y => Some (x, y) | _, _ => None end).
      { induction a as [|x a IH]; intros [|y b] [|j]; cbn; try reflexivity; [destruct (nth_error a j); reflexivity|apply IH]. }
      rewrite CN, N, (nth_error_nth' _ 0%nat) by (rewrite seq_length; exact Li). now rewrite seq_nth. }
    rewrite E in S. cbn in S. destruct (nth_error fs i) as [f|] eqn:Ef; [|discriminate]. injection S as S. exists f. now split.
Qed.
Lemma add_given c l c' : add_points add c l = (c', true) <-> given add c l c'.
Proof.
  revert c. induction l as [|[[p e] n] l IH]; intros c; cbn; [split; [intros H; injection H as <-; constructor|intros H; inversion H; reflexivity]|]. split.
  - destruct (add c p e n) as [c1 []] eqn:E; [|discriminate]. intros H. econstructor; [exact E|]. now apply IH.
  - intros H. inversion H; subst. rewrite H6. now apply IH.
Qed.
Lemma add_stopped c l c' : add_points add c l = (c', false) -> exists k c1 p e n, nth_error l k = Some (p, e, n) /\ given add c (firstn k l) c1 /\ add c1 p e n = (c', false).
Proof.
  revert c. induction l as [|[[p e] n] l IH]; intros c; cbn; [discriminate|]. destruct (add c p e n) as [c1 []] eqn:E; intros H.
  - destruct (IH c1 H) as (k & c2 & q & e' & n' & N & G & Z). exists (S k), c2, q, e', n'. split; [exact N|]. split; [|exact Z]. econstructor; eassumption.
  - injection H as <-. exists 0%nat, c, p, e, n. split; [reflexivity|]. split; [constructor|exact E].
Qed.
Definition points (names : list A) (fs : list F) : list (Qc * Qc * A) := combine (combine (map peak_ph fs) (map energy names)) names.

(** Success: the lines by energy, all different, each fitted in its own range; the calibration gets the fitted pulse height, energy and name of each, in
    this order. *)
Theorem autocal_done peaks ph width bs nextra ninc nmax maxacc fuel s s' : run_autocal energy fit peak_ph fwhm add approx peaks ph width bs nextra ninc nmax maxacc fuel s = (s', true) ->
  exists pk a e2ph e2dedph fs, let names := line_names s' in
    peaks = Some pk /\ find_opt_assignment energy pk (line_names s) nextra ninc nmax maxacc fuel = (names, map energy names, Found a) /\ approx (combine a (map energy names)) = Some (e2ph, e2dedph) /\
    Permutation (line_names s) names /\ qsorted (map energy names) /\ NoDup (map energy names) /\ energies_opt s' = map energy names /\ ph_opt s' = a /\
    length fs = length names /\ results s' = Some (map Fitted fs) /\ resolutions s' = map fwhm fs /\
    (forall i n, nth_error names i = Some n -> exists f, nth_error fs i = Some f /\ line_fitted e2ph e2dedph ph width bs names i n f) /\
    given add (calibration s) (points names fs) (calibration s').
Proof.
  unfold run_autocal. destruct (guess_fit_params _ _ _ _ _ _ _ _ _ _ s) as [s1 []] eqn:G; [|discriminate]. intros FL. unfold guess_fit_params in G. destruct peaks as [pk|]; [|discriminate]. destruct (find_opt_assignment energy pk (line_names s) nextra ninc nmax maxacc fuel) as [[names e] o] eqn:FA. destruct o as [a| |]; try discriminate.
  destruct (assignment_lines energy pk (line_names s) nextra ninc nmax maxacc fuel names e (Found a) FA) as (P & -> & S). destruct (approx (combine a (map energy names))) as [[e2ph e2dedph]|] eqn:AP; [|discriminate]. destruct (build_fit_ranges_ph (fun x => x) e2dedph e2ph (map energy names) [] width) as [[[es ranges] slopes]|] eqn:R; [|discriminate]. injection G as <-.
  destruct (ranges_of _ _ _ _ _ _ _ R S) as (ND & SL & LR & r & RR & Lr & NR). unfold fit_lines in FL. cbn [line_names fit_lo_hi binsize_ev slopes_de_dph calibration results resolutions energies_opt ph_opt] in FL. destruct (multifit energy fit ph names ranges _ slopes) as [[[names' es'] fs]|] eqn:M; [|discriminate]. unfold multifit in M. rewrite (again energy names S) in M.
  match type of M with option_map _ (all_fine ?l) = _ => destruct (all_fine l) as [fs'|] eqn:AF; [|discriminate] end. injection M as <- <- <-. destruct (add_points add (calibration s) _) as [c []] eqn:AD; [|discriminate]. injection FL as <-. cbn [line_names energies_opt ph_opt results resolutions calibration].
  apply add_given in AD. rewrite map_length in *.
  set (Pi := fun i n => match nth_error ranges i, nth_error slopes i, nth_error (match bs with Same b => repeat b (length names) | Each l => l end) i with Some (lo, hi), Some s, Some b => if Qc_eq_dec s 0 then None else singlefit fit ph n lo hi (b * (1 / s)) (1 / s) | _, _, _ => None end).
  destruct (fits_of Pi names fs' AF) as [LF NF]. exists pk, a, e2ph, e2dedph, fs'. split; [reflexivity|]. split; [exact FA|]. split; [exact AP|]. split; [exact P|]. split; [exact S|]. split; [exact ND|]. split; [reflexivity|]. split; [reflexivity|]. split; [exact LF|]. split; [reflexivity|]. split; [reflexivity|]. split; [|exact AD].
  intros i n N. destruct (NF i n N) as (f & Ef & Q). exists f. split; [exact Ef|]. assert (Li : (i < length names)%nat) by (apply nth_error_Some; congruence). unfold Pi in Q. rewrite RR, SL in Q. rewrite !nth_error_map, N in Q. cbn [option_map] in Q. rewrite (nth_error_nth' r (0, 0)) in Q by (rewrite Lr; exact Li). cbn [option_map fst snd] in Q.
  destruct (nth_error (match bs with Same b => repeat b (length names) | Each l => l end) i) as [b|] eqn:EB; [|discriminate]. destruct (Qc_eq_dec (e2dedph (energy n)) 0) as [|NZ]; [discriminate|]. exists (fst (nth i r (0, 0))), (snd (nth i r (0, 0))), b. split; [|split; [|split; [exact NZ|exact Q]]].
  - intros x. rewrite (NR i Li). assert (EE : nth i (map energy names) 0 = energy n) by (apply nth_error_nth; rewrite nth_error_map, N; reflexivity). rewrite EE. reflexivity.
  - destruct bs as [c0|l]; cbn; [|exact EB]. apply nth_error_In, repeat_spec in EB. exact EB.
Qed.
(** Failure: no peaks, no assignment, no approximate calibration, two lines at one energy, or a line that cannot be fitted; the calibration is untouched.  Or
    a point is refused: the earlier ones stay. *)
Theorem autocal_raises peaks ph width bs nextra ninc nmax maxacc fuel s s' : 0 <= width -> run_autocal energy fit peak_ph fwhm add approx peaks ph width bs nextra ninc nmax maxacc fuel s = (s', false) ->
  results s' = results s /\
  ((calibration s' = calibration s /\
    (peaks = None \/ exists pk names e o, peaks = Some pk /\ find_opt_assignment energy pk (line_names s) nextra ninc nmax maxacc fuel = (names, e, o) /\
     ((forall a, o <> Found a) \/ exists a, o = Found a /\
       (approx (combine a e) = None \/ ~ NoDup (map energy (line_names s)) \/ exists e2ph e2dedph i n, approx (combine a e) = Some (e2ph, e2dedph) /\ nth_error names i = Some n /\ forall f, ~ line_fitted e2ph e2dedph ph width bs names i n f)))) \/
   exists fs k c p e n, length fs = length (line_names s') /\ nth_error (points (line_names s') fs) k = Some (p, e, n) /\ given add (calibration s) (firstn k (points (line_names s') fs)) c /\ add c p e n = (calibration s', false)).
Proof.
  intros W0. unfold run_autocal. destruct (guess_fit_params _ _ _ _ _ _ _ _ _ _ s) as [s1 g] eqn:G. unfold guess_fit_params in G. destruct peaks as [pk|]; [|injection G as <- <-; intros H; injection H as <-; split; [reflexivity|]; left; split; [reflexivity|now left]].
  destruct (find_opt_assignment energy pk (line_names s) nextra ninc nmax maxacc fuel) as [[names e] o] eqn:FA. destruct o as [a| |];
    [|injection G as <- <-; intros H; injection H as <-; (split; [reflexivity|]); left; (split; [reflexivity|]); right; exists pk, names, e, Raises; (split; [reflexivity|]); (split; [exact FA|]); left; intros ? X; discriminate
     |injection G as <- <-; intros H; injection H as <-; (split; [reflexivity|]); left; (split; [reflexivity|]); right; exists pk, names, e, Unfinished; (split; [reflexivity|]); (split; [exact FA|]); left; intros ? X; discriminate].
  destruct (assignment_lines energy pk (line_names s) nextra ninc nmax maxacc fuel names e (Found a) FA) as (P & -> & S).
  destruct (approx (combine a (map energy names))) as [[e2ph e2dedph]|] eqn:AP.
  2:{ injection G as <- <-. intros H. injection H as <-. split; [reflexivity|]. left. split; [reflexivity|]. right. exists pk, names, (map energy names), (Found a). split; [reflexivity|]. split; [exact FA|]. right. exists a. split; [reflexivity|]. left. exact AP. }
  destruct (build_fit_ranges_ph (fun x => x) e2dedph e2ph (map energy names) [] width) as [[[es ranges] slopes]|] eqn:R.
  2:{ injection G as <- <-. intros H. injection H as <-. split; [reflexivity|]. left. split; [reflexivity|]. right. exists pk, names, (map energy names), (Found a). split; [reflexivity|]. split; [exact FA|]. right. exists a. split; [reflexivity|]. right. left. intros D.
      unfold build_fit_ranges_ph in R. destruct (build_fit_ranges (fun x => x) e2dedph (map energy names) [] width) as [[[? ?] ?]|] eqn:B; [discriminate|]. apply (proj2 (fit_ranges_succeed (fun x => x) e2dedph (map energy names) [] width)); [|exact B]. rewrite app_nil_r, map_id. eapply Permutation_NoDup; [apply Permutation_map; exact P|exact D]. }
  injection G as <- <-. destruct (ranges_of _ _ _ _ _ _ _ R S) as (ND & SL & LR & r & RR & Lr & NR). unfold fit_lines. cbn [line_names fit_lo_hi binsize_ev slopes_de_dph calibration results resolutions energies_opt ph_opt]. unfold multifit. rewrite (again energy names S). rewrite map_length in *.
  set (Pi := fun i n => match nth_error ranges i, nth_error slopes i, nth_error (match bs with Same b => repeat b (length names) | Each l => l end) i with Some (lo, hi), Some s, Some b => if Qc_eq_dec s 0 then None else singlefit fit ph n lo hi (b * (1 / s)) (1 / s) | _, _, _ => None end).
  change (map _ (combine (seq 0 (length names)) names)) with (map (fun p => Pi (fst p) (snd p)) (combine (seq 0 (length names)) names)).
  destruct (all_fine (map (fun p => Pi (fst p) (snd p)) (combine (seq 0 (length names)) names))) as [fs|] eqn:AF; cbn [option_map].
  - fold (points names fs). destruct (add_points add (calibration s) (points names fs)) as [c []] eqn:AD; [discriminate|]. intros H. injection H as <-. cbn [results calibration line_names]. split; [reflexivity|]. right. destruct (add_stopped _ _ _ AD) as (k & c1 & p & e & n & N & GV & Z). exists fs, k, c1, p, e, n. split; [exact (proj1 (fits_of Pi names fs AF))|]. split; [exact N|]. split; [exact GV|exact Z].
  - intros H. injection H as <-. cbn [results calibration]. split; [reflexivity|]. left. split; [reflexivity|]. right. exists pk, names, (map energy names), (Found a). split; [reflexivity|]. split; [exact FA|]. right. exists a. split; [reflexivity|]. right. right. pose proof (all_fine_spec (map (fun p => Pi (fst p) (snd p)) (combine (seq 0 (length names)) names))) as SP. rewrite AF in SP. apply in_map_iff in SP. destruct SP as ([i n] & Q & I). cbn [fst snd] in Q.
    assert (N : nth_error names i = Some n).
    { clear - I. assert (X : forall s, In (i, n) (combine (seq s (length names)) names) -> (s <= i)%nat /\ nth_error names (i - s) = Some n).
      { clear. induction names as [|x names IH]; intros s; cbn [length seq combine In]; [tauto|]. intros [E|I]; [injection E as -> ->; rewrite Nat.sub_diag; now split|]. destruct (IH (S s) I) as [L N]. split; [lia|]. replace (i - s)%nat with (S (i - S s)) by lia. exact N. }
      destruct (X 0%nat I) as [_ N]. now rewrite Nat.sub_0_r in N. }
    exists e2ph, e2dedph, i, n. split; [exact AP|]. split; [exact N|]. intros f (lo & hi & b & NB & WB & NZ & SF).
    assert (Li : (i < length names)%nat) by (apply nth_error_Some; congruence). assert (EE : nth i (map energy names) 0 = energy n) by (apply nth_error_nth; rewrite nth_error_map, N; reflexivity). unfold Pi in Q. rewrite RR, SL in Q. rewrite !nth_error_map, N in Q. cbn [option_map] in Q. rewrite (nth_error_nth' r (0, 0)) in Q by (rewrite Lr; exact Li). cbn [option_map fst snd] in Q.
    assert (EB : nth_error (match bs with Same b => repeat b (length names) | Each l => l end) i = Some b).
    { destruct bs as [c|l]; cbn in WB; [|exact WB]. subst c. rewrite (nth_error_nth' _ b) by (rewrite repeat_length; exact Li). now rewrite nth_repeat. }
    rewrite EB in Q. destruct (Qc_eq_dec (e2dedph (energy n)) 0); [contradiction|]. set (lo' := fst (nth i r (0, 0))) in *. set (hi' := snd (nth i r (0, 0))) in *.
    assert (IFF : forall x, lo <= x <= hi <-> lo' <= x <= hi') by (intros x; rewrite NB; pose proof (NR i Li x) as NX; rewrite EE in NX; symmetry; exact NX).
    assert (NE : lo <= hi).
    { assert (NN : nearby (map energy names) (width / qz 2) (energy n) (energy n)).
      { split; [unfold dist; destruct (Qclt_le_dec (energy n) (energy n)); change (qz 2) with (1 + 1); (assert (X : 0 <= width / (1 + 1)) by (apply half_nonneg; exact W0)); qlra|]. intros e' _. unfold dist. destruct (Qclt_le_dec (energy n) (energy n)), (Qclt_le_dec (energy n) e'); qlra. }
      apply NB in NN. eapply Qcle_trans; [exact (proj1 NN)|exact (proj2 NN)]. }
    assert (L1 := proj1 (IFF lo) (Logic.conj (Qcle_refl lo) NE)). assert (L2 := proj1 (IFF hi) (Logic.conj NE (Qcle_refl hi))). assert (NE' : lo' <= hi') by (eapply Qcle_trans; [exact (proj1 L1)|exact (proj2 L1)]). assert (L3 := proj2 (IFF lo') (Logic.conj (Qcle_refl lo') NE')). assert (L4 := proj2 (IFF hi') (Logic.conj NE' (Qcle_refl hi'))).
    assert (EL : lo = lo') by (apply Qcle_antisym; [exact (proj1 L3)|exact (proj1 L1)]). assert (EH : hi = hi') by (apply Qcle_antisym; [exact (proj2 L2)|exact (proj2 L4)]). rewrite EL, EH in SF. rewrite SF in Q. discriminate.
Qed.

(** The lines need not be in order, and no two may have the same energy. *)
Theorem same_energy_raises peaks ph width bs nextra ninc nmax maxacc fuel s : ~ NoDup (map energy (line_names s)) ->
  snd (run_autocal energy fit peak_ph fwhm add approx peaks ph width bs nextra ninc nmax maxacc fuel s) = false.
Proof.
  intros ND. destruct (run_autocal energy fit peak_ph fwhm add approx peaks ph width bs nextra ninc nmax maxacc fuel s) as [s' []] eqn:R; [|reflexivity]. exfalso. destruct (autocal_done _ _ _ _ _ _ _ _ _ _ _ R) as (pk & a & e2ph & e2dedph & fs & _ & _ & _ & P & _ & D & _). apply ND. eapply Permutation_NoDup; [apply Permutation_sym, Permutation_map; exact P|exact D].
Qed.
(** anyfailed: raises before a fit, and is false after one. *)
Theorem never_failed peaks ph width bs nextra ninc nmax maxacc fuel s : let r := run_autocal energy fit peak_ph fwhm add approx peaks ph width bs nextra ninc nmax maxacc fuel s in
  (snd r = true -> anyfailed (fst r) = Some false) /\ (snd r = false -> anyfailed (fst r) = anyfailed s) /\ forall (c : C) (lines : list A), anyfailed (new (F := F) c lines) = None.
Proof.
  intros r. split; [|split; [|reflexivity]].
  - destruct r as [s' b] eqn:R. cbn [fst snd]. intros ->. destruct (autocal_done _ _ _ _ _ _ _ _ _ _ _ R) as (pk & a & e2ph & e2dedph & fs & _ & _ & _ & _ & _ & _ & _ & _ & _ & RS & _). unfold anyfailed. rewrite RS. cbn. f_equal. clear. induction fs as [|f fs IH]; [reflexivity|exact IH].
  - destruct r as [s' b] eqn:R. cbn [fst snd]. intros ->. assert (E : results s' = results s).
    { unfold r, run_autocal in R. destruct (guess_fit_params _ _ _ _ _ _ _ _ _ _ s) as [s1 g] eqn:G. assert (E1 : results s1 = results s).
      { unfold guess_fit_params in G. destruct peaks; [|now injection G as <- _]. destruct (find_opt_assignment _ _ _ _ _ _ _ _) as [[? ?] []]; try (now injection G as <- _). destruct (approx _) as [[? ?]|]; [|now injection G as <- _]. destruct (build_fit_ranges_ph _ _ _ _ _ _) as [[[? ?] ?]|]; now injection G as <- _. }
      destruct g; [|now injection R as <-]. unfold fit_lines in R. destruct (multifit _ _ _ _ _ _ _) as [[[? ?] ?]|]; [|injection R as <-; exact E1]. destruct (add_points _ _ _) as [c []]; [discriminate|]. injection R as <-. exact E1. }
    unfold anyfailed. now rewrite E.
Qed.
(** fit_lines alone, with ranges the user may have changed: every line of the (sorted) list is fitted with what stands at its position. *)
Theorem lines_fitted ph s s' : fit_lines energy fit peak_ph fwhm add ph s = (s', true) ->
  Permutation (line_names s) (line_names s') /\ qsorted (map energy (line_names s')) /\ exists fs, length fs = length (line_names s') /\ results s' = Some (map Fitted fs) /\
  given add (calibration s) (points (line_names s') fs) (calibration s') /\
  forall i n, nth_error (line_names s') i = Some n -> exists f lo hi sl b, nth_error fs i = Some f /\ nth_error (fit_lo_hi s) i = Some (lo, hi) /\ nth_error (slopes_de_dph s) i = Some sl /\ nth_error (binsize_ev s) i = Some b /\ singlefit fit ph n lo hi (b * (1 / sl)) (1 / sl) = Some f.
Proof.
  unfold fit_lines. destruct (multifit _ _ _ _ _ _ _) as [[[names es] fs]|] eqn:M; [|discriminate]. unfold multifit in M. destruct (names_and_energies energy (line_names s)) as [nm en] eqn:NE. match type of M with option_map _ (all_fine ?l) = _ => destruct (all_fine l) as [fs'|] eqn:AF; [|discriminate] end. injection M as -> -> ->.
  pose proof (names_perm energy (line_names s)) as P. pose proof (energies_sort energy (line_names s)) as S. assert (EN : es = map energy names) by (unfold names_and_energies in NE; injection NE as <- <-; reflexivity). rewrite NE in P, S. cbn [fst snd] in *. destruct (add_points _ _ _) as [c []] eqn:AD; [|discriminate]. intros H. injection H as <-. cbn [line_names results calibration].
  split; [exact P|]. split; [rewrite <- EN, S; apply qsort_sorted|]. set (Pi := fun i n => match nth_error (fit_lo_hi s) i, nth_error (slopes_de_dph s) i, nth_error (binsize_ev s) i with Some (lo, hi), Some s, Some b => if Qc_eq_dec s 0 then None else singlefit fit ph n lo hi (b * (1 / s)) (1 / s) | _, _, _ => None end).
  destruct (fits_of Pi names fs AF) as [LF NF]. exists fs. split; [exact LF|]. split; [reflexivity|]. split; [apply add_given; unfold points; rewrite <- EN; exact AD|]. intros i n N. destruct (NF i n N) as (f & Ef & Q). unfold Pi in Q. destruct (nth_error (fit_lo_hi s) i) as [[lo hi]|]; [|discriminate]. destruct (nth_error (slopes_de_dph s) i) as [sl|]; [|discriminate]. destruct (nth_error (binsize_ev s) i) as [b|]; [|discriminate]. destruct (Qc_eq_dec sl 0); [discriminate|]. exists f, lo, hi, sl, b. repeat (split; [assumption || reflexivity|]). exact Q.
Qed.
End Autocal.

(** * The bin widths are not those of the lines *)
(** Lines at 3 and at 1, given in this order with the widths 1/10 and 1/2: the line at 3 is fitted with 1/2. *)
Definition echo (line : Qc) (counts : list nat) (middles : list Qc) (slope : Qc) : option (Qc * list Qc) := Some (line, middles).
Definition keep_all (c : list (Qc * Qc * Qc)) (p e n : Qc) : list (Qc * Qc * Qc) * bool := (c ++ [(p, e, n)], true).
Definition straight_cal (l : list (Qc * Qc)) : option ((Qc -> Qc) * (Qc -> Qc)) := Some (fun x => x, fun _ => 1).
Lemma same_cons {A : Type} (x y : A) l m : x = y -> l = m -> x :: l = y :: m.
Proof. now intros -> ->. Qed.
Theorem widths_by_line_refuted : exists s', run_autocal (fun x => x) echo fst (fun _ => 1) keep_all straight_cal (Some [qz 1; qz 3]) [] (qz 2) (Each [Q2Qc (1 # 10); Q2Qc (1 # 2)]) 2 3 8 1 20 (new [] [qz 3; qz 1]) = (s', true) /\
  line_names s' = [qz 1; qz 3] /\ exists f1 f2, results s' = Some [Fitted f1; Fitted f2] /\ fst f2 = qz 3 /\ snd f2 = [Q2Qc (9 # 4); Q2Qc (11 # 4); Q2Qc (13 # 4)].
Proof.
  eexists. split; [vm_compute; reflexivity|]. split; [vm_compute; reflexivity|]. do 2 eexists. split; [vm_compute; reflexivity|]. split; [vm_compute; reflexivity|]. cbn [snd]. repeat (apply same_cons; [apply Qc_is_canon; vm_compute; reflexivity|]). reflexivity.
Qed.
Example ex_autocal : snd (run_autocal (fun x => x) echo fst (fun _ => 1) keep_all straight_cal (Some [qz 1; qz 3]) [] (qz 2) (Same (Q2Qc (1 # 2))) 2 3 8 1 20 (new [] [qz 3; qz 1])) = true.
Proof. vm_compute. reflexivity. Qed.
Example ex_single : exists n counts middles, binned [qz 1; qz 2; qz 2] 0 1 n counts middles /\ n = 2%nat /\ counts = [0%nat; 3%nat].
Proof.
  destruct (single_fitted (A := Qc) (F := list nat) (fun _ c _ _ => Some c) [qz 1; qz 2; qz 2] 0 0 (Q2Qc (5 # 2)) 1 1) as (n & c & m & N & FB & BN & E); [reflexivity|reflexivity|discriminate|]. vm_compute in E. injection E as E. exists n, c, m. split; [exact BN|]. subst c. split; [|reflexivity]. symmetry. exact (proj1 BN).
Qed.

Print Assumptions single_fitted.
Print Assumptions single_raises.
Print Assumptions autocal_done.
Print Assumptions autocal_raises.
Print Assumptions same_energy_raises.
Print Assumptions never_failed.
Print Assumptions lines_fitted.
Print Assumptions widths_by_line_refuted.
