(** Line fits, quality checks, calibration plans and alignment of OFF channels: mass/off/channels.py.
    Numbers are exact rationals.  Fits, histograms, calibration curves and the warping path of fastdtw
    are arguments. *)
From Coq Require Import ZArith QArith Qcanon Qround Bool String List.
From Verif Require Import QcPre LagModel DerModel ToepModel LocModel.
Import ListNotations.
Local Open Scope Qc_scope.

(** What a call does: it returns, or raises.  [BadNumber]: numpy goes on with infinities or NaN. *)
Inductive exn := Unbound | TypeErr | ValueErr | IndexErr | AttrErr | AssertErr | ZeroDiv | BadNumber | Refused.
Inductive res (A : Type) := Ret (a : A) | Exc (e : exn).
Arguments Ret {A} _. Arguments Exc {A} _.
Definition bind {A B} (r : res A) (f : A -> res B) : res B := match r with Ret a => f a | Exc e => Exc e end.
Notation "'let!' x <- a ; b" := (bind a (fun x => b)) (at level 200, x pattern, a at level 100, b at level 200, right associativity).

(** A spectral line: shortname and peak_energy. *)
Record line := mkLine { line_name : string; line_energy : Qc }.

(** * linefit, channels.py:113-176 *)

(** np.arange(start, stop, step) *)
Definition arange (start stop step : Qc) : res (list Qc) :=
  if Qc_eq_dec step 0 then Exc ZeroDiv
  else Ret (map (fun i => start + qz (Z.of_nat i) * step) (seq 0 (Z.to_nat (Qceiling (this ((stop - start) / step)))))).

Definition starts (p s : string) : bool := prefix p s.
(** What is fitted: the line, the attribute, the states, the cut, the bin edges and the calibration. *)
Record request (St Cal : Type) := mkReq { r_line : line; r_attr : string; r_states : St; r_cut : string; r_edges : list Qc; r_cal : option Cal }.
Arguments mkReq {St Cal} _ _ _ _ _ _. Arguments r_line {St Cal} _. Arguments r_attr {St Cal} _. Arguments r_states {St Cal} _.
Arguments r_cut {St Cal} _. Arguments r_edges {St Cal} _. Arguments r_cal {St Cal} _.

(** _handleDefaultCut, 228-232, and _handleDefaultBinsize, 184-188 *)
Definition or_default {A} (d : A) (x : option A) : A := match x with None => d | Some a => a end.

(** What a channel keeps for its fits: _default_cut_recipe_name and _default_bin_size. *)
Record defaults := mkDef { d_cut : string; d_bin : Qc }.

(** Lines 138-176.  The fit itself is not part of it.  [params] is set only for energies (156-158); the label hints
    need two bins (171). *)
Definition linefit {St Cal : Type} (d : defaults) (l : line) (attr : string) (states : St) (dlo dhi : Qc) (binsize : option Qc)
    (edges : option (list Qc)) (cut : option string) (cal : option Cal) : res (request St Cal) :=
  let is_energy := starts "energy" attr || starts "p_energy" attr || match cal with Some _ => true | None => false end in
  let! e <- match edges with
            | Some e => Ret e
            | None => if is_energy then arange (line_energy l - dlo) (line_energy l + dhi) (or_default (d_bin d) binsize) else Exc Refused
            end;
  if negb is_energy then Exc Unbound
  else if Nat.ltb (List.length e) 3 then Exc IndexErr
  else Ret (mkReq l attr states (or_default (d_cut d) cut) e cal).

(** * Quality checks *)

(** What is used of the result of a fit: the value and standard error of peak_ph, and the value of fwhm. *)
Record fit := mkFit { peak_ph : Qc; peak_err : option Qc; fwhm : Qc }.
Inductive mark := Position | Resolution | DropSigma | DropAbsolute | FitFailed (l : line) | NoErrorBars (l : line).

(** Line 731-757, qualityCheckLinefit: the marks it makes, in order.  The call of linefit (739-740) is positional:
    its eighth argument guessParams is taken for [label], cutRecipeName for [plot] and holdvals for [params_fixed]. *)
Definition quality_check {St Cal : Type} (fitter : request St Cal -> res fit) (d : defaults) (l : line) (tol_sigma worst tol_abs : option Qc)
    (attr : string) (states : St) (dlo dhi : Qc) (binsize : option Qc) (edges : option (list Qc)) (cut : option string) : res (list mark) :=
  let! r <- linefit d l attr states dlo dhi binsize edges None None;
  let! f <- fitter r;
  let! tolerance <- match tol_abs, tol_sigma with
                    | Some _, Some _ => Exc Refused
                    | Some a, None => Ret (Some a)
                    | None, Some s => match peak_err f with None => Exc TypeErr | Some e => Ret (Some (e * s)) end
                    | None, None => Ret None
                    end;
  let off := qabs (peak_ph f - line_energy l) in
  Ret ((match tolerance with Some t => if qltb t off then [Position] else [] | None => [] end) ++
       (match worst with Some w => if qltb w (fwhm f) then [Resolution] else [] | None => [] end)).

Definition qmax (l : list Qc) : option Qc :=
  match l with [] => None | x :: t => Some (fold_left (fun m y => if qltb m y then y else m) t x) end.
Definition qmin (l : list Qc) : option Qc :=
  match l with [] => None | x :: t => Some (fold_left (fun m y => if qltb y m then y else m) t x) end.

(** Lines 801-818, qualityCheckDropOneErrors, from the errors returned by drop_one_errors. *)
Definition quality_drop_one (errors : list Qc) (threshold_abs threshold_sigma : option Qc) : res (list mark) :=
  match qmax (map qabs errors), median (map qabs errors) with
  | Some worst, Some med =>
      let sigma := qd 14826 10000 * med in
      match threshold_abs with
      | None => Ret []
      | Some a =>
          match threshold_sigma with
          | None => Exc TypeErr
          | Some s => Ret ((if qltb (sigma * s) worst then [DropSigma] else []) ++ (if qltb a worst then [DropAbsolute] else []))
          end
      end
  | _, _ => Exc ValueErr
  end.

(** * CalibrationPlan, 1064-1098 *)
Record plan (St : Type) := mkPlan { vals : list Qc; states : list St; lines : list line }.
Arguments mkPlan {St} _ _ _. Arguments vals {St} _. Arguments states {St} _. Arguments lines {St} _.
Definition empty_plan {St} : plan St := mkPlan [] [] [].
(** addCalPoint, 1070-1073 *)
Definition add_cal_point {St} (p : plan St) (v : Qc) (s : St) (l : line) : plan St :=
  mkPlan (vals p ++ [v]) (states p ++ [s]) (lines p ++ [l]).
(** A point given to EnergyCalibration.add_cal_point: pulse height, energy, name and pulse height error. *)
Record point := mkPoint { p_ph : Qc; p_energy : Qc; p_name : string; p_err : option Qc }.
(** getRoughCalibration, 1094-1098: the points added, in order. *)
Definition rough {St} (p : plan St) : list point :=
  map (fun q => mkPoint (fst q) (line_energy (snd q)) (line_name (snd q)) None) (combine (vals p) (lines p)).

(** calibrationPlanAddPoint, 617-628: the line. *)
Definition choose_line (spectra : string -> option line) (features : string -> option Qc) (name : string) (energy : option Qc) : res line :=
  match spectra name with
  | Some l => Ret l
  | None =>
      match energy with
      | Some e => Ret (mkLine name e)
      | None => match features name with Some e => Ret (mkLine name e) | None => Exc Refused end
      end
  end.
(** The plan of a channel (the attribute it is for, and the plan), absent until calibrationPlanInit (613-615). *)
Notation own_plan St := (option (string * plan St)).
Definition plan_init {St} (attr : string) : own_plan St := Some (attr, empty_plan).
(** Lines 617-634: the new plan and the points of the recipe energyRough. *)
Definition plan_add_point {St} (spectra : string -> option line) (features : string -> option Qc) (p : own_plan St)
    (v : Qc) (name : string) (s : St) (energy : option Qc) : res (own_plan St * list point) :=
  let! l <- choose_line spectra features name energy;
  match p with
  | None => Exc AttrErr
  | Some (attr, pl) => let pl := add_cal_point pl v s l in Ret (Some (attr, pl), rough pl)
  end.

(** * calibrateFollowingPlan, 636-674 *)
(** The result of one fit: result.success, result.errorbars, and peak_ph with its standard error. *)
Record line_result := mkRes { success : bool; errorbars : bool; pos : Qc; err : Qc }.

(** Lines 646-664, one round.  [fitter c l s]: the fit of line l in states s of the attribute calibrated with c.
    [e2p c e] is c.energy2ph(e) and [slope c e] is c.energy2dedph(e); division by a zero slope leaves infinity. *)
Fixpoint plan_round {St C} (fitter : C -> line -> St -> res line_result) (e2p slope : C -> Qc -> Qc) (start : C)
    (todo : list (line * St)) : res (list line_result * list mark * list point) :=
  match todo with
  | [] => Ret ([], [], [])
  | (l, s) :: rest =>
      let! r <- fitter start l s;
      let! p <- (if negb (success r) then Ret ([FitFailed l], [])
                 else if negb (errorbars r) then Ret ([NoErrorBars l], [])
                 else match qdiv (err r) (slope start (pos r)) with
                      | None => Exc BadNumber
                      | Some u => Ret ([], [mkPoint (e2p start (pos r)) (line_energy l) (line_name l) (Some u)])
                      end);
      let! (rs, ms, ps) <- plan_round fitter e2p slope start rest;
      Ret (r :: rs, fst p ++ ms, snd p ++ ps)
  end.
(** Lines 641-674: the results of the last round, all marks, the points of the calibration and those of the intermediate
    ones.  [curve] makes a calibration out of points; [known]: the recipe exists already. *)
Fixpoint plan_rounds {St C} (fitter : C -> line -> St -> res line_result) (e2p slope : C -> Qc -> Qc) (curve : list point -> C)
    (start : C) (todo : list (line * St)) (n : nat) : res (list line_result * list mark * list (list point)) :=
  match n with
  | O => Exc Unbound
  | S m =>
      let! (rs, ms, ps) <- plan_round fitter e2p slope start todo;
      match m with
      | O => Ret (rs, ms, [ps])
      | S _ => let! (rs', ms', more) <- plan_rounds fitter e2p slope curve (curve ps) todo m; Ret (rs', ms ++ ms', ps :: more)
      end
  end.
Definition follow_plan {St C} (fitter : C -> line -> St -> res line_result) (e2p slope : C -> Qc -> Qc) (curve : list point -> C)
    (p : plan St) (n_iter : nat) (known overwrite : bool) : res (list line_result * list mark * list (list point)) :=
  let! r <- plan_rounds fitter e2p slope curve (curve (rough p)) (combine (lines p) (states p)) n_iter;
  if known && negb overwrite then Exc AssertErr else Ret r.

(** * AlignBToA, 941-1061 *)
(** np.searchsorted(edges, x) - 1 for increasing edges, 957 *)
Definition peak_ind (edges : list Qc) (x : Qc) : Z := (Z.of_nat (List.length (filter (fun e => qltb e x) edges)) - 1)%Z.
(** int() of a float: towards zero *)
Definition toward_zero (q : Qc) : Z := if qltb q 0 then (- Qfloor (this (- q)))%Z else Qfloor (this q).
(** i_b[i_a.index(pia)], 906-909 *)
Definition partner (path : list (nat * nat)) (a : Z) : option nat := option_map snd (find (fun p => (Z.of_nat (fst p) =? a)%Z) path).
Fixpoint seqr {A} (l : list (res A)) : res (list A) :=
  match l with [] => Ret [] | x :: t => let! a <- x; let! r <- seqr t; Ret (a :: r) end.
(** dtw_same_peaks, 889-914, from the ratio of the medians and the warping path *)
Definition same_peaks (edges : list Qc) (ratio : Qc) (path : list (nat * nat)) (peaks : list Z) : res (list Z) :=
  match edges with
  | e0 :: e1 :: _ =>
      let! js <- seqr (map (fun a => match partner path a with Some j => Ret j | None => Exc ValueErr end) peaks);
      seqr (map (fun j => match nth_error edges j with
                          | None => Exc IndexErr
                          | Some x => match qdiv x ratio with
                                      | None => Exc BadNumber
                                      | Some y => match qdiv (y - e0) (e1 - e0) with None => Exc BadNumber | Some q => Ret (toward_zero q) end
                                      end
                          end) js)
  | _ => Exc IndexErr
  end.
(** 890-893 *)
Definition median_ratio (scale_by_median : bool) (ph_a ph_b : list Qc) : res Qc :=
  if scale_by_median then
    match median ph_a, median ph_b with
    | Some a, Some b => match qdiv a b with Some r => Ret r | None => Exc BadNumber end
    | _, _ => Exc BadNumber
    end
  else Ret 1.
(** bin_centers, 947 *)
Fixpoint middles (edges : list Qc) : list Qc :=
  match edges with x :: (y :: _) as t => (y + x) / qz 2 :: middles t | _ => [] end.
(** indexing a list as Python does *)
Definition py_nth (l : list Qc) (i : Z) : res Qc :=
  let n := Z.of_nat (List.length l) in
  let j := if (i <? 0)%Z then (i + n)%Z else i in
  if ((0 <=? j) && (j <? n))%Z%bool then Ret (nth (Z.to_nat j) l 0) else Exc IndexErr.
(** getCalBtoA, 1018-1024: the points (pulse height in b, in a) added *)
Definition cal_b_to_a (edges : list Qc) (inds_a inds_b : list Z) : res (list (Qc * Qc)) :=
  seqr (map (fun p => let! b <- py_nth (middles edges) (snd p); let! a <- py_nth (middles edges) (fst p); Ret (b, a)) (combine inds_a inds_b)).
(** __init__ and getCalBtoA together *)
Definition align (edges : list Qc) (ratio : Qc) (path : list (nat * nat)) (peaks : list Qc) : res (list Z * list Z * list (Qc * Qc)) :=
  let inds_a := map (peak_ind edges) peaks in
  let! inds_b <- same_peaks edges ratio path inds_a;
  let! pts <- cal_b_to_a edges inds_a inds_b;
  Ret (inds_a, inds_b, pts).

(** alignToReferenceChannel, 702-728: the new plan and the points of energyRough.  [aligned] are the points found for the
    given peak positions, [e2p] energy2ph of the calibration made of them.  The new energy is that of the line, as before. *)
Definition align_to_reference {St} (aligned : list Qc -> res (list (Qc * Qc))) (e2p : list (Qc * Qc) -> Qc -> Qc) (is_reference : bool)
    (ref own : own_plan St) (peak_locs : option (list Qc)) : res (own_plan St * list point) :=
  let! (peaks, from_plan) <- match peak_locs with
      | Some l => Ret (l, None)
      | None => match ref with
                | None => Exc AttrErr
                | Some (attr, p) => if Nat.eqb (List.length (vals p)) 0 then Exc AssertErr else Ret (vals p, Some (attr, p))
                end
      end;
  let! pts <- aligned peaks;
  let mine := match from_plan with
      | Some (attr, p) =>
          if is_reference then own
          else Some (attr, fold_left (fun acc q => add_cal_point acc (e2p pts (fst (fst q))) (snd (fst q)) (snd q))
                             (combine (combine (vals p) (states p)) (lines p)) empty_plan)
      | None => own
      end in
  match mine with
  | None => Exc AttrErr
  | Some (_, p) => Ret (mine, rough p)
  end.

(** testForGoodnessBasedOnCalCurvature, 1026-1036, from the slopes at the calibration points *)
Definition goodness (threshold : Qc) (slopes : list Qc) : res bool :=
  if negb (qltb 0 threshold) then Exc AssertErr else
  match qmax slopes, qmin slopes, median slopes with
  | Some hi, Some lo, Some m =>
      match qdiv hi m, qdiv lo m with
      | Some h, Some l => Ret (qltb h (1 + threshold) && qltb (1 / (1 + threshold)) l)
      | _, _ => Exc BadNumber
      end
  | _, _, _ => Exc ValueErr
  end.

(** _ksStatistic, 1050-1061, from the two histograms *)
Fixpoint running (acc : nat) (l : list nat) : list nat := match l with [] => [] | x :: t => (acc + x)%nat :: running (acc + x) t end.
Definition cdf (counts : list nat) : res (list Qc) :=
  if Nat.eqb (list_sum counts) 0 then Exc BadNumber
  else Ret (map (fun c => qz (Z.of_nat c) / qz (Z.of_nat (list_sum counts))) (running 0 counts)).
Definition ks_statistic (counts_a counts_b : list nat) : res Qc :=
  let! a <- cdf counts_a;
  let! b <- cdf counts_b;
  match qmax (map (fun p => qabs (fst p - snd p)) (combine a b)) with Some m => Ret m | None => Exc ValueErr end.
