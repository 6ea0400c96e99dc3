(** Automatic calibration, mass/calibration/algorithms.py: multifit 205-230, singlefit 233-245, EnergyCalibrationAutocal 249-334 (not diagnose).
    Exact rationals; [None] and [false] stand for an exception. *)
From Coq Require Import ZArith QArith Qround Qcanon Bool List.
From Verif Require Import QcPre LagModel NameModel FitModel AsgModel.
Import ListNotations.
Local Open Scope Qc_scope.

Fixpoint all_fine {A : Type} (l : list (option A)) : option (list A) :=
  match l with [] => Some [] | None :: _ => None | Some a :: t => option_map (cons a) (all_fine t) end.

Section Autocal.
(** [A]: names or energies of lines; [energy]: STANDARD_FEATURES.get(x, x), always a number; [F]: results of lmfit with their best values;
    [C]: calibrations. *)
Context {A F C : Type}.
Variable energy : A -> Qc.
(** getmodel, guess and fit (237-243): the line, the counts, the centres of the bins, and the approximate slope. *)
Variable fit : A -> list nat -> list Qc -> Qc -> option F.
Variables peak_ph fwhm : F -> Qc.
(** add_cal_point(ph, e, name=str(n)) *)
Variable add : C -> Qc -> Qc -> A -> C * bool.

(** A fit, or the class for a failed one, 168-171, which is never made. *)
Inductive outcome_of_fit := Fitted (f : F) | FailedFit.

(** np.histogram with the edges lo + i*b, n bins: the last bin has both ends. *)
Definition edge_at (lo b : Qc) (i : nat) : Qc := lo + qz (Z.of_nat i) * b.
Definition count_in (ph : list Qc) (lo b : Qc) (n i : nat) : nat :=
  length (filter (fun v => qleb (edge_at lo b i) v && (qltb v (edge_at lo b (i + 1)) || (Nat.eqb (i + 1) n && qleb v (edge_at lo b (i + 1)))))%bool ph).
(** 233-245; np.arange gives ceil((hi - lo)/b) edges, and needs at least two. *)
Definition singlefit (ph : list Qc) (line : A) (lo hi b slope : Qc) : option F :=
  if Qc_eq_dec b 0 then None
  else if qltb (qz 5000) ((hi - lo) / b) then None
  else
    let edges := Z.to_nat (Qceiling (this ((hi - lo) / b))) in
    match edges with
    | O | S O => None
    | S n =>
        let e := edge_at lo b in
        if qltb (e 1%nat) (e 0%nat) then None
        else fit line (map (count_in ph lo b n) (seq 0 n)) (map (fun i => e i + (e 1%nat - e 0%nat) / qz 2) (seq 0 n)) slope
    end.
(** 205-230; the lists are looked up by the position in the order of energies. *)
Definition multifit (ph : list Qc) (lines : list A) (ranges : list (Qc * Qc)) (binsizes slopes : list Qc) : option (list A * list Qc * list F) :=
  let '(names, es) := names_and_energies energy lines in
  option_map (fun fs => (names, es, fs))
    (all_fine (map (fun p => match nth_error ranges (fst p), nth_error slopes (fst p), nth_error binsizes (fst p) with
                             | Some (lo, hi), Some s, Some b => if Qc_eq_dec s 0 then None else singlefit ph (snd p) lo hi (b * (1 / s)) (1 / s)
                             | _, _, _ => None
                             end) (combine (seq 0 (length names)) names))).

(** 249-276 *)
Record autocal := mkAuto {
  line_names : list A; energies_opt : list Qc; ph_opt : list Qc; fit_lo_hi : list (Qc * Qc); slopes_de_dph : list Qc; binsize_ev : list Qc;
  results : option (list outcome_of_fit); resolutions : list Qc; calibration : C }.
Definition new (c : C) (lines : list A) : autocal := mkAuto lines [] [] [] [] [] None [] c.

Inductive binsize := Same (b : Qc) | Each (l : list Qc).
(** The approximate calibration through the assigned points, its energy2ph and energy2dedph. *)
Variable approx : list (Qc * Qc) -> option ((Qc -> Qc) * (Qc -> Qc)).
(** 278-304.  [peaks]: find_local_maxima of the pulse heights. *)
Definition guess_fit_params (peaks : option (list Qc)) (width : Qc) (bs : binsize) (nextra nincrement nextramax : nat) (maxacc : Qc) (fuel : nat) (s : autocal) : autocal * bool :=
  match peaks with
  | None => (s, false)
  | Some pk =>
      match find_opt_assignment energy pk (line_names s) nextra nincrement nextramax maxacc fuel with
      | (names, e, Found a) =>
          let b := match bs with Same b => repeat b (length e) | Each l => l end in
          let s1 := mkAuto names e a (fit_lo_hi s) (slopes_de_dph s) b (results s) (resolutions s) (calibration s) in
          match approx (combine a e) with
          | None => (s1, false)
          | Some (e2ph, e2dedph) =>
              match build_fit_ranges_ph (fun x => x) e2dedph e2ph e [] width with
              | None => (s1, false)
              | Some (_, ranges, slopes) => (mkAuto names e a ranges slopes b (results s) (resolutions s) (calibration s), true)
              end
          end
      | _ => (s, false)
      end
  end.

Fixpoint add_points (c : C) (l : list (Qc * Qc * A)) : C * bool :=
  match l with
  | [] => (c, true)
  | (p, e, n) :: t => match add c p e n with (c', true) => add_points c' t | r => r end
  end.
(** 306-321 *)
Definition fit_lines (ph : list Qc) (s : autocal) : autocal * bool :=
  match multifit ph (line_names s) (fit_lo_hi s) (binsize_ev s) (slopes_de_dph s) with
  | None => (s, false)
  | Some (names, es, fs) =>
      match add_points (calibration s) (combine (combine (map peak_ph fs) es) names) with
      | (c, true) => (mkAuto names (energies_opt s) (ph_opt s) (fit_lo_hi s) (slopes_de_dph s) (binsize_ev s) (Some (map Fitted fs)) (map fwhm fs) c, true)
      | (c, false) => (mkAuto (line_names s) (energies_opt s) (ph_opt s) (fit_lo_hi s) (slopes_de_dph s) (binsize_ev s) (results s) (resolutions s) c, false)
      end
  end.
(** 323-330 *)
Definition run_autocal (peaks : option (list Qc)) (ph : list Qc) (width : Qc) (bs : binsize) (nextra nincrement nextramax : nat) (maxacc : Qc) (fuel : nat) (s : autocal) : autocal * bool :=
  match guess_fit_params peaks width bs nextra nincrement nextramax maxacc fuel s with
  | (s1, true) => fit_lines ph s1
  | r => r
  end.
(** 332-334: without results it raises. *)
Definition anyfailed (s : autocal) : option bool :=
  option_map (existsb (fun o => match o with FailedFit => true | Fitted _ => false end)) (results s).
End Autocal.
