(** MicrocalDataSet.apply_cuts and auto_cuts, mass/core/channel.py, and AnalysisControl,
    mass/core/controller.py.  Arithmetic is exact. *)
From Coq Require Import ZArith NArith QArith Qcanon Bool String List.
From Verif Require Import QcPre CutModel HistModel LagModel DerModel AvgModel XtModel.
Import ListNotations.
Local Open Scope list_scope.

(** * The quantities of the pulses of a channel *)

Record quantities := mkQuant {
  energy : list xval; pretrig_rms : list xval; pretrig_mean : list xval; peak_time : list xval;
  rise_time : list xval; postpeak_deriv : list xval; pulse_average : list xval; peak_value : list xval;
  min_value : list xval; timestamp : list xval; subframecount : list xval }.

(** controller.py:31-45, the dictionary cuts_prm. *)
Record controls := mkCtl {
  c_energy : option allowed_arg; c_pretrigger_rms : option allowed_arg; c_pretrigger_mean : option allowed_arg;
  c_peak_time_ms : option allowed_arg; c_rise_time_ms : option allowed_arg; c_postpeak_deriv : option allowed_arg;
  c_pulse_average : option allowed_arg; c_peak_value : option allowed_arg; c_min_value : option allowed_arg;
  c_timestamp_sec : option allowed_arg; c_timestamp_diff_sec : option allowed_arg;
  c_subframecount_diff_sec : option allowed_arg; c_departure : option allowed_arg }.
Definition no_controls : controls :=
  mkCtl None None None None None None None None None None None None None.

(** controller.py:62-77, [standardControl] *)
Definition fin (n : Z) : option xval := Some (Fin (inject_Z n)).
Definition standard_control : controls :=
  mkCtl None (Some (OneRange None (fin 12))) (Some (OneRange None None))
        (Some (OneRange (Some (Fin (-1 # 2))) (Some (Fin (1 # 2))))) (Some (OneRange (fin 0) (Some (Fin (1 # 5)))))
        (Some (OneRange None (fin 46))) (Some (OneRange (fin 0) None)) (Some (OneRange (fin 0) None))
        (Some (OneRange (fin (-50)) None)) None None None (Some (OneRange (fin (-50)) (fin 50))).

Definition xneg (x : xval) : xval :=
  match x with NaN => NaN | NegInf => PosInf | PosInf => NegInf | Fin a => Fin (- a) end.
Definition xsub (x y : xval) : xval := xadd x (xneg y).
(** The product with a positive number. *)
Definition xscale (k : Q) (x : xval) : xval := match x with Fin a => Fin (k * a) | _ => x end.

(** [np.hstack((np.inf, np.diff(l)))] *)
Fixpoint xdiff (l : list xval) : list xval :=
  match l with x :: (y :: _) as t => xsub y x :: xdiff t | _ => [] end.
Definition since_last (l : list xval) : list xval := PosInf :: xdiff l.

(** [np.median] *)
Definition xmedian (l : list xval) : xval :=
  if existsb isnan l then NaN
  else let s := nsort l in
       let n := length s in
       if Nat.even n then xhalf (xadd (nth (n / 2 - 1) s NaN) (nth (n / 2) s NaN)) else nth (n / 2) s NaN.

(** * apply_cuts *)

(** A sequence of calls of cut_parameter. *)
Fixpoint cut_all (r : registry) (l : list (name * (list xval * option allowed_arg))) (ws : list N) : option (list N) :=
  match l with
  | [] => Some ws
  | (n, (d, a)) :: t => match cut_parameter r d a n ws with Some ws' => cut_all r t ws' | None => None end
  end.

(** channel.py:1664-1683, the calls that do not depend on earlier ones; [tb] is subframe_timebase.
    For the last two [None] is tested by the caller too. *)
Definition plain_cuts (tb : Q) (p : quantities) (c : controls) : list (name * (list xval * option allowed_arg)) :=
  [("energy", (energy p, c_energy c));
   ("pretrigger_rms", (pretrig_rms p, c_pretrigger_rms c));
   ("pretrigger_mean", (pretrig_mean p, c_pretrigger_mean c));
   ("peak_time_ms", (map (xscale 1000) (peak_time p), c_peak_time_ms c));
   ("rise_time_ms", (map (xscale 1000) (rise_time p), c_rise_time_ms c));
   ("postpeak_deriv", (postpeak_deriv p, c_postpeak_deriv c));
   ("pulse_average", (pulse_average p, c_pulse_average c));
   ("peak_value", (peak_value p, c_peak_value c));
   ("min_value", (map2 xsub (min_value p) (pretrig_mean p), c_min_value c));
   ("timestamp_sec", (timestamp p, c_timestamp_sec c));
   ("timestamp_diff_sec", (since_last (timestamp p), c_timestamp_diff_sec c));
   ("subframecount_diff_sec", (since_last (map (xscale tb) (subframecount p)), c_subframecount_diff_sec c))]%string.

Definition departure_field : name := "pretrigger_mean_departure_from_median"%string.

(** channel.py:1639-1688, [apply_cuts].  The argument forceNew has no effect: without it there is a
    message that the cuts are skipped, and they are made all the same.  [None]: an exception. *)
Definition apply_cuts (r : registry) (tb : Q) (p : quantities) (ctl : option controls) (clear : bool) (ws : list N)
  : option (list N) :=
  if Nat.eqb (length ws) 0 then Some ws
  else
    match (if clear then clear_cut r [] ws else Some ws) with
    | None => None
    | Some ws0 =>
        let c := match ctl with Some c => c | None => standard_control end in
        match cut_all r (plain_cuts tb p c) ws0 with
        | None => None
        | Some ws1 =>
            match c_departure c with
            | None => Some ws1
            | Some a =>
                match good r [] [] ws1 with
                | None => None
                | Some g =>
                    if existsb (fun b => b) g then
                      let m := xmedian (where_true g (pretrig_mean p)) in
                      cut_parameter r (map (fun x => xsub x m) (pretrig_mean p)) (Some a) departure_field ws1
                    else Some ws1
                end
            end
        end
    end.

(** * auto_cuts *)

Definition dq (n : Z) (d : positive) : Qc := Q2Qc (n # d).
(** 1.4826 *)
Definition mad_norm : Qc := dq 14826 10000.

(** The four upper limits. *)
Record limits := mkLim { l_peak : Qc; l_rise : Qc; l_pt : Qc; l_md : Qc }.

Definition qabs (x : Qc) : Qc := if qltb x 0 then (- x)%Qc else x.
(** Median, and median of the absolute differences from it times 1.4826. *)
Definition med_madn (l : list Qc) : option (Qc * Qc) :=
  match median l with
  | None => None
  | Some m => match median (map (fun x => qabs (x - m)%Qc) l) with
              | None => None
              | Some d => Some (m, d * mad_norm)%Qc
              end
  end.
Definition maxq (x y : Qc) : Qc := if qltb x y then y else x.

(** channel.py:2170-2204.  [noise] are the noise records, [std] the standard deviation of the first
    [npre] samples of one, [pctl] the percentile of the pretrigger rms of the pulses if one is asked
    for.  compute_max_deriv is applied after the loop, to the last record, with spike rejection and
    the default filter.  [None] is an exception: without noise records the variable [data] is
    unbound.  (Records shorter than 7 samples are read beyond their end; [None] too.) *)
Definition auto_limits (std : list Qc -> Qc) (noise : list (list Qc)) (npre : nat) (peak_samplenumber npresamples : Z)
           (timebase : Qc) (nsigma_pt nsigma_md : Qc) (pctl : option Qc) : option limits :=
  let peak := (XtModel.q (3 + peak_samplenumber - npresamples) * timebase * XtModel.q 1000)%Qc in
  match rev noise with
  | [] => None
  | data :: _ =>
      match compute_max_deriv [data] 0 true DefaultKernel with
      | Some [Some v] =>
          match med_madn [v], med_madn (map (fun d => std (firstn npre d)) noise) with
          | Some (md_med, md_madn), Some (pt_med, pt_madn) =>
              let pt := maxq 0 (pt_med + pt_madn * nsigma_pt)%Qc in
              let pt' := match pctl with Some x => maxq pt x | None => pt end in
              Some (mkLim (peak * dq 125 100)%Qc (peak * dq 110 100)%Qc pt' (md_med + md_madn * nsigma_md)%Qc)
          | _, _ => None
          end
      | _ => None
      end
  end.

Definition upper (x : Qc) : option xval := Some (Fin (this x)).
(** channel.py:2207-2212 *)
Definition auto_controls (l : limits) : controls :=
  mkCtl None (Some (OneRange None (upper (l_pt l)))) None
        (Some (OneRange (fin 0) (upper (l_peak l)))) (Some (OneRange (fin 0) (upper (l_rise l))))
        (Some (OneRange None (upper (l_md l)))) None None None None None None None.

(** A channel: the masks, the attribute saved_auto_cuts, and the attributes stored in the HDF5 group
    cuts/auto_cuts, if it exists: the upper limits of peak_time_ms, rise_time_ms, pretrigger_rms and
    postpeak_deriv. *)
Record channel := mkChan { c_masks : list N; saved : option controls; stored : option (option xval * option xval * option xval * option xval) }.

(** The second limit of a pair; any other value raises. *)
Definition second (a : option allowed_arg) : option (option xval) :=
  match a with Some (OneRange _ b) => Some b | _ => None end.
(** channel.py:2220-2226 *)
Definition save_auto_cuts (c : controls) (s : channel) : option channel :=
  match second (c_peak_time_ms c), second (c_rise_time_ms c), second (c_pretrigger_rms c), second (c_postpeak_deriv c) with
  | Some a, Some b, Some d, Some e => Some (mkChan (c_masks s) (Some c) (Some (a, b, d, e)))
  | _, _, _, _ => None
  end.
(** channel.py:2228-2239, when the file is opened *)
Definition load_auto_cuts (s : channel) : channel :=
  mkChan (c_masks s)
         (match stored s with
          | None => None
          | Some (a, b, d, e) =>
              Some (mkCtl None (Some (OneRange None d)) None (Some (OneRange None a)) (Some (OneRange None b))
                          (Some (OneRange None e)) None None None None None None None)
          end)
         (stored s).

(** channel.py:2137-2218, [auto_cuts]; [lim] are the limits found (None: an exception). *)
Definition auto_cuts (r : registry) (tb : Q) (p : quantities) (lim : option limits) (force_new clear : bool) (s : channel)
  : option channel :=
  match saved s, force_new with
  | Some _, false => Some s
  | _, _ =>
      match (if clear then clear_cut r [] (c_masks s) else Some (c_masks s)) with
      | None => None
      | Some ws0 =>
          match lim with
          | None => None
          | Some l =>
              match apply_cuts r tb p (Some (auto_controls l)) false ws0 with
              | None => None
              | Some ws1 => save_auto_cuts (auto_controls l) (mkChan ws1 (saved s) (stored s))
              end
          end
      end
  end.
