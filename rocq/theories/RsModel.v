(** The cut learned from residualStdDev: Channel.learnResidualStdDevCut, mass/off/channels.py:253-294, and
    median_absolute_deviation, mass/off/util.py:349-359.  Numbers are exact rationals; None is not-a-number. *)
From Coq Require Import ZArith QArith Qcanon List.
From Verif Require Import QcPre LagModel DerModel LocModel OcModel.
Import ListNotations.
Local Open Scope Qc_scope.

(** util.py:349 *)
Definition sigma_over_mad : Qc := 1 / qd 67449 100000.
(** util.py:352-359: the median and the sigma; both are not-a-number without data. *)
Definition median_sigma (x : list Qc) : option (Qc * Qc) :=
  match median x with
  | None => None
  | Some m => match median (map (fun v => qabs (v - m)) x) with None => None | Some d => Some (m, d * sigma_over_mad) end
  end.

(** A pulse is its filtValue and its residualStdDev. *)
Notation pulse := (Qc * Qc)%type.
(** channels.py:272-273, 276: the residuals of the pulses between lo and hi *)
Definition inside (pulses : list pulse) (lo hi : Qc) : list Qc :=
  map snd (filter (fun p => qltb lo (fst p) && qltb (fst p) hi)%bool pulses).
(** channels.py:284: the threshold of one bin *)
Definition bin_threshold (n_sigma : Qc) (pulses : list pulse) (lo hi : Qc) : option Qc :=
  match median_sigma (inside pulses lo hi) with None => None | Some (m, s) => Some (m + n_sigma * s) end.

(** channels.py:271-279: the bins; [len(inds)] is the number of all pulses, not of those in the bin. *)
Fixpoint bins (n_sigma : Qc) (pulses : list pulse) (edges : list Qc) : list (Qc * option Qc) :=
  match edges with
  | lo :: ((hi :: _) as t) => ((lo + hi) / qz 2, bin_threshold n_sigma pulses lo hi) :: bins n_sigma pulses t
  | _ => []
  end.
(** channels.py:267-284: positions fv_mids with their thresholds *)
Definition learn (n_sigma bin_size min_fv : Qc) (pulses : list pulse) : res (list (Qc * option Qc)) :=
  match qmax (map fst pulses) with
  | None => Exc ValueErr                                   (* np.amax of an empty array *)
  | Some m => let! edges <- arange 0 m bin_size;
              Ret ((min_fv, Some (0 + n_sigma * 0)) :: (if Nat.leb (List.length pulses) 4 then [] else bins n_sigma pulses edges))
  end.

(** scipy's interp1d sorts the positions, keeping the order of equal ones. *)
Fixpoint place (p : Qc * option Qc) (l : list (Qc * option Qc)) : list (Qc * option Qc) :=
  match l with [] => [p] | q :: t => if qleb (fst p) (fst q) then p :: l else q :: place p t end.
Definition sorted (l : list (Qc * option Qc)) : list (Qc * option Qc) := fold_right place [] l.
(** channels.py:285-286, interp1d(kind="next", fill_value=(-1, threshold[-1])): -1 below the first position, else the
    threshold at the next position, else the last threshold *)
Definition threshold_at (l : list (Qc * option Qc)) (x : Qc) : option Qc :=
  match sorted l with
  | [] => None
  | (x0, _) :: _ =>
      if qltb x x0 then Some (- (1))
      else match find (fun p => qleb x (fst p)) (sorted l) with
           | Some (_, t) => t
           | None => snd (last l (0, None))
           end
  end.
(** channels.py:291-293: the cut recipe; a comparison with not-a-number is False *)
Definition keep (l : list (Qc * option Qc)) (p : pulse) : bool :=
  match threshold_at l (fst p) with Some t => qltb (snd p) t | None => false end.
