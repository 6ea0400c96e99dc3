(** PhaseCorrector, mass/core/phase_correct.py, over the real numbers (rounding is not modelled). *)
From Coq Require Import String Reals ZArith Bool List.
From Verif Require Import EntModel SplModel.
Import ListNotations.
Local Open Scope R_scope.

(** * The correction *)

(** [np.digitize(v, l)], for increasing [l]: the number of values up to [v]. *)
Definition digitize (l : list R) (v : R) : nat := length (filter (fun a => rleb a v) l).

Fixpoint increasing (l : list R) : bool :=
  match l with a :: ((b :: _) as t) => rltb a b && increasing t | _ => true end.

(** 255-285, [_phase_corrected_filtvals], for one pulse; the corrections are functions of the phase.  [None]:
    the AssertionError of line 268. *)
Definition phase_corrected (phase v : R) (cs : list (R -> R)) : option R :=
  let ph := 0 :: map (fun c => c 0) cs in
  if negb (increasing ph) then None
  else
    let nc := length cs in
    let corr := 0 :: map (fun c : R -> R => c 0 - c phase) cs in
    let bin := digitize ph v in
    (* the loop over b: the first b that applies is binnum - 1, at most NC - 1 *)
    if (bin =? 0)%nat then Some v
    else if (nc =? 0)%nat then Some v
    else
      let b := Nat.min (bin - 1) (nc - 1) in
      let frac := (v - nth b ph 0) / (nth (S b) ph 0 - nth b ph 0) in
      Some (v + (frac * nth (S b) corr 0 + (1 - frac) * nth b corr 0)).

(** The assertion is about all pulses, and the lengths must agree (263). *)
Fixpoint all_some (l : list (option R)) : option (list R) :=
  match l with
  | [] => Some []
  | None :: _ => None
  | Some a :: t => match all_some t with Some r => Some (a :: r) | None => None end
  end.
Definition phase_corrected_filtvals (phase uncorrected : list R) (cs : list (R -> R)) : option (list R) :=
  if negb (length phase =? length uncorrected)%nat then None
  else if negb (increasing (0 :: map (fun c => c 0) cs)) then None
  else all_some (map (fun p => phase_corrected (fst p) (snd p) cs) (combine phase uncorrected)).

(** [np.clip] *)
Definition clip (lo hi v : R) : R := if rltb v lo then lo else if rltb hi v then hi else v.

(** * The class *)

(** The attributes; [phase_uniformifier] is made from the two lists. *)
Record corrector := mkCorrector { unif_x : list R; unif_y : list R; unif : spline; corrs : list spline; indicator : string; uncorrected : string }.

(** 15-22 *)
Definition make_corrector (x y : list R) (cs : list spline) (ind unc : string) : option corrector :=
  match make_spline x y None None with
  | Some s => Some (mkCorrector x y s cs ind unc)
  | None => None
  end.

(** 43-50, [correct]; the sample limit 0.6. *)
Definition correct (c : corrector) (phase ph : list R) : option (list R) :=
  if negb (length phase =? length ph)%nat then None   (* 45: the arrays cannot be subtracted *)
  else
    let clipped := map (fun p => clip (- (6 / 10)) (6 / 10) (fst p - spline_at (unif c) 0 (snd p))) (combine phase ph) in
    phase_corrected_filtvals clipped ph (map (fun s => spline_at s 0) (corrs c)).

(** * Saving *)

(** The names in the HDF5 group: phase_uniformifier_x, phase_uniformifier_y, uncorrected_name, indicator_name,
    version, correction_<i>_x, correction_<i>_y.  (Different numbers make different names.) *)
Inductive key := Ux | Uy | Unc | Ind | Ver | Cx (i : nat) | Cy (i : nat).
Definition key_eqb (a b : key) : bool :=
  match a, b with
  | Ux, Ux | Uy, Uy | Unc, Unc | Ind, Ind | Ver, Ver => true
  | Cx i, Cx j | Cy i, Cy j => (i =? j)%nat
  | _, _ => false
  end.
Inductive value := Vec (l : list R) | Txt (s : string) | Num (z : Z).
Definition group := list (key * value).
Fixpoint get (g : group) (k : key) : option value :=
  match g with [] => None | (k', v) :: t => if key_eqb k' k then Some v else get t k end.
Definition del (g : group) (k : key) : group := filter (fun p => negb (key_eqb (fst p) k)) g.

(** 28-34, [h5group_update]; [None]: AttributeError. *)
Definition update (overwrite : bool) (g : group) (k : key) (v : value) : option group :=
  match get g k with
  | None => Some ((k, v) :: g)
  | Some _ => if overwrite then Some ((k, v) :: del g k) else None
  end.
(** One after the other up to an exception: the group and whether all went well. *)
Fixpoint updates (overwrite : bool) (g : group) (l : list (key * value)) : group * bool :=
  match l with
  | [] => (g, true)
  | (k, v) :: t => match update overwrite g k v with Some g' => updates overwrite g' t | None => (g, false) end
  end.
Fixpoint correction_items (i : nat) (cs : list spline) : list (key * value) :=
  match cs with
  | [] => []
  | c :: t => (Cx i, Vec (kx c)) :: (Cy i, Vec (ky c)) :: correction_items (S i) t
  end.
(** 24-42, [toHDF5]; the group under [name], and whether no exception was raised. *)
Definition to_hdf5 (c : corrector) (g : group) (overwrite : bool) : group * bool :=
  updates overwrite g ([(Ux, Vec (unif_x c)); (Uy, Vec (unif_y c)); (Unc, Txt (uncorrected c)); (Ind, Txt (indicator c)); (Ver, Num 1)]
                       ++ correction_items 0 (corrs c)).

(** 55-70, [fromHDF5]: the loop over the corrections; [fuel] bounds the number of names in the group.  [None]:
    KeyError or an exception of CubicSpline. *)
Fixpoint read_corrections (g : group) (i fuel : nat) : option (list spline) :=
  match fuel with
  | O => Some []
  | S f =>
      match get g (Cx i) with
      | None => Some []
      | Some (Vec x) =>
          match get g (Cy i) with
          | Some (Vec y) =>
              match make_spline x y None None, read_corrections g (S i) f with
              | Some s, Some t => Some (s :: t)
              | _, _ => None
              end
          | _ => None
          end
      | Some _ => None
      end
  end.
Definition from_hdf5 (g : group) : option corrector :=
  match get g Ux, get g Uy, get g Unc, get g Ind, get g Ver with
  | Some (Vec x), Some (Vec y), Some (Txt unc), Some (Txt ind), Some (Num v) =>
      match read_corrections g 0 (S (length g)) with
      | Some cs => if (v =? 1)%Z then make_corrector x y cs ind unc else None
      | None => None
      end
  | _, _, _, _, _ => None
  end.
