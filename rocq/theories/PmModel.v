(** PulseModel, mass/core/pulse_model.py, and the random range finder of mass/mathstat/utilities.py, over the real
    numbers (rounding is not modelled). *)
From Coq Require Import String Reals ZArith Bool List.
Import ListNotations.
Local Open Scope R_scope.

(** * Matrices *)

(** A two-dimensional array: shape and elements (those outside the shape mean nothing). *)
Record mat := mkMat { nr : nat; nc : nat; el : nat -> nat -> R }.
Fixpoint msum (n : nat) (f : nat -> R) : R := match n with O => 0 | S m => msum m f + f m end.
Definition mul (A B : mat) : mat := mkMat (nr A) (nc B) (fun i j => msum (nc A) (fun k => el A i k * el B k j)).
Definition sub (A B : mat) : mat := mkMat (nr A) (nc A) (fun i j => el A i j - el B i j).
Definition tr (A : mat) : mat := mkMat (nc A) (nr A) (fun i j => el A j i).
(** [np.vstack([A, B])], [np.hstack([A, B])] *)
Definition vstack (A B : mat) : mat := mkMat (nr A + nr B) (nc A) (fun i j => if (i <? nr A)%nat then el A i j else el B (i - nr A) j).
Definition hstack (A B : mat) : mat := mkMat (nr A) (nc A + nc B) (fun i j => if (j <? nc A)%nat then el A i j else el B i (j - nc A)).

(** * find_range_randomly *)

(** mass/mathstat/utilities.py 174-197.  [om n nl] are the random numbers of line 191 and [qr] is [np.linalg.qr], both
    arguments here; [None]: ValueError. *)
Fixpoint power_iterations (A Y : mat) (q : nat) : mat :=
  match q with O => Y | S p => power_iterations A (mul A (mul (tr A) Y)) p end.
Definition range_sample (om : nat -> nat -> mat) (A : mat) (nl q : nat) : mat := power_iterations A (mul A (om (nc A) nl)) q.
Definition find_range_randomly (om : nat -> nat -> mat) (qr : mat -> mat * mat) (A : mat) (nl : nat) (q : Z) : option mat :=
  if (q <? 0)%Z then None else Some (fst (qr (range_sample om A nl (Z.to_nat q)))).
(** 200-212; [svd] is [np.linalg.svd(., 0)]. *)
Definition find_svd_randomly (om : nat -> nat -> mat) (qr : mat -> mat * mat) (svd : mat -> mat * (nat -> R) * mat) (A : mat) (nl : nat) (q : Z) :
    option (mat * (nat -> R) * mat) :=
  match find_range_randomly om qr A nl q with
  | None => None
  | Some Q => let '(u, w, v) := svd (mul (tr Q) A) in Some (mul Q u, w, v)
  end.

(** * The model *)

(** 97-136, [_additional_projectors_tsvd]; [pinv] is [np.linalg.pinv].  [None]: AssertionError (115-116), or ValueError
    of the product in 121. *)
Definition additional_projectors (om : nat -> nat -> mat) (qr : mat -> mat * mat) (pinv : mat -> mat) (P B : mat) (n_basis : nat) (pulses : mat) : option (mat * mat) :=
  if negb ((nr P =? nc B)%nat && (nc P =? nr B)%nat) then None
  else if (n_basis <? nc B)%nat then None
  else if (n_basis =? nc B)%nat then Some (P, B)
  else if negb (nr pulses =? nc P)%nat then None
  else
    let residuals := sub pulses (mul B (mul P pulses)) in
    match find_range_randomly om qr residuals (n_basis - nc B) 1 with
    | None => None
    | Some Q =>
        let P2 := pinv Q in
        let P2 := sub P2 (mul (mul P2 B) P) in
        Some (vstack P P2, hstack B Q)
    end.

(** 32-37: the third projector without its first and last two values, shifted by 0 to 4 samples; [len] is [len(f_5lag)]. *)
Definition filters_5lag (P : mat) (len : nat) : mat :=
  mkMat (len + 4) 5 (fun r i => if (i <=? r)%nat && (r <? i + len)%nat then el P 2 (r - i + 2) else 0).

(** 16-39, the projectors and the basis that the constructor makes; [om1] and [om2] are the random numbers of the two
    calls.  [None]: an exception.  Line 35 or 37 fails if the third projector has not four values more than [f_5lag]
    (if it has one value to assign, it is broadcast, but then the product in 121 fails). *)
Definition construct (om1 om2 : nat -> nat -> mat) (qr : mat -> mat * mat) (pinv : mat -> mat)
    (P B : mat) (n_basis : Z) (pulses : mat) (extra : Z) (f_5lag : list R) (from_hdf5 : bool) : option (mat * mat) :=
  let dn := (n_basis - extra)%Z in
  let first :=
    if (Z.of_nat (nr P) <? dn)%Z then additional_projectors om1 qr pinv P B (Z.to_nat dn) pulses
    else if (Z.of_nat (nr P) =? dn)%Z || from_hdf5 then Some (P, B)
    else None in
  match first with
  | None => None
  | Some (P1, B1) =>
      if negb from_hdf5 && (0 <? extra)%Z then
        if (nr P <? 3)%nat || negb (nc P =? length f_5lag + 4)%nat || (n_basis <? 0)%Z then None
        else additional_projectors om2 qr pinv P1 B1 (Z.to_nat n_basis) (filters_5lag P (length f_5lag))
      else Some (P1, B1)
  end.

(** 138-146, [labels]; the label 5lag<k> is [Lag k] and svd<k> is [Svd k]. *)
Inductive label := Const | Deriv | Pulse | Lag (k : Z) | Svd (k : Z).
Definition labels (n_basis extra : Z) : list label :=
  [Const; Deriv; Pulse] ++
  map (fun n => let i := Z.of_nat n in if (n_basis - 3 - extra <? i)%Z then Lag (i + 2 - extra) else Svd i) (seq 0 (Z.to_nat (n_basis - 3))).

(** * Saving *)

(** The attributes; the other arrays and numbers are lists and numbers, and not looked at. *)
Record model := mkModel {
  projectors : mat; basis : mat; n_basis : Z; pulses_for_svd : mat; v_dv : R; pretrig_rms_median : R; pretrig_rms_sigma : R;
  file_name : string; extra_n_basis_5lag : Z; f_5lag : list R; average_pulse : list R; noise_psd : list R; noise_psd_delta_f : R;
  noise_autocorr : list R }.

(** 53-58: [self.projectors[()]] is a view, so the changes are made in the model itself. *)
Definition flip_columns (B : mat) : mat := mkMat (nr B) (nc B) (fun i j => if (1 <=? j)%nat then - el B i j else el B i j).
Definition flip_rows (P : mat) : mat := mkMat (nr P) (nc P) (fun i j => if (1 <=? i)%nat then - el P i j else el P i j).

(** The names under svdbasis/. *)
Inductive mkey := Kprojectors | Kbasis | Kv_dv | Ktraining | Kinverted | Kmedian | Ksigma | Kversion | Kfile_name | Kextra | K5lag | Kaverage | Kpsd | Kdelta_f | Kautocorr.
Definition mkey_eq_dec (a b : mkey) : {a = b} + {a <> b}.
Proof. decide equality. Defined.
Inductive mvalue := Mat (m : mat) | Vec (l : list R) | Real (r : R) | Text (s : string) | Int (z : Z) | Bool (b : bool).
Definition mgroup := list (mkey * mvalue).
Fixpoint mget (g : mgroup) (k : mkey) : option mvalue :=
  match g with [] => None | (k', v) :: t => if mkey_eq_dec k' k then Some v else mget t k end.
(** [group[name] = value]: an existing name raises; the writes before it stay. *)
Fixpoint write (g : mgroup) (l : list (mkey * mvalue)) : mgroup * bool :=
  match l with
  | [] => (g, true)
  | (k, v) :: t => match mget g k with Some _ => (g, false) | None => write ((k, v) :: g) t end
  end.
Definition items (m : model) (inverted : bool) : list (mkey * mvalue) :=
  [(Kprojectors, Mat (projectors m)); (Kbasis, Mat (basis m)); (Kv_dv, Real (v_dv m)); (Ktraining, Mat (pulses_for_svd m)); (Kinverted, Bool inverted);
   (Kmedian, Real (pretrig_rms_median m)); (Ksigma, Real (pretrig_rms_sigma m)); (Kversion, Int 2); (Kfile_name, Text (file_name m));
   (Kextra, Int (extra_n_basis_5lag m)); (K5lag, Vec (f_5lag m)); (Kaverage, Vec (average_pulse m)); (Kpsd, Vec (noise_psd m));
   (Kdelta_f, Real (noise_psd_delta_f m)); (Kautocorr, Vec (noise_autocorr m))].
(** 52-76, [toHDF5]: the model after it, the group after it, and whether no exception was raised. *)
Definition to_hdf5 (m : model) (g : mgroup) (save_inverted : bool) : model * (mgroup * bool) :=
  let m' := if save_inverted then
              mkModel (flip_rows (projectors m)) (flip_columns (basis m)) (n_basis m) (pulses_for_svd m) (v_dv m) (pretrig_rms_median m) (pretrig_rms_sigma m)
                      (file_name m) (extra_n_basis_5lag m) (f_5lag m) (average_pulse m) (noise_psd m) (noise_psd_delta_f m) (noise_autocorr m)
            else m in
  (m', write g (items m' save_inverted)).
(** 78-105, [fromHDF5], with the constructor's [_from_hdf5=True]; [None]: KeyError or another exception. *)
Definition from_hdf5 (om1 om2 : nat -> nat -> mat) (qr : mat -> mat * mat) (pinv : mat -> mat) (g : mgroup) : option model :=
  match mget g Kprojectors, mget g Kbasis, mget g Kv_dv, mget g Ktraining, mget g Kmedian, mget g Ksigma, mget g Kversion with
  | Some (Mat P), Some (Mat B), Some (Real v), Some (Mat T), Some (Real med), Some (Real sig), Some (Int ver) =>
      match mget g Kfile_name, mget g Kextra, mget g K5lag, mget g Kaverage, mget g Kpsd, mget g Kdelta_f, mget g Kautocorr with
      | Some (Text fn), Some (Int ex), Some (Vec f5), Some (Vec avg), Some (Vec psd), Some (Real df), Some (Vec ac) =>
          if negb (ver =? 2)%Z then None
          else
            match construct om1 om2 qr pinv P B (Z.of_nat (nr P)) T ex f5 true with
            | Some (P', B') => Some (mkModel P' B' (Z.of_nat (nr P)) T v med sig fn ex f5 avg psd df ac)
            | None => None
            end
      | _, _, _, _, _, _, _ => None
      end
  | _, _, _, _, _, _, _ => None
  end.
