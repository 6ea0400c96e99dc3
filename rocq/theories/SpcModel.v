(** Spectral lines: mass/calibration/fluorescence_lines.py and mass/mathstat/special.py.  Real numbers; [None] is an
    exception or not-a-number. *)
From Coq Require Import Reals ZArith String List Bool.
Import ListNotations.
Local Open Scope R_scope.

(* ---------- special.py ---------- *)

Section Voigt.
(** The real part of scipy.special.wofz(x + iy). *)
Variable wofz : R -> R -> R.

(** voigt, 61-72, at one point *)
Definition voigt (x xctr hwhm sigma : R) : option R :=
  if Req_EM_T hwhm 0 then
    if Req_EM_T sigma 0 then None
    else Some (exp (- / 2 * (((x - xctr) / sigma) * ((x - xctr) / sigma))) / (sigma * sqrt (2 * PI)))
  else if Req_EM_T sigma 0 then Some (hwhm / PI / ((x - xctr) * (x - xctr) + hwhm * hwhm))
  else Some (wofz ((x - xctr) / (sigma * sqrt 2)) (hwhm / (sigma * sqrt 2)) / (sigma * sqrt (2 * PI))).

(** voigt_approx_fwhm, 90-94 *)
Definition voigt_approx_fwhm (lor gau : R) : R :=
  if Req_EM_T lor 0 then gau
  else if Req_EM_T gau 0 then lor
  else 5346 / 10000 * lor + sqrt (2166 / 10000 * (lor * lor) + gau * gau).

(* ---------- SpectralLine ---------- *)

(** 19 *)
Definition fwhm_over_sigma : R := sqrt (8 * ln 2).
(** Fields that matter below; 38-64. *)
Record line := { energies : list R; widths : list R; intrinsic_sigma : R; intensities : list R }.
(** 176-180 *)
Definition gaussian_sigma (l : line) (inst : R) : option R :=
  if Rlt_dec inst 0 then None
  else Some (sqrt ((inst / fwhm_over_sigma) * (inst / fwhm_over_sigma) + intrinsic_sigma l * intrinsic_sigma l)).
(** zip of energies, widths and intensities *)
Definition parts (l : line) : list (R * R * R) := combine (combine (energies l) (widths l)) (intensities l).
(** 92-100, at one point *)
Fixpoint component_loop (sigma x : R) (ps : list (R * R * R)) : option (list R) :=
  match ps with
  | [] => Some []
  | (e, w, a) :: t =>
      match voigt x e (w * / 2) sigma, component_loop sigma x t with
      | Some v, Some r => Some (a * v :: r)
      | _, _ => None
      end
  end.
Definition components (l : line) (x inst : R) : option (list R) :=
  match gaussian_sigma l inst with None => None | Some sigma => component_loop sigma x (parts l) end.
(** 81-90: the sum is built up from zero *)
Fixpoint pdf_loop (sigma x : R) (ps : list (R * R * R)) (result : R) : option R :=
  match ps with
  | [] => Some result
  | (e, w, a) :: t => match voigt x e (w * / 2) sigma with None => None | Some v => pdf_loop sigma x t (result + a * v) end
  end.
Definition pdf (l : line) (x inst : R) : option R :=
  match gaussian_sigma l inst with None => None | Some sigma => pdf_loop sigma x (parts l) 0 end.
(** 196-201; the smallest of no widths raises *)
Definition least (l : list R) : option R := match l with [] => None | v :: t => Some (fold_left Rmin t v) end.
Definition minimum_fwhm (l : line) (inst : R) : option R :=
  match least (widths l) with
  | None => None
  | Some w => Some (sqrt (w * w + inst * inst + (intrinsic_sigma l * fwhm_over_sigma) * (intrinsic_sigma l * fwhm_over_sigma)))
  end.
(** 203-235 *)
Definition quick_monochromatic_line (energy width sigma : R) : line :=
  {| energies := [energy]; widths := [width]; intensities := [1];
     intrinsic_sigma := if Rle_dec width 0 then if Rle_dec sigma 0 then / 10000 else sigma else sigma |}.

(* ---------- addline, 365-431 ---------- *)

Record request := { element : string; linetype : string; material : string; reference : string; plot_fwhm : option R;
  q_energies : list R; q_widths : list R; amplitudes : list R; amplitude_type : Z; ka12 : option R; q_sigma : R;
  default_material : bool; allow_replacement : bool }.
(** 166-170 *)
Definition shortname (q : request) : string :=
  if default_material q then (element q ++ linetype q)%string else (element q ++ linetype q ++ "_" ++ material q)%string.
Definition is_kalpha (q : request) : bool := String.prefix "KAlpha" (linetype q).
Fixpoint voigt_areas (sigma : R) (l : list (R * R)) : option (list R) :=
  match l with
  | [] => Some []
  | (ph, lw) :: t =>
      match voigt 0 0 (lw / 2) sigma, voigt_areas sigma t with
      | Some v, Some r => if Req_EM_T v 0 then None else Some (ph / v :: r)
      | _, _ => None
      end
  end.
(** 385-393; arrays of different lengths cannot be multiplied (broadcasting is not modelled). *)
Definition areas (q : request) : option (list R) :=
  if (amplitude_type q =? 99999)%Z then
    match plot_fwhm q with None => None | Some f => voigt_areas (f / fwhm_over_sigma) (combine (amplitudes q) (q_widths q)) end
  else if (amplitude_type q =? 999)%Z then
    if (length (q_widths q) =? length (amplitudes q))%nat then
      Some (map (fun p => / 2 * PI * fst p * snd p) (combine (q_widths q) (amplitudes q)))
    else None
  else if (amplitude_type q =? 9999)%Z then Some (amplitudes q)
  else None.
Definition total (l : list R) : R := fold_right Rplus 0 l.
(** The registry [spectra]: names and lines in order of insertion. *)
Definition registry := list (string * line).
Definition knows (reg : registry) (n : string) : bool := existsb (fun p => String.eqb (fst p) n) reg.
Fixpoint put (reg : registry) (n : string) (l : line) : registry :=
  match reg with [] => [(n, l)] | (m, k) :: t => if String.eqb m n then (m, l) :: t else (m, k) :: put t n l end.
(** [references] are the known reference names. *)
Definition addline (references : list string) (reg : registry) (q : request) : option (line * registry) :=
  if ((amplitude_type q =? 999) || (amplitude_type q =? 9999) || (amplitude_type q =? 99999))%Z then
    if existsb (String.eqb (reference q)) references then
      if is_kalpha q && match ka12 q with None => true | Some _ => false end then None
      else
        match areas q with
        | None => None
        | Some ar =>
            if Req_EM_T (total ar) 0 then None
            else
              let l := {| energies := q_energies q; widths := q_widths q; intrinsic_sigma := q_sigma q;
                          intensities := map (fun a => a / total ar) ar |} in
              if knows reg (shortname q) && negb (allow_replacement q) then None
              else Some (l, put reg (shortname q) l)
        end
    else None
  else None.

End Voigt.

(* ---------- rvs, 139-163 ---------- *)

Section Random.
(** A generator: its state, and uniform numbers from 0 to a limit, Cauchy and normal numbers. *)
Variable state : Type.
Variable uniform : state -> R -> nat -> list R * state.
Variable cauchy normal : state -> nat -> list R * state.

Definition cumulative (l : list R) : list R := map (fun k => total (firstn (S k) l)) (seq 0 (length l)).
(** searchsorted: how many are smaller *)
Definition searchsorted (l : list R) (u : R) : nat := List.length (filter (fun c => if Rlt_dec c u then true else false) l).
Fixpoint build (l : line) (sigma : R) (us cs : list R) (ns : option (list R)) : option (list R) :=
  match us, cs with
  | u :: us, c :: cs =>
      let i := searchsorted (cumulative (intensities l)) u in
      match nth_error (widths l) i, nth_error (energies l) i,
            match ns with None => Some (0, None) | Some [] => None | Some (n :: t) => Some (n * sigma, Some t) end with
      | Some w, Some e, Some (g, ns) => match build l sigma us cs ns with None => None | Some r => Some (c * w * / 2 + g + e :: r) end
      | _, _, _ => None
      end
  | [], [] => Some []
  | _, _ => None
  end.
(** results[not_positive] = ... *)
Fixpoint replace (rs new : list R) : list R :=
  match rs with
  | [] => []
  | r :: t => if Rle_dec r 0 then match new with [] => r :: t | v :: n => v :: replace t n end else r :: replace t new
  end.
Definition bad (rs : list R) : nat := List.length (filter (fun r => if Rle_dec r 0 then true else false) rs).
(** One round from the generator state [s]. *)
Definition round (l : line) (inst : R) (s : state) (size : nat) : option (list R * state) :=
  match gaussian_sigma l inst with
  | None => None
  | Some sigma =>
      let (us, s) := uniform s (last (cumulative (intensities l)) 0) size in
      let (cs, s) := cauchy s size in
      if Rlt_dec 0 sigma then let (ns, s) := normal s size in option_map (fun r => (r, s)) (build l sigma us cs (Some ns))
      else option_map (fun r => (r, s)) (build l sigma us cs None)
  end.
(** The recursive call does not hand on the generator: it uses the module's own, [global]; [n] limits the depth. *)
Fixpoint rvs_own (n : nat) (l : line) (inst : R) (global : state) (size : nat) : option (list R * state) :=
  match n with
  | O => None
  | S n =>
      match round l inst global size with
      | None => None
      | Some (rs, global) =>
          if (bad rs =? 0)%nat then Some (rs, global)
          else match rvs_own n l inst global (bad rs) with None => None | Some (new, global) => Some (replace rs new, global) end
      end
  end.
(** With a generator given: values, then the states of both generators. *)
Definition rvs (n : nat) (l : line) (inst : R) (given global : state) (size : nat) : option (list R * state * state) :=
  match round l inst given size with
  | None => None
  | Some (rs, given) =>
      if (bad rs =? 0)%nat then Some (rs, given, global)
      else match rvs_own n l inst global (bad rs) with None => None | Some (new, global) => Some (replace rs new, given, global) end
  end.
End Random.
