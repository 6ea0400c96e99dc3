(** Fits of line models: mass/calibration/line_models.py MLEModel.fit 166-186, _fit 188-206, LineModelResult._validate_bins_per_fwhm 399-425.
    Real numbers; lmfit's own fit is an argument.  Messages and other arguments of lmfit's fit are left out. *)
From Coq Require Import Reals String Bool List.
From Verif Require Import SpcModel.
Import ListNotations.
Open Scope R_scope.

(** A component of the model: its prefix and, for line models, its line *)
Record part := mkPart { pprefix : string; pspect : option line }.
Section Fit.
(** [P]: sets of parameters; [W]: weights *)
Variables P W : Type.
(** The value of a parameter by name; [None] if there is none *)
Variable value : P -> string -> option R.
Record result := mkResult { success : bool; errorbars : bool; rparams : P }.
(** lmfit.Model.fit with a method, starting parameters and weights; an exception is [None]. *)
Variable lmfit : string -> option P -> option W -> option result.
Inductive exn := Weights | External | NoBins | NoSpect | TooLarge.
Inductive outcome := Fitted (r : result) | Raised (e : exn).
(** Where starting parameters are given: not at all, by position, or by name (possibly None) *)
Inductive start := NoStart | ByPosition (p : option P) | ByName (p : option P).
Definition start_of (s : start) : option P := match s with NoStart => None | ByPosition p | ByName p => p end.
Definition restart (s : start) (p : P) : start := match s with NoStart => NoStart | ByPosition _ => ByPosition (Some p) | ByName _ => ByName (Some p) end.

(** 188-206 *)
Definition inner (method : string) (s : start) (w : option W) : option result :=
  if String.eqb method "leastsq_refit" then
    match lmfit "leastsq" (start_of s) w with
    | None => None
    | Some r0 => if success r0 && errorbars r0 then Some r0 else lmfit "least_squares" (start_of (restart s (rparams r0))) w
    end
  else lmfit method (start_of s) w.

(** 399-425.  The bins given to the fit, if any; dividing by a dph_de of 0 gives an infinite size and then 0 bins per width (for bins of some
    size).  [Some e]: raised *)
Definition too_few (m bins dph inst : R) (l : line) : option bool :=
  match minimum_fwhm l inst with
  | None => None
  | Some f => Some (if Rlt_dec (f / (bins / dph)) m then true else false)
  end.
Fixpoint check_parts (m bins : R) (p : P) (l : list part) : option exn :=
  match l with
  | [] => None
  | c :: t =>
      match value p (pprefix c ++ "dph_de"), value p (pprefix c ++ "fwhm") with
      | Some d, Some f =>
          match pspect c with
          | None => Some NoSpect
          | Some s => match too_few m bins d f s with None => Some NoSpect | Some true => Some TooLarge | Some false => check_parts m bins p t end
          end
      | _, _ => check_parts m bins p t
      end
  end.
Definition validate (flag : bool) (bins : option (list R)) (m : R) (p : P) (l : list part) : option exn :=
  match bins with
  | None => None
  | Some b => if flag then match b with b0 :: b1 :: _ => check_parts m (b1 - b0) p l | _ => Some NoBins end else None
  end.
(** 166-186.  [method], [minimum]: None if not given; [kw_w]: weights by name, [pos_w]: by position *)
Definition fit (flag : bool) (l : list part) (bins : option (list R)) (method : option string) (minimum : option R) (s : start) (kw_w pos_w : option W) : outcome :=
  let meth := match method with None => "least_squares"%string | Some x => x end in
  let m := match minimum with None => 3 | Some x => x end in
  match kw_w with
  | Some _ => Raised Weights
  | None =>
      match inner meth s pos_w with
      | None => Raised External
      | Some r => match validate flag bins m (rparams r) l with Some e => Raised e | None => Fitted r end
      end
  end.
End Fit.
