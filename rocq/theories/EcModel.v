(** EnergyCalibration, mass/calibration/energy_calibration.py, over the real numbers (rounding and not-a-number are not modelled).
    An exception is [false] beside the object as it is left. *)
From Coq Require Import Reals ZArith Bool Ascii String List.
From Verif Require Import EntModel SplModel DvModel.
Import ListNotations.
Local Open Scope R_scope.
Local Open Scope list_scope.

(** CURVETYPE, 85-92. *)
Inductive curvetype := Loglog | Linear | LinearZero | Gain | Invgain | Loggain.
Definition all_types : list curvetype := [Loglog; Linear; LinearZero; Gain; Invgain; Loggain].
Definition curvename (k : curvetype) : string :=
  match k with
  | Loglog => "loglog" | Linear => "linear" | LinearZero => "linear+0" | Gain => "gain" | Invgain => "invgain" | Loggain => "loggain"
  end%string.
Definition same_type (a b : curvetype) : bool := String.eqb (curvename a) (curvename b).
(** str.lower on ASCII letters *)
Definition lower_ascii (c : ascii) : ascii :=
  let n := nat_of_ascii c in if ((65 <=? n) && (n <=? 90))%nat then ascii_of_nat (n + 32) else c.
Fixpoint lower (s : string) : string := match s with EmptyString => EmptyString | String c t => String (lower_ascii c) (lower t) end.
Inductive type_arg := ByName (s : string) | ByNumber (i : Z).
(** 263-271: CURVETYPE.index, or the number itself. *)
Definition type_of (a : type_arg) : option curvetype :=
  match a with
  | ByName s => find (fun k => String.eqb (curvename k) (lower s)) all_types
  | ByNumber i => if (0 <=? i)%Z && (i <? 6)%Z then nth_error all_types (Z.to_nat i) else None
  end.

(** A curve: the value for a pulse height and an order of derivative. *)
Definition curve := R -> nat -> option R.

(** The object.  [fresh] is [not _model_is_stale]; [ph2e] and [e2ph] are the cached curves.  _max_ph is not modelled. *)
Record cal := mkCal {
  names : list string; phs : list R; energies : list R; dphs : list R; des : list R; npts : nat;
  kind : curvetype; approximate : bool; gpr : bool; fresh : bool; nonlinearity : R; ph2e : curve; e2ph : R -> option R }.

Definition with_points (c : cal) n p e dp d k f : cal :=
  mkCal n p e dp d k (kind c) (approximate c) (gpr c) f (nonlinearity c) (ph2e c) (e2ph c).
Definition set_fresh (c : cal) (f : bool) : cal := with_points c (names c) (phs c) (energies c) (dphs c) (des c) (npts c) f.
Definition stale (c : cal) : cal := set_fresh c false.

(** 125-129 *)
Definition default_ph2e : curve := fun x der => if (0 <? der)%nat then Some 0 else Some x.

(** 243-247 *)
Definition set_nonlinearity (c : cal) (powerlaw : R) : cal :=
  mkCal (names c) (phs c) (energies c) (dphs c) (des c) (npts c) (kind c) (approximate c) (gpr c)
    (fresh c && negb (same_type (kind c) Loglog && negb (req powerlaw (nonlinearity c)))) powerlaw (ph2e c) (e2ph c).
(** 249-255 *)
Definition set_use_approximation (c : cal) (b : bool) : cal :=
  mkCal (names c) (phs c) (energies c) (dphs c) (des c) (npts c) (kind c) b (gpr c) (fresh c && Bool.eqb b (approximate c))
    (nonlinearity c) (ph2e c) (e2ph c).
(** 257-260 *)
Definition set_GPR (c : cal) (b : bool) : cal :=
  mkCal (names c) (phs c) (energies c) (dphs c) (des c) (npts c) (kind c) (approximate c) b (fresh c && Bool.eqb b (gpr c))
    (nonlinearity c) (ph2e c) (e2ph c).
(** 262-275 *)
Definition set_curvetype (c : cal) (a : type_arg) : cal * bool :=
  match type_of a with
  | None => (c, false)
  | Some k =>
      (mkCal (names c) (phs c) (energies c) (dphs c) (des c) (npts c) k (approximate c) (gpr c) (fresh c && same_type k (kind c))
         (nonlinearity c) (ph2e c) (e2ph c), true)
  end.

(** The constructor, 94-124.  (_model_is_stale is set to False after set_curvetype.) *)
Definition new (nonlin : R) (a : type_arg) (approx useGPR : bool) : option cal :=
  match type_of a with
  | None => None
  | Some k => Some (set_nonlinearity (mkCal [] [] [] [] [] 0 k approx useGPR true nonlin default_ph2e (fun e => Some e)) (115 / 100))
  end.

(** copy, 280-293 *)
Definition copy (c : cal) : cal := stale c.

(** * Points *)

(** np.hstack((a[:i], a[i+1:])) and list.pop *)
Definition without {A} (i : nat) (l : list A) : list A := firstn i l ++ skipn (S i) l.
Fixpoint set_nth {A} (i : nat) (v : A) (l : list A) : list A :=
  match l, i with [], _ => [] | _ :: t, O => v :: t | x :: t, S j => x :: set_nth j v t end.
Fixpoint index_of (s : string) (l : list string) : option nat :=
  match l with [] => None | x :: t => if String.eqb s x then Some 0%nat else option_map S (index_of s t) end.

(** _remove_cal_point_idx, 295-303: an IndexError of list.pop leaves everything as it was. *)
Definition remove_idx (c : cal) (i : nat) : cal * bool :=
  if (i <? length (names c))%nat
  then (with_points c (without i (names c)) (without i (phs c)) (without i (energies c)) (without i (dphs c)) (without i (des c)) (npts c - 1) false, true)
  else (c, false).
(** 305-308 *)
Definition remove_name (c : cal) (s : string) : cal * bool :=
  match index_of s (names c) with Some i => remove_idx c i | None => (c, false) end.
(** 310-314; the loop is over the names at the start. *)
Fixpoint starts_with (p s : string) : bool :=
  match p, s with
  | EmptyString, _ => true
  | String a p', String b s' => Ascii.eqb a b && starts_with p' s'
  | _, _ => false
  end.
Fixpoint remove_names (c : cal) (l : list string) : cal * bool :=
  match l with [] => (c, true) | s :: t => match remove_name c s with (c', true) => remove_names c' t | r => r end end.
Definition remove_prefix (c : cal) (p : string) : cal * bool := remove_names c (filter (starts_with p) (names c)).
(** 316-321: the indices are found before the first removal. *)
Fixpoint positions (f : R -> bool) (i : nat) (l : list R) : list nat :=
  match l with [] => [] | x :: t => if f x then i :: positions f (S i) t else positions f (S i) t end.
Fixpoint remove_idxs (c : cal) (l : list nat) : cal * bool :=
  match l with [] => (c, true) | i :: t => match remove_idx c i with (c', true) => remove_idxs c' t | r => r end end.
Definition remove_energy (c : cal) (energy de : R) : cal * bool :=
  remove_idxs c (positions (fun e => rltb (Rabs (e - energy)) de) 0 (energies c)).

(** np.abs(energy - energies).argmin(): the first of the nearest. *)
Fixpoint nearest (e : R) (l : list R) : option (nat * R) :=
  match l with
  | [] => None
  | x :: t =>
      let d := Rabs (e - x) in
      match nearest e t with
      | Some (i, m) => if rleb d m then Some (0%nat, d) else Some (S i, m)
      | None => Some (0%nat, d)
      end
  end.

(** * Curves *)

(** np.linspace *)
Definition linspace (a b : R) (n : nat) : list R :=
  if (n =? 1)%nat then [a] else map (fun i => a + INR i * ((b - a) / INR (n - 1))) (seq 0 n).
(** int(x): towards zero *)
Definition int_of (x : R) : Z := if rleb 0 x then Int_part x else (- Int_part (- x))%Z.
(** 439-446 (and 601-608): the pulse heights at which the inverse curve is fixed. [None]: division by zero, or a negative number of points. *)
Fixpoint between (l : list R) : option (list R) :=
  match l with
  | a :: ((b :: _) as t) =>
      if req a 0 then None
      else let n := (2 + int_of (5 / 10 + (b / a - 1) * 100))%Z in
           if (n <? 0)%Z then None
           else match between t with Some r => Some (skipn 1 (linspace a b (Z.to_nat n)) ++ r) | None => None end
  | _ => Some []
  end.
Definition sample_points (l : list R) : option (list R) :=
  match l with
  | [] => None
  | a :: _ =>
      match between l with
      | Some m => let z := last l 0 in Some (skipn 1 (linspace 0 a 51) ++ m ++ skipn 1 (linspace z (2 * z) 101))
      | None => None
      end
  end.

(** CubicSplineFunction(x, y) *)
Definition spline_fn (x y : list R) : option fn := match make_spline x y None None with Some s => Some (Spl s 0) | None => None end.
Fixpoint zip_with (f : R -> R -> R) (a b : list R) : list R :=
  match a, b with x :: s, y :: t => f x y :: zip_with f s t | _, _ => [] end.
Definition has_zero (l : list R) : bool := existsb (fun x => req 0 x) l.
(** The curve, 539-599; None: an exception. *)
Definition exact_curve (k : curvetype) (nonlin : R) (p e : list R) : option fn :=
  match p, e with
  | [], _ => Some Id
  | [p1], e1 :: _ =>
      match k with
      | Loglog => Some (number_mul e1 (raised (div_number Id p1) nonlin))
      | Gain | Invgain => Some (number_mul (e1 / p1) Id)
      | _ => None
      end
  | _, _ =>
      match k with
      | Loglog => option_map (fun s => comp (comp Exp s) Log) (spline_fn (map ln p) (map ln e))
      | Linear => spline_fn p e
      | LinearZero => if has_zero p then spline_fn p e else spline_fn (0 :: p) (0 :: e)
      | Gain => option_map (fun s => div Id s) (spline_fn p (zip_with Rdiv p e))
      | Invgain => option_map (fun s => mult Id s) (spline_fn p (zip_with Rdiv e p))
      | Loggain => option_map (fun s => mult Id (comp Exp (neg s))) (spline_fn p (map ln (zip_with Rdiv p e)))
      end
  end.
(** 578-583: with a gain curve, brentq raises unless the spline has different signs at 0 and ten times the largest pulse height. *)
Definition rmax_list (l : list R) : R := fold_right Rmax (hd 0 l) l.
Definition gain_ok (k : curvetype) (p e : list R) : bool :=
  match k, p with
  | Gain, _ :: _ :: _ =>
      match make_spline p (zip_with Rdiv p e) None None with
      | Some s => let t := spline_at s 0 (10 * rmax_list p) in rltb 0 t || rleb (spline_at s 0 0 * t) 0
      | None => true
      end
  | _, _ => true
  end.
(** 451: the inverse; not modelled when a value of the curve is infinite or not a number. *)
Fixpoint all_some (l : list (option R)) : option (list R) :=
  match l with
  | [] => Some []
  | Some x :: t => option_map (cons x) (all_some t)
  | None :: _ => None
  end.
Definition inverse_curve (f : curve) (pts : list R) : R -> option R :=
  match all_some (map (fun p => f p 0%nat) pts) with
  | Some es => match make_spline es pts None None with Some s => fun x => Some (spline_at s 0 x) | None => fun _ => None end
  | None => fun _ => None
  end.

(** 460-469: errors that are not positive are replaced. *)
Definition rmin_list (l : list R) : R := fold_right Rmin (hd 0 l) l.
Definition positive_errors (l : list R) : list R :=
  let pos := filter (fun x => rltb 0 x) l in
  if existsb (fun x => rleb x 0) l then
    match pos with [] => map (fun _ => 0) l | _ => map (fun x => if rleb x 0 then rmin_list pos else x) l end
  else l.

Section World.
(** np.argsort; its contract is in EcSpec. *)
Variable argsort : list R -> list nat.
(** float(s) of a string, [None] for a ValueError, and STANDARD_FEATURES. *)
Variable parse : string -> option R.
Variable features : string -> option R.
(** The smoothing splines of _update_approximators, from the settings and the points. *)
Variable smoothing : curvetype -> bool -> list R -> list R -> list R -> list R -> option curve.

(** add_cal_point, 323-398.  [energy] may be a number or a string. *)
Definition add_point (c : cal) (pht : R) (energy : R + string) (name : string) (pht_error e_error : option R) (overwrite : bool) : cal * bool :=
  let known := match energy with
               | inl e => Some (e, name)
               | inr s => match parse s with
                          | Some e => Some (e, name)
                          | None => match features s with Some e => Some (e, s) | None => None end
                          end
               end in
  match known with
  | None => (stale c, false)
  | Some (e, name) =>
      let dp := match pht_error with Some x => x | None => pht * (1 / 1000) end in
      let d := match e_error with Some x => x | None => 1 / 100 end in
      let found := if String.eqb name "" then None else index_of name (names c) in
      let target := match found with
                    | Some i => Some i
                    | None => if (0 <? npts c)%nat then match nearest e (energies c) with Some (i, m) => if rleb m d then Some i else None | None => None end else None
                    end in
      match target with
      | Some i =>
          if overwrite then
            let c' := with_points c (names c) (set_nth i pht (phs c)) (set_nth i e (energies c)) (set_nth i dp (dphs c)) (set_nth i d (des c)) (length (phs c)) false in
            (c', if list_eq_dec Nat.eq_dec (argsort (phs c')) (argsort (energies c')) then true else false)
          else (stale c, false)
      | None =>
          let c' := with_points c (names c ++ [name]) (phs c ++ [pht]) (energies c ++ [e]) (dphs c ++ [dp]) (des c ++ [d]) (S (length (phs c))) false in
          (c', if list_eq_dec Nat.eq_dec (argsort (phs c')) (argsort (energies c')) then true else false)
      end
  end.

(** _update_converters, 422-452 *)
Definition picked {A} (d : A) (l : list A) (order : list nat) : list A := map (fun i => nth i l d) order.
Definition sorted_points (c : cal) : cal :=
  let o := argsort (phs c) in
  with_points c (picked EmptyString (names c) o) (picked 0 (phs c) o) (picked 0 (energies c) o) (picked 0 (dphs c) o) (picked 0 (des c) o) (npts c) (fresh c).
Definition converted (c : cal) (f : curve) (pts : list R) : cal :=
  mkCal (names c) (phs c) (energies c) (dphs c) (des c) (npts c) (kind c) (approximate c) (gpr c) true (nonlinearity c) f (inverse_curve f pts).
Definition update_converters (c : cal) : cal * bool :=
  let c := sorted_points c in
  match sample_points (phs c) with
  | None => (c, false)
  | Some pts =>
      if approximate c && (3 <=? npts c)%nat then
        let c := with_points c (names c) (phs c) (energies c) (positive_errors (dphs c)) (positive_errors (des c)) (npts c) (fresh c) in
        match smoothing (kind c) (gpr c) (phs c) (energies c) (dphs c) (des c) with
        | Some f => (converted c f pts, true)
        | None => (c, false)
        end
      else
        match exact_curve (kind c) (nonlinearity c) (phs c) (energies c) with
        | Some f => if gain_ok (kind c) (phs c) (energies c) then (converted c (call f) pts, true) else (c, false)
        | None => (c, false)
        end
  end.

(** ph2energy for a number and for an array, 134-156; energy2ph, 158-174. *)
Definition refreshed (c : cal) : cal * bool := if fresh c then (c, true) else update_converters c.
Definition ph2energy (c : cal) (x : R) (der : nat) : cal * option (option R) :=
  match refreshed c with (c', true) => (c', Some (ph2e c' x der)) | (c', false) => (c', None) end.
Definition ph2energy_array (c : cal) (l : list R) (der : nat) : cal * option (list R) :=
  match refreshed c with
  | (c', true) => (c', Some (map (fun x => match ph2e c' x der with Some e => e | None => 0 end) l))
  | (c', false) => (c', None)
  end.
Definition energy2ph (c : cal) (x : R) : cal * option (option R) :=
  match refreshed c with (c', true) => (c', Some (e2ph c' x)) | (c', false) => (c', None) end.

(** drop_one_errors, 726-738; [None]: an exception. *)
Definition drop_one (c : cal) (i : nat) : option (option R) :=
  match remove_idx (copy c) i with
  | (c2, true) => match snd (ph2energy c2 (nth i (phs c) 0) 0) with Some (Some e) => Some (Some (e - nth i (energies c) 0)) | Some None => Some None | None => None end
  | (_, false) => None
  end.
Fixpoint all_done {A} (l : list (option A)) : option (list A) :=
  match l with [] => Some [] | Some x :: t => option_map (cons x) (all_done t) | None :: _ => None end.
Definition drop_one_errors (c : cal) : option (list R * list (option R)) :=
  match all_done (map (drop_one c) (seq 0 (npts c))) with
  | Some ds => let perm := argsort (energies c) in Some (picked 0 (energies c) perm, picked None ds perm)
  | None => None
  end.

(** * Files *)

(** What save_to_hdf5 writes, 740-752; the group is replaced if it exists. *)
Record group := mkGroup {
  g_names : list string; g_ph : list R; g_energy : list R; g_dph : list R; g_de : list R;
  g_nonlinearity : R; g_curvetype : string; g_approximate : bool }.
Definition save (c : cal) : group :=
  mkGroup (names c) (phs c) (energies c) (dphs c) (des c) (nonlinearity c) (curvename (kind c)) (approximate c).
Fixpoint zip5 (n : list string) (p e dp d : list R) : list (string * R * R * R * R) :=
  match n, p, e, dp, d with
  | a :: n', b :: p', x :: e', y :: dp', z :: d' => (a, b, x, y, z) :: zip5 n' p' e' dp' d'
  | _, _, _, _, _ => []
  end.
Fixpoint add_all (c : cal) (l : list (string * R * R * R * R)) : option cal :=
  match l with
  | [] => Some c
  | (n, p, e, dp, d) :: t => match add_point c p (inl e) n (Some dp) (Some d) true with (c', true) => add_all c' t | _ => None end
  end.
(** load_from_hdf5, 754-770 *)
Definition load (g : group) : option cal :=
  match new (g_nonlinearity g) (ByName (g_curvetype g)) (g_approximate g) true with
  | Some c => add_all c (zip5 (g_names g) (g_ph g) (g_energy g) (g_dph g) (g_de g))
  | None => None
  end.

(** * What a program may do with a calibration; it goes on after an exception. *)
Inductive op :=
  | Add (pht : R) (energy : R + string) (name : string) (pht_error e_error : option R) (overwrite : bool)
  | RemoveName (name : string) | RemovePrefix (prefix : string) | RemoveEnergy (energy de : R)
  | SetNonlinearity (powerlaw : R) | SetApproximation (b : bool) | SetGPR (b : bool) | SetCurvetype (a : type_arg)
  | Convert (x : R) (der : nat) | Invert (energy : R).
Definition step (c : cal) (o : op) : cal :=
  match o with
  | Add pht energy name pe ee ow => fst (add_point c pht energy name pe ee ow)
  | RemoveName s => fst (remove_name c s)
  | RemovePrefix p => fst (remove_prefix c p)
  | RemoveEnergy e de => fst (remove_energy c e de)
  | SetNonlinearity n => set_nonlinearity c n
  | SetApproximation b => set_use_approximation c b
  | SetGPR b => set_GPR c b
  | SetCurvetype a => fst (set_curvetype c a)
  | Convert x der => fst (ph2energy c x der)
  | Invert e => fst (energy2ph c e)
  end.
Definition run (c : cal) (os : list op) : cal := fold_left step os c.
End World.
