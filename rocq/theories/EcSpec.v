(** Calibration points as one list. *)
From Coq Require Import Reals ZArith Ascii String Permutation List.
From Verif Require Import EcModel SplSpec DvSpec.
Import ListNotations.
Local Open Scope R_scope.
Local Open Scope list_scope.

Record point := mkPoint { p_name : string; p_ph : R; p_energy : R; p_dph : R; p_de : R }.
Definition renamed (p : point) (s : string) : point := mkPoint s (p_ph p) (p_energy p) (p_dph p) (p_de p).

(** The five lists are columns of one list of points. *)
Definition holds (c : cal) (l : list point) : Prop :=
  names c = map p_name l /\ phs c = map p_ph l /\ energies c = map p_energy l /\ dphs c = map p_dph l /\ des c = map p_de l /\ npts c = length l.
(** Changes of points leave the settings alone. *)
Definition settings_kept (c c' : cal) : Prop :=
  kind c' = kind c /\ approximate c' = approximate c /\ gpr c' = gpr c /\ nonlinearity c' = nonlinearity c.
(** np.argsort: the positions of the elements in an order that does not decrease. *)
Definition sorts (argsort : list R -> list nat) : Prop :=
  forall l, Permutation (argsort l) (seq 0 (length l)) /\
    forall i j, (i <= j < length l)%nat -> nth (nth i (argsort l) 0%nat) l 0 <= nth (nth j (argsort l) 0%nat) l 0.

Definition has_name (l : list point) (s : string) : Prop := exists q, In q l /\ p_name q = s.
Definition apart (p q : point) : R := Rabs (p_energy p - p_energy q).

(** A point takes the place of the point of the same name; if there is none, or it has no name, of the nearest in energy, if that is
    within its energy uncertainty, whose name is kept; otherwise it is new. *)
Inductive put (l : list point) (p : point) : list point -> Prop :=
  | put_named a q b : l = a ++ q :: b -> p_name p <> ""%string -> p_name q = p_name p -> ~ has_name a (p_name p) -> put l p (a ++ p :: b)
  | put_near a q b : l = a ++ q :: b -> (p_name p = ""%string \/ ~ has_name l (p_name p)) ->
      apart p q <= p_de p -> (forall r, In r a -> apart p q < apart p r) -> (forall r, In r b -> apart p q <= apart p r) ->
      put l p (a ++ renamed p (p_name q) :: b)
  | put_new : (p_name p = ""%string \/ ~ has_name l (p_name p)) -> (forall r, In r l -> p_de p < apart p r) -> put l p (l ++ [p]).
(** The point that the arguments of add_cal_point describe: a string that is not a number must be a known line, and is then the name. *)
Definition described (parse features : string -> option R) (pht : R) (energy : R + string) (name : string) (pht_error e_error : option R) (p : point) : Prop :=
  match energy with
  | inl e => p_energy p = e /\ p_name p = name
  | inr s => (parse s = Some (p_energy p) /\ p_name p = name) \/ (parse s = None /\ features s = Some (p_energy p) /\ p_name p = s)
  end /\ p_ph p = pht /\ p_dph p = match pht_error with Some x => x | None => pht / 1000 end /\ p_de p = match e_error with Some x => x | None => / 100 end.
(** There is a point whose place it takes. *)
Definition taken (l : list point) (p : point) : Prop :=
  (p_name p <> ""%string /\ has_name l (p_name p)) \/ exists q, In q l /\ apart p q <= p_de p.

(** Energies grow with pulse heights. *)
Definition increasing (l : list point) : Prop := forall p q, In p l -> In q l -> (p_ph p < p_ph q <-> p_energy p < p_energy q).
Definition not_decreasing (l : list point) : Prop := forall p q, In p l -> In q l -> p_ph p < p_ph q -> p_energy p <= p_energy q.

(** The same points in order of pulse height. *)
Definition by_height (l m : list point) : Prop :=
  Permutation m l /\ forall a p b q c, m = a ++ p :: b ++ q :: c -> p_ph p <= p_ph q.

(** Names that are not empty are not given twice. *)
Definition names_distinct (l : list point) : Prop :=
  forall a p b q c, l = a ++ p :: b ++ q :: c -> p_name p <> ""%string -> p_name p <> p_name q.

(** The name begins with the prefix. *)
Definition begins (p s : string) : Prop := exists t, s = (p ++ t)%string.
(** The same points, apart from their uncertainties. *)
Definition same_but_errors (p q : point) : Prop := p_name p = p_name q /\ p_ph p = p_ph q /\ p_energy p = p_energy q.
(** Uncertainties that are not positive are replaced by the smallest of the positive ones. *)
Definition mended (get : point -> R) (l : list point) (p q : point) : Prop :=
  (0 < get p -> get q = get p) /\
  (get p <= 0 -> (exists r, In r l /\ 0 < get r) -> exists r, In r l /\ 0 < get r /\ get q = get r /\ forall s, In s l -> 0 < get s -> get r <= get s) /\
  (get p <= 0 -> (forall r, In r l -> get r <= 0) -> get q = 0).

(** A table keyed by line energy, and what the operations do to it. *)
Definition table := R -> option point.
Definition same_table (t t' : table) : Prop := forall e, t' e = t e.
Definition updates (parse features : string -> option R) (t : table) (o : op) (t' : table) : Prop :=
  match o with
  | Add pht energy name pe ee ow =>
      (forall p, described parse features pht energy name pe ee p ->
        match t (p_energy p) with
        | Some q => if ow then t' (p_energy p) = Some (renamed p (p_name q)) else t' (p_energy p) = Some q
        | None => t' (p_energy p) = Some p
        end /\ forall e, e <> p_energy p -> t' e = t e) /\
      ((forall p, ~ described parse features pht energy name pe ee p) -> same_table t t')
  | RemoveName s => forall e, match t e with Some q => (p_name q = s -> t' e = None) /\ (p_name q <> s -> t' e = Some q) | None => t' e = None end
  | RemovePrefix s => forall e, match t e with Some q => (begins s (p_name q) -> t' e = None) /\ (~ begins s (p_name q) -> t' e = Some q) | None => t' e = None end
  | RemoveEnergy e0 de => forall e, (Rabs (e - e0) < de -> t' e = None) /\ (de <= Rabs (e - e0) -> t' e = t e)
  | _ => same_table t t'
  end.
Inductive table_after (parse features : string -> option R) : list op -> table -> Prop :=
  | no_ops t : (forall e, t e = None) -> table_after parse features [] t
  | one_more os o t t' : table_after parse features os t -> updates parse features t o t' -> table_after parse features (os ++ [o]) t'.

(** Lines that are further apart than the tolerance and have different names. *)
Definition lines (S : R -> Prop) (name : R -> string) (tol : R) : Prop := forall x y, S x -> S y -> x <> y -> tol < Rabs (x - y) /\ name x <> name y.
(** Points added are at these lines, without a name or with the name of the line, and with positive uncertainties, for the energy not larger than the tolerance;
    points removed are named, or in a window that is not wider than the tolerance. *)
Definition tidy (parse features : string -> option R) (S : R -> Prop) (name : R -> string) (tol : R) (o : op) : Prop :=
  match o with
  | Add pht energy n pe ee ow => forall p, described parse features pht energy n pe ee p ->
      S (p_energy p) /\ (p_name p = ""%string \/ p_name p = name (p_energy p)) /\ 0 < p_dph p /\ 0 < p_de p <= tol
  | RemoveName s => s <> ""%string
  | RemoveEnergy _ de => 2 * de <= tol
  | _ => True
  end.

(** Some of the points, in the same order. *)
Inductive part_of {A} : list A -> list A -> Prop :=
  | part_nil : part_of [] []
  | part_keep x l m : part_of l m -> part_of (x :: l) (x :: m)
  | part_drop x l m : part_of l m -> part_of l (x :: m).
(** What an operation does to the points. *)
Definition effect (parse features : string -> option R) (l : list point) (o : op) (m : list point) : Prop :=
  match o with
  | Add pht energy name pe ee ow =>
      (forall p, described parse features pht energy name pe ee p -> (ow = true \/ ~ taken l p -> put l p m) /\ (ow = false -> taken l p -> m = l)) /\
      ((forall p, ~ described parse features pht energy name pe ee p) -> m = l)
  | RemoveName s => (~ has_name l s /\ m = l) \/ exists a q b, l = a ++ q :: b /\ p_name q = s /\ ~ has_name a s /\ m = a ++ b
  | RemovePrefix s => exists f, (forall q, f q = true <-> ~ begins s (p_name q)) /\ m = filter f l
  | RemoveEnergy e de =>
      (forall r, In r l -> de <= Rabs (p_energy r - e)) /\ m = l \/
      (exists a q b, l = a ++ q :: b /\ Rabs (p_energy q - e) < de /\ (forall r, In r (a ++ b) -> de <= Rabs (p_energy r - e)) /\ m = a ++ b) \/
      (** only the first of several is sure to be removed, and the second to be left *)
      (exists a q b q' d w, l = a ++ q :: b ++ q' :: d /\ Rabs (p_energy q - e) < de /\ Rabs (p_energy q' - e) < de /\
        (forall r, In r (a ++ b) -> de <= Rabs (p_energy r - e)) /\ m = a ++ b ++ q' :: w /\ part_of w d)
  | Convert _ _ | Invert _ => m = l \/ exists s, by_height l s /\
      Forall2 (fun p q => same_but_errors p q /\ (m = s \/ ((3 <= length l)%nat /\ mended p_dph s p q /\ mended p_de s p q))) s m
  | _ => m = l
  end.

(** Each point is further from the earlier ones than its energy uncertainty. *)
Definition spread (l : list point) : Prop := forall a q b p d, l = a ++ q :: b ++ p :: d -> p_de p < apart p q.

(** * Curves *)

(** The natural cubic spline through points: cubic between them, straight outside, and smooth. *)
Definition natural_spline (xs ys : list R) (g : R -> R) : Prop :=
  (exists l a b c d, in_order xs ys l /\ (2 <= length l)%nat /\ is_spline l None None a b c d /\ on_interval l g a b c d /\
     (exists m, forall v, v <= px l 0 -> g v = py l 0 + m * (v - px l 0)) /\
     (exists m, forall v, px l (length l - 1) <= v -> g v = py l (length l - 1) + m * (v - px l (length l - 1)))) /\
  forall v, exists d, derivable_pt_lim g v d.

(** The energy for pulse height x. *)
Inductive energy_at : curvetype -> R -> list point -> R -> R -> Prop :=
  | at_loglog n l g x : natural_spline (map (fun p => ln (p_ph p)) l) (map (fun p => ln (p_energy p)) l) g -> / 1000000 <= x -> energy_at Loglog n l x (exp (g (ln x)))
  | at_linear n l g x : natural_spline (map p_ph l) (map p_energy l) g -> (2 <= length l)%nat -> energy_at Linear n l x (g x)
  | at_linear_0 n l g x : natural_spline (0 :: map p_ph l) (0 :: map p_energy l) g -> (2 <= length l)%nat -> energy_at LinearZero n l x (g x)
  | at_gain n l g x : natural_spline (map p_ph l) (map (fun p => p_ph p / p_energy p) l) g -> g x <> 0 -> energy_at Gain n l x (x / g x)
  | at_invgain n l g x : natural_spline (map p_ph l) (map (fun p => p_energy p / p_ph p) l) g -> energy_at Invgain n l x (x * g x)
  | at_loggain n l g x : natural_spline (map p_ph l) (map (fun p => ln (p_ph p / p_energy p)) l) g -> energy_at Loggain n l x (x * exp (- g x))
  | one_loglog n p x v : power_is (x / p_ph p) n v -> energy_at Loglog n [p] x (p_energy p * v)
  | one_gain k n p x : k = Gain \/ k = Invgain -> energy_at k n [p] x (p_energy p / p_ph p * x).

(** Points at different positive pulse heights and positive energies. *)
Definition proper (l : list point) : Prop := NoDup (map p_ph l) /\ forall p, In p l -> 0 < p_ph p /\ 0 < p_energy p.
(** Enough points for this kind of curve. *)
Definition enough (k : curvetype) (l : list point) : Prop := (2 <= length l)%nat \/ (l <> [] /\ (k = Loglog \/ k = Gain \/ k = Invgain)).
(** The gain is positive at ten times the largest pulse height, or has changed its sign since 0. *)
Definition bracketed (l : list point) : Prop :=
  (2 <= length l)%nat -> forall g, natural_spline (map p_ph l) (map (fun p => p_ph p / p_energy p) l) g ->
  forall p, In p l -> (forall q, In q l -> p_ph q <= p_ph p) -> 0 < g (10 * p_ph p) \/ g 0 * g (10 * p_ph p) <= 0.
(** Pulse heights from a fiftieth of the smallest to twice the largest. *)
Definition in_range (l : list point) (x : R) : Prop := (exists p, In p l /\ p_ph p / 50 <= x) /\ exists p, In p l /\ x <= 2 * p_ph p.
(** The curve goes through the points: smoothing splines are used for three points or more only. *)
Definition plain (c : cal) (l : list point) : Prop := approximate c = false \/ (length l < 3)%nat.
(** The states of a calibration in a program. *)
Definition reachable argsort parse features smoothing (c : cal) : Prop :=
  exists nonlin a ap g c0 os, new nonlin a ap g = Some c0 /\ c = run argsort parse features smoothing c0 os.

(** A word written with capital or small letters. *)
Inductive spelled : string -> string -> Prop :=
  | spelled_end : spelled EmptyString EmptyString
  | spelled_same c s w : spelled s w -> spelled (String c s) (String c w)
  | spelled_capital c d s w : (65 <= Ascii.nat_of_ascii c <= 90)%nat -> Ascii.nat_of_ascii d = (Ascii.nat_of_ascii c + 32)%nat -> spelled s w -> spelled (String c s) (String d w).
(** The curves, in the order of their numbers, and their names. *)
Definition curves : list (curvetype * string) :=
  [(Loglog, "loglog"); (Linear, "linear"); (LinearZero, "linear+0"); (Gain, "gain"); (Invgain, "invgain"); (Loggain, "loggain")]%string.
Definition chosen (a : type_arg) (k : curvetype) : Prop :=
  match a with
  | ByName s => exists w, In (k, w) curves /\ spelled s w
  | ByNumber i => (0 <= i)%Z /\ exists w, nth_error curves (Z.to_nat i) = Some (k, w)
  end.
