(** Parameters in dictionaries: mass/core/param_dict_base.py PrmDictBase 26-215, mass/core/controller.py AnalysisControl 12-56, standardControl 59-75.
    [V] are Python's values, [T] its types, [typeof] the type of a value and [sub a b] whether type [a] is [b] or derived from it.  Dictionaries
    are lists of pairs in the order of insertion.  Printing, properties (170-180) and dicts2namespace2 (197-202, exec) are not modelled. *)
From Coq Require Import String Bool List.
Import ListNotations.
Open Scope string_scope.

Section Dict.
Context {V : Type}.
Definition dict := list (string * V).
Fixpoint get (d : dict) (k : string) : option V := match d with [] => None | (k', v) :: t => if String.eqb k k' then Some v else get t k end.
Definition has (d : dict) (k : string) : bool := match get d k with Some _ => true | None => false end.
Fixpoint put (d : dict) (k : string) (v : V) : dict :=
  match d with [] => [(k, v)] | (k', v') :: t => if String.eqb k k' then (k', v) :: t else (k', v') :: put t k v end.
Definition del (d : dict) (k : string) : dict := filter (fun e => negb (String.eqb k (fst e))) d.
End Dict.
Arguments dict : clear implicits.

Section Prm.
Variables V T : Type.
Variable typeof : V -> T.
Variable sub : T -> T -> bool.
(** What _type_check holds: a boolean or another integer (whether it is not 0), a type or a tuple of types, a list, or something else *)
Inductive check := Flag (b : bool) | Types (l : list T) | ListOfTypes | OtherCheck.
Record params := mkParams { prms : list (dict V); user : option (dict V); checks : dict check }.

(** set_in_dict, 125-163: the new dictionary, or False, or TypeError.  isinstance(value, (type, None)) is true if the type fits and otherwise
    raises TypeError, so the lines 144-146 are never reached; isinstance(value, list) always raises. *)
Inductive attempt := Put (d : dict V) | No | TypeError.
Definition set_in_dict (tc : dict check) (k : string) (v : V) (d : dict V) : attempt :=
  match get d k with
  | None => No
  | Some old =>
      match get tc k with
      | None => Put (put d k v)
      | Some (Flag false) => No
      | Some (Flag true) => if sub (typeof v) (typeof old) then Put (put d k v) else TypeError
      | Some (Types l) => if existsb (sub (typeof v)) l then Put (put d k v) else TypeError
      | Some ListOfTypes => TypeError
      | Some OtherCheck => TypeError
      end
  end.
(** set, 96-123.  An exception leaves the state it met; TypeError ends the program (113-115). *)
Inductive exn := ValueError | NameError | Exit.
Inductive loop := Found (l : list (dict V)) | NotFound | Fail (e : exn).
Fixpoint set_first (tc : dict check) (k : string) (v : V) (l : list (dict V)) : loop :=
  match l with
  | [] => NotFound
  | d :: t =>
      match d with
      | [] => Fail ValueError
      | _ => match set_in_dict tc k v d with
             | Put d' => Found (d' :: t)
             | TypeError => Fail Exit
             | No => match set_first tc k v t with Found t' => Found (d :: t') | o => o end
             end
      end
  end.
Definition set_one (p : params) (k : string) (v : V) : params * option exn :=
  match set_first (checks p) k v (prms p) with
  | Found l => (mkParams l (user p) (checks p), None)
  | Fail e => (p, Some e)
  | NotFound => match user p with
                | Some u => (mkParams (prms p) (Some (put u k v)) (checks p), None)
                | None => (p, Some NameError)
                end
  end.
Fixpoint set_all (p : params) (kw : list (string * V)) : params * option exn :=
  match kw with
  | [] => (p, None)
  | (k, v) :: t => match set_one p k v with (p', None) => set_all p' t | r => r end
  end.

(** dicts2namespace, 183-194 *)
Definition update (ns d : dict V) : dict V := fold_left (fun a e => put a (fst e) (snd e)) d ns.
Definition update_new (ns d : dict V) : dict V := fold_left (fun a e => if has a (fst e) then a else put a (fst e) (snd e)) d ns.
Definition dicts2namespace (overwrite : bool) (ns : dict V) (ds : list (dict V)) : dict V :=
  fold_left (fun a d => if overwrite then update a d else update_new a d) ds ns.
(** namespace2dicts, 205-215: all dictionaries with the key get the value; deleting a key twice raises KeyError ([false]). *)
Definition put_where (d : dict V) (k : string) (v : V) : dict V := if has d k then put d k v else d.
Definition marked (ns : dict V) (ds : list (dict V)) : list string := flat_map (fun e => flat_map (fun d => if has d (fst e) then [fst e] else []) ds) ns.
Fixpoint del_all (ns : dict V) (l : list string) : dict V * bool :=
  match l with [] => (ns, true) | k :: t => if has ns k then del_all (del ns k) t else (ns, false) end.
Definition namespace2dicts (ns : dict V) (ds : list (dict V)) : list (dict V) * (dict V * bool) :=
  (map (fun d => fold_left (fun a e => put_where a (fst e) (snd e)) ns d) ds, del_all ns (marked ns ds)).
End Prm.

(** AnalysisControl, 15-56: the parameters, all None at first, no checks, no other parameters *)
Definition cut_names : list string :=
  ["peak_value"; "peak_time_ms"; "rise_time_ms"; "postpeak_deriv"; "pretrigger_rms"; "pretrigger_mean"; "pulse_average"; "min_value"; "timestamp_sec";
   "pretrigger_mean_departure_from_median"; "timestamp_diff_sec"; "subframecount_diff_sec"; "energy"].
Definition analysis_names : list string := ["pulse_averaging_ranges"].
Section Control.
Variables V T : Type.
Variable typeof : V -> T.
Variable sub : T -> T -> bool.
Variable none : V.
Definition fresh : params V T := mkParams V T [map (fun k => (k, none)) cut_names; map (fun k => (k, none)) analysis_names] None [].
Definition control (kw : list (string * V)) : params V T * option exn := set_all V T typeof sub fresh kw.
End Control.
