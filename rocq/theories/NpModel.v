(** Channels made of arrays: mass/off/channels.py ChannelFromNpArray 1447-1536 and ChannelGroupFromNpArrays 1539-1556, mass/off/recipe_classes.py
    (TruesOfSameSize, Subtract, Add, SubtractThenScale, DivideTwo, ScalarMultAndTurnToInt64; MatMulAB_FixedB is in FlModel), on top of RecModel.
    Exact rationals; [None] is an exception.  An array is its fields and its rows. *)
From Coq Require Import ZArith QArith Qround Qcanon String Bool List.
From Verif Require Import RecModel.
Import ListNotations.
Local Open Scope string_scope.

Definition row := name -> Qc.
Record array := mkArray { fields : list name; rows : list row }.
(** What recipes compute: columns of numbers or of booleans *)
Inductive val := Nums (l : list Qc) | Bools (l : list bool).
Definition vlen (v : val) : nat := match v with Nums l => length l | Bools l => length l end.

(** recipe_classes.py 6-8, 12-24, 47-57, 60-71.  Numbers are taken to int64 by truncation, before the multiplication. *)
Definition trues : fn val := mkFn ["x"] (fun a => match a with [v] => Some (Bools (repeat true (vlen v))) | _ => None end).
Definition on_nums (p : name) (f : Qc -> Qc) : fn val := mkFn [p] (fun a => match a with [Nums l] => Some (Nums (map f l)) | _ => None end).
Definition subtract (r : Qc) : fn val := on_nums "left" (fun x => x - r)%Qc.
Definition add_to (r : Qc) : fn val := on_nums "left" (fun x => x + r)%Qc.
Definition subtract_then_scale (sub scale : Qc) : fn val := on_nums "x" (fun x => scale * (x - sub))%Qc.
Definition trunc (q : Qc) : Z := if Qle_bool 0 (this q) then Qfloor (this q) else (- Qfloor (- this q))%Z.
Definition mult_int64 (m : Qc) : fn val := on_nums "x" (fun x => Q2Qc (inject_Z (trunc x)) * m)%Qc.
(** x / y of columns of the same length; division by zero (infinite in the code) is left out. *)
Definition divide_two : fn val :=
  mkFn ["x"; "y"] (fun a => match a with
                            | [Nums l; Nums r] => if Nat.eqb (length l) (length r) && forallb (fun y => negb (Qc_eq_bool y 0)) r then Some (Nums (map (fun p => fst p / snd p)%Qc (combine l r))) else None
                            | _ => None
                            end).

Definition billion : Qc := Q2Qc (inject_Z 1000000000).
(** 1463-1480: the recipes; the first record is looked at before anything is added. *)
Definition default_defs (a : array) : option (list (def val)) :=
  if has (fields a) "p_timestamp" then
    match rows a with
    | [] => None
    | r0 :: _ =>
        Some ([mkDef "relTimeSec" (subtract (r0 "p_timestamp")) (Some ["p_timestamp"]) false; mkDef "cutNone" trues (Some ["p_timestamp"]) false]
              ++ (if has (fields a) "unixnano" then [] else [mkDef "unixnano" (mult_int64 billion) (Some ["p_timestamp"]) false]))%list
    end
  else match fields a with [] => None | f :: _ => Some [mkDef "cutNone" trues (Some [f]) false] end.
Record channel := mkChannel { arr : array; recipes : book val; default_cut : name; channum : Z; bad : bool }.
(** 1448-1461 *)
Definition new_channel (a : array) (num : Z) : option channel :=
  match default_defs a with
  | None => None
  | Some ds => match adds (fields a) [] ds with None => None | Some b => Some (mkChannel a b "cutNone" num false) end
  end.
Definition column (fs : list name) (r : list row) (k : name) : option val := if has fs k then Some (Nums (map (fun w => w k) r)) else None.
Definition vneg (v : val) : val := match v with Bools l => Bools (map negb l) | Nums l => Bools (map (fun x => Qc_eq_bool x 0) l) end.
(** The cut of some records, as booleans (indexing with numbers is left out). *)
Definition cut_of (c : channel) (n : name) (r : list row) : option (list bool) :=
  match craft vneg (recipes c) (column (fields (arr c)) r) n with Some (Bools l) => Some l | _ => None end.
(** 1488-1532.  NoCutInds gives the array itself. *)
Inductive indices := Slice (s : nat * nat) | Slices (l : list (nat * nat)) | NoCut.
Definition zero_row : row := fun _ => 0%Qc.
Definition index_with_cuts (c : channel) (i : indices) (cut : option name) : option (list row) :=
  let n := match cut with None => default_cut c | Some n => n end in
  match i with
  | Slice s => index_slice (cut_of c n) (rows (arr c)) s
  | Slices l => index_list zero_row (cut_of c n) (rows (arr c)) l
  | NoCut => Some (rows (arr c))
  end.
(** The values of a recipe or field at the records chosen (channels.py 445-456) *)
Definition attr (c : channel) (n : name) (i : indices) (cut : option name) : option val :=
  match index_with_cuts c i cut with None => None | Some r => get_attr vneg (recipes c) (column (fields (arr c)) r) n end.

(** 1539-1550: assignments to the keys of an ordered dictionary; then the first good channel's default cut (IndexError without one) *)
Fixpoint gset (g : list (Z * channel)) (c : channel) : list (Z * channel) :=
  match g with [] => [(channum c, c)] | (k, d) :: t => if Z.eqb k (channum c) then (k, c) :: t else (k, d) :: gset t c end.
Definition group_of (cs : list channel) : option (list (Z * channel) * name) :=
  let g := fold_left gset cs [] in
  match filter (fun e => negb (bad (snd e))) g with [] => None | e :: _ => Some (g, default_cut (snd e)) end.
