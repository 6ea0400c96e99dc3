(** Recipes (mass/off/util.py) and the selection of records by slices and cuts
    (mass/off/channels.py).  Values and functions are arbitrary; [None] is an exception. *)
From Coq Require Import ZArith Ascii String Bool List.
From Verif Require Import LjhModel StModel.
Import ListNotations.
Local Open Scope string_scope.

Definition name := string.

(** A Python function: the parameter names given by [inspect.signature], and its value on
    positional arguments. *)
Record fn (V : Type) := mkFn { params : list name; call : list V -> option V }.
Arguments mkFn {V} _ _. Arguments params {V} _. Arguments call {V} _ _.

(** util.py:160-188, class [Recipe]: the function and, in the order of the dictionary i2a, the
    ingredients with the recipe of each that is not a base ingredient. *)
Inductive recipe (V : Type) := Recipe (f : fn V) (i2a : list (name * option (recipe V))).
Arguments Recipe {V} _ _.

Fixpoint sequence {A : Type} (l : list (option A)) : option (list A) :=
  match l with
  | [] => Some []
  | None :: _ => None
  | Some x :: t => match sequence t with Some t' => Some (x :: t') | None => None end
  end.

(** util.py:190-205, [Recipe.__call__]; [look k] is [ingredientSource[k]], and for "coefs" that
    of the view with the other dtype. *)
Fixpoint run {V : Type} (look : name -> option V) (r : recipe V) : option V :=
  match r with
  | Recipe f l =>
      match sequence (map (fun p => match snd p with Some r' => run look r' | None => look (fst p) end) l) with
      | Some args => call f args
      | None => None
      end
  end.

Definition book (V : Type) := list (name * recipe V).
Fixpoint bget {V : Type} (b : book V) (n : name) : option (recipe V) :=
  match b with
  | [] => None
  | (k, r) :: t => if String.eqb k n then Some r else bget t n
  end.
(** Assignment to a key of an ordered dictionary: a key present keeps its place. *)
Fixpoint bset {V : Type} (b : book V) (n : name) (r : recipe V) : book V :=
  match b with
  | [] => [(n, r)]
  | (k, s) :: t => if String.eqb k n then (k, r) :: t else (k, s) :: bset t n r
  end.

Definition has (l : list name) (n : name) : bool := existsb (String.eqb n) l.
(** list.remove, of the first occurrence *)
Fixpoint remove1 (n : name) (l : list name) : list name :=
  match l with [] => [] | x :: t => if String.eqb x n then t else x :: remove1 n t end.
(** The keys after assigning to each of the list in turn. *)
Fixpoint keys_of (acc l : list name) : list name :=
  match l with [] => acc | x :: t => if has acc x then keys_of acc t else keys_of (acc ++ [x])%list t end.

(** util.py:60-61 *)
Definition arg_names {V : Type} (f : fn V) : list name :=
  if has (params f) "self" then remove1 "self" (params f) else params f.

Definition ingredient_names {V : Type} (f : fn V) (ings : option (list name)) : list name :=
  match ings with None => arg_names f | Some l => l end.

(** util.py:38-97, [RecipeBook.add]: the new book and the recipe. *)
Definition add {V : Type} (bases : list name) (b : book V) (n : name) (f : fn V) (ings : option (list name)) (overwrite : bool)
  : option (book V * recipe V) :=
  let l := ingredient_names f ings in
  if (match ings with None => true | Some l => Nat.leb (length l) (length (arg_names f)) end)
     && forallb (fun i => has bases i || match bget b i with Some _ => true | None => false end) l
  then
    let r := Recipe f (map (fun i => (i, bget b i)) (keys_of [] l)) in
    if String.eqb n "__temp__" then Some (b, r)
    else if match bget b n with Some _ => overwrite | None => true end
    then if String.prefix "!" n then None else Some (bset b n r, r)
    else None
  else None.

Fixpoint contains (sub s : string) : bool :=
  String.prefix sub s || match s with EmptyString => false | String _ t => contains sub t end.
Fixpoint lstrip_bang (s : string) : string :=
  match s with String c t => if Ascii.eqb c "!"%char then lstrip_bang t else s | EmptyString => EmptyString end.

(** util.py:131-139, [_craftCut]; [neg] is np.logical_not. *)
Definition craft_cut {V : Type} (neg : V -> V) (b : book V) (look : name -> option V) (n : name) : option V :=
  let base := lstrip_bang n in
  let bangs := (String.length n - String.length base)%nat in
  match bget b base with
  | None => None
  | Some r => if Nat.even bangs then run look r else option_map neg (run look r)
  end.

(** util.py:105-120, [craft] with a recipe name. *)
Definition craft {V : Type} (neg : V -> V) (b : book V) (look : name -> option V) (n : name) : option V :=
  if contains "cut" n then craft_cut neg b look n
  else match bget b n with Some r => run look r | None => None end.

(** util.py:122-129, [craft] with a function. *)
Definition craft_fn {V : Type} (bases : list name) (b : book V) (look : name -> option V) (f : fn V) : option V :=
  match add bases b "__temp__" f None false with Some (_, r) => run look r | None => None end.

(** A sequence of calls of [add]; each must succeed. *)
Record def (V : Type) := mkDef { d_name : name; d_fn : fn V; d_ings : option (list name); d_over : bool }.
Arguments mkDef {V} _ _ _ _. Arguments d_name {V} _. Arguments d_fn {V} _. Arguments d_ings {V} _. Arguments d_over {V} _.
Fixpoint adds {V : Type} (bases : list name) (b : book V) (ds : list (def V)) : option (book V) :=
  match ds with
  | [] => Some b
  | d :: t => match add bases b (d_name d) (d_fn d) (d_ings d) (d_over d) with
              | Some (b', _) => adds bases b' t
              | None => None
              end
  end.

(** * Selecting records *)

(** Boolean indexing [r[g]]: IndexError unless the lengths agree. *)
Fixpoint bool_index {A : Type} (r : list A) (g : list bool) : option (list A) :=
  match r, g with
  | [], [] => Some []
  | x :: r', c :: g' => match bool_index r' g' with Some t => Some (if c then x :: t else t) | None => None end
  | _, _ => None
  end.

(** A slice start:stop with non-negative bounds. *)
Definition take_slice {A : Type} (l : list A) (s : nat * nat) : list A := firstn (snd s - fst s) (skipn (fst s) l).

(** channels.py:389-392, [_indexOffWithCuts] for a slice; [cut] is the crafted cut. *)
Definition index_slice {A : Type} (cut : list A -> option (list bool)) (off : list A) (s : nat * nat) : option (list A) :=
  let r := take_slice off s in
  match cut r with Some g => bool_index r g | None => None end.

(** Assigning [tmp] to the elements lo..hi of the array: the lengths must agree, or [tmp] have one
    element, which is then repeated. *)
Definition assign {A : Type} (arr : list A) (lo hi : nat) (tmp : list A) : option (list A) :=
  let m := (Nat.min hi (length arr) - lo)%nat in
  if Nat.eqb (length tmp) m then Some (firstn lo arr ++ tmp ++ skipn (lo + m) arr)%list
  else match tmp with [x] => Some (firstn lo arr ++ repeat x m ++ skipn (lo + m) arr)%list | _ => None end.

Fixpoint fill {A : Type} (cut : list A -> option (list bool)) (off : list A) (inds : list (nat * nat)) (arr : list A) (hi : nat)
  : option (list A) :=
  match inds with
  | [] => Some (firstn hi arr)
  | s :: t =>
      match index_slice cut off s with
      | None => None
      | Some tmp => match assign arr hi (hi + length tmp) tmp with
                    | None => None
                    | Some arr' => fill cut off t arr' (hi + length tmp)
                    end
      end
  end.
(** channels.py:393-409, [_indexOffWithCuts] for a list of slices; [zero] is the record of zeros.
    The sum of an empty list is 0.0, which np.zeros refuses. *)
Definition index_list {A : Type} (zero : A) (cut : list A -> option (list bool)) (off : list A) (inds : list (nat * nat))
  : option (list A) :=
  let n := fold_right (fun s acc => (Z.of_nat (snd s) - Z.of_nat (fst s) + acc)%Z) 0%Z inds in
  match inds with
  | [] => None
  | _ => if (n <? 0)%Z then None else fill cut off inds (repeat zero (Z.to_nat n)) 0
  end.

(** channels.py:445-456, [_getAttr]; [look] fails on names that are not base ingredients. *)
Definition get_attr {V : Type} (neg : V -> V) (b : book V) (look : name -> option V) (n : name) : option V :=
  match bget b n with Some _ => craft neg b look n | None => look n end.

(** channels.py:309-328, [getStatesIndicies], for a list of states; a state not in the dictionary
    is a KeyError. *)
Fixpoint states_indices (d : sdict) (states : list bytes) : option (list (nat * nat)) :=
  match states with
  | [] => Some []
  | a :: t => match sget d a, states_indices d t with
              | Some v, Some l => Some (match v with One s => [s] | Many ss => ss end ++ l)%list
              | _, _ => None
              end
  end.
(** channels.py:422-440, the records read by [getAttr] for a list of states (an empty list is an
    IndexError). *)
Definition records_of {A : Type} (zero : A) (cut : list A -> option (list bool)) (off : list A) (d : sdict) (states : list bytes)
  : option (list A) :=
  match states with
  | [] => None
  | _ => match states_indices d states with Some inds => index_list zero cut off inds | None => None end
  end.
