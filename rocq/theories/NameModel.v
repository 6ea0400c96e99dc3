(** Model of the file-name helpers, mass/core/ljh_util.py, and of the channel number of
    LJHFile (mass/core/files.py:204).

    Names are lists of code points; [None] of the outer option is an exception.
    [\d] and [int] are modelled for ASCII digits only.  The branch of
    [ljh_basename_channum] for directories (ljh_util.py:47-52) is not modelled: names are
    taken not to be directories. *)
From Coq Require Import ZArith Ascii String Bool List.
From Verif Require Import LjhModel.
Import ListNotations.
Open Scope Z_scope.

Definition chan_word : bytes := bs "_chan".

Fixpoint span_digits (l : bytes) : bytes :=
  match l with
  | c :: t => if is_digit c then c :: span_digits t else []
  | [] => []
  end.

(** A match of [_chan\d+] at the head of [l]: its digits. *)
Definition match_here (l : bytes) : option bytes :=
  if starts chan_word l then
    match span_digits (skipn 5 l) with
    | [] => None
    | ds => Some ds
    end
  else None.

(** [re.finditer(r"_chan\d+", fname)] (ljh_util.py:53): non-overlapping matches from left to
    right as (start, digits); [skip] is what is left of the previous match. *)
Fixpoint finditer (skip pos : nat) (l : bytes) : list (nat * bytes) :=
  match l with
  | [] => []
  | _ :: t =>
      match skip with
      | S k => finditer k (S pos) t
      | O => match match_here l with
             | Some ds => (pos, ds) :: finditer (4 + length ds) (S pos) t
             | None => finditer 0 (S pos) t
             end
      end
  end.

(** [os.path.splitext]: the extension starts at the last dot that is after the last slash and
    is not one of the leading dots of the last component. *)
Fixpoint last_index (x : Z) (pos : nat) (l : bytes) : option nat :=
  match l with
  | [] => None
  | c :: t => match last_index x (S pos) t with
              | Some i => Some i
              | None => if c =? x then Some pos else None
              end
  end.
Definition splitext (l : bytes) : bytes * bytes :=
  match last_index 46 0 l with
  | None => (l, [])
  | Some d =>
      let start := match last_index 47 0 l with Some s => S s | None => 0%nat end in
      if Nat.ltb d start then (l, [])
      else if forallb (fun c => c =? 46) (firstn (d - start) (skipn start l)) then (l, [])
      else (firstn d l, skipn d l)
  end.

(** ljh_util.py:37-63, [ljh_basename_channum]. *)
Definition basename_channum (fname : bytes) : bytes * option Z :=
  match rev (finditer 0 0 fname) with
  | [] => (fst (splitext fname), None)
  | (start, ds) :: _ => (firstn start fname, digits 0 ds)
  end.
Definition channum (fname : bytes) : option Z := snd (basename_channum fname).

(** ljh_util.py:71-74, [ljh_chan_names]. *)
Definition chan_names (fname : bytes) (chans : list Z) : list bytes :=
  map (fun c => fst (basename_channum fname) ++ chan_word ++ py_str c ++ snd (splitext fname)) chans.

(** files.py:204: [int(filename.split("_chan")[1].split(".")[0])], the text between the
    first "_chan" and the next "_chan" (or the end), up to a dot. *)
Fixpoint after_word (l : bytes) : option bytes :=
  match l with
  | [] => None
  | _ :: t => if starts chan_word l then Some (skipn 5 l) else after_word t
  end.
Fixpoint before_word (l : bytes) : bytes :=
  match l with
  | [] => []
  | c :: t => if starts chan_word l then [] else c :: before_word t
  end.
Fixpoint before_dot (l : bytes) : bytes :=
  match l with
  | [] => []
  | c :: t => if c =? 46 then [] else c :: before_dot t
  end.
Definition ljhfile_channum (fname : bytes) : option Z :=
  match after_word fname with
  | None => None
  | Some r => py_int (before_dot (before_word r))
  end.

(** * Pairing *)

Definition ceq (a b : option Z) : bool :=
  match a, b with
  | Some x, Some y => x =? y
  | None, None => true
  | _, _ => false
  end.
Definition cmem (c : option Z) (l : list (option Z)) : bool := existsb (ceq c) l.

(** The dictionary [{ljh_channum(f): f for f in filenames}]: its keys in order of first
    insertion, and its value at a key, the last file with that channel. *)
Fixpoint dedup (l : list (option Z)) : list (option Z) :=
  match l with
  | [] => []
  | c :: t => c :: filter (fun d => negb (ceq d c)) (dedup t)
  end.
Definition keys (files : list bytes) : list (option Z) := dedup (map channum files).
Fixpoint name_of (files : list bytes) (c : option Z) : option bytes :=
  match files with
  | [] => None
  | f :: t => match name_of t c with
              | Some g => Some g
              | None => if ceq (channum f) c then Some f else None
              end
  end.

(** [list.remove]: the first occurrence. *)
Fixpoint remove1 (x : bytes) (l : list bytes) : option (list bytes) :=
  match l with
  | [] => None
  | y :: t => if beq y x then Some t else match remove1 x t with Some r => Some (y :: r) | None => None end
  end.

(** The channels to keep (ljh_util.py:146-150). *)
Definition is_valid (files1 files2 : list bytes) (never_use use_only : option (list Z)) (c : option Z) : bool :=
  cmem c (keys files1)
  && match files2 with [] => true | _ => cmem c (keys files2) end
  && match never_use with Some l => negb (cmem c (map Some l)) | None => true end
  && match use_only with Some l => cmem c (map Some l) | None => true end.

(** The loops at the end, in the (unspecified) order [order] of the set. *)
Fixpoint remove_all (files all : list bytes) (order : list (option Z)) : option (list bytes) :=
  match order with
  | [] => Some files
  | c :: t => match name_of all c with
              | None => None
              | Some f => match remove1 f files with
                          | None => None
                          | Some r => remove_all r all t
                          end
              end
  end.

(** ljh_util.py:107-156, [remove_unpaired_channel_files]: the two lists afterwards.  [order1]
    and [order2] are the iteration orders of the sets of channels to remove. *)
Definition to_remove (files files1 files2 : list bytes) (nu uo : option (list Z)) : list (option Z) :=
  filter (fun c => negb (is_valid files1 files2 nu uo c)) (keys files).
Definition remove_unpaired (files1 files2 : list bytes) (nu uo : option (list Z))
           (order1 order2 : list (option Z)) : option (list bytes * list bytes) :=
  match files1 with
  | [] => Some (files1, files2)
  | _ => match remove_all files1 files1 order1 with
         | None => None
         | Some r1 => match remove_all files2 files2 order2 with
                      | None => None
                      | Some r2 => Some (r1, r2)
                      end
         end
  end.

(** * Sorting *)

(** String comparison by code points. *)
Fixpoint str_le (a b : bytes) : bool :=
  match a, b with
  | [], _ => true
  | _ :: _, [] => false
  | x :: a', y :: b' => (x <? y) || ((x =? y) && str_le a' b')
  end.

(** A stable sort: equal elements stay in order. *)
Fixpoint insert {A : Type} (le : A -> A -> bool) (x : A) (l : list A) : list A :=
  match l with
  | [] => [x]
  | y :: t => if le x y then x :: l else y :: insert le x t
  end.
Definition stable_sort {A : Type} (le : A -> A -> bool) (l : list A) : list A :=
  fold_right (insert le) [] l.

(** ljh_util.py:159-184, [ljh_sort_filenames_numerically]: the result and the caller's list
    afterwards ([fnames.sort()] works in place).  With an inclusion list [fnames] is a filter
    object without a [sort] method.  Comparing a missing channel number with another raises;
    [None] here.  An empty list gives Python's None. *)
Inductive sorted_result := SNone | SList (result caller : list bytes).
Definition sort_filenames (fnames : list bytes) (inclusion : option (list Z)) : option sorted_result :=
  match fnames with
  | [] => Some SNone
  | [f] => match inclusion with Some _ => None | None => Some (SList [f] [f]) end
  | _ =>
      match inclusion with
      | Some _ => None
      | None =>
          let byname := stable_sort str_le fnames in
          if forallb (fun f => match channum f with Some _ => true | None => false end) fnames
          then Some (SList (stable_sort (fun a b => match channum a, channum b with
                                                    | Some x, Some y => x <=? y
                                                    | _, _ => true
                                                    end) byname) byname)
          else None
      end
  end.
