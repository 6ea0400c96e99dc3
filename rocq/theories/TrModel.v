(** Model of the script bin/ljh_truncate, on top of LjhModel ([ljh_truncate]), NameModel and
    the file system of MgModel.

    The expansion of the pattern and the parsing of the arguments are not modelled: the names
    found and the two limits (exactly one of which argparse lets through) are arguments. *)
From Coq Require Import ZArith Ascii String Bool QArith QArith.Qcanon List.
From Verif Require Import LjhModel NameModel MgModel.
Import ListNotations.
Open Scope Z_scope.

(** bin/ljh_truncate:37, [re.search(r"chan(\d+)\.ljh", name).groups()[0]]: the digits of the
    first match; [None] is the AttributeError without one. *)
Definition match_at (l : bytes) : option bytes :=
  if starts (bs "chan") l then
    match span_digits (skipn 4 l) with
    | [] => None
    | ds => if starts (bs ".ljh") (skipn (4 + length ds) l) then Some ds else None
    end
  else None.
Fixpoint search (l : bytes) : option bytes :=
  match l with
  | [] => None
  | _ :: t => match match_at l with Some ds => Some ds | None => search t end
  end.

(** bin/ljh_truncate:38. *)
Definition trunc_name (pattern out ds : bytes) : bytes :=
  pattern ++ bs "_" ++ out ++ bs "_chan" ++ ds ++ bs ".ljh".

(** bin/ljh_truncate:36-40: the loop over the files, up to the first exception. *)
Fixpoint trunc_all (fl : bytes -> option Qc) (pattern out : bytes) (n_pulses : option Z) (timestamp : option Qc)
         (st : fs) (names : list bytes) : fs * bool :=
  match names with
  | [] => (st, true)
  | n :: t =>
      match search n with
      | None => (st, false)
      | Some ds =>
          let o := trunc_name pattern out ds in
          if beq n o then (st, false)
          else
            match open_at fl st n, st n with
            | Some _, Some src =>
                let (r, ok) := truncate fl src (st o) n_pulses timestamp None in
                let st' := match r with Some f => upd st o f | None => st end in
                if ok then trunc_all fl pattern out n_pulses timestamp st' t else (st', false)
            | _, _ => (st, false)
            end
      end
  end.
