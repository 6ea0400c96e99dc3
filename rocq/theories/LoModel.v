(** Model of the loops of mass/core/ljh2off.py: [multi_ljh2off_loop] 129-154, [ljh2off_loop]
    157-184 and [main] 221-234, on top of the file system of MgModel and the names of NameModel.

    The conversion of one channel ([multi_ljh2off], see OffModel) is an argument: from the
    channel number (which stands for its pulse model) and the contents of its LJH files it
    gives the OFF file as it is left behind ([None]: not opened) and whether it returned.
    [chans] are the channel numbers of the pulse models, in increasing order
    ([load_pulse_models]).  Progress bars and messages are not modelled. *)
From Coq Require Import ZArith Ascii String Bool List.
From Verif Require Import LjhModel NameModel MgModel.
Import ListNotations.
Open Scope Z_scope.

Definition conversion := Z -> list (option bytes) -> option bytes * bool.

(** ljh2off.py:139-140. *)
Definition ljh_path (base : bytes) (c : Z) : bytes := base ++ bs "_chan" ++ py_str c ++ bs ".ljh".
Definition off_path (base : bytes) (c : Z) : bytes := base ++ bs "_chan" ++ py_str c ++ bs ".off".

Definition is_file (st : fs) (p : bytes) : bool := match st p with Some _ => true | None => false end.

(** ljh2off.py:138-151.  The result is the file system and, unless there was an exception, the
    LJH and OFF names of the channels handled.  [handled] counts those before. *)
Fixpoint off_loop (conv : conversion) (bases : list bytes) (off_base : bytes) (max handled : Z) (st : fs) (chans : list Z)
  : fs * option (list (list bytes * bytes)) :=
  match chans with
  | [] => (st, Some [])
  | c :: t =>
      let paths := map (fun b => ljh_path b c) bases in
      if existsb (is_file st) paths then
        let (r, ok) := conv c (map st paths) in
        let st' := match r with Some f => upd st (off_path off_base c) f | None => st end in
        if ok then
          if handled + 1 =? max then (st', Some [(paths, off_path off_base c)])
          else
            let (st2, l) := off_loop conv bases off_base max (handled + 1) st' t in
            (st2, option_map (cons (paths, off_path off_base c)) l)
        else (st', None)
      else off_loop conv bases off_base max handled st t
  end.
Definition multi_loop (conv : conversion) (chans : list Z) (bases : list bytes) (off_base : bytes) (max : Z) (st : fs) :=
  off_loop conv bases off_base max 0 st chans.

(** Reading a text file: universal newlines. *)
Fixpoint newlines (l : bytes) : bytes :=
  match l with
  | [] => []
  | c :: t => if c =? 13 then 10 :: match t with 10 :: t' => newlines t' | _ => newlines t end else c :: newlines t
  end.

(** [os.path.split(p)[1]]. *)
Definition tail_name (p : bytes) : bytes :=
  match last_index 47 0 p with None => p | Some i => skipn (S i) p end.

Definition state_path (base : bytes) : bytes := base ++ bs "_experiment_state.txt".

(** ljh2off.py:157-184. *)
Definition ljh2off_loop (conv : conversion) (chans : list Z) (ljhpath output_dir : bytes) (max : Z) (require : bool) (st : fs)
  : fs * option (list (list bytes * bytes)) :=
  let base := fst (basename_channum ljhpath) in
  let off_base := join output_dir (tail_name base) in
  let (st1, r) := multi_loop conv chans [base] off_base max st in
  match r with
  | None => (st1, None)
  | Some l =>
      match st1 (state_path base) with
      | Some f =>
          if beq (state_path base) (state_path off_base) then (st1, Some l)
          else (upd st1 (state_path off_base) (newlines f), Some l)
      | None => (st1, if require then None else Some l)
      end
  end.

(** ljh2off.py:221-234; [dir_exists] is whether the output directory was there.  [Some] is
    the first OFF name printed or, inside, the exit without doing anything. *)
Definition main (conv : conversion) (chans : list Z) (ljhpath output_dir : bytes) (dir_exists replace : bool) (max : Z) (st : fs)
  : fs * option (option bytes) :=
  if dir_exists && negb replace then (st, Some None)
  else
    let (st', r) := ljh2off_loop conv chans ljhpath output_dir max true st in
    (st', match r with Some ((_, o) :: _) => Some (Some o) | _ => None end).
