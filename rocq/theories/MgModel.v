(** Model of the script bin/ljh_merge, on top of the LJH files of LjhModel and the file
    names of NameModel.

    The file system is a map from paths to contents: different paths are different files
    (no links), directories exist and are writable.  Expanding the patterns
    ([filename_glob_expand], see NameModel for the sorting) and the printed messages are not
    modelled: the names are arguments. *)
From Coq Require Import ZArith Ascii String Bool QArith QArith.Qcanon List.
From Verif Require Import LjhModel NameModel.
Import ListNotations.
Open Scope Z_scope.

Definition fs := bytes -> option bytes.

Definition upd (st : fs) (p c : bytes) : fs := fun q => if beq q p then Some c else st q.

(** [mass.LJHFile.open(path)] (mass/core/files.py:181-205) of a path: the file and its
    [channum], which comes from the name. *)
Definition open_at (fl : bytes -> option Qc) (st : fs) (path : bytes) : option (ljh * Z) :=
  do f <- st path;
  do o <- ljh_open fl f;
  do c <- ljhfile_channum path;
  Some (o, c).

(** bin/ljh_merge:31-36, the loop over the files after the first: the file system after it
    and whether it ended without an exception.  When the source is the destination itself its
    memory map shows the records that were there when it was opened. *)
Fixpoint merge_loop (fl : bytes -> option Qc) (out : bytes) (c : Z) (st : fs) (names : list bytes)
  : fs * bool :=
  match names with
  | [] => (st, true)
  | n :: t =>
      match open_at fl st n, st n, st out with
      | Some (_, c'), Some src, Some dest =>
          if c' =? c then
            let (f, ok) := append_traces fl src dest None in
            let st' := upd st out f in
            if ok then merge_loop fl out c st' t else (st', false)
          else (st, false)
      | _, _, _ => (st, false)
      end
  end.

(** bin/ljh_merge:22-39, [merge].  [shutil.copy] refuses to copy a file onto itself and a
    missing source before it touches the destination. *)
Definition merge (fl : bytes -> option Qc) (st : fs) (out : bytes) (names : list bytes) (overwrite : bool)
  : fs * bool :=
  if negb overwrite && (match st out with Some _ => true | None => false end) then (st, false)
  else
    match names with
    | [] => (st, false)
    | n :: t =>
        match st n with
        | None => (st, false)
        | Some f =>
            if beq n out then (st, false)
            else
              let st1 := upd st out f in
              match open_at fl st1 out with
              | None => (st1, false)
              | Some (_, c) => merge_loop fl out c st1 t
              end
        end
    end.

(** [os.path.split(path)[0]]: what precedes the last slash, without trailing slashes unless
    it is all slashes. *)
Fixpoint drop_slashes (l : bytes) : bytes :=
  match l with
  | c :: t => if c =? 47 then drop_slashes t else l
  | [] => []
  end.
Definition dirname (path : bytes) : bytes :=
  match last_index 47 0 path with
  | None => []
  | Some i => let h := firstn (S i) path in
              match drop_slashes (rev h) with [] => h | r => rev r end
  end.

(** [os.path.join(dir, name)] for a name without slashes. *)
Definition join (dir name : bytes) : bytes :=
  match rev dir with
  | [] => name
  | c :: _ => if c =? 47 then dir ++ name else dir ++ [47] ++ name
  end.

(** bin/ljh_merge:82-88: the path of the output. *)
Definition out_path (outdir first : bytes) (c : Z) : bytes :=
  join (match outdir with [] => dirname first | _ => outdir end)
       (bs "merged_chan" ++ py_str c ++ bs ".ljh").

(** bin/ljh_merge:42-90, [main], after the expansion of the patterns. *)
Definition main (fl : bytes -> option Qc) (st : fs) (names : list bytes) (outdir : bytes)
           (force dry_run : bool) : fs * bool :=
  match names with
  | [] => (st, false)
  | first :: _ =>
      if dry_run then (st, true)
      else
        match open_at fl st first with
        | None => (st, false)
        | Some (_, c) => merge fl st (out_path outdir first c) names force
        end
  end.
