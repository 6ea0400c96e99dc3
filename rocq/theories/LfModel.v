(** Files of a run and their folders: mass/core/ljh_util.py 20-56, 77-107, 209-228 (the rest of that file is in NameModel) and
    mass/core/ljh_modify.py 16-86 (the rest of that file is in LjhEdit).
    Paths are lists of code points, read as written (no current folder, no links; but see [ljh_modify]); [None] is an exception. *)
From Coq Require Import ZArith Ascii String Bool List.
From Verif Require Import LjhModel NameModel.
Import ListNotations.
Open Scope Z_scope.

(** * os.path *)
Definition slash : Z := 47.
Fixpoint drop_slashes (l : bytes) : bytes := match l with c :: t => if c =? slash then drop_slashes t else l | [] => [] end.
Definition rstrip_slash (l : bytes) : bytes := rev (drop_slashes (rev l)).
(** posixpath.split: the folder loses its last slashes, unless it is only slashes. *)
Definition split (p : bytes) : bytes * bytes :=
  let i := match last_index slash 0 p with Some s => S s | None => O end in
  let head := firstn i p in
  (if forallb (fun c => c =? slash) head then head else rstrip_slash head, skipn i p).
(** posixpath.join *)
Definition join (a b : bytes) : bytes :=
  match b with
  | c :: _ => if c =? slash then b else match a with [] => b | _ => if last a 0 =? slash then a ++ b else a ++ slash :: b end
  | [] => match a with [] => [] | _ => if last a 0 =? slash then a else a ++ [slash] end
  end.

(** What is found at a path *)
Inductive node := Absent | IsFile | IsDir.
Definition fs := bytes -> node.
Definition isdir (f : fs) (p : bytes) : bool := match f p with IsDir => true | _ => false end.
Definition isfile (f : fs) (p : bytes) : bool := match f p with IsFile => true | _ => false end.

(** ljh_util.py:37-63, [ljh_basename_channum], with the branch for folders (47-52): the loop looks at the last character, which an empty
    text has not. *)
Definition base_chan (f : fs) (fname : bytes) : option (bytes * option Z) :=
  if isdir f fname then
    match rstrip_slash fname with
    | [] => None
    | g => let (d, n) := split g in Some (basename_channum (join (join d n) n))
    end
  else Some (basename_channum fname).

(** ljh_util.py:20-30, [ljh_get_channels].  [listdir]: the names in a folder, in any order. *)
Section Listing.
Variable f : fs.
Variable listdir : bytes -> option (list bytes).
Fixpoint collect (dir name : bytes) (entries : list bytes) : option (list Z) :=
  match entries with
  | [] => Some []
  | e :: t =>
      if isfile f (join dir e) then
        match base_chan f e with
        | None => None
        | Some (b, c) =>
            match collect dir name t with
            | None => None
            | Some r => match c with Some z => if beq b name then Some (z :: r) else Some r | None => Some r end
            end
        end
      else collect dir name t
  end.
Definition get_channels (fname : bytes) : option (list Z) :=
  match base_chan f fname with
  | None => None
  | Some (base, _) =>
      let (dir, name) := split base in
      match listdir dir with None => None | Some es => option_map (stable_sort Z.leb) (collect dir name es) end
  end.
(** 33-34 *)
Definition get_channels_both (fname nfname : bytes) : option (list Z) :=
  match get_channels fname, get_channels nfname with
  | Some a, Some b => Some (stable_sort Z.leb (nodup Z.eq_dec (filter (fun z => existsb (Z.eqb z) b) a)))
  | _, _ => None
  end.
End Listing.

(** 77-81, 209-211, 213-214 *)
Definition extern_trig_fnames (f : fs) (fname : bytes) : option (bytes * bytes) :=
  option_map (fun r => (fst r ++ bs "_external_trigger.bin", fst r ++ bs "_external_trig.hdf5")) (base_chan f fname).
Definition aux_fname (f : fs) (fname : bytes) : option bytes := option_map (fun r => fst r ++ bs ".timing_aux") (base_chan f fname).
Definition mic_fname (fname : bytes) : bytes := join (fst (split fname)) (bs "microphone_timestamps").

(** 84-107, [output_basename_from_ljh_fname] and [mass_folder_from_ljh_fname]: the folders afterwards and the result.  ([raise] of a text
    raises TypeError: an exception anyway.)  os.mkdir fails if there is a file. *)
Definition make_dir (f : fs) (p : bytes) : fs * bool :=
  match f p with IsDir => (f, true) | IsFile => (f, false) | Absent => (fun q => if beq q p then IsDir else f q, true) end.
Definition folder (f : fs) (ljh sub : bytes) (file : bytes -> bytes) : fs * option bytes :=
  match base_chan f ljh with
  | None => (f, None)
  | Some (base, _) =>
      let (dir, name) := split base in
      if isdir f dir then
        let out := join dir sub in
        let (f', ok) := make_dir f out in
        (f', if ok then Some (join out (file name)) else None)
      else (f, None)
  end.
Definition output_basename (f : fs) (ljh : bytes) : fs * option bytes := folder f ljh (bs "mass_output") (fun name => name).
Definition mass_folder (f : fs) (ljh filename : bytes) : fs * option bytes := folder f ljh (bs "mass") (fun _ => filename).

(** 217-223, [load_aux_file]: numpy takes a shape of integers only, and [len(raw) / 2] is a float. *)
Inductive pynum := PyInt (z : Z) | PyFloat (numerator denominator : Z).
Definition py_div (a b : Z) : option pynum := if b =? 0 then None else Some (PyFloat a b).
Definition set_shape {A : Type} (l : list A) (rows cols : pynum) : option (list A * Z * Z) :=
  match rows, cols with
  | PyInt r, PyInt c => if r * c =? Z.of_nat (length l) then Some (l, r, c) else None
  | _, _ => None
  end.
Definition load_aux {A : Type} (raw : list A) : option (list A * Z * Z) :=
  match py_div (Z.of_nat (length raw)) 2 with None => None | Some rows => set_shape raw rows (PyInt 2) end.

(** * LJHModify, ljh_modify.py:16-74.  [resolve] gives the file that a path leads to, [s] the contents of files; [opens] tells whether
    LJHFile.open accepts the contents, [writable] whether the output can be opened.  Once it is opened (and so emptied), line 47 asks for
    [infile.header_lines], which no LJH file has; nothing after it is reached.  The contents of files and whether it returns. *)
Definition store := bytes -> option bytes.
Definition put (s : store) (p c : bytes) : store := fun q => if beq q p then Some c else s q.
Section Modify.
Variable resolve : bytes -> bytes.
Variable opens : bytes -> bool.
Variable writable : bytes -> bool.
Definition ljh_modify (s : store) (input output : bytes) (overwrite : bool) : store * bool :=
  let refused := match s (resolve output) with
                 | None => false
                 | Some _ => match s (resolve input) with None => true | Some _ => beq (resolve input) (resolve output) || negb overwrite end
                 end in
  if refused then (s, false)
  else match s (resolve input) with
       | None => (s, false)
       | Some c => if opens c && writable output then (put s (resolve output) [], false) else (s, false)
       end.
End Modify.
(** ljh_modify.py:77-86: callbacks; [None] if the samples are not 16-bit unsigned *)
Definition dummy_callback (data : list Z) : list Z := data.
Definition uint16 (x : Z) : bool := (0 <=? x) && (x <? 65536).
Definition callback_invert (is_uint16 : bool) (data : list Z) : option (list Z) :=
  if is_uint16 then Some (map (fun x => (65535 - x) mod 65536) data) else None.
