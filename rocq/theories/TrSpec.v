(** What truncating a set of files should do. *)
From Coq Require Import ZArith Ascii String Bool QArith QArith.Qcanon List.
From Verif Require Import LjhModel LjhSpec NameModel NameSpec MgModel.
Import ListNotations.
Open Scope Z_scope.

(** The two ways to limit a file. *)
Inductive limit := Count (n : Z) | Until (s : Qc).
Definition count_of (l : limit) : option Z := match l with Count n => Some n | Until _ => None end.
Definition time_of (l : limit) : option Qc := match l with Count _ => None | Until s => Some s end.
Definition kept (l : limit) (ps qs : list pulse) : Prop :=
  match l with
  | Count n => 0 <= n <= Z.of_nat (length ps) /\ qs = firstn (Z.to_nat n) ps
  | Until s => until s ps qs
  end.

(** The input and the output of the channel written with the digits [ds]. *)
Definition input (pattern ds : bytes) : bytes := pattern ++ bs "_chan" ++ ds ++ bs ".ljh".
Definition output (pattern out ds : bytes) : bytes := pattern ++ bs "_" ++ out ++ bs "_chan" ++ ds ++ bs ".ljh".

Definition number (ds : bytes) : Prop := ds <> [] /\ all_digits ds.
Definition no_ext (pattern : bytes) : Prop := ~ exists a b, pattern = a ++ bs ".ljh" ++ b.

(** At [path] is a readable 2.2 file with the header and records of [o]. *)
Definition readable (fl : bytes -> option Qc) (st : fs) (path : bytes) (o : ljh) : Prop :=
  exists f, st path = Some f /\ is_bytes f /\ ljh_open fl f = Some o /\ v22 o = true /\
    Forall (fun kv => starts end_mark (fst kv) = false) (hdict o) /\ ljhfile_channum path <> None.
