(** Experiment states as a category of the pulses of LJH channels: mass/core/channel_group.py:204-218 and
    mass/core/channel.py:1046-1069.  The categories are those of CutModel, the states those of StModel.
    A label is the text of its bytes (ASCII). *)
From Coq Require Import Ascii String Bool ZArith NArith List.
From Verif Require Import LjhModel CutModel StModel.
Import ListNotations.

Definition to_name (b : bytes) : string := string_of_list_ascii (map (fun z => ascii_of_nat (Z.to_nat z)) b).
Definition state_field : name := "state"%string.
Definition no_state : name := "uncategorized"%string.

(** channel_group.py:216-218; at this point no alias can have been given. *)
Definition register_states (e : esf) (r : registry) : option registry :=
  register_categorical state_field (map to_name (unaliased e)) no_state r.

(** [codes[start:stop] = v] *)
Definition put_range (v : N) (s : slice) (codes : list N) : list N :=
  map (fun ic => if (fst s <=? fst ic)%nat && (fst ic <? snd s)%nat then v else snd ic) (combine (seq 0 (length codes)) codes).
Definition slices_of (v : sval) : list slice := match v with One s => [s] | Many l => l end.
Definition put_state (codes : list N) (q : N * (bytes * sval)) : list N :=
  fold_left (fun c s => put_range (fst q) s c) (slices_of (snd (snd q))) codes.
(** channel.py:1057-1067 *)
Definition state_codes (d : sdict) (n : nat) : list N := fold_left put_state (number_from 1 d) (repeat 0%N n).
(** channel.py:1046-1069; [us] are the times of the pulses in ns, [ws] the words of their cuts. *)
Definition parse_states (rnd : Z -> Z) (e : option esf) (r : registry) (us : list Z) (ws : list N) : option (list N) :=
  match e with
  | None => Some ws
  | Some e =>
      match calc_states rnd (fun x => x) e us [] 0 0 with
      | None => None
      | Some d => cut r state_field (Labels (state_codes d (length ws))) ws
      end
  end.
