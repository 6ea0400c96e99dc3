(** Model of the cut-field registry and of the per-pulse cut masks.
    Source: /repo/mass/core/cut.py (CutFieldMixin, lines 48-316; Cuts, lines 319-639).

    Simplifications, all noted at the definition concerned:
    - attribute values of the HDF5 file are fields of [registry];
    - names are Coq strings; storing one in a numpy "S64" field truncates it to 64 bytes
      (trailing NUL stripping is not modelled: names contain no NUL);
    - per-pulse mask vectors are [list N], the in-memory variant (hdf5_group=None). *)
From Coq Require Import NArith QArith String Bool List.
Import ListNotations.
Local Open Scope N_scope.

Notation name := string (only parsing).

(** cut.py:75-83: every name is stored in an [np.bytes_, 64] field. *)
Definition store64 (s : name) : name := substring 0 64 s.

(** cut.py:126-156: the four persistent attributes. *)
Record registry := mkReg {
  bdesc : list (name * N);          (* cut_boolean_field_desc: 32 slots (name, mask) *)
  cdesc : list (name * N);          (* cut_categorical_field_desc *)
  clist : list (name * name * N);   (* cut_category_list: (field, category, code) *)
  used : N                          (* cut_used_bit_flags *)
}.

Definition in_names (n : name) (d : list (name * N)) : bool :=
  existsb (fun p => String.eqb n (fst p)) d.

Definition bit (i : N) : N := N.shiftl 1 i.

(** range(32) *)
Definition range32 : list N := map N.of_nat (seq 0 32).

(** cut.py:165-183 __lowest_available_cut_bit; None is the ValueError. *)
Definition lowest_available (flags : N) : option N :=
  find (fun i => N.land flags (bit i) =? 0) range32.

(** list item assignment [l[i] = x] *)
Fixpoint set_nth {A} (i : nat) (x : A) (l : list A) : list A :=
  match l, i with
  | [], _ => []
  | _ :: t, O => x :: t
  | h :: t, S j => h :: set_nth j x t
  end.

(** cut.py:197-201: the registration loop over the new names. *)
Fixpoint reg_bool_loop (new : list name) (d : list (name * N)) (flags : N)
  : option (list (name * N) * N) :=
  match new with
  | [] => Some (d, flags)
  | n :: rest =>
      match lowest_available flags with
      | None => None
      | Some p => reg_bool_loop rest (set_nth (N.to_nat p) (store64 n, bit p) d)
                                (N.lor flags (bit p))
      end
  end.

(** cut.py:185-204 register_boolean_cut_fields; None = ValueError, nothing written. *)
Definition register_boolean (names : list name) (r : registry) : option registry :=
  let new := filter (fun n => negb (in_names n (bdesc r))) names in
  match reg_bool_loop new (bdesc r) (used r) with
  | None => None
  | Some (d, u) => Some (mkReg d (cdesc r) (clist r) u)
  end.

(** [x in list] for names *)
Definition mem (n : name) (l : list name) : bool := existsb (String.eqb n) l.

(** cut.py:206-231 unregister_boolean_cut_fields; None = KeyError, nothing written. *)
Definition unregister_boolean (names : list name) (r : registry) : option registry :=
  if forallb (fun n => negb (String.eqb n "") && in_names n (bdesc r)) names then
    let clear := fold_left (fun c p => if mem (fst p) names then N.lor c (snd p) else c)
                           (bdesc r) 0 in
    let d := map (fun p => if mem (fst p) names then (""%string, 0) else p) (bdesc r) in
    Some (mkReg d (cdesc r) (clist r) (N.ldiff (used r) clear))
  else None.

(** cut.py:251-254: drop duplicated categories, keeping the first occurrence. *)
Definition dedupe (l : list name) : list name :=
  fold_left (fun acc c => if mem c acc then acc else acc ++ [c]) l [].

(** cut.py:260-262: list.remove (first occurrence), then insert at the head. *)
Fixpoint remove_first (x : name) (l : list name) : list name :=
  match l with
  | [] => []
  | h :: t => if String.eqb x h then t else h :: remove_first x t
  end.
Definition category_order (cats : list name) (default : name) : list name :=
  let l := dedupe cats in
  default :: (if mem default l then remove_first default l else l).

(** cut.py:264-266: while (1 << num_bits) < len: num_bits += 1.
    Fuel [length] suffices, see [num_bits_loop_spec] in CutProofs. *)
Fixpoint num_bits_loop (fuel : nat) (nb : nat) (len : N) : nat :=
  if N.shiftl 1 (N.of_nat nb) <? len then
    match fuel with O => nb | S f => num_bits_loop f (S nb) len end
  else nb.
Definition num_bits (ncat : nat) : nat := num_bits_loop ncat 1 (N.of_nat ncat).

(** cut.py:268-277: pick the bits. State: (bit_mask, lowest_bit_pos, individual_bit_masks). *)
Fixpoint pick_bits (k : nat) (flags bm low : N) (masks : list N) : option (N * N * list N) :=
  match k with
  | O => Some (bm, low, masks)
  | S k' =>
      match lowest_available (N.lor flags bm) with
      | None => None
      | Some p => pick_bits k' flags (N.lor bm (bit p)) (N.min p low) (bit p :: masks)
      end
  end.

(** cut.py:282: the last [nb] binary digits of i, most significant first. *)
Definition digits (nb : nat) (i : N) : list N :=
  map (fun j => N.b2n (N.testbit i (N.of_nat j))) (rev (seq 0 nb)).

(** cut.py:283-284: code of category number i. *)
Definition code_of (masks : list N) (low : N) (nb : nat) (i : N) : N :=
  N.shiftr (fold_right N.add 0 (map (fun ab => fst ab * snd ab) (combine masks (digits nb i)))) low.

Fixpoint number_from {A} (i : N) (l : list A) : list (N * A) :=
  match l with [] => [] | h :: t => (i, h) :: number_from (i + 1) t end.

Definition new_categories (field : name) (masks : list N) (low : N) (nb : nat) (cats : list name)
  : list (name * name * N) :=
  map (fun ic => (store64 field, store64 (snd ic), code_of masks low nb (fst ic)))
      (number_from 0 cats).

(** cut.py:233-293 register_categorical_cut_field. The values that will be written are computed
    first (None = ValueError); the three attribute writes follow in this order:
    cut_category_list (287), cut_categorical_field_desc (292), cut_used_bit_flags (293). *)
Definition plan_categorical (field : name) (cats : list name) (default : name) (r : registry)
  : option (list (name * name * N) * list (name * N) * N) :=
  let order := category_order cats default in
  let nb := num_bits (length order) in
  match pick_bits nb (used r) 0 31 [] with
  | None => None
  | Some (bm, low, masks) =>
      Some (clist r ++ new_categories field masks low nb order,
            cdesc r ++ [(store64 field, bm)],
            N.lor (used r) bm)
  end.

Definition register_categorical (field : name) (cats : list name) (default : name) (r : registry)
  : option registry :=
  if in_names field (cdesc r) then Some r
  else match plan_categorical field cats default r with
       | None => None
       | Some (cl, cd, u) => Some (mkReg (bdesc r) cd cl u)
       end.

(** cut.py:295-316 unregister_categorical_cut_field; None = KeyError. *)
Definition unregister_categorical (field : name) (r : registry) : option registry :=
  match find (fun p => String.eqb (fst p) field) (cdesc r) with
  | None => None
  | Some (_, clear) =>
      Some (mkReg (bdesc r)
                  (filter (fun p => negb (String.eqb (fst p) field)) (cdesc r))
                  (filter (fun e => negb (String.eqb (fst (fst e)) field)) (clist r))
                  (N.ldiff (used r) clear))
  end.

Inductive reg_op :=
| RegB (names : list name)
| UnregB (names : list name)
| RegC (field : name) (cats : list name) (default : name)
| UnregC (field : name).

Definition try_op (o : reg_op) (r : registry) : option registry :=
  match o with
  | RegB ns => register_boolean ns r
  | UnregB ns => unregister_boolean ns r
  | RegC f cs d => register_categorical f cs d r
  | UnregC f => unregister_categorical f r
  end.

(** One public call: on an exception the registry stays as it was. *)
Definition step (r : registry) (o : reg_op) : registry :=
  match try_op o r with Some r' => r' | None => r end.

Definition run (ops : list reg_op) (r : registry) : registry := fold_left step ops r.

(** cut.py:52-73 and 107-121: a new file. *)
Definition empty_registry : registry :=
  mkReg (repeat (""%string, 0) 32) [] [] 0.
Definition builtin_boolean : list name :=
  ["pretrigger_rms"; "pretrigger_mean"; "pretrigger_mean_departure_from_median"; "peak_time_ms";
   "rise_time_ms"; "postpeak_deriv"; "pulse_average"; "min_value"; "timestamp_sec";
   "timestamp_diff_sec"; "subframecount_diff_sec"; "peak_value"; "energy"; "timing";
   "p_filt_phase"; "smart_cuts"]%string.
Definition init_registry : registry :=
  run [RegB builtin_boolean; RegC "calibration"%string ["in"; "out"]%string "in"%string]
      empty_registry.

(* ------------------------------------------------------------------------------------- *)
(** * The per-pulse masks: class Cuts *)

(** The argument [mask] of [Cuts.cut]: a boolean vector or a vector of category codes. *)
Inductive mask_arg :=
| BoolMask (m : list bool)
| Labels (l : list N).

Definition mask_size (m : mask_arg) : nat :=
  match m with BoolMask b => length b | Labels l => length l end.

(** cut.py:376-379 and 502-505, 532-535: position of the lowest set bit; the loop variable is
    left at 31 when no bit is set. *)
Definition lowest_bit (m : N) : N :=
  match find (fun i => N.testbit m i) range32 with Some i => i | None => 31 end.

(** [self._mask[mask] |= bit_mask] for a boolean vector *)
Fixpoint or_where (b : list bool) (bm : N) (ws : list N) : list N :=
  match b, ws with
  | x :: b', w :: ws' => (if x then N.lor w bm else w) :: or_where b' bm ws'
  | _, _ => ws
  end.

(** [self._mask[index] |= bit_mask] for an integer vector used as an index (numpy fancy indexing);
    None = IndexError. *)
Definition or_at (idx : list N) (bm : N) (ws : list N) : option (list N) :=
  if forallb (fun i => i <? N.of_nat (length ws)) idx then
    Some (map (fun iw => if existsb (N.eqb (fst iw)) idx then N.lor (snd iw) bm else snd iw)
              (number_from 0 ws))
  else None.

Definition or_mask (m : mask_arg) (bm : N) (ws : list N) : option (list N) :=
  match m with BoolMask b => Some (or_where b bm ws) | Labels l => or_at l bm ws end.

Definition as_uint32 (m : mask_arg) : list N :=
  match m with BoolMask b => map N.b2n b | Labels l => l end.

Definition w32 (x : N) : N := x mod 2 ^ 32.

(** cut.py:381-383 *)
Definition set_category (bm pos : N) (w v : N) : N :=
  N.lor (N.ldiff w bm) (N.land (w32 (N.shiftl v pos)) bm).

Definition lookup (n : name) (d : list (name * N)) : option N :=
  option_map snd (find (fun p => String.eqb (fst p) n) d).

(** cut.py:366-385 Cuts.cut with a field name; None = exception. *)
Definition cut (r : registry) (field : name) (m : mask_arg) (ws : list N) : option (list N) :=
  if negb (Nat.eqb (mask_size m) (length ws)) then None else
  match lookup field (bdesc r) with
  | Some bm => or_mask m bm ws
  | None =>
      match lookup field (cdesc r) with
      | Some bm =>
          let pos := lowest_bit bm in
          Some (map (fun wv => set_category bm pos (fst wv) (snd wv)) (combine ws (as_uint32 m)))
      | None => None
      end
  end.

(** cut.py:358-365 Cuts.cut with a bit number *)
Definition cut_num (r : registry) (i : N) (m : mask_arg) (ws : list N) : option (list N) :=
  if negb (Nat.eqb (mask_size m) (length ws)) then None else
  if 31 <? i then None else
  match nth_error (bdesc r) (N.to_nat i) with
  | Some (n, bm) => if String.eqb n "" then None else or_mask m bm ws
  | None => None
  end.

(** cut.py:158-162 cut_field_categories: a dict, so the last entry of a repeated key wins. *)
Definition category_code (r : registry) (field cat : name) : option N :=
  option_map snd
    (find (fun e => String.eqb (fst (fst e)) field && String.eqb (snd (fst e)) cat)
          (rev (clist r))).

(** [labels[catbool] = code] *)
Fixpoint assign_where (b : list bool) (v : N) (l : list N) : option (list N) :=
  match b, l with
  | [], [] => Some []
  | x :: b', w :: l' =>
      option_map (cons (if x then v else w)) (assign_where b' v l')
  | _, _ => None
  end.

Definition all_where (b : list bool) (v : N) (l : list N) : bool :=
  forallb (fun xw => implb (fst xw) (snd xw =? v)) (combine b l).

Fixpoint label_loop (r : registry) (field : name) (bd : list (name * list bool)) (l : list N)
  : option (list N) :=
  match bd with
  | [] => Some l
  | (cat, b) :: rest =>
      match category_code r field cat with
      | None => None                              (* KeyError *)
      | Some v => match assign_where b v l with
                  | None => None                  (* IndexError: wrong length *)
                  | Some l' => label_loop r field rest l'
                  end
      end
  end.

Definition labels_ok (r : registry) (field : name) (bd : list (name * list bool)) (l : list N) : bool :=
  forallb (fun cb => match category_code r field (fst cb) with
                     | Some v => all_where (snd cb) v l
                     | None => false
                     end) bd.

(** cut.py:389-407 cut_categorical. booldict is a dict: its keys are distinct. *)
Definition cut_categorical (r : registry) (field : name) (bd : list (name * list bool)) (ws : list N)
  : option (list N) :=
  match label_loop r field bd (repeat 0 (length ws)) with
  | None => None
  | Some l => if labels_ok r field bd l then cut r field (Labels l) ws else None
  end.

(** cut.py:481-508 select_category: accumulate mask and target bits. *)
Fixpoint select_bits (r : registry) (sel : list (name * name)) (bm tgt : N) : option (N * N) :=
  match sel with
  | [] => Some (bm, tgt)
  | (field, cat) :: rest =>
      match lookup field (cdesc r),
            find (fun e => String.eqb (fst (fst e)) field && String.eqb (snd (fst e)) cat) (clist r) with
      | Some m, Some (_, code) =>
          select_bits r rest (N.lor bm m) (N.lor tgt (w32 (N.shiftl code (lowest_bit m))))
      | _, _ => None
      end
  end.
Definition select_category (r : registry) (sel : list (name * name)) (ws : list N)
  : option (list bool) :=
  match select_bits r sel 0 0 with
  | None => None
  | Some (bm, tgt) => Some (map (fun w => N.land w bm =? tgt) ws)
  end.

(** cut.py:512-539 category_codes *)
Definition category_codes (r : registry) (field : name) (ws : list N) : option (list N) :=
  match lookup field (cdesc r) with
  | None => None
  | Some bm => Some (map (fun w => N.shiftr (N.land w bm) (lowest_bit bm)) ws)
  end.

(** cut.py:587-605 _boolean_fields_bit_mask *)
Definition bool_bit_mask (r : registry) (names : list name) : option N :=
  match names with
  | [] => Some (fold_left N.lor (map snd (filter (fun p => negb (String.eqb (fst p) "")) (bdesc r))) 0)
  | _ =>
      if forallb (fun n => existsb (fun p => negb (String.eqb (fst p) "") && String.eqb (fst p) n) (bdesc r)) names
      then Some (fold_left N.lor (map snd (filter (fun p => mem (fst p) names) (bdesc r))) 0)
      else None
  end.

(** cut.py:576-585 clear_cut *)
Definition clear_cut (r : registry) (names : list name) (ws : list N) : option (list N) :=
  option_map (fun bm => map (fun w => N.ldiff w bm) ws) (bool_bit_mask r names).

Fixpoint map2 {A B C} (f : A -> B -> C) (l : list A) (l' : list B) : list C :=
  match l, l' with a :: t, b :: t' => f a b :: map2 f t t' | _, _ => [] end.

(** cut.py:607-633 good, bad *)
Definition good (r : registry) (names : list name) (sel : list (name * name)) (ws : list N)
  : option (list bool) :=
  match bool_bit_mask r names with
  | None => None
  | Some bm =>
      let g := map (fun w => N.land w bm =? 0) ws in
      match sel with
      | [] => Some g
      | _ => option_map (map2 andb g) (select_category r sel ws)
      end
  end.
Definition bad (r : registry) (names : list name) (sel : list (name * name)) (ws : list N)
  : option (list bool) :=
  match bool_bit_mask r names with
  | None => None
  | Some bm =>
      let g := map (fun w => negb (N.land w bm =? 0)) ws in
      match sel with
      | [] => Some g
      | _ => option_map (map2 andb g) (select_category r sel ws)
      end
  end.

(** cut.py:85-105: conversion of a version-1 file. [nbits] is cut_num_used_bits; the descriptions
    are kept. *)
Definition v1_to_v2 (nbits : N) (r : registry) : registry :=
  mkReg (bdesc r) (cdesc r) (clist r) (w32 (N.shiftl 1 nbits - 1)).

(* ------------------------------------------------------------------------------------- *)
(** * cut_parameter *)

(** A double as far as comparisons are concerned. *)
Inductive xval := NaN | NegInf | Fin (q : Q) | PosInf.

(** IEEE [<=]; false whenever a NaN is involved. [x >= y] is [xle y x]. *)
Definition xle (x y : xval) : bool :=
  match x, y with
  | NaN, _ | _, NaN => false
  | NegInf, _ => true
  | _, PosInf => true
  | Fin a, Fin b => Qle_bool a b
  | Fin _, NegInf => false
  | PosInf, _ => false
  end.

(** Python truth value of a limit: None and 0.0 are false; NaN and infinities are true. *)
Definition truthy (a : option xval) : bool :=
  match a with
  | None => false
  | Some (Fin q) => negb (Qeq_bool q 0)
  | Some _ => true
  end.

(** An element of a list-valued [allowed]: a pair of limits or the word 'invert'. *)
Inductive range_elt := Pair (a b : option xval) | Invert.

Inductive allowed_arg :=
| OneRange (a b : option xval)
| Ranges (l : list range_elt).

(** cut.py:447-463: the loop over the ranges. [index] is the Python variable of that name
    (None = not yet bound); an unbound use raises, which becomes a ValueError (None). *)
Fixpoint ranges_loop (l : list range_elt) (data : list xval) (index : option (list bool))
         (cut_vec : list bool) (inv : bool) : option (list bool * bool) :=
  match l with
  | [] => Some (cut_vec, inv)
  | Invert :: rest => ranges_loop rest data index cut_vec true
  | Pair a b :: rest =>
      let index' :=
        match a, b with
        | Some a, Some b => Some (map (fun x => xle a x && xle x b) data)
        | Some a, None => Some (map (fun x => xle a x) data)
        | None, Some b => Some (map (fun x => xle x b) data)
        | None, None => index
        end in
      match index' with
      | None => None
      | Some ix => ranges_loop rest data (Some ix)
                     (map2 (fun i c => if i : bool then false else c) ix cut_vec) inv
      end
  end.

(** cut.py:409-479 cut_parameter with a field name. An empty list of ranges raises IndexError. *)
Definition cut_parameter (r : registry) (data : list xval) (allowed : option allowed_arg)
           (field : name) (ws : list N) : option (list N) :=
  match allowed with
  | None => Some ws
  | Some al =>
      if negb (in_names field (bdesc r)) then None else
      match al with
      | Ranges [] => None
      | Ranges l =>
          match ranges_loop l data None (map (fun _ => true) data) false with
          | None => None
          | Some (v, inv) => cut r field (BoolMask (if inv then map negb v else v)) ws
          end
      | OneRange a b =>
          match truthy a && truthy b, a, b with
          | true, Some a, Some b => cut r field (BoolMask (map (fun x => xle x a || xle b x) data)) ws
          | _, _, _ =>
              match (match a with
                     | Some a => cut r field (BoolMask (map (fun x => xle x a) data)) ws
                     | None => Some ws
                     end) with
              | None => None
              | Some ws1 =>
                  match b with
                  | Some b => cut r field (BoolMask (map (fun x => xle b x) data)) ws1
                  | None => Some ws1
                  end
              end
          end
      end
  end.

(* ------------------------------------------------------------------------------------- *)
(** * Crashes and histories *)

(** The contents of the file after each attribute write of a call, first to last
    (cut.py:203-204, 230-231, 287-293, 314-316). A crash leaves one of these. *)
Definition crash_states (o : reg_op) (r : registry) : list registry :=
  match try_op o r with
  | None => [r]
  | Some r' =>
      match o with
      | RegB _ | UnregB _ =>
          [r; mkReg (bdesc r') (cdesc r) (clist r) (used r); r']
      | RegC _ _ _ =>
          [r; mkReg (bdesc r) (cdesc r) (clist r') (used r);
           mkReg (bdesc r) (cdesc r') (clist r') (used r); r']
      | UnregC _ =>
          [r; mkReg (bdesc r) (cdesc r') (clist r) (used r);
           mkReg (bdesc r) (cdesc r') (clist r') (used r); r']
      end
  end.

(** A history: completed calls and calls killed after their k-th attribute write. *)
Inductive event := Call (o : reg_op) | Crash (o : reg_op) (k : nat).
Definition event_step (r : registry) (e : event) : registry :=
  match e with
  | Call o => step r o
  | Crash o k => nth k (crash_states o r) r
  end.
Definition run_events (es : list event) (r : registry) : registry := fold_left event_step es r.

(** Registry calls interleaved with cuts on the pulses of one channel; a call that raises
    changes nothing. *)
Inductive cut_event :=
| Reg (o : reg_op)
| Cut (field : name) (m : mask_arg)
| CutCat (field : name) (bd : list (name * list bool))
| Clear (names : list name).
Definition keep {A} (a : A) (o : option A) : A := match o with Some x => x | None => a end.
Definition cut_step (s : registry * list N) (e : cut_event) : registry * list N :=
  let '(r, ws) := s in
  match e with
  | Reg o => (step r o, ws)
  | Cut f m => (r, keep ws (cut r f m ws))
  | CutCat f bd => (r, keep ws (cut_categorical r f bd ws))
  | Clear ns => (r, keep ws (clear_cut r ns ws))
  end.
Definition run_cuts (es : list cut_event) (s : registry * list N) : registry * list N :=
  fold_left cut_step es s.
