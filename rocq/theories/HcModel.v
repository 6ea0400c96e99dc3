(** Models of lines of highly charged ions: mass/calibration/hci_models.py 15-154.  Exact rationals; [None] is an exception.  A model is its
    components (lmfit's leaves, in order) and its hints.  lmfit refuses a sum of models that share a parameter (NameError). *)
From Coq Require Import QArith Qcanon Ascii String Bool List.
Import ListNotations.
Local Open Scope Qc_scope.

Definition text := list ascii.
Definition t (s : string) : text := list_ascii_of_string s.
Definition teqb (a b : text) : bool := if list_eq_dec ascii_dec a b then true else false.
(** str.replace with one character, with nothing, and of 'J=' with nothing *)
Definition sub_char (a b : ascii) (s : text) : text := map (fun c => if Ascii.eqb c a then b else c) s.
Definition drop_char (a : ascii) (s : text) : text := filter (fun c => negb (Ascii.eqb c a)) s.
Fixpoint drop_J (s : text) : text :=
  match s with
  | [] => []
  | c :: r => match r with
              | d :: r' => if Ascii.eqb c "J" && Ascii.eqb d "=" then drop_J r' else c :: drop_J r
              | [] => [c]
              end
  end.
(** 25-26, 87-90, 147-148 *)
Definition prefix_of (name : text) : text := drop_char "." (drop_char "*" (sub_char "/" "_" (drop_J (sub_char " " "_" (name ++ t "_"))))).

(** A leaf: its name, its prefix, and the peak energy of its line if it is a GenericLineModel *)
Record comp := mkComp { cname : text; cprefix : text; cpeak : option Qc }.
(** Expressions of hints: another parameter; a shift times a parameter plus another; a product of two *)
Inductive expr := Same (p : text) | Shifted (sep : Qc) (scale at_ : text) | Times (a b : text).
Record model := mkModel { comps : list comp; hints : list (text * expr) }.
(** 24-29: the model of a known line; [lines] gives its peak energy.  (The model's name is that of the line.) *)
Definition line_model (lines : text -> option Qc) (name : text) : option model :=
  match lines name with None => None | Some e => Some (mkModel [mkComp name (prefix_of name) (Some e)] []) end.

(** 42-72.  The sum of the models; parameters of the leaves begin with their prefixes. *)
Fixpoint distinct (l : list text) : bool := match l with [] => true | p :: r => negb (existsb (teqb p) r) && distinct r end.
Definition sum_models (ms : list model) : option model :=
  let cs := flat_map comps ms in if distinct (map cprefix cs) then Some (mkModel cs (flat_map hints ms)) else None.
(** 138-154: line_models has no LinearBackgroundModel. *)
Definition add_bg_model (m : model) : option model := None.
Definition is_line (c : comp) : bool := match cpeak c with Some _ => true | None => false end.
Definition energy_of (c : comp) : Qc := match cpeak c with Some e => e | None => 0 end.
(** list.index by name: the first; ValueError if there is none *)
Fixpoint index_of (name : text) (l : list comp) : option nat :=
  match l with [] => None | c :: r => if teqb (cname c) name then Some O else option_map S (index_of name r) end.
Record composite := mkComposite { body : model; peak_prefix : text; peak_energy : Qc }.
Definition tie (pp : text) (pe : Qc) (c : comp) : list (text * expr) :=
  [(cprefix c ++ t "fwhm", Same (pp ++ t "fwhm")); (cprefix c ++ t "dph_de", Same (pp ++ t "dph_de"));
   (cprefix c ++ t "peak_ph", Shifted (energy_of c - pe) (pp ++ t "dph_de") (pp ++ t "peak_ph"))].
Definition composite_model (ms : list model) (background : bool) (peak_name : option text) : option composite :=
  match sum_models ms with
  | None => None
  | Some m =>
      match (if background then add_bg_model m else Some m) with
      | None => None
      | Some m' =>
          let ls := filter is_line (comps m') in
          match (match peak_name with Some n => Some n | None => option_map cname (nth_error ls 0) end) with
          | None => None
          | Some n =>
              match index_of n ls with
              | None => None
              | Some k =>
                  match nth_error ls k with
                  | None => None
                  | Some pk =>
                      let others := (firstn k ls ++ skipn (k + 1) ls)%list in
                      Some (mkComposite (mkModel (comps m') (hints m' ++ flat_map (tie (cprefix pk) (energy_of pk)) others)) (cprefix pk) (energy_of pk))
                  end
              end
          end
      end
  end.
(** 75-106; [el] is the element and its charge as text.  The last three: the name of the ratio, its value, whether it varies *)
Definition hlike_names (el conf : text) : text * text := ((el ++ t " " ++ conf ++ t " 2P* J=1/2")%list, (el ++ t " " ++ conf ++ t " 2P* J=3/2")%list).
Definition ratio_name (el conf : text) : text := (el ++ t "_" ++ conf ++ t "_amp_ratio")%list.
Definition hlike (lines : text -> option Qc) (el conf : text) (background vary : bool) : option (composite * (text * Qc * bool)) :=
  let '(n12, n32) := hlike_names el conf in
  match line_model lines n12, line_model lines n32 with
  | Some m12, Some m32 =>
      match composite_model [m12; m32] background (Some n32) with
      | None => None
      | Some c =>
          let r := ratio_name el conf in
          let h := (prefix_of n12 ++ t "integral", Times (prefix_of n32 ++ t "integral") r)%list in
          Some (mkComposite (mkModel (comps (body c)) (hints (body c) ++ [h])) (peak_prefix c) (peak_energy c), (r, Q2Qc (1 # 2), vary))
      end
  | _, _ => None
  end.
(** 109-135 *)
Fixpoint all_models (lines : text -> option Qc) (names : list text) : option (list model) :=
  match names with
  | [] => Some []
  | n :: r => match line_model lines n, all_models lines r with Some m, Some ms => Some (m :: ms) | _, _ => None end
  end.
Definition helike_names (el : text) : list text := [(el ++ t " 1s.2s 3S J=1")%list; (el ++ t " 1s.2p 3P* J=1")%list; (el ++ t " 1s.2p 1P* J=1")%list].
Definition helike (lines : text -> option Qc) (el : text) (background : bool) (more : list text) : option composite :=
  match all_models lines (helike_names el ++ more) with
  | None => None
  | Some ms => composite_model ms background (Some (el ++ t " 1s.2p 1P* J=1")%list)
  end.
