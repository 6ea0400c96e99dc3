(** Filter stacks: mass/materials/efficiency_models.py.  Nominal values as real numbers at one energy; [None] is an
    exception, an infinity or not-a-number. *)
From Coq Require Import Reals String Bool List.
Import ListNotations.
Local Open Scope R_scope.

(* ---------- Film, 83-149 ---------- *)

Record film := { materials : list string; densities : list R; thicknesses : list R; fill_fraction : R; absorber : bool }.

(** Division of arrays: of equal length, or one of them of length one. *)
Fixpoint divide_equal (a b : list R) : option (list R) :=
  match a, b with
  | [], [] => Some []
  | x :: a, y :: b => if Req_EM_T y 0 then None else match divide_equal a b with None => None | Some r => Some (x / y :: r) end
  | _, _ => None
  end.
Definition divide (a b : list R) : option (list R) :=
  match a, b with
  | [x], _ => divide_equal (repeat x (List.length b)) b
  | _, [y] => divide_equal a (repeat y (List.length a))
  | _, _ => divide_equal a b
  end.
Fixpoint standard (element : string -> option R) (ms : list string) : option (list R) :=
  match ms with
  | [] => Some []
  | m :: t => match element m, standard element t with Some d, Some r => Some (d :: r) | _, _ => None end
  end.
(** 98-126; [element m] is the standard density of an element, [None] for an unknown one; numbers are lists of one. *)
Definition make_film (element : string -> option R) (material : list string) (area thickness_nm density : option (list R)) (fill : R) (absorbs : bool) : option film :=
  match standard element material with
  | None => None
  | Some usual =>
      let checked := match density with
                     | None => Some usual
                     | Some d => if (List.length material =? List.length d)%nat then Some d else None
                     end in
      match checked with
      | None => None
      | Some d =>
          let thick := match area, thickness_nm with
                       | None, Some t => Some (map (fun v => v * / 10000000) t)
                       | Some a, None => divide a d
                       | _, _ => None
                       end in
          match thick with
          | None => None
          | Some t => if (1 <=? List.length t)%nat then Some {| materials := material; densities := d; thicknesses := t; fill_fraction := fill; absorber := absorbs |} else None
          end
      end
  end.

(** 128-141; [mu m d] is material_mu at the energy in question; no rows cannot be stacked. *)
Definition depths (mu : string -> R -> R) (f : film) : list R :=
  map (fun p => mu (fst (fst p)) (snd (fst p)) * snd p) (combine (combine (materials f) (densities f)) (thicknesses f)).
Definition prod (l : list R) : R := fold_right Rmult 1 l.
Definition film_efficiency (mu : string -> R -> R) (f : film) : option R :=
  match depths mu f with
  | [] => None
  | ds =>
      let transmittance := prod (map (fun d => exp (- d)) ds) in
      Some (if absorber f then (1 - transmittance) * fill_fraction f else transmittance * fill_fraction f + (1 - fill_fraction f))
  end.

(* ---------- FilterStack, 10-55 ---------- *)

Inductive part := AFilm (f : film) | AStack (ps : list (string * part)).
(** Entry in the dictionary of components, 15-17: a name that is there keeps its place. *)
Fixpoint put (ps : list (string * part)) (n : string) (c : part) : list (string * part) :=
  match ps with [] => [(n, c)] | (m, k) :: t => if String.eqb m n then (m, c) :: t else (m, k) :: put t n c end.
Definition named (ps : list (string * part)) (n : string) : option part := option_map snd (find (fun p => String.eqb (fst p) n) ps).
(** 15-17, 19-41; what is added to a film is never looked at, 128-141. *)
Definition add (s : part) (n : string) (c : part) : part := match s with AStack ps => AStack (put ps n c) | AFilm f => AFilm f end.
(** 43-52: the product over the components; none is an error. *)
Fixpoint efficiency (mu : string -> R -> R) (p : part) : option R :=
  match p with
  | AFilm f => film_efficiency mu f
  | AStack [] => None
  | AStack ps =>
      (fix over (l : list (string * part)) : option R :=
         match l with
         | [] => Some 1
         | (_, q) :: t => match efficiency mu q, over t with Some e, Some r => Some (e * r) | _, _ => None end
         end) ps
  end.

(* ---------- AlFilmWithOxide, 152-188; AlFilmWithPolymer, 191-239 ---------- *)

(** A compound: its elements with their mass fractions, and its density. *)
Record compound := { elements : list (string * R); density : R }.
(** 168-188, with the standard density of the oxide *)
Definition al_with_oxide (element : string -> option R) (oxide : compound) (al_nm al_density : R) (surfaces : nat) : option film :=
  if ((surfaces =? 1) || (surfaces =? 2))%nat then
    make_film element ("Al"%string :: map fst (elements oxide)) None
      (Some (al_nm :: repeat (INR surfaces * 3) (List.length (elements oxide))))
      (Some (al_density :: map (fun p => density oxide * snd p) (elements oxide))) 1 false
  else None.
(** 210-239, with the standard densities; the oxide's thickness stays one number, 216 and 236. *)
Definition al_with_polymer (element : string -> option R) (oxide polymer : compound) (al_nm polymer_nm al_density : R) (surfaces : nat) : option film :=
  if ((surfaces =? 1) || (surfaces =? 2))%nat then
    make_film element ("Al"%string :: map fst (elements oxide) ++ map fst (elements polymer)) None
      (Some (al_nm :: INR surfaces * 3 :: repeat polymer_nm (List.length (elements polymer))))
      (Some (al_density :: map (fun p => density oxide * snd p) (elements oxide) ++ map (fun p => density polymer * snd p) (elements polymer))) 1 false
  else None.

(* ---------- LEX_HT, 242-271 ---------- *)

Definition lex_ht (element : string -> option R) : option part :=
  match make_film element ["C"; "H"; "N"; "O"; "Al"]%string (Some [67 / 1000000; 26 / 10000000; 72 / 10000000; 17 / 1000000; 17 / 1000000]) None None 1 false,
        make_film element ["Fe"; "Cr"; "Ni"; "Mn"; "Si"]%string
          (Some (map (fun f => f * 8 * (1 / 100)) [705 / 1000; 19 / 100; 9 / 100; 1 / 100; 5 / 1000])) None None (19 / 100) false with
  | Some f, Some m => Some (add (add (AStack []) "LEX_HT Film" (AFilm f)) "LEX_HT Mesh" (AFilm m))
  | _, _ => None
  end.
