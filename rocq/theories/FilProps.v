(** Filter stacks: what the users of mass.materials see. *)
From Coq Require Import Reals Lra Lia Bool String Permutation List.
Import ListNotations.
From Verif Require Import FilModel FilSpec FilProofs.
Local Open Scope R_scope.

(* ---------- C83: films ---------- *)

(** A film lets through, or absorbs, what its optical depth says; the depth is the sum over its layers. *)
Theorem film_efficiency_value mu f :
  film_efficiency mu f =
  match layers (materials f) (densities f) (thicknesses f) with
  | [] => None
  | l => Some ((if absorber f then absorbed else passed) (optical_depth mu l) (fill_fraction f))
  end.
Proof. apply film_value. Qed.
Print Assumptions film_efficiency_value.

Theorem film_efficiency_unit mu f e : physical mu f -> film_efficiency mu f = Some e -> 0 <= e <= 1.
Proof. apply film_unit. Qed.
Print Assumptions film_efficiency_unit.

(** What a film absorbs and what the same film lets through add up to one. *)
Theorem film_complementary mu ms ds ts fill e e' :
  film_efficiency mu {| materials := ms; densities := ds; thicknesses := ts; fill_fraction := fill; absorber := true |} = Some e ->
  film_efficiency mu {| materials := ms; densities := ds; thicknesses := ts; fill_fraction := fill; absorber := false |} = Some e' ->
  e + e' = 1.
Proof.
  rewrite !film_value. cbn [materials densities thicknesses absorber fill_fraction]. destruct (layers ms ds ts); [discriminate|].
  intros H H'. apply fil_inj in H. apply fil_inj in H'. subst. unfold absorbed, passed. lra.
Qed.
Print Assumptions film_complementary.

(** A thicker layer of what absorbs lets less through. *)
Theorem thicker_passes_less mu ms ds ts extra fill e e' :
  List.length ts = List.length extra ->
  0 <= fill -> 0 <= optical_depth mu (layers ms ds extra) ->
  film_efficiency mu {| materials := ms; densities := ds; thicknesses := ts; fill_fraction := fill; absorber := false |} = Some e ->
  film_efficiency mu {| materials := ms; densities := ds; thicknesses := map (fun p => fst p + snd p) (combine ts extra); fill_fraction := fill; absorber := false |} = Some e' ->
  e' <= e.
Proof.
  intros L F D. rewrite !film_value. cbn [materials densities thicknesses absorber fill_fraction].
  pose proof (depth_sum mu ms ds ts extra L) as S.
  destruct (layers ms ds ts) as [|x l]; [discriminate|]. destruct (layers ms ds (map _ _)) as [|y k]; [discriminate|].
  intros H H'. apply fil_inj in H. apply fil_inj in H'. subst. rewrite S. unfold passed.
  replace (- (optical_depth mu (x :: l) + optical_depth mu (layers ms ds extra)))
    with (- optical_depth mu (x :: l) + - optical_depth mu (layers ms ds extra)) by lra.
  rewrite exp_plus. destruct (exp_unit _ D) as [P Q]. pose proof (exp_pos (- optical_depth mu (x :: l))).
  set (a := exp (- optical_depth mu (x :: l))) in *. set (b := exp (- optical_depth mu (layers ms ds extra))) in *.
  assert (a * b <= a * 1) by (apply Rmult_le_compat_l; lra).
  assert (fill * (1 - a) <= fill * (1 - a * b)) by (apply Rmult_le_compat_l; lra). lra.
Qed.
Print Assumptions thicker_passes_less.

(** Of the mass per area, the density plays no part: it cancels. *)
Theorem area_fixes_efficiency element ms areas dens fill ab f mu kappa :
  (forall m d, mu m d = kappa m * d) -> ms <> [] -> List.length areas = List.length ms ->
  make_film element ms (Some areas) None dens fill ab = Some f ->
  film_efficiency mu f = Some ((if ab then absorbed else passed) (mass_depth kappa ms areas) fill).
Proof. apply with_area. Qed.
Print Assumptions area_fixes_efficiency.

(** One number for the mass per area is taken for every material. *)
Theorem one_area_for_all element ms area dens fill ab f mu kappa :
  (forall m d, mu m d = kappa m * d) -> ms <> [] ->
  make_film element ms (Some [area]) None dens fill ab = Some f ->
  film_efficiency mu f = Some ((if ab then absorbed else passed) (mass_depth kappa ms (repeat area (List.length ms))) fill).
Proof. apply with_one_area. Qed.
Print Assumptions one_area_for_all.

(** Thicknesses are in nanometres; layers beyond the thicknesses that are given are left out. *)
Theorem thickness_fixes_efficiency element ms nm dens d fill ab f mu :
  make_film element ms None (Some nm) dens fill ab = Some f ->
  (match dens with Some d' => Some d' | None => standard element ms end) = Some d ->
  film_efficiency mu f =
  match layers ms d (map (fun v => v / 10000000) nm) with
  | [] => None
  | l => Some ((if ab then absorbed else passed) (optical_depth mu l) fill)
  end.
Proof. apply with_thickness. Qed.
Print Assumptions thickness_fixes_efficiency.

(** So of one number for the thickness only the first material has any: unlike one number for the mass per area. *)
Theorem one_thickness_first_only element m ms nm d ds fill ab f mu :
  make_film element (m :: ms) None (Some [nm]) (Some (d :: ds)) fill ab = Some f ->
  film_efficiency mu f = Some ((if ab then absorbed else passed) (mu m d * (nm / 10000000)) fill).
Proof.
  intros H. rewrite (with_thickness _ _ _ _ _ _ _ _ mu H eq_refl). cbn [map layers].
  assert (E : optical_depth mu ((m, d, nm / 10000000) :: layers ms ds []) = mu m d * (nm / 10000000)).
  { cbn [optical_depth]. replace (layers ms ds []) with (@nil (string * R * R)) by (destruct ms, ds; reflexivity). cbn. lra. }
  rewrite E. reflexivity.
Qed.
Print Assumptions one_thickness_first_only.

Theorem one_thickness_for_all_refuted :
  exists element ms nm f mu, (forall m d, mu m d = 1 * d) /\ make_film element ms None (Some [nm]) None 1 false = Some f /\
  film_efficiency mu f <> film_efficiency mu {| materials := materials f; densities := densities f; thicknesses := repeat (nm / 10000000) (List.length ms); fill_fraction := 1; absorber := false |}.
Proof.
  exists (fun _ => Some 1), ["C"; "H"]%string, 10000000.
  exists {| materials := ["C"; "H"]%string; densities := [1; 1]; thicknesses := [10000000 * / 10000000]; fill_fraction := 1; absorber := false |}.
  exists (fun _ d => 1 * d). split; [reflexivity|]. split; [reflexivity|].
  rewrite !film_value. cbn. intros H. apply fil_inj in H. unfold passed in H.
  assert (E : exp (- (1 * 1 * (10000000 * / 10000000) + 0)) = exp (- (1 * 1 * (10000000 / 10000000) + (1 * 1 * (10000000 / 10000000) + 0)))) by lra.
  apply exp_inv in E. lra.
Qed.
Print Assumptions one_thickness_for_all_refuted.

(** When a film can be made: the materials are elements, one density for each, and either thicknesses or masses per area. *)
Theorem film_made element ms area nm dens fill ab :
  make_film element ms area nm dens fill ab <> None <->
  (forall m, In m ms -> element m <> None) /\
  exists d, (match dens with Some d' => Some d' | None => standard element ms end) = Some d /\ List.length d = List.length ms /\
  ((area = None /\ exists t, nm = Some t /\ t <> []) \/ (nm = None /\ exists a t, area = Some a /\ divide a d = Some t /\ t <> [])).
Proof. apply accepts. Qed.
Print Assumptions film_made.

Theorem area_divides a d : List.length a = List.length d -> (forall y, In y d -> y <> 0) ->
  exists t, divide a d = Some t /\ List.length t = List.length d /\ forall i, (i < List.length d)%nat -> nth i t 0 * nth i d 0 = nth i a 0.
Proof.
  intros L N. rewrite (divide_same a d L). destruct (divide_equal a d) as [t|] eqn:E; [|exfalso; revert E; now apply divide_equal_ok].
  exists t. destruct (divide_equal_spec a d t E) as (_ & M & V). auto.
Qed.
Print Assumptions area_divides.
Lemma nth_repeat_lt (y : R) n i : (i < n)%nat -> nth i (repeat y n) 0 = y.
Proof. revert i. induction n as [|n IH]; intros [|i] L; try lia; [reflexivity|]. cbn. apply IH. lia. Qed.
(** One density for several areas, or one area for several densities. *)
Theorem area_divides_one : (forall a y, a <> [] -> y <> 0 -> exists t, divide a [y] = Some t /\ List.length t = List.length a /\ forall i, (i < List.length a)%nat -> nth i t 0 * y = nth i a 0) /\
  (forall x d, (forall y, In y d -> y <> 0) -> exists t, divide [x] d = Some t /\ List.length t = List.length d /\ forall i, (i < List.length d)%nat -> nth i t 0 * nth i d 0 = x).
Proof.
  assert (G : forall a d, List.length a = List.length d -> (forall y, In y d -> y <> 0) -> exists t, divide_equal a d = Some t /\ List.length t = List.length d /\ forall i, (i < List.length d)%nat -> nth i t 0 * nth i d 0 = nth i a 0).
  { intros a d L N. destruct (divide_equal a d) as [t|] eqn:E; [|exfalso; revert E; now apply divide_equal_ok]. exists t. destruct (divide_equal_spec a d t E) as (_ & M & V). auto. }
  split.
  - intros a y NE N. assert (D : divide a [y] = divide_equal a (repeat y (List.length a))) by (destruct a as [|x [|x' a]]; [contradiction|reflexivity|reflexivity]). rewrite D.
    destruct (G a (repeat y (List.length a))) as (t & E & L & V); [now rewrite repeat_length|intros z Z; apply repeat_spec in Z; now subst|]. rewrite repeat_length in L, V. exists t. split; [exact E|]. split; [exact L|]. intros i Li. rewrite <- (V i Li), nth_repeat_lt by exact Li. reflexivity.
  - intros x d N. cbn [divide]. destruct (G (repeat x (List.length d)) d) as (t & E & L & V); [now rewrite repeat_length|exact N|]. exists t. split; [exact E|]. split; [exact L|]. intros i Li. rewrite (V i Li). now apply nth_repeat_lt.
Qed.
Print Assumptions area_divides_one.
Example area_divides_one_case : exists t, divide [4; 6] [2] = Some t /\ nth 1 t 0 = 3.
Proof. destruct (proj1 area_divides_one [4; 6] 2 ltac:(discriminate) ltac:(lra)) as (t & E & L & V). exists t. split; [exact E|]. specialize (V 1%nat (le_n 2)). change (nth 1 [4; 6] 0) with 6 in V. lra. Qed.

Definition sample_element (m : string) : option R := if String.eqb m "C" then Some 2 else if String.eqb m "H" then Some 1 else None.
Example sample_film :
  let mu := fun (m : string) d => 3 * d in
  exists f, make_film sample_element ["C"; "H"]%string (Some [4; 5]) None None (1 / 2) false = Some f /\
            film_efficiency mu f = Some (1 - 1 / 2 * (1 - exp (-27))) /\ physical mu f.
Proof.
  unfold make_film. cbn -[Req_EM_T Rmult Rdiv]. destruct (Req_EM_T 2 0); [lra|]. destruct (Req_EM_T 1 0); [lra|]. cbn -[Rmult Rdiv].
  eexists. split; [reflexivity|]. split.
  - rewrite film_value. cbn -[Rmult Rdiv Rplus]. unfold passed. do 4 f_equal. f_equal. lra.
  - split; cbn -[Rmult Rdiv]; [|lra]. intros m d t [E|[E|[]]]; injection E as <- <- <-; lra.
Qed.
Example sample_unknown : make_film sample_element ["C"; "Xx"]%string (Some [4; 5]) None None 1 false = None.
Proof. reflexivity. Qed.

(* ---------- C84: stacks ---------- *)

(** The efficiency of a stack is the product of those of its components. *)
Theorem stack_product mu ps : ps <> [] -> efficiency mu (AStack ps) = product (map (fun np => efficiency mu (snd np)) ps).
Proof. apply efficiency_stack. Qed.
Print Assumptions stack_product.

Theorem stack_order mu ps ps' : Permutation ps ps' -> efficiency mu (AStack ps) = efficiency mu (AStack ps').
Proof.
  intros P. destruct ps as [|x ps]; [apply Permutation_nil in P; now subst|].
  assert (ps' <> []) by (intros ->; apply Permutation_sym, Permutation_nil in P; discriminate).
  rewrite !efficiency_stack by (assumption || discriminate). apply product_perm. now apply Permutation_map.
Qed.
Print Assumptions stack_order.

(** Stacks within stacks: the product over all the films, if no stack in it is empty; otherwise an error. *)
Theorem stack_of_films mu p :
  (furnished p -> efficiency mu p = product (map (film_efficiency mu) (films p))) /\ (~ furnished p -> efficiency mu p = None).
Proof. split; [apply efficiency_films | apply efficiency_empty]. Qed.
Print Assumptions stack_of_films.

Theorem stack_unit mu p e : (forall f, In f (films p) -> physical mu f) -> efficiency mu p = Some e -> 0 <= e <= 1.
Proof. apply unit_stack. Qed.
Print Assumptions stack_unit.

(** A new component multiplies the efficiency by its own. *)
Theorem added_component mu ps n c e x : ps <> [] -> named ps n = None -> efficiency mu (AStack ps) = Some e -> efficiency mu c = Some x ->
  efficiency mu (add (AStack ps) n c) = Some (e * x).
Proof.
  intros N F E X. cbn [add]. rewrite (put_fresh ps n c F). rewrite efficiency_stack in * by (try assumption; intros Z; apply app_eq_nil in Z; now destruct Z).
  rewrite map_app, product_app, E. cbn. rewrite X. f_equal. lra.
Qed.
Print Assumptions added_component.

Theorem first_component mu n c : efficiency mu (add (AStack []) n c) = efficiency mu c.
Proof. cbn. destruct (efficiency mu c); [f_equal; lra|reflexivity]. Qed.
Print Assumptions first_component.

(** A component of a name already there takes the old one's place: the old one is lost. *)
Theorem replaced_component ps n c :
  named (put ps n c) n = Some c /\ (forall n', n' <> n -> named (put ps n c) n' = named ps n') /\
  map fst (put ps n c) = match named ps n with Some _ => map fst ps | None => map fst ps ++ [n] end.
Proof. split; [apply named_put|]. split; [intros; now apply named_put_other | apply put_names]. Qed.
Print Assumptions replaced_component.

Theorem added_multiplies_refuted :
  exists mu ps n c e x, efficiency mu (AStack ps) = Some e /\ efficiency mu c = Some x /\ efficiency mu (add (AStack ps) n c) <> Some (e * x).
Proof.
  set (f := AFilm {| materials := ["C"%string]; densities := [1]; thicknesses := [1]; fill_fraction := 1; absorber := false |}).
  assert (V : efficiency (fun _ _ => 1) f = Some (passed (1 * 1 + 0) 1)) by apply film_value.
  exists (fun _ _ => 1), [("a"%string, f)], "a"%string, f, (passed (1 * 1 + 0) 1 * 1), (passed (1 * 1 + 0) 1).
  split; [rewrite efficiency_stack by discriminate; cbn [map product snd]; now rewrite V|]. split; [exact V|].
  cbn [add put]. rewrite String.eqb_refl. rewrite efficiency_stack by discriminate. cbn [map product snd]. rewrite V. intros H.
  apply fil_inj in H. unfold passed in H.
  assert (P : 0 < exp (- (1 * 1 + 0))) by apply exp_pos. assert (X : exp (- (1 * 1 + 0)) < exp 0) by (apply exp_increasing; lra). rewrite exp_0 in X.
  set (a := exp (- (1 * 1 + 0))) in *. assert (a * a < a * 1) by (apply Rmult_lt_compat_l; assumption).
  ring_simplify in H. lra.
Qed.
Print Assumptions added_multiplies_refuted.

(** Two layers of the same film, one behind the other, are one of the joint thickness. *)
Theorem layers_in_series mu ms ds t1 t2 n1 n2 : List.length t1 = List.length t2 ->
  let one t := {| materials := ms; densities := ds; thicknesses := t; fill_fraction := 1; absorber := false |} in
  efficiency mu (AStack [(n1, AFilm (one t1)); (n2, AFilm (one t2))]) = film_efficiency mu (one (map (fun p => fst p + snd p) (combine t1 t2))).
Proof.
  intros L. cbn zeta. rewrite efficiency_stack by discriminate. cbn [map product snd]. cbn [efficiency]. rewrite !film_value.
  cbn [materials densities thicknesses absorber fill_fraction].
  pose proof (depth_sum mu ms ds t1 t2 L) as S.
  destruct ms as [|m ms]; [reflexivity|]. destruct ds as [|d ds]; [reflexivity|].
  destruct t1 as [|a t1], t2 as [|b t2]; try discriminate; [reflexivity|].
  cbn [layers combine map fst snd] in *. f_equal. rewrite S. unfold passed.
  replace (- (optical_depth mu ((m, d, a) :: layers ms ds t1) + optical_depth mu ((m, d, b) :: layers ms ds t2)))
    with (- optical_depth mu ((m, d, a) :: layers ms ds t1) + - optical_depth mu ((m, d, b) :: layers ms ds t2)) by lra.
  rewrite exp_plus. lra.
Qed.
Print Assumptions layers_in_series.

Example sample_stack :
  let f := {| materials := ["C"%string]; densities := [1]; thicknesses := [2]; fill_fraction := 1; absorber := false |} in
  let p := AStack [("a"%string, AFilm f); ("b"%string, AStack [("c"%string, AFilm f)])] in
  furnished p /\ films p = [f; f].
Proof.
  split; [|reflexivity]. constructor; [discriminate|]. intros n p [E|[E|[]]]; injection E as <- <-; [constructor|].
  constructor; [discriminate|]. intros n p [E|[]]; injection E as <- <-. constructor.
Qed.
Example sample_empty : ~ furnished (AStack [("a"%string, AStack [])]).
Proof. intros H. inversion H as [|ps N F]; subst. specialize (F _ _ (or_introl eq_refl)). inversion F; congruence. Qed.

(* ---------- C85: ready-made films ---------- *)

(** The oxidised film: aluminium, and each element of the oxide with three nanometres a surface. *)
Theorem oxide_layers element oxide al_nm al_density surfaces :
  (forall m, In m ("Al"%string :: map fst (elements oxide)) -> element m <> None) -> surfaces = 1%nat \/ surfaces = 2%nat ->
  exists f, al_with_oxide element oxide al_nm al_density surfaces = Some f /\ fill_fraction f = 1 /\ absorber f = false /\
  layers (materials f) (densities f) (thicknesses f) =
  al_layer al_nm al_density :: map (fun p => (fst p, density oxide * snd p, INR surfaces * 3 / 10000000)) (elements oxide).
Proof. apply oxide_film. Qed.
Print Assumptions oxide_layers.

(** With the coefficient linear in the density, that is the aluminium and the oxide one behind the other. *)
Theorem oxide_efficiency element oxide al_nm al_density surfaces kappa :
  (forall m, In m ("Al"%string :: map fst (elements oxide)) -> element m <> None) -> surfaces = 1%nat \/ surfaces = 2%nat ->
  exists f, al_with_oxide element oxide al_nm al_density surfaces = Some f /\
  film_efficiency (fun m d => kappa m * d) f =
  Some (exp (- (kappa "Al"%string * al_density * (al_nm / 10000000))) *
        exp (- (density oxide * (INR surfaces * 3 / 10000000) * fold_right Rplus 0 (map (fun p => kappa (fst p) * snd p) (elements oxide))))).
Proof.
  intros K S. destruct (oxide_film element oxide al_nm al_density surfaces K S) as (f & E & F & A & L). exists f. split; [exact E|].
  rewrite film_value, L, A, F. unfold al_layer. cbn [optical_depth]. f_equal. unfold passed.
  assert (Q : optical_depth (fun m d => kappa m * d) (map (fun p => (fst p, density oxide * snd p, INR surfaces * 3 / 10000000)) (elements oxide)) =
    density oxide * (INR surfaces * 3 / 10000000) * fold_right Rplus 0 (map (fun p => kappa (fst p) * snd p) (elements oxide))).
  { clear. induction (elements oxide) as [|(m, x) l IH]; cbn [map optical_depth fold_right fst snd]; [lra|]. rewrite IH. lra. }
  rewrite Q, <- exp_plus. match goal with |- 1 - 1 * (1 - exp ?a) = exp ?b => replace b with a by lra end. lra.
Qed.
Print Assumptions oxide_efficiency.

Theorem surfaces_checked element oxide polymer al_nm polymer_nm al_density surfaces :
  surfaces <> 1%nat -> surfaces <> 2%nat ->
  al_with_oxide element oxide al_nm al_density surfaces = None /\ al_with_polymer element oxide polymer al_nm polymer_nm al_density surfaces = None.
Proof.
  intros N M. apply Nat.eqb_neq in N, M. unfold al_with_oxide, al_with_polymer. rewrite N, M. now split.
Qed.
Print Assumptions surfaces_checked.

(** The film with a polymer: only the first element of the oxide gets the oxide's thickness; the others get the polymer's,
    and as many elements of the polymer are left out at the end. *)
Theorem polymer_layers element oxide polymer al_nm polymer_nm al_density surfaces m x rest :
  (forall m, In m ("Al"%string :: map fst (elements oxide) ++ map fst (elements polymer)) -> element m <> None) ->
  surfaces = 1%nat \/ surfaces = 2%nat -> elements oxide = (m, x) :: rest ->
  exists f, al_with_polymer element oxide polymer al_nm polymer_nm al_density surfaces = Some f /\ fill_fraction f = 1 /\ absorber f = false /\
  layers (materials f) (densities f) (thicknesses f) =
  al_layer al_nm al_density :: (m, density oxide * x, INR surfaces * 3 / 10000000) ::
  firstn (List.length (elements polymer))
    (map (fun p => (fst p, density oxide * snd p, polymer_nm / 10000000)) rest ++ map (fun p => (fst p, density polymer * snd p, polymer_nm / 10000000)) (elements polymer)).
Proof. apply polymer_film. Qed.
Print Assumptions polymer_layers.

(** So, for alumina, its oxygen is as thick as the polymer: what is meant is another film. *)
Theorem polymer_as_meant_refuted :
  exists element oxide polymer al_nm polymer_nm al_density surfaces f kappa,
    al_with_polymer element oxide polymer al_nm polymer_nm al_density surfaces = Some f /\ (forall m : string, 0 < kappa m) /\
    film_efficiency (fun m d => kappa m * d) f <>
    film_efficiency (fun m d => kappa m * d)
      {| materials := materials f; densities := densities f;
         thicknesses := al_nm / 10000000 :: repeat (INR surfaces * 3 / 10000000) (List.length (elements oxide)) ++ repeat (polymer_nm / 10000000) (List.length (elements polymer));
         fill_fraction := 1; absorber := false |}.
Proof.
  exists (fun _ => Some 1), {| elements := [("Al", 1 / 2); ("O", 1 / 2)]%string; density := 4 |}, {| elements := [("C", 3 / 4); ("H", 1 / 4)]%string; density := 1 |}.
  exists 100, 200, 3, 1%nat.
  destruct (polymer_film (fun _ => Some 1) {| elements := [("Al", 1 / 2); ("O", 1 / 2)]%string; density := 4 |} {| elements := [("C", 3 / 4); ("H", 1 / 4)]%string; density := 1 |}
    100 200 3 1 "Al" (1 / 2) [("O"%string, 1 / 2)] (fun _ _ => ltac:(discriminate)) (or_introl eq_refl) eq_refl) as (f & E & F & A & L).
  exists f, (fun _ => 1). split; [exact E|]. split; [intros _; lra|].
  rewrite !film_value, L, F, A. cbn [materials densities thicknesses absorber fill_fraction].
  assert (M : materials f = ["Al"; "Al"; "O"; "C"; "H"]%string) by (clear - E; unfold al_with_polymer, make_film in E; cbn in E; injection E as <-; reflexivity).
  assert (D : densities f = [3; 4 * (1 / 2); 4 * (1 / 2); 1 * (3 / 4); 1 * (1 / 4)]) by (clear - E; unfold al_with_polymer, make_film in E; cbn in E; injection E as <-; reflexivity).
  rewrite M, D. cbn. intros H. apply fil_inj in H. unfold passed, al_layer in H.
  match type of H with 1 - 1 * (1 - exp ?a) = 1 - 1 * (1 - exp ?b) => assert (Q : exp a = exp b) by lra end.
  apply exp_inv in Q. cbn in Q. lra.
Qed.
Print Assumptions polymer_as_meant_refuted.

(** The vacuum window lets through at least the open part of its mesh, 0.81 of what its film lets through, whatever the densities. *)
Theorem lex_ht_value element kappa :
  (forall m, In m ["C"; "H"; "N"; "O"; "Al"; "Fe"; "Cr"; "Ni"; "Mn"; "Si"]%string -> exists d, element m = Some d /\ d <> 0) ->
  exists p, lex_ht element = Some p /\
  efficiency (fun m d => kappa m * d) p =
  Some (passed (mass_depth kappa ["C"; "H"; "N"; "O"; "Al"]%string [67 / 1000000; 26 / 10000000; 72 / 10000000; 17 / 1000000; 17 / 1000000]) 1 *
        passed (8 / 100 * mass_depth kappa ["Fe"; "Cr"; "Ni"; "Mn"; "Si"]%string [705 / 1000; 19 / 100; 9 / 100; 1 / 100; 5 / 1000]) (19 / 100)).
Proof.
  intros K. unfold lex_ht.
  assert (St : forall ms, (forall m, In m ms -> exists d, element m = Some d /\ d <> 0) -> exists r, standard element ms = Some r /\ forall y, In y r -> y <> 0).
  { clear. induction ms as [|m ms IH]; intros H; cbn; [exists []; split; [reflexivity|intros ? []]|].
    destruct (H m (or_introl eq_refl)) as (d & -> & N). destruct IH as (r & -> & M); [intros; apply H; now right|].
    exists (d :: r). split; [reflexivity|]. intros y [<- | I]; auto. }
  assert (Mk : forall ms areas fill, ms <> [] -> List.length areas = List.length ms -> (forall m, In m ms -> exists d, element m = Some d /\ d <> 0) ->
    exists f, make_film element ms (Some areas) None None fill false = Some f).
  { clear - St. intros ms areas fill N L H. destruct (make_film element ms (Some areas) None None fill false) as [f|] eqn:E; [eauto|]. exfalso.
    revert E. apply accepts. split; [intros m I; destruct (H m I) as (d & -> & _); discriminate|].
    destruct (St ms H) as (r & S & Z). exists r. split; [exact S|]. pose proof (standard_length _ _ _ S) as LS. split; [exact LS|]. right. split; [reflexivity|].
    destruct (area_divides areas r) as (t & D & LT & _); [congruence|exact Z|]. exists areas, t. split; [reflexivity|]. split; [exact D|].
    intros ->. cbn in LT. destruct ms; [congruence|]. cbn in LS. lia. }
  destruct (Mk ["C"; "H"; "N"; "O"; "Al"]%string [67 / 1000000; 26 / 10000000; 72 / 10000000; 17 / 1000000; 17 / 1000000] 1) as (f & Ef);
    [discriminate | reflexivity | intros m I; apply K; cbn in *; tauto |].
  destruct (Mk ["Fe"; "Cr"; "Ni"; "Mn"; "Si"]%string (map (fun f => f * 8 * (1 / 100)) [705 / 1000; 19 / 100; 9 / 100; 1 / 100; 5 / 1000]) (19 / 100)) as (g & Eg);
    [discriminate | reflexivity | intros m I; apply K; cbn in *; tauto |].
  rewrite Ef, Eg. eexists. split; [reflexivity|]. cbn [add put]. change (String.eqb "LEX_HT Film" "LEX_HT Mesh") with false. cbn match.
  rewrite efficiency_stack by discriminate. cbn [map snd product efficiency].
  apply (with_area _ _ _ _ _ _ _ (fun m d => kappa m * d) kappa (fun _ _ => eq_refl)) in Ef; [|discriminate|reflexivity]. rewrite Ef.
  apply (with_area _ _ _ _ _ _ _ (fun m d => kappa m * d) kappa (fun _ _ => eq_refl)) in Eg; [|discriminate|reflexivity]. rewrite Eg.
  f_equal. cbn [map mass_depth]. rewrite Rmult_1_r. f_equal. f_equal. lra.
Qed.
Print Assumptions lex_ht_value.

Example sample_oxide : exists f, al_with_oxide (fun _ => Some 1) {| elements := [("Al", 53 / 100); ("O", 47 / 100)]%string; density := 4 |} 100 (27 / 10) 2 = Some f /\
  materials f = ["Al"; "Al"; "O"]%string.
Proof. eexists. split; reflexivity. Qed.
