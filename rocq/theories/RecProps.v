(** Properties of recipes (C44) and of the records selected by states and cuts (C62). *)
From Coq Require Import ZArith Ascii String Bool Lia Sorting.Sorted List.
From Verif Require Import Kept LjhModel StModel StSpec StProofs RecModel RecSpec RecProofs.
Import ListNotations.

(** * C44 *)

(** After any definitions, reading an attribute gives the value of its latest definition on the
    values that its ingredients had when it was made. *)
Theorem recipe_values : forall (V : Type) neg bases (ds : list (def V)) b, Forall proper ds -> adds bases [] ds = Some b ->
  forall look n, get_attr neg b look n = meaning look (rev (map entry_of ds)) n.
Proof.
  intros V neg bases ds b P H look n. apply get_attr_ok.
  rewrite <- (app_nil_r (rev _)). exact (agrees_adds bases ds [] [] b P agrees_nil H).
Qed.
Print Assumptions recipe_values.

(** If no name is defined twice and none is that of a base ingredient, each recipe is its
    function on the values of its ingredients. *)
Theorem recipe_equations : forall (V : Type) neg bases (ds : list (def V)) b, Forall proper ds -> adds bases [] ds = Some b ->
  NoDup (map d_name ds) -> (forall n, In n (map d_name ds) -> ~ In n bases) ->
  forall look d, In d ds ->
  get_attr neg b look (d_name d) =
  match sequence (map (get_attr neg b look) (asked d)) with Some args => call (d_fn d) args | None => None end.
Proof.
  intros V neg bases ds b P H ND NB look d Hd.
  assert (G := recipe_values V neg bases ds b P H look). rewrite G, (map_ext _ _ G). now apply (late bases ds b look d).
Qed.
Print Assumptions recipe_equations.

(** Cut recipes: after k exclamation marks, negated if k is odd. *)
Theorem recipe_negation : forall (V : Type) neg bases (ds : list (def V)) b, Forall proper ds -> adds bases [] ds = Some b ->
  forall look n k, In n (map d_name ds) ->
  (is_substring "cut" n -> craft neg b look (banged k n) =
     if Nat.even k then get_attr neg b look n else option_map neg (get_attr neg b look n)) /\
  (~ is_substring "cut" n -> (0 < k)%nat -> craft neg b look (banged k n) = None).
Proof.
  intros V neg bases ds b P H look n k Hn. assert (A := agrees_adds bases ds [] [] b P agrees_nil H). rewrite app_nil_r in A.
  split.
  - intros C. rewrite (get_attr_ok neg b _ look n A). apply craft_banged; [exact A | | exact C].
    apply A. rewrite names_of, <- in_rev. exact Hn.
  - intros C K. now apply (craft_banged_other neg b _ look n k A).
Qed.
Print Assumptions recipe_negation.

(** Crafting a function: its value on the attributes named as its parameters. *)
Theorem recipe_function : forall (V : Type) neg bases (ds : list (def V)) b, Forall proper ds -> adds bases [] ds = Some b ->
  forall look f, NoDup (params f) -> ~ In "self"%string (params f) ->
  (forall p, In p (params f) -> In p bases \/ In p (map d_name ds)) ->
  craft_fn bases b look f = match sequence (map (get_attr neg b look) (params f)) with Some args => call f args | None => None end.
Proof.
  intros V neg bases ds b P H look f ND NS K. assert (A := agrees_adds bases ds [] [] b P agrees_nil H). rewrite app_nil_r in A.
  assert (E : arg_names f = params f).
  { unfold arg_names. destruct (has (params f) "self"%string) eqn:E; [| reflexivity]. exfalso. now apply NS, has_spec. }
  unfold craft_fn. rewrite add_temp; cbn [ingredient_names]; rewrite ?E; [| exact ND | exact ND | exact I |].
  - cbn [run]. rewrite map_map. cbn [fst snd].
    rewrite (map_ext (get_attr neg b look) (fun i => match bget b i with Some r' => run look r' | None => look i end)); [reflexivity |].
    intros i. rewrite (get_attr_ok neg b _ look i A). destruct A as (A1 & _). specialize (A1 look i). destruct (bget b i); congruence.
  - intros i Hi. destruct (K i Hi) as [B | D]; [now left | right]. apply A. now rewrite names_of, <- in_rev.
Qed.
Print Assumptions recipe_function.

(** When a definition is accepted. *)
Theorem recipe_accepted : forall (V : Type) bases (ds : list (def V)) b d, Forall proper ds -> adds bases [] ds = Some b -> proper d ->
  (adds bases [] (ds ++ [d]) <> None <->
   (forall i, In i (asked d) -> In i bases \/ In i (map d_name ds)) /\
   (d_over d = true \/ ~ In (d_name d) (map d_name ds)) /\
   String.prefix "!" (d_name d) = false /\
   match d_ings d with
   | Some l => (length l <= length (filter (fun p => negb (String.eqb p "self")) (params (d_fn d))))%nat
   | None => True
   end).
Proof.
  intros V bases ds b d P H Pd. assert (A := agrees_adds bases ds [] [] b P agrees_nil H). rewrite app_nil_r in A.
  assert (N : forall i, bget b i <> None <-> In i (map d_name ds)).
  { intros i. destruct A as (_ & A2 & _). rewrite A2, names_of, <- in_rev. reflexivity. }
  rewrite adds_app, H. cbn [adds]. split.
  - destruct (add bases b (d_name d) (d_fn d) (d_ings d) (d_over d)) as [[b' r] |] eqn:E; [intros _ | intros C; now destruct C].
    destruct (add_inv _ _ _ _ _ Pd E) as (_ & _ & K & O & B & L).
    split; [intros i Hi; destruct (K i Hi) as [C | C]; [now left | right; now apply N] |].
    split; [| split; [exact B | exact L]].
    destruct O as [O | O]; [now left | right]. intros C. apply N in C. congruence.
  - intros (K & O & B & L). rewrite add_conv; [discriminate | exact Pd | | | exact B | exact L].
    + intros i Hi. destruct (K i Hi) as [C | C]; [now left | right; now apply N].
    + destruct O as [O | O]; [now left | right]. destruct (bget b (d_name d)) eqn:E; [| reflexivity].
      exfalso. apply O, N. congruence.
Qed.
Print Assumptions recipe_accepted.

Section Examples.
Local Open Scope string_scope.
Definition sum2 : fn Z := mkFn ["x"; "y"] (fun l => match l with [a; b] => Some (a + b)%Z | _ => None end).
Definition dbl (p : string) : fn Z := mkFn ["self"; p] (fun l => match l with [a] => Some (2 * a)%Z | _ => None end).
Definition gt5 : fn Z := mkFn ["v"] (fun l => match l with [a] => Some (if (5 <? a)%Z then 1 else 0)%Z | _ => None end).
Definition not_ (z : Z) : Z := (1 - z)%Z.
Definition src (n : name) : option Z := if n =? "a" then Some 3%Z else if n =? "x" then Some 10%Z else None.
Definition ds1 : list (def Z) :=
  [mkDef "b" (dbl "a") None false; mkDef "c" sum2 (Some ["b"; "x"]) false; mkDef "cutBig" gt5 (Some ["c"]) false].
Example recipe_instance : Forall proper ds1 /\ NoDup (map d_name ds1) /\ (forall n, In n (map d_name ds1) -> ~ In n ["a"; "x"]) /\
  option_map (fun b => map (get_attr not_ b src) ["a"; "b"; "c"; "cutBig"]) (adds ["a"; "x"] [] ds1)
  = Some [Some 3; Some 6; Some 16; Some 1]%Z /\
  option_map (fun b => map (craft not_ b src) ["!cutBig"; "!!cutBig"; "!!!cutBig"; "!c"]) (adds ["a"; "x"] [] ds1)
  = Some [Some 0; Some 1; Some 0; None]%Z.
Proof.
  assert (D : forall l : list string, (fix nd l := match l with [] => true | x :: t => negb (has t x) && nd t end) l = true -> NoDup l).
  { induction l as [| x l IH]; intros E; constructor; apply andb_prop in E; destruct E as [E1 E2]; [| now apply IH].
    rewrite <- has_spec. destruct (has l x); [discriminate E1 | discriminate]. }
  split. { unfold proper. repeat (constructor; [split; [apply D; reflexivity | split; [apply D; reflexivity | discriminate]] |]). constructor. }
  split; [apply D; reflexivity |]. split; [| split; reflexivity].
  intros n H C. cbn in H, C. destruct H as [<- | [<- | [<- | []]]]; destruct C as [C | [C | []]]; discriminate C.
Qed.

(** Redefining a recipe does not change those made from it. *)
Theorem recipe_overwritten_refuted : exists (ds : list (def Z)) b d args,
  Forall proper ds /\ adds ["a"; "x"] [] ds = Some b /\ In d ds /\ bget b (d_name d) <> None /\
  sequence (map (get_attr not_ b src) (asked d)) = Some args /\ get_attr not_ b src (d_name d) <> call (d_fn d) args.
Proof.
  exists [mkDef "b" (dbl "a") None false; mkDef "c" (dbl "b") None false; mkDef "b" (dbl "x") None true].
  eexists. exists (mkDef "c" (dbl "b") None false). eexists. split.
  { unfold proper.
    repeat (constructor; [split; [repeat constructor; cbn; intuition discriminate | split; [repeat constructor; cbn; intuition discriminate | discriminate]] |]).
    constructor. }
  split; [vm_compute; reflexivity |]. split; [right; now left |]. split; [vm_compute; discriminate |].
  split; [vm_compute; reflexivity |]. vm_compute. discriminate.
Qed.
Print Assumptions recipe_overwritten_refuted.

(** Nor does a recipe with the name of a base ingredient. *)
Theorem recipe_hidden_refuted : exists (ds : list (def Z)) b d args,
  Forall proper ds /\ adds ["a"; "x"] [] ds = Some b /\ NoDup (map d_name ds) /\ In d ds /\
  sequence (map (get_attr not_ b src) (asked d)) = Some args /\ get_attr not_ b src (d_name d) <> call (d_fn d) args.
Proof.
  exists [mkDef "c" (dbl "a") None false; mkDef "a" (dbl "x") None false].
  eexists. exists (mkDef "c" (dbl "a") None false). eexists. split.
  { unfold proper.
    repeat (constructor; [split; [repeat constructor; cbn; intuition discriminate | split; [repeat constructor; cbn; intuition discriminate | discriminate]] |]).
    constructor. }
  split; [vm_compute; reflexivity |]. split; [repeat constructor; cbn; intuition discriminate |]. split; [now left |].
  split; [vm_compute; reflexivity |]. vm_compute. discriminate.
Qed.
Print Assumptions recipe_hidden_refuted.

(** An ingredient asked for twice is passed once. *)
Theorem recipe_twice_refuted : exists (d : def Z) b, adds ["a"; "x"] [] [d] = Some b /\ asked d = ["a"; "a"] /\
  call (d_fn d) [3; 3]%Z = Some 6%Z /\ get_attr not_ b src (d_name d) = None /\ src "a" = Some 3%Z.
Proof.
  exists (mkDef "c" sum2 (Some ["a"; "a"]) false). eexists. split; [vm_compute; reflexivity |].
  split; [reflexivity |]. split; [reflexivity |]. split; reflexivity.
Qed.
Print Assumptions recipe_twice_refuted.
End Examples.

(** * C62 *)

(** Reading slices with a cut: the selections from each slice one after the other. *)
Theorem slices_selected : forall (A : Type) (zero : A) cut off inds, inds <> [] -> Forall (fun s => (fst s <= snd s)%nat) inds ->
  index_list zero cut off inds = option_map (@concat A) (sequence (map (index_slice cut off) inds)).
Proof. exact @index_list_ok. Qed.
Print Assumptions slices_selected.

Theorem slices_selected_pointwise : forall (A : Type) (zero : A) p off inds, inds <> [] -> Forall (fun s => (fst s <= snd s)%nat) inds ->
  index_list zero (fun r => Some (map p r)) off inds = Some (filter p (flat_map (in_slice zero off) inds)).
Proof. exact @index_list_pointwise. Qed.
Print Assumptions slices_selected_pointwise.

(** Reading states of the state file: state by state, the records in that state, in order, that
    pass the cut. *)
Theorem states_selected : forall (A : Type) (zero : A) p (off : list A) rnd alias f ts xs ex us states, state_file f ts xs ->
  nondecreasing (map rnd ts) -> nondecreasing (map rnd us) -> length off = length us ->
  states <> [] -> (forall a, In a states -> exists x, In x xs /\ ~ is_excluded ex xs x /\ alias x = a) ->
  exists e d js, esf_parse rnd f (esf_init ex) = Some e /\ calc_states rnd alias e us [] 0 0 = Some d /\
    (forall a, kept (fun j => in_state alias (is_excluded ex xs) (map rnd ts) xs (rnd (nth j us 0%Z)) a)
                    (seq 0 (length us)) (js a)) /\
    records_of zero (fun r => Some (map p r)) off d states
    = Some (filter p (map (fun j => nth j off zero) (flat_map js states))).
Proof. exact @records_of_states. Qed.
Print Assumptions states_selected.

Example slices_instance :
  index_list 0%Z (fun r => Some (map (fun z => Z.odd z) r)) [1; 2; 3; 4; 5; 7; 9]%Z [(4, 9); (0, 3); (1, 3)]%nat
  = Some [5; 7; 9; 1; 3; 3]%Z.
Proof. reflexivity. Qed.

(** With a slice that ends before it starts, a record may be lost. *)
Theorem slices_reversed_refuted : exists inds off, inds <> [] /\
  index_list 0%Z (fun r => Some (map (fun _ => true) r)) off inds = Some [] /\ flat_map (in_slice 0%Z off) inds = [8]%Z.
Proof. exists [(0, 1); (1, 0)]%nat, [8]%Z. split; [discriminate |]. split; reflexivity. Qed.
Print Assumptions slices_reversed_refuted.
