(** Property C108: the X-ray line database. *)
From Coq Require Import Ascii Bool Arith ZArith Lia String List.
From Verif Require Import NxModel NxSpec NxProofs.
Import ListNotations.
Local Open Scope string_scope.
Local Open Scope list_scope.
Local Infix "^^" := String.append (right associativity, at level 60).

Section Props.
Context {num : Type} (to_float : string -> option num).
Notation load := (load num to_float).

(** * Rows *)
(** A row of nine fields in their columns gives its element, transition, peak, uncertainty, blend and reference, if the two numbers are
    numbers; otherwise the row is skipped. *)
Theorem row_parsed e a t th tu p pu b r : field 4 e -> (String.length a <= 4)%nat -> field 7 t -> (String.length th <= 14)%nat -> (String.length tu <= 13)%nat -> field 15 p -> field 12 pu -> field 6 b -> field 11 r ->
  (forall x u, to_float p = Some x -> to_float pu = Some u ->
     exists l, parse num to_float (row e a t th tu p pu b r) = Some l /\ element num l = e /\ transition num l = t /\ peak num l = x /\ peak_unc num l = u /\ blend num l = b /\ ref num l = r /\ name num l = e ^^ " " ^^ t) /\
  (to_float p = None \/ to_float pu = None -> parse num to_float (row e a t th tu p pu b r) = None).
Proof.
  intros. rewrite row_parsed_ by assumption. split.
  - intros x u -> ->. eexists. split; [reflexivity|]. repeat split.
  - intros [-> | ->]; [reflexivity|]. now destruct (to_float p).
Qed.

(** * Loading *)
(** The loop that looks for the header line of a file ends unless a file that can be opened has none. *)
Theorem load_hangs files : load files = None <-> exists f, In (Some f) files /\ Forall (fun t => is_header t = false) f.
Proof.
  unfold NxModel.load. rewrite <- (rows_none_iff files). pose proof (load_rows_from to_float files (mkDb num [] [] 0)) as H. destruct (rows files) as [r|]; [|now split]. destruct H as [n ->]. split; discriminate.
Qed.
(** Otherwise the database has the lines of all rows below the headers, in order, and under each name the last line of that name. *)
Theorem load_lines files d : load files = Some d ->
  exists rs ls, rows_of files rs /\ parsed to_float rs ls /\ alllines num d = ls /\
    forall k, (forall l, last_such (fun y => name num y = k) ls l -> get k (lines num d) = Some l) /\ (Forall (fun y => name num y <> k) ls -> get k (lines num d) = None).
Proof.
  unfold NxModel.load. pose proof (load_rows_from to_float files (mkDb num [] [] 0)) as H. destruct (rows files) as [r|] eqn:R; [|rewrite H; discriminate]. destruct H as [n ->]. intros [= <-]. exists r, (parsed_list to_float r). destruct (adds_spec to_float r (mkDb num [] [] 0)) as [A B]. cbn [lines alllines] in *.
  split; [now apply rows_rows_of|]. split; [apply parsed_list_spec|]. split; [now rewrite B|]. intros k. rewrite A. destruct (puts_last (parsed_list to_float r) k []) as [P Q]. split; [exact P|exact Q].
Qed.
(** Each line is stored under its own name, once. *)
Theorem load_names files d : load files = Some d -> NoDup (map fst (lines num d)) /\ forall k l, get k (lines num d) = Some l -> k = name num l.
Proof.
  unfold NxModel.load. pose proof (load_rows_from to_float files (mkDb num [] [] 0)) as H. destruct (rows files) as [r|] eqn:R; [|rewrite H; discriminate]. destruct H as [n ->]. intros [= <-]. destruct (adds_spec to_float r (mkDb num [] [] 0)) as [A B]. cbn [lines alllines] in *. rewrite A.
  destruct (puts_named (parsed_list to_float r) [] ltac:(intros ? ? []) ltac:(constructor)) as [P Q]. split; [exact Q|]. intros k l G. apply P. now apply get_in.
Qed.
(** A file that cannot be opened changes nothing. *)
Theorem load_unreadable fs gs : load (fs ++ None :: gs) = load (fs ++ gs).
Proof. unfold NxModel.load. rewrite !fold_left_app. cbn [fold_left]. now destruct (fold_left (add_file num to_float) fs (Some (mkDb num [] [] 0))). Qed.

(** * Looking up one line *)
(** Element and transition may be written in any case: the line found is the one of the capitalized element and the upper-case transition,
    and if there is none, an exception. *)
Theorem getitem_finds (d : db num) e t : plain e = true -> plain t = true -> e <> "" -> t <> "" -> getitem num d (e ^^ " " ^^ t) = get (capitalize e ^^ " " ^^ upper t) (lines num d).
Proof. intros. rewrite getitem_words. now rewrite words_two. Qed.
Theorem getitem_any_case (d : db num) e t e' t' : plain e = true -> plain t = true -> plain e' = true -> plain t' = true -> e <> "" -> t <> "" -> e' <> "" -> t' <> "" -> lower e = lower e' -> upper t = upper t' ->
  getitem num d (e ^^ " " ^^ t) = getitem num d (e' ^^ " " ^^ t').
Proof.
  intros. rewrite !getitem_finds by assumption. f_equal. f_equal; [|congruence]. destruct e as [|c e]; [easy|]. destruct e' as [|c' e']; [easy|]. cbn in H7. injection H7 as E F. cbn. f_equal; [|exact F]. rewrite <- (upper_lower c), <- (upper_lower c'). now rewrite E.
Qed.
(** One word is not enough. *)
Theorem getitem_one_word (d : db num) e : plain e = true -> getitem num d e = None.
Proof.
  intros P. rewrite getitem_words. unfold words. pose proof (words_from_plain e "" "" P) as W. rewrite app_nil_s in W. rewrite W. cbn. now destruct e.
Qed.
(** Nothing but a line of exactly that name is ever found: no transition with a space or a small letter in it, and none by a nickname. *)
Theorem getitem_only files d key l : load files = Some d -> getitem num d key = Some l ->
  exists e t, name num l = capitalize e ^^ " " ^^ upper t /\ plain e = true /\ plain t = true.
Proof.
  intros L G. rewrite getitem_words in G. pose proof (words_from_ok key "" eq_refl) as W. unfold words in G. destruct (words_from "" key) as [|e [|t r]]; try discriminate. inversion W as [|? ? [W1 _] W2]. inversion W2 as [|? ? [W3 _] _]. exists e, t. split; [|now split]. symmetry. now apply (load_names files d L).
Qed.

(** * All lines of a type *)
Theorem type_lines files d els s tr ns : load files = Some d -> In (tr, ns) type_names -> upper s = tr \/ In (upper s) ns ->
  let r := get_lines_by_type num els d s in
  map (name num) r = filter (fun k => match get k (lines num d) with Some _ => true | None => false end) (map (fun e => e ^^ " " ^^ tr) els) /\ Forall (fun l => get (name num l) (lines num d) = Some l) r.
Proof.
  intros L I U r. assert (T : line_type s = tr).
  { unfold line_type. cbn in I. repeat match goal with H : _ \/ _ |- _ => destruct H | H : (_, _) = (_, _) |- _ => injection H as <- <- | H : False |- _ => contradiction | H : In _ _ |- _ => cbn in H end; match goal with H : upper s = _ |- _ => rewrite H | H : _ = upper s |- _ => rewrite <- H end; reflexivity. }
  assert (G : map (name num) r = filter (fun k => match get k (lines num d) with Some _ => true | None => false end) (map (fun e => e ^^ " " ^^ tr) els) /\ Forall (fun l => get (name num l) (lines num d) = Some l) r).
  { unfold r. clear r. induction els as [|e els IH]; [split; [reflexivity|constructor]|]. cbn [get_lines_by_type map filter]. rewrite T. destruct (get (e ^^ " " ^^ tr) (lines num d)) as [l|] eqn:G; [|apply IH]. destruct IH as [I1 I2]. pose proof (proj2 (load_names files d L) _ _ G) as N. split; [cbn; now rewrite I1, <- N|]. constructor; [now rewrite <- N|exact I2]. }
  exact G.
Qed.
(** Any other type: the lines whose transition is the upper-case text. *)
Theorem type_other files d els s : load files = Some d -> contains "ALPHA" (upper s) = false -> contains "BETA" (upper s) = false -> contains "GAMMA" (upper s) = false -> get (upper s) nicknames = None ->
  map (name num) (get_lines_by_type num els d s) = filter (fun k => match get k (lines num d) with Some _ => true | None => false end) (map (fun e => e ^^ " " ^^ upper s) els).
Proof.
  intros L A B C N. assert (T : line_type s = upper s) by (unfold line_type, short; now rewrite A, B, C, N). induction els as [|e els IH]; [reflexivity|]. cbn [get_lines_by_type map filter]. rewrite T. destruct (get (e ^^ " " ^^ upper s) (lines num d)) as [l|] eqn:G; [|exact IH]. cbn. now rewrite IH, <- (proj2 (load_names files d L) _ _ G).
Qed.

(** * Energies of lines *)
(** A line name no other line has: an element, a transition that begins with a capital, and is not another name of some line *)
Definition good_line (l : line num) : Prop :=
  element_like (element num l) = true /\ starts_upper (transition num l) = true /\ forall t ns, In (t, ns) other_names -> ~ In (transition num l) ns.
(** The energies have, for each line, its element and each of its names, and nothing else. *)
Theorem energies_exact files d : load files = Some d -> Forall good_line (map snd (lines num d)) ->
  exists data, line_energies num d = Some data /\ NoDup (map fst data) /\
    forall k p, get k data = Some p <-> exists l n, get (name num l) (lines num d) = Some l /\ called (transition num l) n /\ k = element num l ^^ n /\ p = peak num l.
Proof.
  intros L W. destruct (load_names files d L) as [ND NM].
  assert (WF : forall k l, In (k, l) (lines num d) -> good_line l /\ k = name num l /\ first_space k = Some (element num l, transition num l)).
  { intros k l I. assert (G : good_line l) by (rewrite Forall_forall in W; apply W; apply in_map_iff; now exists (k, l)). assert (K : k = name num l) by (apply NM; now apply get_in). repeat split; try apply G; [exact K|]. rewrite K. apply first_space_split. apply element_plain, G. }
  unfold line_energies. rewrite energies_puts by (intros k l I; rewrite (proj2 (proj2 (WF k l I))); discriminate). eexists. split; [reflexivity|]. split.
  { assert (Q : forall l (d0 : list (string * num)), NoDup (map fst d0) -> NoDup (map fst (puts l d0))) by (unfold puts; induction l as [|x l IH]; intros d0 D; cbn; [exact D|]; apply IH; now apply put_keys). apply Q. constructor. }
  assert (IN : forall k p, In (k, p) (splits (lines num d)) <-> exists l n, get (name num l) (lines num d) = Some l /\ called (transition num l) n /\ k = element num l ^^ n /\ p = peak num l).
  { intros k p. unfold splits. rewrite in_flat_map. split.
    - intros ((k' & l) & I & J). cbn [fst snd] in J. destruct (WF k' l I) as (G & K & F). rewrite F in J. apply in_map_iff in J. destruct J as (n & [= <- <-] & N). exists l, n. split; [rewrite <- K; now apply get_in|]. split; [now apply all_names_called|]. now split.
    - intros (l & n & G & C & -> & ->). apply get_in in G; [|exact ND]. exists (name num l, l). split; [exact G|]. cbn [fst snd]. destruct (WF _ _ G) as (_ & _ & F). rewrite F. apply in_map_iff. exists n. split; [reflexivity|]. now apply all_names_called. }
  assert (AL : forall l, good_line l -> is_alternate (transition num l) = false).
  { intros l (_ & _ & A). unfold is_alternate. apply not_true_is_false. intros E. apply existsb_exists in E. destruct E as ((t & ns) & I & E). cbn in E. apply existsb_exists in E. destruct E as (n & J & E). apply String.eqb_eq in E. subst. now apply (A t ns). }
  intros k p. rewrite get_puts.
  - cbn [get]. rewrite IN. split; [intros [H|[_ H]]; [exact H|discriminate]|now left].
  - intros a u w I J. apply IN in I. apply IN in J. destruct I as (l & n & G & C & E & ->), J as (l' & n' & G' & C' & E' & ->).
    pose proof (get_in (name num l) l _ ND) as X. apply X in G as I. pose proof (get_in (name num l') l' _ ND) as X'. apply X' in G' as I'. destruct (WF _ _ I) as (Y & _ & _), (WF _ _ I') as (Y' & _ & _).
    assert (U : element num l = element num l' /\ n = n').
    { apply glue_unique; [apply Y|apply Y'|apply (called_starts (transition num l)); [apply Y|exact C]|apply (called_starts (transition num l')); [apply Y'|exact C']|congruence]. }
    destruct U as [UE UN]. subst n'. assert (T : transition num l = transition num l') by (apply (called_unique _ _ n); auto). assert (NN : name num l = name num l') by (unfold name; now rewrite UE, T). rewrite NN in G. rewrite G in G'. now injection G' as ->.
Qed.
(** A line name without a space makes the energies raise. *)
Theorem energies_raise_iff (d : db num) : line_energies num d = None <-> exists k l, In (k, l) (lines num d) /\ first_space k = None.
Proof. apply energies_raise. Qed.
End Props.

(** * Examples *)
Definition digits (s : string) : option Z :=
  match s with EmptyString => None | _ => (fix go (s : string) (a : Z) := match s with EmptyString => Some a | String c t => let n := Z.of_nat (nat_of_ascii c) in if ((48 <=? n) && (n <=? 57))%Z then go t (10 * a + (n - 48))%Z else None end) s 0%Z end.
Definition header : string := "Ele. A   Trans.  Theory (eV)   Unc. (eV)    Direct (eV)     Unc. (eV)    Blend  Ref.".
Definition file1 : list string :=
  ["NIST"; header; row "Mn" "" "KL3" "5898" "1" "5899" "1" "" "[1]"; row "Mn" "" "KL2" "" "" "5888" "1" "" "[1]"; row "Mn" "" "K edge" "" "" "6538" "2" "" "[1]"; row "Fe" "" "KL3" "" "" "" "" "" "";
   row "Xe" "" "L3M1" "" "" "3638" "1" "" "[1]"; row "Mn" "" "KL3" "" "" "5900" "3" "" "[2]"].
Example ex_row : field 4 "Mn" /\ field 7 "K edge" /\ field 15 "6538" /\ digits "6538" = Some 6538%Z.
Proof. repeat split; cbn; lia. Qed.
Example ex_load : match load Z digits [None; Some file1] with Some d => map fst (lines Z d) = ["Mn KL3"; "Mn KL2"; "Mn K edge"; "Xe L3M1"] /\ map (peak Z) (alllines Z d) = [5899; 5888; 6538; 3638; 5900]%Z /\ option_map (peak Z) (get "Mn KL3" (lines Z d)) = Some 5900%Z /\ option_map (peak Z) (getitem Z d " mn  kl3 ") = Some 5900%Z /\ loaded Z d = 1%nat | None => False end.
Proof. repeat split. Qed.
Example ex_hang : load Z digits [Some ["no header"]] = None.
Proof. reflexivity. Qed.
Example ex_energies : match load Z digits [Some file1] with Some d => Forall good_line (map snd (lines Z d)) /\ option_map (get "MnKAlpha") (line_energies Z d) = Some (Some 5900%Z) /\ option_map (get "XeLl") (line_energies Z d) = Some (Some 3638%Z) /\ option_map (get "MnK edge") (line_energies Z d) = Some (Some 6538%Z) | None => False end.
Proof.
  cbn. repeat split. repeat constructor; cbn; intros t ns I; repeat match goal with H : _ \/ _ |- _ => destruct H | H : (_, _) = (_, _) |- _ => injection H as <- <- | H : False |- _ => contradiction end; cbn; intuition discriminate.
Qed.
(** "Nicknames such as KAlpha1 find a line": only by type, never by getitem; "Ll" finds none even by type. *)
Theorem nickname_refuted : exists files d, load Z digits files = Some d /\ (exists l, get_lines_by_type Z ["Mn"] d "KAlpha1" = [l] /\ peak Z l = 5900%Z) /\
  getitem Z d "Mn KAlpha1" = None /\ getitem Z d "Mn KA1" = None.
Proof. exists [Some file1]. eexists. split; [reflexivity|]. split; [eexists; split; reflexivity|]. now split. Qed.
Theorem nickname_never {num : Type} (d : db num) e n : In n (map fst nicknames) -> plain e = true -> e <> "" -> getitem num d (e ^^ " " ^^ n) = get (capitalize e ^^ " " ^^ upper n) (lines num d).
Proof. intros I P N. apply getitem_finds; [exact P| |exact N|]; cbn in I; repeat destruct I as [<-|I]; try reflexivity; try discriminate; contradiction. Qed.
Theorem ll_refuted : exists files d l, load Z digits files = Some d /\ get "Xe L3M1" (lines Z d) = Some l /\ In ("Ll", "L3M1") nicknames /\ get_lines_by_type Z ["Xe"] d "Ll" = [] /\ get_lines_by_type Z ["Xe"] d "L3M1" = [l].
Proof. exists [Some file1]. do 2 eexists. split; [reflexivity|]. split; [reflexivity|]. split; [cbn; tauto|]. now split. Qed.
(** "Every line of the database can be looked up": not an edge. *)
Theorem edge_refuted : exists files d l, load Z digits files = Some d /\ get "Mn K edge" (lines Z d) = Some l /\ forall key, getitem Z d key <> Some l.
Proof.
  assert (X : match load Z digits [Some file1] with Some d => get "Mn K edge" (lines Z d) <> None | None => False end) by (vm_compute; discriminate).
  exists [Some file1]. destruct (load Z digits [Some file1]) as [d|] eqn:L; [|contradiction]. exists d. destruct (get "Mn K edge" (lines Z d)) as [l|] eqn:G; [|contradiction]. exists l. split; [reflexivity|]. split; [reflexivity|]. intros key K.
  destruct (getitem_only digits [Some file1] d key l L K) as (e & t & N & P & Q). rewrite <- (proj2 (load_names digits [Some file1] d L) _ _ G) in N. change "Mn K edge" with ("Mn" ^^ " " ^^ "K edge") in N.
  apply split_unique in N; [|reflexivity|now rewrite plain_capitalize]. destruct N as [_ N]. pose proof (plain_upper t) as U. rewrite <- N, Q in U. discriminate.
Qed.

Print Assumptions row_parsed.
Print Assumptions load_hangs.
Print Assumptions load_lines.
Print Assumptions load_names.
Print Assumptions load_unreadable.
Print Assumptions getitem_finds.
Print Assumptions getitem_any_case.
Print Assumptions getitem_one_word.
Print Assumptions getitem_only.
Print Assumptions type_lines.
Print Assumptions type_other.
Print Assumptions energies_exact.
Print Assumptions energies_raise_iff.
Print Assumptions nickname_refuted.
Print Assumptions nickname_never.
Print Assumptions ll_refuted.
Print Assumptions edge_refuted.
