(** Proofs about levels of ions. *)
From Coq Require Import ZArith QArith Qcanon Ascii Bool Arith Lia String DecimalString DecimalZ DecimalFacts List.
From Verif Require Import NxModel NxSpec NxProofs AsdModel AsdSpec.
Import ListNotations.
Local Open Scope string_scope.
Local Open Scope list_scope.
Local Infix "^^" := String.append (right associativity, at level 60).

(** * Dictionaries *)
Section Dict.
Context {K V : Type} (eqb : K -> K -> bool) (spec : forall a b, reflect (a = b) (eqb a b)).
Lemma dget_dput k k' (v : V) d : dget eqb k (dput eqb k' v d) = if eqb k k' then Some v else dget eqb k d.
Proof.
  induction d as [|[a b] d IH]; cbn.
  - destruct (eqb k k'); reflexivity.
  - destruct (spec k' a) as [->|N]; cbn; [destruct (spec k a); reflexivity|]. rewrite IH. destruct (spec k a) as [->|]; [|reflexivity]. destruct (spec a k'); [congruence|reflexivity].
Qed.
Lemma dput_new k (v : V) d : dget eqb k d = None -> dput eqb k v d = d ++ [(k, v)].
Proof. induction d as [|[a b] d IH]; cbn; [reflexivity|]. destruct (eqb k a); [discriminate|]. intros H. now rewrite IH. Qed.
Lemma dget_none k (d : list (K * V)) : dget eqb k d = None <-> ~ In k (map fst d).
Proof.
  induction d as [|[a b] d IH]; cbn; [intuition|]. destruct (spec k a) as [->|N]; [split; [discriminate|intros H; elim H; now left]|]. rewrite IH. split; intros H; [intros [E|E]; [congruence|contradiction]|intuition].
Qed.
Lemma dget_app k (a b : list (K * V)) : dget eqb k (a ++ b) = match dget eqb k a with Some v => Some v | None => dget eqb k b end.
Proof. induction a as [|[x y] a IH]; cbn; [reflexivity|]. destruct (eqb k x); [reflexivity|exact IH]. Qed.
Lemma dget_in k (v : V) d : NoDup (map fst d) -> dget eqb k d = Some v <-> In (k, v) d.
Proof.
  induction d as [|[a b] d IH]; cbn; intros H; [split; [discriminate|contradiction]|]. inversion H; subst. destruct (spec k a) as [->|N].
  - split; [intros [= ->]; now left|]. intros [[= ->]|I]; [reflexivity|]. elim H2. apply in_map_iff. now exists (a, v).
  - rewrite IH by assumption. split; [now right|]. intros [[= -> ->]|I]; [contradiction|exact I].
Qed.
End Dict.

(** * Names of levels *)
Lemma up_to_lacks c s : lacks c s = true -> up_to c s = s.
Proof. induction s as [|d s IH]; cbn; intros H; [reflexivity|]. apply andb_prop in H. destruct H as [H1 H2]. destruct (Ascii.eqb c d); [discriminate|]. now rewrite IH. Qed.
Lemma up_to_app c a b : lacks c a = true -> up_to c (a ^^ String c b) = a.
Proof. induction a as [|d a IH]; cbn; intros H; [now rewrite Ascii.eqb_refl|]. apply andb_prop in H. destruct H as [H1 H2]. destruct (Ascii.eqb c d); [discriminate|]. now rewrite IH. Qed.
Lemma after_app c a b : lacks c a = true -> after c (a ^^ String c b) = Some b.
Proof. induction a as [|d a IH]; cbn; intros H; [now rewrite Ascii.eqb_refl|]. apply andb_prop in H. destruct H as [H1 H2]. destruct (Ascii.eqb c d); [discriminate|]. now apply IH. Qed.
Lemma words_space cur s : words_from cur (String " " s) = match cur with "" => words_from "" s | _ => cur :: words_from "" s end.
Proof. reflexivity. Qed.
Lemma words_end w : word w -> words_from "" w = [w].
Proof. intros [P N]. pose proof (words_from_plain w "" "" P) as W. rewrite app_nil_s in W. rewrite W. cbn. now destruct w. Qed.
Lemma words_first w s : word w -> words_from "" (w ^^ String " " s) = w :: words_from "" s.
Proof. intros [P N]. rewrite words_from_plain by exact P. cbn [String.append]. rewrite words_space. now destruct w. Qed.
Lemma words_level conf term j : word conf -> word term -> plain j = true -> words (level_name conf term j) = [conf; term; "J=" ^^ j].
Proof.
  intros C T J. unfold words, level_name. change (conf ^^ " " ^^ term ^^ " J=" ^^ j) with (conf ^^ String " " (term ^^ String " " ("J=" ^^ j))). rewrite words_first by exact C. rewrite words_first by exact T. rewrite words_end; [reflexivity|]. split; [|discriminate]. exact J.
Qed.
Definition row_allowed (rc rt rj : option string) (r : row_) : bool :=
  match r with Level conf term j _ => allows rc conf && allows rt term && allows rj j | Odd _ _ => false end.
Lemma allows_wanted q s : allows q s = true <-> is_wanted q s.
Proof. unfold is_wanted. destruct q as [r|]; cbn; [|split; [discriminate|reflexivity]]. rewrite String.eqb_eq. split; [intros -> ? [= ->]; reflexivity|intros H; now apply H]. Qed.
Lemma row_allowed_wanted rc rt rj r : row_allowed rc rt rj r = true <-> wanted rc rt rj r.
Proof. destruct r as [conf term j l|n l]; cbn; [|split; [discriminate|contradiction]]. rewrite !andb_true_iff, !allows_wanted. tauto. Qed.
Lemma picked_filter {A : Type} (P : A -> Prop) (f : A -> bool) l : (forall a, f a = true <-> P a) -> forall out, picked P l out <-> out = filter f l.
Proof.
  intros F. induction l as [|a l IH]; intros out; cbn; [split; [inversion 1; reflexivity|intros ->; constructor]|]. destruct (f a) eqn:E.
  - split; [inversion 1; subst; [f_equal; now apply IH|elim H2; now apply F]|]. intros ->. constructor; [now apply F|]. now apply IH.
  - assert (N : ~ P a) by (intros H; apply F in H; congruence). split; [inversion 1; subst; [contradiction|now apply IH]|]. intros ->. constructor; [exact N|]. now apply IH.
Qed.
(** one step of the loop *)
Definition step_name (r : row_) := (row_name r, row_level r).
Section Loop.
Variables (factor : Qc) (rc rt rj : option string) (max : option Z) (u : units) (unc : bool).
Notation loop := (available_loop factor rc rt rj max u unc).
Lemma loop_step r rest n out : proper r -> (max <> Some n) ->
  loop n out (step_name r :: rest) =
  if row_allowed rc rt rj r then loop (n + 1)%Z match give factor u unc (row_level r) with None => None | Some g => match out with Some d => Some (dput String.eqb (row_name r) g d) | None => None end end rest
  else loop n out rest.
Proof.
  intros P M. cbn [available_loop step_name]. assert (E : (match max with Some m => Z.eqb n m | None => false end) = false) by (destruct max as [m|]; [|reflexivity]; apply Z.eqb_neq; congruence). rewrite E. destruct r as [conf term j l|name l]; cbn [row_name row_level row_allowed proper] in *.
  - destruct P as (C & T & J & L). fold (level_name conf term j). rewrite words_level by assumption. change (second_part ("J=" ^^ j)) with (Some (up_to "=" j)). rewrite up_to_lacks by exact L. reflexivity.
  - destruct (words name) as [|a [|b [|c [|e w]]]]; try reflexivity. now elim P.
Qed.
Lemma loop_stop n out ls : max = Some n -> loop n out ls = Some out.
Proof. intros ->. destruct ls as [|[a b] ls]; cbn; [reflexivity|]. now rewrite Z.eqb_refl. Qed.
End Loop.
Lemma given_give factor u unc l : u <> OtherUnit -> give factor u unc l = Some (given_as factor u unc l).
Proof. intros U. destruct u; [| |easy]; cbn; unfold given_as, in_units, times; destruct unc; destruct (fst l), (snd l); cbn; rewrite ?(Qcmult_comm factor); reflexivity. Qed.
Definition rest_of {A : Type} (max : option Z) (n : Z) (l : list A) : list A := at_most (option_map (fun m => (m - n)%Z) max) l.
Lemma at_most_filter {A B : Type} (g : A -> B) max (l : list A) : map g (at_most max l) = at_most max (map g l).
Proof. destruct max as [m|]; cbn; [|reflexivity]. destruct (m <? 0)%Z; [reflexivity|]. now rewrite firstn_map. Qed.
Lemma at_most_cons {A : Type} m (a : A) l : m <> 0%Z -> at_most (Some m) (a :: l) = a :: at_most (Some (m - 1)%Z) l.
Proof.
  intros M. cbn. destruct (m <? 0)%Z eqn:E.
  - assert (E' : (m - 1 <? 0)%Z = true) by (apply Z.ltb_lt; apply Z.ltb_lt in E; lia). now rewrite E'.
  - apply Z.ltb_ge in E. assert (E' : (m - 1 <? 0)%Z = false) by (apply Z.ltb_ge; lia). rewrite E'. replace (Z.to_nat m) with (S (Z.to_nat (m - 1))) by lia. reflexivity.
Qed.
Lemma loop_result factor rc rt rj max u unc rows : u <> OtherUnit -> Forall proper rows -> forall n d, NoDup (map row_name rows) -> (forall r, In r rows -> ~ In (row_name r) (map fst d)) ->
  available_loop factor rc rt rj max u unc n (Some d) (map step_name rows) =
  Some (Some (d ++ map (fun r => (row_name r, given_as factor u unc (row_level r))) (rest_of max n (filter (row_allowed rc rt rj) rows)))).
Proof.
  intros U P. induction P as [|r rows PR PS IH]; intros n d ND DJ.
  - cbn. unfold rest_of, at_most. destruct max as [m|]; cbn; [destruct (m - n <? 0)%Z; [|rewrite firstn_nil]|]; now rewrite app_nil_r.
  - cbn [map]. assert (D : max = Some n \/ max <> Some n) by (destruct max as [m|]; [destruct (Z.eq_dec m n) as [->|]; [now left|right; congruence]|right; discriminate]).
    destruct D as [D|D].
    { rewrite loop_stop by exact D. rewrite D. unfold rest_of. cbn. rewrite Z.sub_diag. cbn. now rewrite app_nil_r. }
    rewrite loop_step by assumption. cbn [filter]. inversion ND as [|? ? N1 N2]. subst. destruct (row_allowed rc rt rj r) eqn:E.
    + rewrite given_give by exact U. cbn iota. rewrite dput_new by (apply (dget_none String.eqb String.eqb_spec); apply DJ; now left).
      rewrite IH; [|exact N2|]. 
      * rewrite <- app_assoc. cbn [app]. do 2 f_equal. f_equal. unfold rest_of. destruct max as [m|]; cbn [option_map]; [|reflexivity]. rewrite at_most_cons by (intros X; apply D; f_equal; lia). cbn [map]. replace (m - (n + 1))%Z with (m - n - 1)%Z by ring. reflexivity.
      * intros q I. rewrite map_app, in_app_iff. cbn. intros [X|[X|[]]]; [apply (DJ q); [now right|exact X]|]. apply N1. rewrite X. now apply in_map.
    + apply IH; [exact N2|]. intros q I. apply DJ. now right.
Qed.
Lemma loop_other factor rc rt rj max unc rows : Forall proper rows -> forall n out, out = None \/ out = Some [] ->
  available_loop factor rc rt rj max OtherUnit unc n out (map step_name rows) = Some (match rest_of max n (filter (row_allowed rc rt rj) rows) with [] => out | _ => None end).
Proof.
  intros P. induction P as [|r rows PR PS IH]; intros n out O.
  - cbn. unfold rest_of, at_most. destruct max as [m|]; cbn; [destruct (m - n <? 0)%Z; [|rewrite firstn_nil]|]; reflexivity.
  - cbn [map]. assert (D : max = Some n \/ max <> Some n) by (destruct max as [m|]; [destruct (Z.eq_dec m n) as [->|]; [now left|right; congruence]|right; discriminate]).
    destruct D as [D|D].
    { rewrite loop_stop by exact D. rewrite D. unfold rest_of. cbn. rewrite Z.sub_diag. reflexivity. }
    rewrite loop_step by assumption. cbn [filter]. destruct (row_allowed rc rt rj r) eqn:E.
    + cbn [give]. rewrite IH by now left. f_equal. unfold rest_of. destruct max as [m|]; cbn [option_map]; [rewrite at_most_cons by (intros X; apply D; f_equal; lia)|cbn]; now destruct (at_most _ _) || now destruct (filter _ _).
    + now apply IH.
Qed.

(** * Names of lines *)
Definition digit (c : ascii) : bool := let n := nat_of_ascii c in ((48 <=? n) && (n <=? 57) || (n =? 45))%nat.
Fixpoint digits_only (s : string) : bool := match s with EmptyString => true | String c t => digit c && digits_only t end.
Lemma uint_digits d : digits_only (NilEmpty.string_of_uint d) = true.
Proof. induction d; cbn; auto. Qed.
Lemma show_digits z : digits_only (show z) = true.
Proof. unfold show. destruct (Z.to_int z) as [d|d]; cbn; [|]; destruct d; cbn; try reflexivity; apply uint_digits. Qed.
Lemma show_inj a b : show a = show b -> a = b.
Proof.
  unfold show. intros H. assert (G : forall z, NilZero.int_of_string (NilZero.string_of_int (Z.to_int z)) = Some (Z.to_int z)).
  { intros z. apply NilZero.isi.
    - intros E. pose proof (f_equal Z.of_int E) as X. rewrite DecimalZ.of_to in X. cbn in X. subst z. discriminate E.
    - intros E. pose proof (f_equal Z.of_int E) as X. rewrite DecimalZ.of_to in X. cbn in X. subst z. discriminate E. }
  pose proof (f_equal NilZero.int_of_string H) as X. rewrite !G in X. injection X as X. pose proof (f_equal Z.of_int X) as Y. now rewrite !DecimalZ.of_to in Y.
Qed.
Lemma digit_not_letter c : digit c = true -> is_upper c || is_lower c = false.
Proof. destruct c as [[] [] [] [] [] [] [] []]; cbn; try discriminate; reflexivity. Qed.
Lemma show_cons z : exists c t, show z = String c t.
Proof. unfold show. destruct (Z.to_int z) as [d|d]; cbn; [destruct d; cbn; eauto|eauto]. Qed.
Lemma digits_split a b s t : digits_only a = true -> digits_only b = true -> a ^^ String " " s = b ^^ String " " t -> a = b /\ s = t.
Proof.
  revert b; induction a as [|c a IH]; intros [|d b] A B H; cbn in *.
  - injection H as ->. now split.
  - injection H as <- H. discriminate.
  - injection H as -> H. discriminate.
  - injection H as -> H. apply andb_prop in A. apply andb_prop in B. destruct (IH b (proj2 A) (proj2 B) H) as [-> ->]. now split.
Qed.
Lemma letters_split a b c d s t : letters a = true -> letters b = true -> is_upper c || is_lower c = false -> is_upper d || is_lower d = false -> a ^^ String c s = b ^^ String d t -> a = b /\ String c s = String d t.
Proof.
  revert b; induction a as [|x a IH]; intros [|y b] A B C D H; cbn in *.
  - now split.
  - injection H as -> H. apply andb_prop in B. destruct B. congruence.
  - injection H as <- H. apply andb_prop in A. destruct A. congruence.
  - injection H as -> H. apply andb_prop in A. apply andb_prop in B. destruct (IH b (proj2 A) (proj2 B) C D H) as [-> E]. now split.
Qed.
Lemma line_name_inj e z l e' z' l' : letters e = true -> letters e' = true -> line_name e z l = line_name e' z' l' -> e = e' /\ z = z' /\ l = l'.
Proof.
  intros E E' H. unfold line_name in H. destruct (show_cons z) as (c & t & S), (show_cons z') as (c' & t' & S'). pose proof (show_digits z) as D. pose proof (show_digits z') as D'. rewrite S in D. rewrite S' in D'. rewrite S, S' in H. cbn [String.append] in H. cbn in D, D'. apply andb_prop in D. apply andb_prop in D'.
  apply letters_split in H; [|exact E|exact E'|apply digit_not_letter, D|apply digit_not_letter, D']. destruct H as [-> H]. split; [reflexivity|].
  assert (G : String c t ^^ String " " l = String c' t' ^^ String " " l') by exact H. apply digits_split in G; [|cbn; apply andb_true_intro; exact D|cbn; apply andb_true_intro; exact D']. destruct G as [G ->]. split; [|reflexivity]. apply show_inj. congruence.
Qed.
(** adding lines *)
Definition keep_line (e : string) (z : Z) (r : row_) (factor : Qc) : list (string * num) := let a := in_units factor Ev (fst (row_level r)) in if zero a then [] else [(line_name e z (row_name r), a)].
Lemma zero_spec a : zero a = true <-> ~ nonzero a.
Proof. unfold zero, nonzero. destruct a as [x|]; [|split; [discriminate|intros H; exfalso; apply H; discriminate]]. destruct (Qc_eq_dec x 0) as [->|N]; split; try congruence; try tauto. intros H. exfalso. apply H. congruence. Qed.
Lemma add_lines_result factor e z rows : NoDup (map row_name rows) -> letters e = true -> forall reg added, (forall r, In r rows -> nonzero (in_units factor Ev (fst (row_level r))) -> ~ In (line_name e z (row_name r)) (map fst reg)) ->
  add_lines reg e z (map (fun r => (row_name r, given_as factor Ev true (row_level r))) rows) added =
  (reg ++ flat_map (fun r => keep_line e z r factor) rows, Some (added ++ flat_map (fun r => keep_line e z r factor) rows)).
Proof.
  intros ND L. induction rows as [|r rows IH]; intros reg added F; [cbn; now rewrite !app_nil_r|]. inversion ND as [|? ? N1 N2]. subst. cbn [map add_lines given_as flat_map]. unfold keep_line at 1 3. cbv zeta. destruct (zero (in_units factor Ev (fst (row_level r)))) eqn:Z0.
  - cbn [app]. apply IH; [exact N2|]. intros q I. apply F. now right.
  - assert (NZ : nonzero (in_units factor Ev (fst (row_level r)))) by (intros E; assert (X : zero (in_units factor Ev (fst (row_level r))) = true) by (apply zero_spec; intros Q; now apply Q); congruence).
    assert (D : dget String.eqb (line_name e z (row_name r)) reg = None) by (apply (dget_none String.eqb String.eqb_spec); apply F; [now left|exact NZ]).
    unfold add_line. rewrite D. rewrite dput_new by exact D. rewrite IH; [|exact N2|].
    + rewrite <- !app_assoc. reflexivity.
    + intros q I Q. rewrite map_app, in_app_iff. cbn. intros [X|[X|[]]]; [apply (F q); [now right|exact Q|exact X]|]. apply line_name_inj in X; [|exact L|exact L]. apply N1. rewrite (proj2 (proj2 X)). now apply in_map.
Qed.
Lemma add_lines_taken factor e z rows : forall reg added, (exists r, In r rows /\ nonzero (in_units factor Ev (fst (row_level r))) /\ In (line_name e z (row_name r)) (map fst reg)) ->
  snd (add_lines reg e z (map (fun r => (row_name r, given_as factor Ev true (row_level r))) rows) added) = None.
Proof.
  induction rows as [|r rows IH]; intros reg added (q & I & NZ & T); [contradiction|]. cbn [map add_lines given_as]. destruct I as [->|I].
  - assert (Z0 : zero (in_units factor Ev (fst (row_level q))) = false) by (apply not_true_is_false; intros X; apply zero_spec in X; contradiction). rewrite Z0. unfold add_line.
    destruct (dget String.eqb (line_name e z (row_name q)) reg) eqn:D; [reflexivity|]. apply (dget_none String.eqb String.eqb_spec) in D. contradiction.
  - destruct (zero _); [apply IH; now exists q|]. unfold add_line. destruct (dget String.eqb (line_name e z (row_name r)) reg) eqn:D; [reflexivity|]. apply IH. exists q. split; [exact I|]. split; [exact NZ|]. rewrite dput_new by exact D. rewrite map_app, in_app_iff. now left.
Qed.

(** * Dumps *)
Lemma entry_in_row fields row f v : NoDup fields -> entry fields row f = Some v <-> in_row fields row f v.
Proof.
  unfold entry, in_row. revert row. induction fields as [|x fields IH]; intros row ND; cbn; [split; [discriminate|contradiction]|]. inversion ND as [|? ? N1 N2]. subst. destruct (String.eqb_spec f x) as [->|N].
  - destruct row as [|y row]; cbn; [split; [discriminate|contradiction]|]. split; [intros [= ->]; now left|]. intros [[= ->]|I]; [reflexivity|]. apply in_combine_l in I. contradiction.
  - destruct row as [|y row]; cbn.
    + destruct (index_of f fields); cbn; split; try discriminate; contradiction.
    + specialize (IH row N2). destruct (index_of f fields) as [i|]; cbn in *; rewrite IH; (split; [now right|]); (intros [[= -> _]|I]; [contradiction|exact I]).
Qed.
Definition lookup (d : tables) (e : string) (z : Z) (n : string) : option level := match find_levels d e z with None => None | Some ls => dget String.eqb n ls end.
Lemma lookup_store d e z n l e' z' n' : lookup (store_level d e z n l) e' z' n' = if String.eqb e' e && Z.eqb z' z && String.eqb n' n then Some l else lookup d e' z' n'.
Proof.
  unfold lookup, find_levels, store_level. cbv zeta. rewrite (dget_dput String.eqb String.eqb_spec). destruct (String.eqb_spec e' e) as [->|N]; cbn [andb]; [|reflexivity].
  rewrite (dget_dput Z.eqb Z.eqb_spec). destruct (Z.eqb_spec z' z) as [->|N]; cbn [andb].
  - rewrite (dget_dput String.eqb String.eqb_spec). destruct (String.eqb_spec n' n) as [->|N]; [reflexivity|]. destruct (dget String.eqb e d) as [a|]; [|reflexivity]. destruct (dget Z.eqb z a); reflexivity.
  - destruct (dget String.eqb e d) as [a|]; reflexivity.
Qed.
Section Import.
Variables (to_int : string -> option Z) (to_float : string -> option num).
Notation pe := (parse_entry to_int to_float).
Notation pes := (parse_entries to_int to_float).
Definition kept_b (r : dump_row) : bool := negb (String.eqb (d_conf r) "") && negb (String.eqb (d_term r) "") && negb (String.eqb (d_term r) "*").
Lemma kept_spec r : kept_b r = true <-> kept r.
Proof. unfold kept_b, kept. rewrite !andb_true_iff, !negb_true_iff, !String.eqb_neq. tauto. Qed.
Lemma parse_entry_reads fields row r z d : NoDup fields -> reads fields row r -> to_int (d_charge r) = Some z ->
  pe fields d row = Some (if kept_b r then store_level d (d_element r) z (level_name (d_conf r) (d_term r) (d_j r)) (number to_float (d_energy r), number to_float (d_unc r)) else d).
Proof.
  intros ND (A1 & A2 & A3 & A4 & A5 & A6 & A7) Z. apply entry_in_row in A1, A2, A3, A4, A5, A6, A7; try exact ND. unfold parse_entry. rewrite A1, A2, Z, A3, A4, A5, A6, A7. unfold kept_b. destruct (_ && _ && _); reflexivity.
Qed.
Lemma parse_entries_reads fields rows rs : NoDup fields -> Forall2 (reads fields) rows rs -> (forall r, In r rs -> to_int (d_charge r) <> None) -> forall d, exists d', pes fields d rows = Some d' /\
  forall e z n, (forall r, last_such (row_for to_int e z n) rs r -> lookup d' e z n = Some (number to_float (d_energy r), number to_float (d_unc r))) /\ (Forall (fun r => ~ row_for to_int e z n r) rs -> lookup d' e z n = lookup d e z n).
Proof.
  intros ND F. induction F as [|row r rows rs R F IH]; intros C d.
  - exists d. split; [reflexivity|]. intros e z n. split; [intros r (b & a & E & _); destruct b; discriminate|reflexivity].
  - destruct (to_int (d_charge r)) as [z0|] eqn:Z0; [|elim (C r (or_introl eq_refl)); exact Z0]. cbn [parse_entries]. rewrite (parse_entry_reads fields row r z0 d ND R Z0). set (d1 := if kept_b r then _ else d).
    destruct (IH (fun q I => C q (or_intror I)) d1) as (d' & P & Q). exists d'. split; [exact P|]. intros e z n. specialize (Q e z n). destruct Q as [Q1 Q2].
    assert (D1 : (row_for to_int e z n r -> lookup d1 e z n = Some (number to_float (d_energy r), number to_float (d_unc r))) /\ (~ row_for to_int e z n r -> lookup d1 e z n = lookup d e z n)).
    { unfold d1, row_for. rewrite <- kept_spec. destruct (kept_b r); [|split; [intros [X _]; discriminate|reflexivity]]. rewrite lookup_store. split.
      - intros (_ & <- & Z & <-). rewrite Z0 in Z. injection Z as ->. unfold level_name. now rewrite !String.eqb_refl, Z.eqb_refl.
      - intros N. destruct (String.eqb_spec e (d_element r)) as [->|]; [|reflexivity]. destruct (Z.eqb_spec z z0) as [->|]; [|reflexivity]. destruct (String.eqb_spec n (level_name (d_conf r) (d_term r) (d_j r))) as [->|]; [|reflexivity]. elim N. repeat split; assumption. }
    destruct D1 as [DA DB]. split.
    + intros q (b & a & E & RF & NA). destruct b as [|x b]; cbn in E; injection E as <- E.
      * subst a. rewrite Q2 by exact NA. now apply DA.
      * apply Q1. exists b, a. split; [exact E|]. now split.
    + intros N. inversion N. subst. rewrite Q2 by assumption. now apply DB.
Qed.
Lemma parse_entries_raises fields rows : forall d, (exists row, In row rows /\ (forall d, pe fields d row = None)) -> pes fields d rows = None.
Proof.
  induction rows as [|r rows IH]; intros d (q & I & N); [contradiction|]. cbn. destruct I as [->|I]; [now rewrite N|]. destruct (pe fields d r) as [d'|]; [|reflexivity]. apply IH. now exists q.
Qed.
End Import.
(** texts of a dump *)
Lemma rstrip_cons c t : space c = false -> exists r, rstrip (String c t) = String c r.
Proof. intros H. cbn. destruct (rstrip t); [rewrite H|]; eauto. Qed.
Lemma strip_first c t : space c = false -> exists r, strip (String c t) = String c r.
Proof. intros H. unfold strip. cbn [lstrip]. rewrite H. now apply rstrip_cons. Qed.
Lemma quoted_create : quoted create_line = Some "ASD_Levels".
Proof. reflexivity. Qed.
Lemma quoted_field f : lacks "`" f = true -> quoted (field_line f) = Some f.
Proof.
  intros L. unfold quoted, field_line. change (after "`" ("  `" ^^ f ^^ "` text,")) with (Some (f ^^ String "`" " text,")). cbn iota. rewrite after_app by exact L. now rewrite up_to_app.
Qed.
Lemma prefix_end c p s : lacks c p = true -> String.prefix p (s ^^ String c "") = String.prefix p s.
Proof.
  revert s; induction p as [|a p IH]; intros s L; [destruct s; reflexivity|]. cbn in L. apply andb_prop in L. destruct L as [L1 L2]. destruct s as [|b s]; cbn.
  - destruct (ascii_dec a c) as [->|]; [now rewrite Ascii.eqb_refl in L1|reflexivity].
  - destruct (ascii_dec a b); [now apply IH|reflexivity].
Qed.
Lemma prefix_length p s : String.prefix p s = true -> (String.length p <= String.length s)%nat.
Proof. revert s; induction p as [|a p IH]; intros [|b s] H; cbn in *; try lia; try discriminate. destruct (ascii_dec a b); [|discriminate]. apply IH in H. lia. Qed.
Lemma replace_end c old new s : lacks c old = true -> (0 < String.length old)%nat -> forall k, (k <= String.length s)%nat -> replace_from old new k (s ^^ String c "") = replace_from old new k s ^^ String c "".
Proof.
  intros L O. induction s as [|a s IH]; intros k K; cbn [String.append].
  - cbn in K. assert (k = 0)%nat as -> by lia. cbn [replace_from]. assert (P : String.prefix old (String c "") = false).
    { destruct old as [|b old]; [cbn in O; lia|]. cbn in *. apply andb_prop in L. destruct (ascii_dec b c) as [->|]; [rewrite Ascii.eqb_refl in L; destruct L; discriminate|reflexivity]. }
    rewrite P. reflexivity.
  - cbn [replace_from]. cbn [String.length] in K. destruct k as [|k]; [|apply IH; lia]. change (String a (s ^^ String c "")) with (String a s ^^ String c ""). rewrite prefix_end by exact L. destruct (String.prefix old (String a s)) eqn:P.
    + apply prefix_length in P. cbn [String.length] in P. rewrite IH by lia. now rewrite app_assoc_s.
    + rewrite IH by lia. reflexivity.
Qed.
Lemma ends_with_end c s : ends_with c (s ^^ String c "") = true.
Proof. induction s as [|a s IH]; cbn; [apply Ascii.eqb_refl|]. destruct (s ^^ String c "") eqn:E; [destruct s; discriminate|exact IH]. Qed.
Lemma without_last_end c s : without_last (s ^^ String c "") = s.
Proof. induction s as [|a s IH]; cbn; [reflexivity|]. destruct (s ^^ String c "") eqn:E; [destruct s; discriminate|now rewrite IH]. Qed.
Lemma rstrip_end c s : space c = false -> rstrip (s ^^ String c "") = s ^^ String c "".
Proof. intros H. induction s as [|a s IH]; cbn; [now rewrite H|]. rewrite IH. destruct (s ^^ String c "") eqn:E; [destruct s; discriminate|reflexivity]. Qed.
Lemma after_values body : after_text " VALUES " (insert_line body) = body ^^ ";".
Proof.
  unfold insert_line. generalize (body ^^ ";") as x. intros x. change "INSERT INTO `ASD_Levels` VALUES " with ("INSERT INTO `ASD_Levels`" ^^ " VALUES ").
  assert (G : substring 8 (String.length (" VALUES " ^^ x) - 8) (" VALUES " ^^ x) = x).
  { change 8%nat with (String.length " VALUES " + 0)%nat at 1. rewrite substring_skip. apply substring_0. rewrite app_length_s. cbn. lia. }
  transitivity (after_text " VALUES " (" VALUES " ^^ x)); [reflexivity|]. rewrite <- G at 2. cbn [after_text String.append]. destruct x; reflexivity.
Qed.
Lemma formatted_insert body c t : body = String c t -> space c = false -> formatted (insert_line body) = Some (replace "NULL" "''" body).
Proof.
  intros E S. unfold formatted. rewrite after_values. assert (ST : strip (body ^^ ";") = body ^^ ";") by (unfold strip; rewrite E; cbn [String.append lstrip]; rewrite S; change (String c (t ^^ ";")) with (String c t ^^ ";"); now apply rstrip_end).
  rewrite ST. unfold replace. rewrite (replace_end ";") by (cbn; lia || reflexivity). cbv zeta. rewrite ends_with_end, without_last_end. destruct (replace_from "NULL" "''" 0 body ^^ ";") eqn:X; [destruct (replace_from "NULL" "''" 0 body); discriminate|reflexivity].
Qed.
Section Read.
Variables (to_int : string -> option Z) (to_float : string -> option num) (literal_eval : string -> option literal).
Notation rl := (read_line to_int to_float literal_eval).
Notation rls := (read_lines to_int to_float literal_eval).
Lemma read_create s : rl s create_line = Some (mkState "ASD_Levels" (dput String.eqb "ASD_Levels" [] (fields s)) (found s)).
Proof. reflexivity. Qed.
Lemma read_field fs d f : lacks "`" f = true -> rl (mkState "ASD_Levels" [("ASD_Levels", fs)] d) (field_line f) = Some (mkState "ASD_Levels" [("ASD_Levels", fs ++ [f])] d).
Proof.
  intros L. unfold read_line. change (String.prefix "CREATE TABLE" (field_line f)) with false. cbn iota. cbn [tab]. destruct (strip_first "`" (f ^^ "` text,") eq_refl) as [r R]. assert (E : strip (field_line f) = String "`" r) by exact R. rewrite E.
  assert (P : String.prefix "`" (String "`" r) = true) by (destruct r; reflexivity). rewrite P. cbn [negb String.eqb andb]. rewrite quoted_field by exact L. reflexivity.
Qed.
Lemma read_fields fs : Forall (fun f => lacks "`" f = true) fs -> forall done d rest, rls (mkState "ASD_Levels" [("ASD_Levels", done)] d) (map field_line fs ++ rest) = rls (mkState "ASD_Levels" [("ASD_Levels", done ++ fs)] d) rest.
Proof.
  induction 1 as [|f fs L _ IH]; intros done d rest; cbn [map app]; [now rewrite app_nil_r|]. cbn [read_lines]. rewrite read_field by exact L. rewrite IH. now rewrite <- app_assoc.
Qed.
Lemma read_insert fs d body c t : body = String c t -> space c = false ->
  rl (mkState "ASD_Levels" fs d) (insert_line body) = option_map (mkState "ASD_Levels" fs) (parse_line to_int to_float literal_eval fs d (replace "NULL" "''" body)).
Proof.
  intros E S. unfold read_line. cbn [tab fields found]. change (String.prefix "CREATE TABLE" (insert_line body)) with false. cbn iota. destruct (strip_first "I" ("NSERT INTO `ASD_Levels` VALUES " ^^ body ^^ ";") eq_refl) as [r R]. assert (X : strip (insert_line body) = String "I" r) by exact R. rewrite X. cbn [String.eqb negb andb String.prefix].
  assert (P : String.prefix "INSERT INTO `ASD_Levels` VALUES" (insert_line body) = true) by (unfold insert_line; destruct (body ^^ ";"); reflexivity). rewrite P. rewrite (formatted_insert body c t E S). destruct (parse_line _ _ _ _ _ _); reflexivity.
Qed.
End Read.
