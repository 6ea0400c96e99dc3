(** Properties C109 and C110: levels and lines of highly charged ions, and the import of levels. *)
From Coq Require Import ZArith QArith Qcanon Ascii Bool Arith Lia String List.
From Verif Require Import NxModel NxSpec NxProofs AsdModel AsdSpec AsdProofs.
Import ListNotations.
Local Open Scope string_scope.
Local Open Scope list_scope.
Local Infix "^^" := String.append (right associativity, at level 60).

(** * Levels *)
(** The ion has these levels, each under its name *)
Definition ion_has (db : asd) (e : string) (z : Z) (rows : list row_) : Prop :=
  find_levels db e z = Some (map (fun r => (row_name r, row_level r)) rows) /\ Forall proper rows /\ NoDup (map row_name rows).
(** The levels given are those of the required configuration, term and J, in the order of the database, at most maxLevels of them. *)
Theorem levels_given factor db e z rows rc rt rj max u unc out : ion_has db e z rows -> u <> OtherUnit -> picked (wanted rc rt rj) rows out ->
  available factor db e z rc rt rj max u unc = Some (Some (map (fun r => (row_name r, given_as factor u unc (row_level r))) (at_most max out))).
Proof.
  intros (F & P & ND) U K. unfold available. rewrite F. change (map (fun r => (row_name r, row_level r)) rows) with (map step_name rows).
  rewrite (loop_result factor rc rt rj max u unc rows U P 0 []) by (exact ND || (intros r _ [])). apply (proj1 (picked_filter (wanted rc rt rj) (row_allowed rc rt rj) rows (row_allowed_wanted rc rt rj) out)) in K. subst out.
  unfold rest_of. destruct max as [m|]; cbn [option_map app]; [now rewrite Z.sub_0_r|reflexivity].
Qed.
(** A unit that is not known gives None, but an empty dictionary if no level is wanted. *)
Theorem levels_unknown_unit factor db e z rows rc rt rj max unc out : ion_has db e z rows -> picked (wanted rc rt rj) rows out ->
  available factor db e z rc rt rj max OtherUnit unc = Some (match at_most max out with [] => Some [] | _ => None end).
Proof.
  intros (F & P & ND) K. unfold available. rewrite F. change (map (fun r => (row_name r, row_level r)) rows) with (map step_name rows). rewrite loop_other by (assumption || now right).
  apply (proj1 (picked_filter (wanted rc rt rj) (row_allowed rc rt rj) rows (row_allowed_wanted rc rt rj) out)) in K. subst out. unfold rest_of. destruct max as [m|]; cbn [option_map]; [now rewrite Z.sub_0_r|reflexivity].
Qed.
(** An element or charge that is not there raises. *)
Theorem levels_missing factor db e z rc rt rj max u unc : find_levels db e z = None -> available factor db e z rc rt rj max u unc = None.
Proof. intros H. unfold available. now rewrite H. Qed.
(** A third word without "=" raises IndexError, which is not caught, whatever is asked for. *)
Theorem levels_bad_j factor db e z rows rest name l a b c rc rt rj u unc : find_levels db e z = Some (map (fun r => (row_name r, row_level r)) rows ++ (name, l) :: rest) -> Forall proper rows ->
  words name = [a; b; c] -> lacks "=" c = true -> available factor db e z rc rt rj None u unc = None.
Proof.
  intros F P W L. unfold available. rewrite F. clear F. generalize 0%Z as n. generalize (Some ([] : list (string * given))) as out. induction P as [|r rows PR _ IH]; intros out n.
  - cbn [map app available_loop]. rewrite W. assert (S : second_part c = None).
    { unfold second_part. assert (G : after "=" c = None); [|now rewrite G]. clear - L. induction c as [|d c IH]; [reflexivity|]. cbn [lacks] in L. apply andb_prop in L. destruct L as [L1 L2]. cbn [after]. destruct (Ascii.eqb "=" d); [discriminate|now apply IH]. }
    now rewrite S.
  - assert (X := loop_step factor rc rt rj None u unc r (map (fun r => (row_name r, row_level r)) rows ++ (name, l) :: rest) n out PR ltac:(discriminate)). cbn [map app]. change (row_name r, row_level r) with (step_name r). rewrite X. destruct (row_allowed rc rt rj r); apply IH.
Qed.
(** One level: found under its configuration, term and J, and the same as asking for all levels of these. *)
Theorem single_level factor db e z rows conf term j l u unc : ion_has db e z rows -> In (Level conf term j l) rows -> u <> OtherUnit ->
  single factor db e z conf term j u unc = Some (Some (given_as factor u unc l)) /\
  available factor db e z (Some conf) (Some term) (Some j) None u unc = Some (Some [(conf ^^ " " ^^ term ^^ " J=" ^^ j, given_as factor u unc l)]).
Proof.
  intros H I U. pose proof H as (F & P & ND). split.
  - assert (D : dget String.eqb (level_name conf term j) (map (fun r => (row_name r, row_level r)) rows) = Some l).
    { apply (dget_in String.eqb String.eqb_spec); [rewrite map_map; exact ND|]. apply in_map_iff. now exists (Level conf term j l). }
    unfold single. destruct u; [| |easy]; rewrite F, D; f_equal; apply given_give; discriminate.
  - assert (K : picked (wanted (Some conf) (Some term) (Some j)) rows [Level conf term j l]).
    { assert (W : forall r, In r rows -> wanted (Some conf) (Some term) (Some j) r -> r = Level conf term j l).
      { intros r J W. destruct r as [c' t' j' l'|]; [|contradiction]. destruct W as (W1 & W2 & W3). rewrite (W1 conf eq_refl), (W2 term eq_refl), (W3 j eq_refl) in *. clear - I J ND. induction rows as [|x rows IH]; [contradiction|]. inversion ND as [|? ? N1 N2]. subst. destruct I as [->|I], J as [J|J]; [now symmetry|elim N1; apply (in_map row_name) in J; exact J|elim N1; rewrite J; apply (in_map row_name) in I; exact I|now apply IH]. }
      clear H F P. induction rows as [|x rows IH]; [contradiction|]. inversion ND as [|? ? N1 N2]. subst. destruct I as [->|I].
      - apply picked_in; [cbn; unfold is_wanted; repeat split; congruence|]. assert (N : forall r, In r rows -> ~ wanted (Some conf) (Some term) (Some j) r) by (intros r J Q; rewrite (W r (or_intror J) Q) in J; apply N1; now apply (in_map row_name) in J). clear - N. induction rows as [|y rows IH]; [constructor|]. apply picked_out; [apply N; now left|]. apply IH. intros r J. apply N. now right.
      - apply picked_out; [|apply IH; [exact I|exact N2|intros r J; apply W; now right]]. intros Q. rewrite (W x (or_introl eq_refl) Q) in N1. apply N1. now apply (in_map row_name) in I. }
    rewrite (levels_given factor db e z rows _ _ _ None u unc _ H U K). reflexivity.
Qed.
Theorem single_missing factor db e z conf term j u unc : u <> OtherUnit -> (forall ls, find_levels db e z = Some ls -> ~ In (conf ^^ " " ^^ term ^^ " J=" ^^ j) (map fst ls)) -> single factor db e z conf term j u unc = None.
Proof.
  intros U N. unfold single. destruct u; [| |easy]; (destruct (find_levels db e z) as [ls|]; [|reflexivity]); assert (D : dget String.eqb (level_name conf term j) ls = None) by (apply (dget_none String.eqb String.eqb_spec); now apply N); now rewrite D.
Qed.

(** * Lines *)
(** The lines of an ion are its levels with an energy other than zero, at most one level more than asked for being looked at; if no such line is
    there yet, all are added, in order. *)
Theorem ion_lines factor db reg e z rows max out : ion_has db e z rows -> letters e = true ->
  picked (fun r => match r with Level _ _ _ _ => True | Odd _ _ => False end) rows out ->
  let seen := at_most (match max with Some m => Some (m + 1)%Z | None => None end) out in
  (forall r, In r seen -> nonzero (in_units factor Ev (fst (row_level r))) -> ~ In (line_name e z (row_name r)) (map fst reg)) ->
  exists kept, picked (fun r => nonzero (in_units factor Ev (fst (row_level r)))) seen kept /\
    let added := map (fun r => (line_name e z (row_name r), in_units factor Ev (fst (row_level r)))) kept in
    add_ion_lines factor db reg e z max = (reg ++ added, Some added).
Proof.
  intros H L K seen F. assert (K' : picked (wanted None None None) rows out).
  { clear - K. induction K as [|a l out P K IH|a l out P K IH]; [constructor|apply picked_in; [|exact IH]|apply picked_out; [|exact IH]].
    - destruct a; [|contradiction]. cbn. unfold is_wanted. repeat split; discriminate.
    - destruct a; [|intros []]. now elim P. }
  assert (ND : NoDup (map row_name seen)).
  { assert (NO : NoDup (map row_name out)).
    { destruct H as (_ & _ & ND). apply (proj1 (picked_filter _ _ rows (row_allowed_wanted None None None) out)) in K'. subst out. clear - ND. induction rows as [|r rows IH]; [constructor|]. cbn [filter]. inversion ND as [|? ? N1 N2]. subst. destruct (row_allowed None None None r); [|now apply IH]. cbn. constructor; [|now apply IH]. intros I. apply N1. apply in_map_iff in I. destruct I as (q & E & I). apply filter_In in I. rewrite <- E. apply in_map, I. }
    unfold seen, at_most. destruct max as [m|]; [|exact NO]. destruct (m + 1 <? 0)%Z; [exact NO|]. clear - NO. generalize (Z.to_nat (m + 1)) as k. intros k. revert k NO. induction out as [|r out IH]; intros [|k] NO; cbn; try constructor; inversion NO as [|? ? N1 N2]; subst; [|now apply IH]. intros I. apply N1. apply in_map_iff in I. destruct I as (q & <- & I). apply in_map. rewrite <- (firstn_skipn k out). apply in_or_app. now left. }
  exists (filter (fun r => negb (zero (in_units factor Ev (fst (row_level r))))) seen). split.
  - apply (picked_filter _ (fun r => negb (zero (in_units factor Ev (fst (row_level r)))))); [|reflexivity]. intros r. rewrite negb_true_iff. split; intros X; [intros Y; assert (Q : zero (in_units factor Ev (fst (row_level r))) = true) by (apply zero_spec; intros Z; now apply Z); congruence|apply not_true_is_false; intros Y; apply zero_spec in Y; contradiction].
  - intros added. unfold add_ion_lines. rewrite (levels_given factor db e z rows None None None _ Ev true out H ltac:(discriminate) K'). fold seen.
    rewrite (add_lines_result factor e z seen ND L reg [] F). cbn [app].
    assert (G : flat_map (fun r => keep_line e z r factor) seen = added); [|now rewrite G]. unfold added. clear. induction seen as [|r seen IH]; [reflexivity|]. cbn [flat_map filter]. unfold keep_line at 1. cbv zeta. destruct (zero _); cbn [negb app map]; [exact IH|]. now rewrite IH.
Qed.
(** If a line of one of these levels is there already, ValueError. *)
Theorem ion_lines_taken factor db reg e z rows out r : ion_has db e z rows -> picked (fun r => match r with Level _ _ _ _ => True | Odd _ _ => False end) rows out -> In r out -> nonzero (in_units factor Ev (fst (row_level r))) ->
  In (line_name e z (row_name r)) (map fst reg) -> snd (add_ion_lines factor db reg e z None) = None.
Proof.
  intros H K I NZ T. assert (K' : picked (wanted None None None) rows out).
  { clear - K. induction K as [|a l out P K IH|a l out P K IH]; [constructor|apply picked_in; [|exact IH]|apply picked_out; [|exact IH]].
    - destruct a; [|contradiction]. cbn. unfold is_wanted. repeat split; discriminate.
    - destruct a; [|intros []]. now elim P. }
  unfold add_ion_lines. rewrite (levels_given factor db e z rows None None None None Ev true out H ltac:(discriminate) K'). apply add_lines_taken. now exists r.
Qed.
(** Lines of different elements, charges or levels have different names; so H-like and He-like lines never get in each other's way. *)
Theorem line_names_differ e z l e' z' l' : letters e = true -> letters e' = true -> line_name e z l = line_name e' z' l' -> e = e' /\ z = z' /\ l = l'.
Proof. apply line_name_inj. Qed.
(** The charge of H-like lines is the atomic number, of He-like lines one less. *)
Theorem H_and_He factor atomic_number db reg e z max : atomic_number e = Some z ->
  add_H_like factor atomic_number db reg e max = add_ion_lines factor db reg e z max /\ add_He_like factor atomic_number db reg e max = add_ion_lines factor db reg e (z - 1) max.
Proof. intros H. unfold add_H_like, add_He_like. now rewrite H. Qed.
(** "Levels without an energy give no line": they do, at NaN. *)
Theorem unknown_energy_refuted : exists db, ion_has db "Ne" 10 [Level "1s" "2S" "1/2" (Some 0%Qc, Some 0%Qc); Level "2p" "2P*" "1/2" (None, None)] /\
  add_ion_lines 1 db [] "Ne" 10 None = ([("Ne10 2p 2P* J=1/2", None)], Some [("Ne10 2p 2P* J=1/2", None)]).
Proof.
  exists [("Ne", [(10%Z, [("1s 2S J=1/2", (Some 0%Qc, Some 0%Qc)); ("2p 2P* J=1/2", (None, None))])])]. split; [|vm_compute; reflexivity]. split; [reflexivity|]. split; [repeat constructor; discriminate|]. repeat constructor; cbn; intuition discriminate.
Qed.
(** "maxLevels lines are made": one more is, if the first levels all have an energy. *)
Theorem max_levels_refuted : exists db added, ion_has db "Ne" 10 [Level "2p" "2P*" "1/2" (Some 1%Qc, None); Level "2p" "2P*" "3/2" (Some 1%Qc, None)] /\ snd (add_ion_lines 1 db [] "Ne" 10 (Some 1%Z)) = Some added /\ List.length added = 2%nat.
Proof.
  exists [("Ne", [(10%Z, [("2p 2P* J=1/2", (Some 1%Qc, None)); ("2p 2P* J=3/2", (Some 1%Qc, None))])])]. eexists. split; [|split; [vm_compute; reflexivity|reflexivity]]. split; [reflexivity|]. split; [repeat constructor; discriminate|]. repeat constructor; cbn; intuition discriminate.
Qed.

(** * Import *)
Section Import.
Variables (to_int : string -> option Z) (to_float : string -> option num) (literal_eval : string -> option literal).
(** what is stored for a level *)
Definition stored (d : tables) (e : string) (z : Z) (n : string) : option level := match find_levels d e z with None => None | Some ls => dget String.eqb n ls end.
Definition value (s : string) : num := match to_float s with Some x => x | None => None end.
(** Reading a dump of several rows: each level has the energy and uncertainty of the last row for it (NaN if not a number); rows without a
    configuration or term, and with the term "*", are left out. *)
Theorem dump_read fs body c t rows rs : NoDup fs -> Forall (fun f => lacks "`" f = true) fs -> body = String c t -> space c = false -> literal_eval (replace "NULL" "''" body) = Some (Rows rows) ->
  (forall r, In r rows -> List.length r = List.length fs) -> Forall2 (reads fs) rows rs -> (forall r, In r rs -> to_int (d_charge r) <> None) ->
  exists s, read_lines to_int to_float literal_eval start (create_line :: map field_line fs ++ [insert_line body]) = Some s /\
  forall e z n, (forall r, last_such (row_for to_int e z n) rs r -> stored (found s) e z n = Some (value (d_energy r), value (d_unc r))) /\ (Forall (fun r => ~ row_for to_int e z n r) rs -> stored (found s) e z n = None).
Proof.
  intros ND Q B S LE LEN R C. cbn [read_lines]. rewrite read_create. cbn [start fields found dput]. rewrite read_fields by exact Q. cbn [app read_lines]. rewrite (read_insert to_int to_float literal_eval _ _ body c t B S). unfold parse_line. rewrite LE. cbn [entries].
  assert (SL : same_length rows = true). { destruct rows as [|r rows]; [reflexivity|]. cbn. apply forallb_forall. intros x I. apply Nat.eqb_eq. rewrite (LEN r (or_introl eq_refl)). apply LEN. now right. }
  rewrite SL. destruct (parse_entries_reads to_int to_float fs rows rs ND R C []) as (d & P & G). destruct rows as [|r rows].
  - cbn in P. injection P as <-. cbn. eexists. split; [reflexivity|]. exact G.
  - change (dget String.eqb "ASD_Levels" [("ASD_Levels", fs)]) with (Some fs). cbn iota. rewrite P. cbn. eexists. split; [reflexivity|]. exact G.
Qed.
(** Writing raises as soon as there is any level: only an empty dictionary is ever written. *)
Theorem write_only_empty ls d : write_asd_pickle to_int to_float literal_eval ls = Some d <-> d = [] /\ exists s, read_lines to_int to_float literal_eval start ls = Some s /\ found s = [].
Proof.
  unfold write_asd_pickle. destruct (read_lines to_int to_float literal_eval start ls) as [s|]; [|split; [discriminate|intros (_ & s & X & _); discriminate]]. unfold sorted_levels, values_of_int. destruct (found s) as [|[e l] r] eqn:F.
  - split; [intros [= <-]; split; [reflexivity|now exists s]|intros (-> & _); reflexivity].
  - split; [destruct (two_keys l) as [[a b]|]; discriminate|]. intros (_ & q & [= <-] & X). congruence.
Qed.
Theorem write_raises fs body c t rows rs r : NoDup fs -> Forall (fun f => lacks "`" f = true) fs -> body = String c t -> space c = false -> literal_eval (replace "NULL" "''" body) = Some (Rows rows) ->
  (forall r, In r rows -> List.length r = List.length fs) -> Forall2 (reads fs) rows rs -> (forall r, In r rs -> to_int (d_charge r) <> None) -> In r rs -> kept r ->
  write_asd_pickle to_int to_float literal_eval (create_line :: map field_line fs ++ [insert_line body]) = None.
Proof.
  intros ND Q B S LE LEN R C I K. destruct (dump_read fs body c t rows rs ND Q B S LE LEN R C) as (s & E & G). destruct (write_asd_pickle to_int to_float literal_eval _) as [d|] eqn:W; [|reflexivity]. apply write_only_empty in W. destruct W as (_ & s' & E' & F). rewrite E in E'. injection E' as <-.
  destruct (to_int (d_charge r)) as [z|] eqn:Z; [|now elim (C r I)]. set (n := d_conf r ^^ " " ^^ d_term r ^^ " J=" ^^ d_j r). destruct (G (d_element r) z n) as [G1 _].
  assert (LS : exists q, last_such (row_for to_int (d_element r) z n) rs q).
  { assert (X : row_for to_int (d_element r) z n r) by (repeat split; try apply K; exact Z). clear - I X. assert (D : forall q, row_for to_int (d_element r) z n q \/ ~ row_for to_int (d_element r) z n q).
    { intros q. unfold row_for. rewrite <- kept_spec. destruct (kept_b q); [|right; intros (Y & _); discriminate]. destruct (string_dec (d_element q) (d_element r)); [|right; tauto]. destruct (to_int (d_charge q)) as [y|]; [|right; intros (_ & _ & Y & _); discriminate]. destruct (Z.eq_dec y z) as [->|N]; [|right; intros (_ & _ & Y & _); congruence]. destruct (string_dec (d_conf q ^^ " " ^^ d_term q ^^ " J=" ^^ d_j q) n); [left; tauto|right; tauto]. }
    revert I. induction rs as [|x rs IH]; [intros []|]. intros I. assert (Y : (exists q, In q rs /\ row_for to_int (d_element r) z n q) \/ Forall (fun q => ~ row_for to_int (d_element r) z n q) rs).
    { clear - D. induction rs as [|y rs IH]; [right; constructor|]. destruct (D y) as [H|H]; [left; exists y; split; [now left|exact H]|]. destruct IH as [(q & J & H')|IH]; [left; exists q; split; [now right|exact H']|right; now constructor]. }
    destruct Y as [(q & J & H)|N].
    - assert (LS : forall rs, In q rs -> exists p, last_such (row_for to_int (d_element r) z n) rs p).
      { clear - D H. induction rs as [|y rs IH] using rev_ind; [intros []|]. intros J. destruct (D y) as [Hy|Hy]; [exists y, rs, []; repeat split; try apply Hy; constructor|]. apply in_app_or in J. destruct J as [J|[<-|[]]]; [|contradiction]. destruct (IH J) as (p & b & a & -> & P1 & P2). exists p, b, (a ++ [y]). split; [now rewrite <- app_assoc|]. split; [exact P1|]. apply Forall_app. split; [exact P2|now constructor]. }
      apply LS. now right.
    - destruct I as [->|I]; [exists r, [], rs; split; [reflexivity|]; split; [exact X|exact N]|]. rewrite Forall_forall in N. elim (N r I X). }
  destruct LS as [q LS]. apply G1 in LS. rewrite F in LS. discriminate.
Qed.
(** A statement with one row only: its texts are taken for rows, and the characters for fields; a text too short for a field raises. *)
Theorem one_row_raises fs row d text i v : literal_eval text = Some (OneRow row) -> index_of "element" fs = Some i -> In v row -> (String.length v <= i)%nat ->
  parse_line to_int to_float literal_eval [("ASD_Levels", fs)] d text = None.
Proof.
  intros LE IX I L. unfold parse_line. rewrite LE. cbn [entries]. assert (R : parse_entries to_int to_float fs d (map characters row) = None).
  { apply parse_entries_raises. exists (characters v). split; [now apply in_map|]. intros d'. unfold parse_entry, entry. rewrite IX. assert (N : nth_error (characters v) i = None); [|now rewrite N]. apply nth_error_None. replace (List.length (characters v)) with (String.length v); [exact L|]. clear. induction v; cbn; congruence. }
  destruct (map characters row) as [|x xs] eqn:E; [destruct row; [contradiction|discriminate]|]. exact R.
Qed.
End Import.

(** * Examples *)
Definition neon : list row_ := [Level "1s" "2S" "1/2" (Some 0%Qc, Some 0%Qc); Odd "Limit" (Some 1%Qc, None); Level "2p" "2P*" "1/2" (Some (Q2Qc 8238000), Some 1%Qc); Level "2p" "2P*" "3/2" (Some (Q2Qc 8241000), None)].
Definition neon_db : asd := [("Ne", [(10%Z, map (fun r => (row_name r, row_level r)) neon)])].
Example ex_levels : ion_has neon_db "Ne" 10 neon /\ match available 1 neon_db "Ne" 10 (Some "2p") None None (Some 1%Z) InvCm false with Some (Some [(n, One (Some q))]) => n = "2p 2P* J=1/2" /\ q = Q2Qc 8238000 | _ => False end.
Proof. split; [|vm_compute; now split]. split; [reflexivity|]. split; [repeat constructor; discriminate|]. repeat constructor; cbn; intuition discriminate. Qed.
Example ex_lines : map fst (fst (add_ion_lines 1 neon_db [] "Ne" 10 None)) = ["Ne10 2p 2P* J=1/2"; "Ne10 2p 2P* J=3/2"] /\ snd (add_ion_lines 1 neon_db (fst (add_ion_lines 1 neon_db [] "Ne" 10 None)) "Ne" 10 None) = None.
Proof. now vm_compute. Qed.
Definition seven : list string := ["element"; "spectr_charge"; "conf"; "term"; "j_val"; "energy"; "unc"].
Example ex_dump : forall to_float, let lit (s : string) := if String.eqb s "('Ne','10','1s','2S','1/2','0',''),('Ne','10','1s','*','1/2','0','')" then Some (Rows [["Ne"; "10"; "1s"; "2S"; "1/2"; "0"; ""]; ["Ne"; "10"; "1s"; "*"; "1/2"; "0"; ""]]) else None in
  let ls := create_line :: map field_line seven ++ [insert_line "('Ne','10','1s','2S','1/2','0',NULL),('Ne','10','1s','*','1/2','0',NULL)"] in
  match read_lines (fun _ => Some 10%Z) to_float lit start ls with Some s => found s = [("Ne", [(10%Z, [("1s 2S J=1/2", (number to_float "0", number to_float ""))])])] | None => False end /\ write_asd_pickle (fun _ => Some 10%Z) to_float lit ls = None.
Proof. intros to_float lit ls. split; vm_compute; reflexivity. Qed.
Example ex_one_row : index_of "element" seven = Some 0%nat /\ In "" ["Ne"; "10"; "1s"; "2S"; "1/2"; "0"; ""].
Proof. split; [reflexivity|cbn; tauto]. Qed.

Print Assumptions levels_given.
Print Assumptions levels_unknown_unit.
Print Assumptions levels_missing.
Print Assumptions levels_bad_j.
Print Assumptions single_level.
Print Assumptions single_missing.
Print Assumptions ion_lines.
Print Assumptions ion_lines_taken.
Print Assumptions line_names_differ.
Print Assumptions H_and_He.
Print Assumptions unknown_energy_refuted.
Print Assumptions max_levels_refuted.
Print Assumptions dump_read.
Print Assumptions write_only_empty.
Print Assumptions write_raises.
Print Assumptions one_row_raises.
