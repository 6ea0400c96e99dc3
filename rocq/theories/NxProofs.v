(** Proofs about the line database. *)
From Coq Require Import Ascii Bool Arith Lia String List.
From Verif Require Import NxModel NxSpec.
Import ListNotations.
Local Open Scope string_scope.
Local Open Scope list_scope.
Local Infix "^^" := String.append (right associativity, at level 60).

(** * Texts *)
Lemma app_length_s a b : String.length (a ^^ b) = (String.length a + String.length b)%nat.
Proof. induction a; cbn; congruence. Qed.
Lemma app_nil_s a : a ^^ "" = a.
Proof. induction a; cbn; congruence. Qed.
Lemma app_assoc_s a b c : (a ^^ b) ^^ c = a ^^ b ^^ c.
Proof. induction a; cbn; congruence. Qed.
Lemma spaces_length n : String.length (spaces n) = n.
Proof. induction n; cbn; congruence. Qed.
Lemma pad_length w s : (String.length s <= w)%nat -> String.length (pad w s) = w.
Proof. intros H. unfold pad. rewrite app_length_s, spaces_length. lia. Qed.
Lemma substring_skip a b k m : substring (String.length a + k) m (a ^^ b) = substring k m b.
Proof. induction a as [|c a IH]; [reflexivity|]. cbn [String.length Nat.add String.append substring]. exact IH. Qed.
Lemma substring_0 m s : (String.length s <= m)%nat -> substring 0 m s = s.
Proof. revert m; induction s as [|c s IH]; intros [|m] H; cbn in *; try reflexivity; try lia. f_equal. apply IH. lia. Qed.
Lemma substring_app m a b : (String.length a <= m)%nat -> substring 0 m (a ^^ b) = a ^^ substring 0 (m - String.length a) b.
Proof. revert m; induction a as [|c a IH]; intros m H; cbn [String.append String.length]; [now rewrite Nat.sub_0_r|]. cbn [String.length] in H. destruct m as [|m]; [lia|]. cbn [substring Nat.sub]. now rewrite IH by lia. Qed.
Lemma rstrip_spaces n : rstrip (spaces n) = "".
Proof. induction n as [|n IH]; cbn; [reflexivity|]. now rewrite IH. Qed.
Lemma rstrip_empty c t : rstrip (String c t) = String c t -> rstrip t = t.
Proof. cbn. destruct (rstrip t) as [|d r] eqn:E; intros H; [|congruence]. destruct (space c); [discriminate|]. now injection H as <-. Qed.
Lemma rstrip_app s n : rstrip s = s -> rstrip (s ^^ spaces n) = s.
Proof.
  induction s as [|c s IH]; intros H; cbn [String.append]; [apply rstrip_spaces|]. pose proof (rstrip_empty c s H) as H1. cbn [rstrip]. rewrite (IH H1). cbn [rstrip] in H. now rewrite H1 in H.
Qed.
Lemma substring_spaces m n : substring 0 m (spaces n) = spaces (Nat.min m n).
Proof. revert n; induction m as [|m IH]; intros [|n]; cbn; try reflexivity. f_equal. apply IH. Qed.
(** the first w columns of a padded field *)
Lemma field_read w v s rest : field w s -> (w <= v)%nat -> rstrip (substring 0 w (pad v s ^^ rest)) = s.
Proof.
  intros [L R] V. assert (E : substring 0 w (pad v s ^^ rest) = s ^^ spaces (w - String.length s)).
  { unfold pad. rewrite app_assoc_s, substring_app by exact L. f_equal.
    assert (G : forall m n r, (m <= n)%nat -> substring 0 m (spaces n ^^ r) = spaces m) by (induction m as [|m IH]; intros [|n] r H; cbn; try reflexivity; try lia; [now destruct r|f_equal; apply IH; lia]). apply G. lia. }
  rewrite E. now apply rstrip_app.
Qed.
Lemma field_last w s : field w s -> rstrip (substring 0 w s) = s.
Proof. intros [L R]. now rewrite substring_0. Qed.

Section Numbers.
Context {num : Type} (to_float : string -> option num).
Lemma row_parsed_ e a t th tu p pu b r : field 4 e -> (String.length a <= 4)%nat -> field 7 t -> (String.length th <= 14)%nat -> (String.length tu <= 13)%nat -> field 15 p -> field 12 pu -> field 6 b -> field 11 r ->
  parse num to_float (row e a t th tu p pu b r) = match to_float p, to_float pu with Some x, Some u => Some (mkLine num e t x u b r (rstrip (row e a t th tu p pu b r))) | _, _ => None end.
Proof.
  intros E A T TH TU P PU B R. unfold parse. set (text := row e a t th tu p pu b r).
  assert (C1 : columns 1 4 text = e) by (unfold columns, text, row; cbn [Nat.sub]; apply field_read; [exact E|lia]).
  assert (L1 : String.length (pad 5 e) = 5%nat) by (apply pad_length; destruct E; lia).
  assert (L2 : String.length (pad 4 a) = 4%nat) by (apply pad_length; exact A).
  assert (L3 : String.length (pad 8 t) = 8%nat) by (apply pad_length; destruct T; lia).
  assert (L4 : String.length (pad 14 th) = 14%nat) by (apply pad_length; exact TH).
  assert (L5 : String.length (pad 13 tu) = 13%nat) by (apply pad_length; exact TU).
  assert (L6 : String.length (pad 16 p) = 16%nat) by (apply pad_length; destruct P; lia).
  assert (L7 : String.length (pad 13 pu) = 13%nat) by (apply pad_length; destruct PU; lia).
  assert (L8 : String.length (pad 7 b) = 7%nat) by (apply pad_length; destruct B; lia).
  assert (C2 : columns 10 16 text = t).
  { unfold columns, text, row. change (10 - 1)%nat with (5 + (4 + 0))%nat. rewrite <- L1 at 1. rewrite substring_skip. rewrite <- L2 at 1. rewrite substring_skip. apply field_read; [exact T|cbn; lia]. }
  assert (C3 : columns 45 59 text = p).
  { unfold columns, text, row. change (45 - 1)%nat with (5 + (4 + (8 + (14 + (13 + 0)))))%nat. rewrite <- L1 at 1. rewrite substring_skip. rewrite <- L2 at 1. rewrite substring_skip. rewrite <- L3 at 1. rewrite substring_skip. rewrite <- L4 at 1. rewrite substring_skip. rewrite <- L5 at 1. rewrite substring_skip. apply field_read; [exact P|cbn; lia]. }
  assert (C4 : columns 61 72 text = pu).
  { unfold columns, text, row. change (61 - 1)%nat with (5 + (4 + (8 + (14 + (13 + (16 + 0))))))%nat. rewrite <- L1 at 1. rewrite substring_skip. rewrite <- L2 at 1. rewrite substring_skip. rewrite <- L3 at 1. rewrite substring_skip. rewrite <- L4 at 1. rewrite substring_skip. rewrite <- L5 at 1. rewrite substring_skip. rewrite <- L6 at 1. rewrite substring_skip. apply field_read; [exact PU|cbn; lia]. }
  assert (C5 : columns 74 79 text = b).
  { unfold columns, text, row. change (74 - 1)%nat with (5 + (4 + (8 + (14 + (13 + (16 + (13 + 0)))))))%nat. rewrite <- L1 at 1. rewrite substring_skip. rewrite <- L2 at 1. rewrite substring_skip. rewrite <- L3 at 1. rewrite substring_skip. rewrite <- L4 at 1. rewrite substring_skip. rewrite <- L5 at 1. rewrite substring_skip. rewrite <- L6 at 1. rewrite substring_skip. rewrite <- L7 at 1. rewrite substring_skip. apply field_read; [exact B|cbn; lia]. }
  assert (C6 : columns 81 91 text = r).
  { unfold columns, text, row. change (81 - 1)%nat with (5 + (4 + (8 + (14 + (13 + (16 + (13 + (7 + 0))))))))%nat. rewrite <- L1 at 1. rewrite substring_skip. rewrite <- L2 at 1. rewrite substring_skip. rewrite <- L3 at 1. rewrite substring_skip. rewrite <- L4 at 1. rewrite substring_skip. rewrite <- L5 at 1. rewrite substring_skip. rewrite <- L6 at 1. rewrite substring_skip. rewrite <- L7 at 1. rewrite substring_skip. rewrite <- L8 at 1. rewrite substring_skip. apply field_last. exact R. }
  now rewrite C1, C2, C3, C4, C5, C6.
Qed.
End Numbers.

(** * Dictionaries *)
Section Dict.
Context {V : Type}.
Lemma get_put k k' (v : V) d : get k (put k' v d) = if String.eqb k k' then Some v else get k d.
Proof.
  induction d as [|[a b] d IH]; cbn.
  - destruct (String.eqb k k'); reflexivity.
  - destruct (String.eqb_spec k' a) as [->|N]; cbn; [destruct (String.eqb_spec k a); reflexivity|]. rewrite IH. destruct (String.eqb_spec k a) as [->|]; [|reflexivity]. destruct (String.eqb_spec a k'); [congruence|reflexivity].
Qed.
Lemma put_keys k (v : V) d : NoDup (map fst d) -> NoDup (map fst (put k v d)) /\ forall x, In x (map fst (put k v d)) <-> x = k \/ In x (map fst d).
Proof.
  induction d as [|[a b] d IH]; cbn; intros H; [split; [constructor; [easy|constructor]|intuition]|]. inversion H; subst. destruct (IH H3) as [I1 I2].
  destruct (String.eqb_spec k a) as [->|N]; cbn; [split; [exact H|intuition]|]. split; [constructor; [|exact I1]; rewrite I2; intuition|]. intros x. rewrite I2. intuition.
Qed.
Lemma get_in k (v : V) d : NoDup (map fst d) -> get k d = Some v <-> In (k, v) d.
Proof.
  induction d as [|[a b] d IH]; cbn; intros H; [split; [discriminate|contradiction]|]. inversion H; subst. destruct (String.eqb_spec k a) as [->|N].
  - split; [intros [= ->]; now left|]. intros [[= ->]|I]; [reflexivity|]. elim H2. apply in_map_iff. now exists (a, v).
  - rewrite IH by assumption. split; [now right|]. intros [[= -> ->]|I]; [contradiction|exact I].
Qed.
Lemma put_in k v (d : list (string * V)) x : In x (put k v d) -> x = (k, v) \/ In x d.
Proof. induction d as [|[a b] d IH]; cbn; [intuition|]. destruct (String.eqb_spec k a) as [->|]; cbn; intuition. Qed.
(** putting many *)
Definition puts (l : list (string * V)) d := fold_left (fun d kv => put (fst kv) (snd kv) d) l d.
Lemma get_puts l k d : (forall a u w, In (a, u) l -> In (a, w) l -> u = w) -> forall v, get k (puts l d) = Some v <-> In (k, v) l \/ (~ In k (map fst l)) /\ get k d = Some v.
Proof.
  unfold puts. revert d. induction l as [|[a u] l IH]; intros d H v; cbn; [intuition|]. rewrite IH by (intros; eapply H; right; eassumption). rewrite get_put. destruct (String.eqb_spec k a) as [->|N].
  - split.
    + intros [I|[_ [= ->]]]; [left; now right|now left; left].
    + intros [[[= ->]|I]|[NI _]]; [|now left|elim NI; now left]. destruct (in_dec string_dec a (map fst l)) as [I|I]; [|now right]. left. apply in_map_iff in I. destruct I as ((a' & w) & E & I). cbn in E. subst a'. now rewrite (H a v w (or_introl eq_refl) (or_intror I)).
  - split; intros [I|[NI G]]; [left; now right| |destruct I as [[= -> _]|I]; [contradiction|now left]|]; right; (split; [|exact G]); intuition.
Qed.
End Dict.

(** * Loading *)
Section Load.
Context {num : Type} (to_float : string -> option num).
Notation add := (add_text num to_float).
Notation addf := (add_file num to_float).
Lemma after_header_spec f : match after_header f with Some below => exists above h, f = above ++ h :: below /\ Forall (fun t => is_header t = false) above /\ is_header h = true | None => Forall (fun t => is_header t = false) f end.
Proof.
  induction f as [|t r IH]; cbn; [constructor|]. destruct (is_header t) eqn:E; [exists [], t; repeat split; [constructor|exact E]|]. destruct (after_header r) as [b|]; [|now constructor].
  destruct IH as (a & h & -> & A & H). exists (t :: a), h. repeat split; [now constructor|exact H].
Qed.
Lemma addf_none fs : fold_left addf fs None = None.
Proof. induction fs as [|f fs IH]; cbn; [reflexivity|]. exact IH. Qed.
Fixpoint rows (fs : list (option (list string))) : option (list string) :=
  match fs with
  | [] => Some []
  | None :: r => rows r
  | Some f :: r => match after_header f, rows r with Some b, Some t => Some (b ++ t) | _, _ => None end
  end.
Lemma rows_rows_of fs r : rows fs = Some r -> rows_of fs r.
Proof.
  revert r; induction fs as [|[f|] fs IH]; intros r H; cbn in H; [injection H as <-; constructor| |constructor; now apply IH].
  pose proof (after_header_spec f) as S. destruct (after_header f) as [b|]; [|discriminate]. destruct S as (a & h & -> & A & HH). destruct (rows fs) as [t|]; [|discriminate]. injection H as <-. constructor; auto.
Qed.
Lemma rows_none_iff fs : rows fs = None <-> exists f, In (Some f) fs /\ Forall (fun t => is_header t = false) f.
Proof.
  induction fs as [|[f|] fs IH]; cbn; [split; [discriminate|intros (f & [] & _)]| |].
  - pose proof (after_header_spec f) as S. destruct (after_header f) as [b|]; [|split; [intros _; exists f; split; [now left|exact S]|reflexivity]].
    destruct (rows fs); (split; [|intros (g & [[= <-]|I] & G)]); try discriminate.
    + destruct S as (a & h & -> & _ & HH). apply Forall_app in G. destruct G as [_ G]. inversion G. congruence.
    + discriminate (proj2 IH (ex_intro _ g (conj I G))).
    + intros _. destruct (proj1 IH eq_refl) as (g & I & G). exists g. split; [now right|exact G].
    + reflexivity.
    + reflexivity.
  - rewrite IH. split; intros (f & I & H); exists f; (split; [|exact H]); [now right|]. destruct I as [I|I]; [discriminate|exact I].
Qed.
Lemma add_loaded rws d n : fold_left add rws (mkDb num (lines num d) (alllines num d) n) = mkDb num (lines num (fold_left add rws d)) (alllines num (fold_left add rws d)) n /\ loaded num (fold_left add rws d) = loaded num d.
Proof.
  revert d. induction rws as [|t r IH]; intros d; [cbn; split; reflexivity|]. cbn [fold_left]. unfold add_text at 2 4 6 8. cbn [lines alllines loaded]. destruct (parse num to_float t) as [x|]; [|exact (IH d)]. destruct (IH (mkDb num (put (name num x) x (lines num d)) (alllines num d ++ [x]) (loaded num d))) as [A B]. cbn [lines alllines loaded] in *. now split.
Qed.
Lemma load_rows_from fs d : match rows fs with None => fold_left addf fs (Some d) = None | Some r => exists n, fold_left addf fs (Some d) = Some (mkDb num (lines num (fold_left add r d)) (alllines num (fold_left add r d)) n) end.
Proof.
  revert d. induction fs as [|[f|] fs IH]; intros d; cbn [rows fold_left]; [exists (loaded num d); now destruct d| |exact (IH d)].
  cbn [add_file]. destruct (after_header f) as [b|]; [|apply addf_none]. specialize (IH (mkDb num (lines num (fold_left add b d)) (alllines num (fold_left add b d)) (S (loaded num (fold_left add b d))))).
  destruct (rows fs) as [r|]; [|exact IH]. destruct IH as [n IH]. exists n. rewrite IH. rewrite fold_left_app. destruct (add_loaded r (fold_left add b d) (S (loaded num (fold_left add b d)))) as [A _]. now rewrite A.
Qed.
(** the lines of rows *)
Definition parsed_list (r : list string) : list (line num) := flat_map (fun t => match parse num to_float t with Some x => [x] | None => [] end) r.
Lemma parsed_list_spec r : parsed to_float r (parsed_list r).
Proof. induction r as [|t r IH]; cbn; [constructor|]. destruct (parse num to_float t) eqn:E; cbn; now constructor. Qed.
Lemma parsed_unique r l : parsed to_float r l -> l = parsed_list r.
Proof. induction 1 as [|t r l E P IH|t r x l E P IH]; cbn; [reflexivity| |]; rewrite E; cbn [app]; fold (parsed_list r); congruence. Qed.
Lemma adds_spec r d : lines num (fold_left add r d) = puts (map (fun l => (name num l, l)) (parsed_list r)) (lines num d) /\ alllines num (fold_left add r d) = alllines num d ++ parsed_list r.
Proof.
  revert d. induction r as [|t r IH]; intros d; cbn [fold_left parsed_list flat_map]; [cbn; split; [reflexivity|now rewrite app_nil_r]|]. destruct (IH (add d t)) as [A B]. rewrite A, B. unfold add_text. fold (parsed_list r). destruct (parse num to_float t) as [x|]; cbn; [|now split]. split; [reflexivity|]. now rewrite <- app_assoc.
Qed.
Lemma puts_last (l : list (line num)) k d : (forall x, last_such (fun y => name num y = k) l x -> get k (puts (map (fun y => (name num y, y)) l) d) = Some x) /\ (Forall (fun y => name num y <> k) l -> get k (puts (map (fun y => (name num y, y)) l) d) = get k d).
Proof.
  unfold puts. split.
  - intros x (b & a & -> & NX & A). rewrite map_app, fold_left_app. cbn [map fold_left fst snd].
    assert (G : forall l d, Forall (fun y => name num y <> k) l -> get k (fold_left (fun d kv => put (fst kv) (snd kv) d) (map (fun y => (name num y, y)) l) d) = get k d).
    { clear. induction l as [|y l IH]; intros d H; cbn; [reflexivity|]. inversion H; subst. rewrite IH by assumption. rewrite get_put. destruct (String.eqb_spec k (name num y)); [congruence|reflexivity]. }
    rewrite G by exact A. rewrite get_put, NX, String.eqb_refl. reflexivity.
  - revert d. induction l as [|y l IH]; intros d H; cbn; [reflexivity|]. inversion H; subst. rewrite IH by assumption. rewrite get_put. destruct (String.eqb_spec k (name num y)); [congruence|reflexivity].
Qed.
Lemma puts_named l : forall d, (forall k x, In (k, x) d -> k = name num x) -> NoDup (map fst d) -> let d' := puts (map (fun y => (name num y, y)) l) d in (forall k x, In (k, x) d' -> k = name num x) /\ NoDup (map fst d').
Proof.
  induction l as [|y l IH]; intros d H N; cbn; [now split|]. apply IH.
  - intros k x I. apply put_in in I. destruct I as [[= -> ->]|I]; [reflexivity|now apply H].
  - now apply put_keys.
Qed.
End Load.

(** * Case *)
Fixpoint no_upper (s : string) : bool := match s with EmptyString => true | String c t => negb (is_upper c) && no_upper t end.
Lemma lower_not_upper c : is_upper (lower_ascii c) = false.
Proof. destruct c as [[] [] [] [] [] [] [] []]; reflexivity. Qed.
Lemma lower_no_upper s : no_upper (lower s) = true.
Proof. induction s as [|c s IH]; cbn; [reflexivity|]. now rewrite lower_not_upper. Qed.
Lemma no_upper_app a b : no_upper (a ^^ b) = no_upper a && no_upper b.
Proof. induction a as [|c a IH]; cbn; [reflexivity|]. now rewrite IH, andb_assoc. Qed.
Lemma replace_no_upper old new s : no_upper new = true -> no_upper s = true -> no_upper (replace old new s) = true.
Proof.
  intros N. unfold replace. generalize 0%nat as k. induction s as [|c s IH]; intros k H; [reflexivity|]. cbn [no_upper] in H. apply andb_prop in H. destruct H as [H1 H2]. cbn [replace_from].
  destruct k as [|k]; [|now apply IH]. destruct (String.prefix old (String c s)); [rewrite no_upper_app, N; now apply IH|]. cbn [no_upper]. rewrite H1. now apply IH.
Qed.
Lemma nickname_capital s : no_upper s = true -> get s nicknames = None.
Proof.
  intros H. assert (G : forall k, no_upper k = false -> String.eqb s k = false) by (intros k K; destruct (String.eqb_spec s k); congruence). unfold nicknames. cbn [get]. rewrite !G by reflexivity. reflexivity.
Qed.
Lemma getitem_words {num : Type} (d : db num) key : getitem num d key = match words key with e :: t :: _ => get (capitalize e ^^ " " ^^ upper t) (lines num d) | _ => None end.
Proof.
  unfold getitem. destruct (words key) as [|e [|t r]]; try reflexivity. destruct (get _ (lines num d)); [reflexivity|]. rewrite nickname_capital; [reflexivity|]. repeat apply replace_no_upper; try reflexivity. apply lower_no_upper.
Qed.
Lemma words_from_plain w s cur : plain w = true -> words_from cur (w ^^ s) = words_from (cur ^^ w) s.
Proof.
  revert cur; induction w as [|c w IH]; intros cur H; cbn [String.append]; [now rewrite app_nil_s|]. cbn [plain] in H. apply andb_prop in H. destruct H as [H1 H2]. cbn [words_from]. destruct (space c); [discriminate|]. rewrite IH by exact H2. f_equal. now rewrite app_assoc_s.
Qed.
Lemma words_two e t : plain e = true -> plain t = true -> e <> "" -> t <> "" -> words (e ^^ " " ^^ t) = [e; t].
Proof.
  intros P Q E T. unfold words. rewrite words_from_plain by exact P. cbn [String.append words_from]. change (space " ") with true. cbn iota. assert (W : words_from "" t = [t]) by (pose proof (words_from_plain t "" "" Q) as W; rewrite app_nil_s in W; rewrite W; cbn [String.append words_from]; now destruct t). rewrite W. now destruct e.
Qed.
(** words have no white space in them *)
Lemma words_from_ok s : forall cur, plain cur = true -> Forall (fun w => plain w = true /\ w <> "") (words_from cur s).
Proof.
  assert (PA : forall a c, plain a = true -> space c = false -> plain (a ^^ String c "") = true).
  { induction a as [|x a IH]; intros c P S; cbn in *; [now rewrite S|]. apply andb_prop in P. destruct P as [P1 P2]. rewrite P1. now apply IH. }
  induction s as [|c s IH]; intros cur P; cbn [words_from].
  - destruct cur; [constructor|]. constructor; [split; [exact P|discriminate]|constructor].
  - destruct (space c) eqn:E.
    + destruct cur; [now apply IH|]. constructor; [split; [exact P|discriminate]|]. now apply IH.
    + apply IH. now apply PA.
Qed.
Lemma upper_lower c : upper_ascii (lower_ascii c) = upper_ascii c.
Proof. destruct c as [[] [] [] [] [] [] [] []]; reflexivity. Qed.
Lemma upper_upper c : is_lower (upper_ascii c) = false.
Proof. destruct c as [[] [] [] [] [] [] [] []]; reflexivity. Qed.
Fixpoint no_lower (s : string) : bool := match s with EmptyString => true | String c t => negb (is_lower c) && no_lower t end.
Lemma upper_no_lower s : no_lower (upper s) = true.
Proof. induction s as [|c s IH]; cbn; [reflexivity|]. now rewrite upper_upper. Qed.
Lemma space_upper c : space (upper_ascii c) = space c.
Proof. destruct c as [[] [] [] [] [] [] [] []]; reflexivity. Qed.
Lemma space_lower c : space (lower_ascii c) = space c.
Proof. destruct c as [[] [] [] [] [] [] [] []]; reflexivity. Qed.
Lemma plain_upper s : plain (upper s) = plain s.
Proof. induction s as [|c s IH]; cbn; [reflexivity|]. now rewrite space_upper, IH. Qed.
Lemma plain_lower s : plain (lower s) = plain s.
Proof. induction s as [|c s IH]; cbn; [reflexivity|]. now rewrite space_lower, IH. Qed.
Lemma plain_capitalize s : plain (capitalize s) = plain s.
Proof. destruct s as [|c s]; [reflexivity|]. cbn. now rewrite space_upper, plain_lower. Qed.
Lemma split_unique a b a' b' : plain a = true -> plain a' = true -> a ^^ " " ^^ b = a' ^^ " " ^^ b' -> a = a' /\ b = b'.
Proof.
  revert a'; induction a as [|c a IH]; intros [|c' a'] P P' H; cbn in *; [injection H as ->; now split| | |].
  - injection H as <- H. discriminate.
  - injection H as -> H. discriminate.
  - injection H as -> H. apply andb_prop in P. apply andb_prop in P'. destruct (IH a' (proj2 P) (proj2 P') H) as [-> ->]. now split.
Qed.

(** * Names of lines *)
Lemma first_space_split e t : plain e = true -> first_space (e ^^ " " ^^ t) = Some (e, t).
Proof.
  induction e as [|c e IH]; intros P; cbn; [reflexivity|]. cbn in P. apply andb_prop in P. destruct P as [P1 P2]. destruct (Ascii.eqb_spec c " ") as [->|N]; [discriminate|]. specialize (IH P2). cbn in IH. now rewrite IH.
Qed.
Lemma element_plain e : element_like e = true -> plain e = true.
Proof. destruct e as [|c [|d [|x e]]]; cbn; try discriminate; destruct c as [[] [] [] [] [] [] [] []]; cbn; try discriminate; try reflexivity; destruct d as [[] [] [] [] [] [] [] []]; cbn; try discriminate; reflexivity. Qed.
Lemma upper_not_lower c : is_upper c = true -> is_lower c = false.
Proof. destruct c as [[] [] [] [] [] [] [] []]; cbn; try discriminate; reflexivity. Qed.
Lemma glue_unique e n e' n' : element_like e = true -> element_like e' = true -> starts_upper n = true -> starts_upper n' = true -> e ^^ n = e' ^^ n' -> e = e' /\ n = n'.
Proof.
  intros E E' N N' H. destruct e as [|c [|d [|x e]]]; cbn in E; try discriminate; destruct e' as [|c' [|d' [|x' e']]]; cbn in E'; try discriminate; cbn in H.
  - injection H as -> ->. now split.
  - injection H as -> ->. cbn in N. apply andb_prop in E'. pose proof (upper_not_lower _ N). destruct E'. congruence.
  - injection H as -> <-. cbn in N'. apply andb_prop in E. pose proof (upper_not_lower _ N'). destruct E. congruence.
  - injection H as -> -> ->. now split.
Qed.
Definition names_of (t : string) : list string := t :: match get t other_names with Some l => l | None => [] end.
Lemma all_names_table t : all_names t = names_of t \/ exists a b, all_names t = t :: a :: b :: [] /\ names_of t = [t; a] /\ a = b.
Proof.
  unfold all_names, names_of. change alternates with [("KL3", "KA1"); ("KL2", "KA2"); ("KM3", "KB1"); ("KM2", "KB3"); ("KM5", "KB5"); ("L3M5", "LA1"); ("L3M4", "LA2"); ("L3M1", "Ll"); ("L1M3", "LB3"); ("L2M4", "LB1"); ("L3N5", "LB2"); ("L2N4", "LG1")].
  unfold other_names. cbn [get]. repeat match goal with |- context [String.eqb t ?k] => destruct (String.eqb_spec t k) as [->|]; [first [left; reflexivity|right; do 2 eexists; repeat split; reflexivity]|] end. now left.
Qed.
Lemma all_names_called t n : In n (all_names t) <-> called t n.
Proof.
  assert (A : In n (all_names t) <-> In n (names_of t)).
  { destruct (all_names_table t) as [->|(a & b & -> & -> & ->)]; [reflexivity|]. cbn. intuition. }
  rewrite A. unfold names_of, called. cbn [In]. split.
  - intros [<-|H]; [now left|]. right. destruct (get t other_names) as [l|] eqn:G; [|contradiction]. exists l. split; [|exact H]. apply get_in; [|exact G]. cbn. repeat constructor; cbn; intuition discriminate.
  - intros [->|(l & I & J)]; [now left|]. right. apply get_in in I; [now rewrite I|]. cbn. repeat constructor; cbn; intuition discriminate.
Qed.
Definition is_alternate (n : string) : bool := existsb (fun p => existsb (String.eqb n) (snd p)) other_names.
Lemma called_starts t n : starts_upper t = true -> called t n -> starts_upper n = true.
Proof.
  intros T [->|(l & I & J)]; [exact T|]. assert (G : forallb (fun p => forallb starts_upper (snd p)) other_names = true) by reflexivity. rewrite forallb_forall in G. specialize (G _ I). cbn in G. rewrite forallb_forall in G. now apply G.
Qed.
Lemma called_alternate t n l : In (t, l) other_names -> In n l -> is_alternate n = true.
Proof. intros I J. unfold is_alternate. apply existsb_exists. exists (t, l). split; [exact I|]. cbn. apply existsb_exists. exists n. split; [exact J|]. apply String.eqb_refl. Qed.
Lemma table_disjoint : forallb (fun p => forallb (fun q => String.eqb (fst p) (fst q) || forallb (fun n => negb (existsb (String.eqb n) (snd q))) (snd p)) other_names) other_names = true.
Proof. reflexivity. Qed.
Lemma called_unique t t' n : is_alternate t = false -> is_alternate t' = false -> called t n -> called t' n -> t = t'.
Proof.
  intros A A' [->|(l & I & J)] [E|(l' & I' & J')]; [exact E|rewrite (called_alternate _ _ _ I' J') in A; discriminate|subst; rewrite (called_alternate _ _ _ I J) in A'; discriminate|].
  pose proof table_disjoint as G. rewrite forallb_forall in G. specialize (G _ I). cbn beta in G. rewrite forallb_forall in G. specialize (G _ I'). cbn [fst snd] in G. destruct (String.eqb_spec t t'); [assumption|]. cbn [orb] in G. rewrite forallb_forall in G. specialize (G _ J).
  assert (X : existsb (String.eqb n) l' = true) by (apply existsb_exists; exists n; split; [exact J'|apply String.eqb_refl]). rewrite X in G. discriminate.
Qed.
Section Energies.
Context {num : Type}.
Definition splits (rows : list (string * line num)) : list (string * num) :=
  flat_map (fun kl => match first_space (fst kl) with Some (e, t) => map (fun n => (e ^^ n, peak num (snd kl))) (all_names t) | None => [] end) rows.
Lemma puts_map (e : string) (v : num) ns d : fold_left (fun d n => put (e ^^ n) v d) ns d = puts (map (fun n => (e ^^ n, v)) ns) d.
Proof. unfold puts. revert d. induction ns as [|n ns IH]; intros d; cbn; [reflexivity|]. apply IH. Qed.
Lemma energies_puts rows data : (forall k l, In (k, l) rows -> first_space k <> None) -> energies_of num rows data = Some (puts (splits rows) data).
Proof.
  revert data. induction rows as [|[k l] rows IH]; intros data H; [reflexivity|]. cbn [energies_of]. pose proof (H k l (or_introl eq_refl)) as F. unfold splits. cbn [flat_map fst snd]. destruct (first_space k) as [[e t]|]; [|contradiction]. rewrite IH by (intros; eapply H; right; eassumption). f_equal. rewrite puts_map. unfold puts. rewrite fold_left_app. reflexivity.
Qed.
Lemma energies_raise rows data : energies_of num rows data = None <-> exists k l, In (k, l) rows /\ first_space k = None.
Proof.
  revert data. induction rows as [|[k l] rows IH]; intros data; cbn; [split; [discriminate|intros (k & l & [] & _)]|]. destruct (first_space k) as [[e t]|] eqn:F.
  - rewrite IH. split; intros (k' & l' & I & N); exists k', l'; (split; [|exact N]); [now right|]. destruct I as [[= -> ->]|I]; [congruence|exact I].
  - split; [|reflexivity]. intros _. exists k, l. split; [now left|exact F].
Qed.
End Energies.
