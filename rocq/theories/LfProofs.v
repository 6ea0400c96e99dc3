From Coq Require Import ZArith Ascii String Bool Lia Sorted Permutation List.
From Verif Require Import LjhModel LjhSpec LjhProofs LjhEdit NameModel NameSpec NameProofs Kept LfModel LfSpec.
Import ListNotations.
Open Scope Z_scope.

(** * os.path *)
Lemma last_index_none x l : forall pos, ~ In x l -> last_index x pos l = None.
Proof.
  induction l as [|c t IH]; intros pos N; [reflexivity|]. cbn [last_index]. rewrite IH by (intro H; apply N; now right).
  destruct (Z.eqb_spec c x) as [-> | _]; [exfalso; apply N; now left|reflexivity].
Qed.
Lemma last_index_at x a n : forall pos, ~ In x n -> last_index x pos (a ++ x :: n) = Some (pos + length a)%nat.
Proof.
  induction a as [|c t IH]; intros pos N; cbn [app last_index length].
  - rewrite (last_index_none x n (S pos) N), Z.eqb_refl. f_equal. lia.
  - rewrite IH by exact N. f_equal. lia.
Qed.
Lemma firstn_past {A} (a : list A) x b : firstn (S (length a)) (a ++ x :: b) = a ++ [x].
Proof. induction a as [|c t IH]; cbn; [reflexivity|]. f_equal. exact IH. Qed.
Lemma skipn_here {A} (a : list A) x b : skipn (S (length a)) (a ++ x :: b) = b.
Proof. induction a as [|c t IH]; cbn; [reflexivity|]. exact IH. Qed.
Lemma drop_slashes_repeat k c t : c <> slash -> drop_slashes (repeat slash k ++ c :: t) = c :: t.
Proof.
  intros N. induction k as [|k IH]; cbn [repeat app drop_slashes].
  - destruct (Z.eqb_spec c slash); [contradiction|reflexivity].
  - rewrite Z.eqb_refl. exact IH.
Qed.
Lemma repeat_rev {A} (x : A) k : rev (repeat x k) = repeat x k.
Proof. induction k as [|k IH]; [reflexivity|]. cbn [repeat rev]. rewrite IH. clear IH. induction k as [|k IH]; [reflexivity|]. cbn [repeat app]. now rewrite IH. Qed.
Lemma rstrip_plain d k : plain_folder d -> rstrip_slash (d ++ repeat slash k) = d.
Proof.
  intros (d' & c & -> & N). unfold rstrip_slash. rewrite rev_app_distr, repeat_rev, rev_app_distr. cbn [rev app].
  rewrite (drop_slashes_repeat k c _ N). cbn [rev]. now rewrite rev_involutive.
Qed.
Lemma plain_not_slashes d l : plain_folder d -> forallb (fun c => c =? slash) (d ++ l) = false.
Proof.
  intros (d' & c & -> & N). rewrite !forallb_app. cbn [forallb]. destruct (Z.eqb_spec c slash); [contradiction|].
  cbn. now rewrite andb_false_r.
Qed.
Lemma split_plain d n : plain_folder d -> no_slash n -> split (d ++ slash :: n) = (d, n).
Proof.
  intros P N. unfold split. rewrite (last_index_at slash d n 0 N). cbn [Nat.add]. cbv zeta.
  rewrite firstn_past, skipn_here, (plain_not_slashes d [slash] P). f_equal. exact (rstrip_plain d 1 P).
Qed.
Lemma split_bare n : no_slash n -> split n = ([], n).
Proof. intros N. unfold split. rewrite (last_index_none slash n 0 N). reflexivity. Qed.
Lemma plain_last d : plain_folder d -> last d 0 =? slash = false /\ d <> [].
Proof. intros (d' & c & -> & N). rewrite last_last. split; [now apply Z.eqb_neq|]. now destruct d'. Qed.
Lemma join_plain d n : plain_folder d -> no_slash n -> join d n = d ++ slash :: n.
Proof.
  intros P N. destruct (plain_last d P) as [L E]. unfold join. destruct n as [|c t].
  - destruct d; [contradiction|]. now rewrite L.
  - destruct (Z.eqb_spec c slash) as [-> | _]; [exfalso; apply N; now left|]. destruct d; [contradiction|]. now rewrite L.
Qed.
Lemma plain_app d n : n <> [] -> no_slash n -> plain_folder (d ++ slash :: n).
Proof.
  intros E N. destruct (exists_last E) as (n' & c & ->). exists (d ++ slash :: n'), c. split; [now rewrite <- app_assoc|].
  intros ->. apply N. apply in_or_app. right. now left.
Qed.
Lemma plain_bare n : n <> [] -> no_slash n -> plain_folder n.
Proof.
  intros E N. destruct (exists_last E) as (n' & c & ->). exists n', c. split; [reflexivity|].
  intros ->. apply N. apply in_or_app. right. now left.
Qed.

(** * Sorting numbers *)
Lemma insert_perm x l : Permutation (insert Z.leb x l) (x :: l).
Proof.
  induction l as [|y t IH]; cbn [insert]; [reflexivity|]. destruct (x <=? y); [reflexivity|].
  rewrite IH. apply perm_swap.
Qed.
Lemma insert_sorted x l : ordered l -> ordered (insert Z.leb x l).
Proof.
  intros S. induction S as [|y t S IH F]; cbn [insert]; [repeat constructor|].
  destruct (Z.leb_spec x y) as [L|L].
  - constructor; [now constructor|]. constructor; [exact L|]. eapply Forall_impl; [|exact F]. cbn. lia.
  - constructor; [exact IH|]. apply (Permutation_Forall (Permutation_sym (insert_perm x t))). constructor; [lia|exact F].
Qed.
Lemma sort_ordered l : ordered (stable_sort Z.leb l).
Proof. induction l as [|x l IH]; [constructor|]. cbn [stable_sort fold_right]. now apply insert_sorted. Qed.
Lemma ordered_increasing l : ordered l -> NoDup l -> increasing l.
Proof.
  intros S. induction S as [|y t S IH F]; intros N; [constructor|]. inversion N as [|? ? I N']; subst. constructor; [now apply IH|].
  rewrite Forall_forall in *. intros z Z. specialize (F z Z). assert (z <> y) by (intros ->; contradiction). lia.
Qed.

(** * Channels of a run *)
Lemma named_one e base z z' : named e base z -> named e base z' -> z = z'.
Proof. intros A B. apply channum_named in A. apply channum_named in B. congruence. Qed.
Lemma collect_spec f d b es : plain_folder d -> (forall e, In e es -> no_slash e /\ e <> [] /\ f e <> IsDir) ->
  exists zs, collect f d b es = Some zs /\ run_channels (fun e => f (d ++ slash :: e) = IsFile) b es zs.
Proof.
  intros P. induction es as [|e es IH]; intros H; [exists []; split; [reflexivity|constructor]|].
  destruct IH as (zs & E & R); [intros e' I; apply H; now right|]. destruct (H e (or_introl eq_refl)) as (N & _ & D).
  cbn [collect]. rewrite (join_plain d e P N). unfold isfile. destruct (f (d ++ slash :: e)) eqn:K.
  - exists zs. split; [exact E|]. apply rc_skip; [|exact R]. intros z [F _]. congruence.
  - unfold base_chan, isdir. replace (match f e with IsDir => true | _ => false end) with false by (destruct (f e); congruence).
    destruct (basename_channum e) as [b' c] eqn:B. rewrite E. destruct c as [z|].
    + destruct (beq_spec b' b) as [-> | NB].
      * exists (z :: zs). split; [reflexivity|]. apply rc_take; [|exact R]. split; [exact K|]. now apply channum_named.
      * exists zs. split; [reflexivity|]. apply rc_skip; [|exact R]. intros y [_ Y]. apply channum_named in Y. congruence.
    + exists zs. split; [reflexivity|]. apply rc_skip; [|exact R]. intros y [_ Y]. apply channum_named in Y. congruence.
  - exists zs. split; [exact E|]. apply rc_skip; [|exact R]. intros z [F _]. congruence.
Qed.
Lemma channels_base f listdir fname d b c es : base_chan f fname = Some (d ++ slash :: b, c) -> plain_folder d -> no_slash b ->
  listdir d = Some es -> (forall e, In e es -> no_slash e /\ e <> [] /\ f e <> IsDir) ->
  exists r zs, get_channels f listdir fname = Some r /\ ordered r /\ Permutation r zs /\
    run_channels (fun e => f (d ++ slash :: e) = IsFile) b es zs.
Proof.
  intros B P N L H. destruct (collect_spec f d b es P H) as (zs & E & R).
  exists (stable_sort Z.leb zs), zs. repeat split; [|apply sort_ordered|apply sort_perm|exact R].
  unfold get_channels. rewrite B, (split_plain d b P N), L, E. reflexivity.
Qed.

(** A folder that stands for the run of its name *)
Lemma splitext_none d n : plain_folder d -> no_slash n -> ~ In 46 n -> splitext (d ++ slash :: n) = (d ++ slash :: n, []).
Proof.
  intros P N D. unfold splitext. destruct (last_index 46 0 (d ++ slash :: n)) as [i|] eqn:I; [|reflexivity].
  change 47 with slash. rewrite (last_index_at slash d n 0 N). cbv zeta. cbn [Nat.add].
  replace (Nat.ltb i (S (length d))) with true; [reflexivity|]. symmetry. apply Nat.ltb_lt.
  apply last_index_spec in I. destruct I as (k & -> & K & X & _). cbn [Nat.add].
  destruct (Nat.lt_ge_cases k (S (length d))) as [LT|GE]; [exact LT|exfalso]. apply D. rewrite <- X.
  rewrite app_nth2 by lia. replace (k - length d)%nat with (S (k - S (length d))) by lia. cbn [nth]. apply nth_In.
  rewrite app_length in K. cbn [length] in K. lia.
Qed.
Lemma folder_base f d n k : f (d ++ slash :: n ++ repeat slash k) = IsDir -> plain_folder d -> no_slash n -> n <> [] -> ~ In 46 n ->
  ~ mentions_channel (d ++ slash :: n ++ slash :: n) ->
  base_chan f (d ++ slash :: n ++ repeat slash k) = Some ((d ++ slash :: n) ++ slash :: n, None).
Proof.
  intros F P N E D M. unfold base_chan, isdir. rewrite F.
  assert (G : rstrip_slash (d ++ slash :: n ++ repeat slash k) = d ++ slash :: n).
  { change (d ++ slash :: n ++ repeat slash k) with (d ++ (slash :: n) ++ repeat slash k). rewrite app_assoc.
    apply rstrip_plain. now apply plain_app. }
  rewrite G. assert (SP := split_plain d n P N). destruct (d ++ slash :: n) eqn:C; [now destruct d|]. rewrite SP. rewrite <- C.
  rewrite (join_plain d n P N), (join_plain (d ++ slash :: n) n (plain_app d n E N) N). f_equal.
  assert (A : (d ++ slash :: n) ++ slash :: n = d ++ slash :: n ++ slash :: n) by (rewrite <- app_assoc; reflexivity).
  rewrite <- A in M. apply (last_match_none _ 0) in M. rewrite basename_eq, M.
  now rewrite (splitext_none (d ++ slash :: n) n (plain_app d n E N) N D).
Qed.
Lemma root_raises f fname : f fname = IsDir -> Forall (fun c => c = slash) fname -> base_chan f fname = None.
Proof.
  intros F A. unfold base_chan, isdir. rewrite F. replace (rstrip_slash fname) with (@nil Z); [reflexivity|].
  unfold rstrip_slash. apply Forall_rev in A. induction A as [|c l C A IH]; [reflexivity|]. cbn [drop_slashes]. subst c. exact IH.
Qed.

(** Names that are generated *)
Lemma generated_named b c ext : 0 <= c -> ~ mentions_channel ext -> (forall d r, ext = d :: r -> ~ 48 <= d <= 57) ->
  named (b ++ bs "_chan" ++ py_str c ++ ext) b c.
Proof. intros C M D. destruct (decimal_str c C) as (NE & A & E). exists (py_str c), ext. ands; trivial. Qed.
Lemma run_all P b ext cs zs : (forall c, In c cs -> 0 <= c /\ P (b ++ bs "_chan" ++ py_str c ++ ext)) ->
  ~ mentions_channel ext -> (forall d r, ext = d :: r -> ~ 48 <= d <= 57) ->
  run_channels P b (map (fun c => b ++ bs "_chan" ++ py_str c ++ ext) cs) zs -> zs = cs.
Proof.
  intros H M D. revert zs. induction cs as [|c cs IH]; intros zs R; cbn [map] in R; inversion R; subst; try reflexivity.
  - exfalso. destruct (H c (or_introl eq_refl)) as [C F]. apply (H2 c). split; [exact F|]. now apply generated_named.
  - f_equal; [|apply IH; [intros x X; apply H; now right|assumption]].
    destruct (H c (or_introl eq_refl)) as [C F]. destruct H2 as [_ Y]. exact (named_one _ _ _ _ Y (generated_named b c ext C M D)).
Qed.
Lemma run_perm P b es es' zs : Permutation es es' -> run_channels P b es zs -> exists zs', run_channels P b es' zs' /\ Permutation zs zs'.
Proof.
  intros E. revert zs. induction E as [|e es es' E IH|e1 e2 es|es1 es2 es3 E1 IH1 E2 IH2]; intros zs R.
  - inversion R; subst. exists []. split; constructor.
  - inversion R; subst.
    + destruct (IH _ H3) as (z' & A & B). exists z'. split; [now constructor|exact B].
    + destruct (IH _ H3) as (z' & A & B). exists (z :: z'). split; [now constructor|now constructor].
  - inversion R as [|? ? ? H1 R1|? ? ? ? H1 R1]; subst; inversion R1 as [|? ? ? H2 R2|? ? ? ? H2 R2]; subst.
    + exists zs. split; [now repeat constructor|reflexivity].
    + exists (z :: zs0). split; [constructor; [exact H2|]; now constructor|reflexivity].
    + exists (z :: zs0). split; [constructor; [exact H2|]; now constructor|reflexivity].
    + exists (z0 :: z :: zs). split; [apply rc_take; [exact H2|]; apply rc_take; [exact H1|exact R2]|apply perm_swap].
  - destruct (IH1 _ R) as (z1 & A & B). destruct (IH2 _ A) as (z2 & C & D). exists z2. split; [exact C|]. now rewrite B.
Qed.

(** Both *)
Lemma both_spec f listdir a b r : get_channels_both f listdir a b = Some r ->
  exists x y, get_channels f listdir a = Some x /\ get_channels f listdir b = Some y /\ increasing r /\ forall z, In z r <-> In z x /\ In z y.
Proof.
  unfold get_channels_both. destruct (get_channels f listdir a) as [x|]; [|discriminate]. destruct (get_channels f listdir b) as [y|]; [|discriminate].
  intros H. injection H as <-. exists x, y. do 2 (split; [reflexivity|]).
  set (l := nodup _ _). assert (P := sort_perm Z.leb l). split.
  - apply ordered_increasing; [apply sort_ordered|]. apply (Permutation_NoDup (l := l)); [now symmetry|apply NoDup_nodup].
  - intros z. transitivity (In z l); [split; apply Permutation_in; [exact P|now symmetry]|].
    unfold l. rewrite nodup_In, filter_In, existsb_exists. split; intros [A B]; split; trivial.
    + destruct B as (z' & I & E). apply Z.eqb_eq in E. now subst.
    + exists z. split; [exact B|apply Z.eqb_refl].
Qed.

(** * Folders for output *)
Lemma make_dir_spec f p : (f p = IsFile -> make_dir f p = (f, false)) /\ (f p = IsDir -> make_dir f p = (f, true)) /\
  (f p = Absent -> exists f', make_dir f p = (f', true) /\ only_new f f' p).
Proof.
  unfold make_dir. repeat split; intros E; rewrite E; trivial. eexists. split; [reflexivity|]. split.
  - destruct (beq_spec p p); congruence.
  - intros q Q. destruct (beq_spec q p); congruence.
Qed.
Lemma folder_spec f ljh sub file d b c : base_chan f ljh = Some (d ++ slash :: b, c) -> plain_folder d -> no_slash b -> no_slash sub ->
  folder f ljh sub file = if isdir f d then
      let (f', ok) := make_dir f (d ++ slash :: sub) in (f', if ok then Some (join (d ++ slash :: sub) (file b)) else None)
    else (f, None).
Proof. intros B P N S. unfold folder. rewrite B, (split_plain d b P N), (join_plain d sub P S). reflexivity. Qed.
