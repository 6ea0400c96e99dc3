From Coq Require Import ZArith QArith Qround Qcanon String Bool List Lia Lqa.
From Verif Require Import RecModel RecProofs RecProps NpModel NpSpec NpProofs.
Import ListNotations.
Local Open Scope string_scope.

(** * C124 *)
(** A channel can be made of every array with fields, except an empty one with p_timestamp. *)
Theorem array_accepted a num : new_channel a num <> None <-> fields a <> [] /\ (In "p_timestamp" (fields a) -> rows a <> []).
Proof.
  destruct (has (fields a) "p_timestamp") eqn:P.
  - assert (I : In "p_timestamp" (fields a)) by now apply has_In. destruct (rows a) as [|r0 rs] eqn:R.
    + split; [intros H; exfalso; apply H; unfold new_channel, default_defs; now rewrite P, R|]. intros [_ H]. exfalso. now apply H.
    + rewrite (new_time a num r0 rs P R). split; [|discriminate]. intros _. split; [intros E; now rewrite E in I|discriminate].
  - destruct (fields a) as [|f fs] eqn:F.
    + split; [|tauto]. intros H. exfalso. apply H. unfold new_channel, default_defs. now rewrite F.
    + rewrite <- F in P. rewrite (new_other a num f fs P F). split; [|discriminate]. intros _. split; [discriminate|]. intros I. rewrite F in P. apply has_In in I. congruence.
Qed.
Print Assumptions array_accepted.
(** It has the recipe cutNone, which cuts nothing and is the default; with p_timestamp also relTimeSec, the seconds since the first record, and unixnano
    unless the array has it. *)
Theorem array_recipes a num c : new_channel a num = Some c ->
  default_cut c = "cutNone" /\ arr c = a /\ channum c = num /\
  map fst (recipes c) = (if has (fields a) "p_timestamp" then (["relTimeSec"; "cutNone"] ++ if has (fields a) "unixnano" then [] else ["unixnano"])%list else ["cutNone"]).
Proof.
  intros H. destruct (new_arr a num c H) as (A & D & N & _). split; [exact D|]. split; [exact A|]. split; [exact N|]. destruct (has (fields a) "p_timestamp") eqn:P.
  - destruct (rows a) as [|r0 rs] eqn:R; [unfold new_channel, default_defs in H; rewrite P, R in H; discriminate|]. rewrite (new_time a num r0 rs P R) in H. injection H as <-. cbn [recipes]. unfold time_book. rewrite map_app. destruct (has (fields a) "unixnano"); reflexivity.
  - destruct (fields a) as [|f fs] eqn:F; [unfold new_channel, default_defs in H; rewrite F in H; cbn in H; discriminate|]. rewrite <- F in P. rewrite (new_other a num f fs P F) in H. injection H as <-. reflexivity.
Qed.
Print Assumptions array_recipes.
(** Without a cut asked for, a slice gives its records, a list of slices theirs in order, and NoCutInds all; no slices at all raise. *)
Theorem array_records a num c : new_channel a num = Some c ->
  (forall s, index_with_cuts c (Slice s) None = Some (firstn (snd s - fst s) (skipn (fst s) (rows a)))) /\
  (forall l, l <> [] -> Forall (fun s => (fst s <= snd s)%nat) l -> index_with_cuts c (Slices l) None = Some (flat_map (fun s => firstn (snd s - fst s) (skipn (fst s) (rows a))) l)) /\
  index_with_cuts c NoCut None = Some (rows a) /\ index_with_cuts c (Slices []) None = None.
Proof.
  intros H. destruct (new_arr a num c H) as (A & D & _).
  assert (S : forall s, index_slice (cut_of c "cutNone") (rows a) s = Some (firstn (snd s - fst s) (skipn (fst s) (rows a)))).
  { intros s. unfold index_slice. rewrite (cut_none c a num _ H). unfold take_slice. apply bool_index_true. }
  unfold index_with_cuts. rewrite A, D. split; [exact S|]. split; [|split; reflexivity].
  intros l N F. rewrite slices_selected by assumption. rewrite (sequence_some _ _ (index_slice (cut_of c "cutNone") (rows a)) (fun s => firstn (snd s - fst s) (skipn (fst s) (rows a)))) by (intros; apply S). cbn. now rewrite flat_map_concat_map.
Qed.
Print Assumptions array_records.

Lemma trunc_whole q : whole q (trunc q).
Proof.
  unfold whole, trunc. destruct (Qlt_le_dec (this q) 0) as [L|L].
  - assert (B : Qle_bool 0 (this q) = false). { destruct (Qle_bool 0 (this q)) eqn:E; [|reflexivity]. apply Qle_bool_iff in E. lra. } rewrite B.
    pose proof (Qfloor_le (- this q)) as F. pose proof (Qlt_floor (- this q)) as G. rewrite inject_Z_plus in G. change (inject_Z 1) with 1%Q in G. rewrite inject_Z_opp. split; lra.
  - rewrite (proj2 (Qle_bool_iff _ _) L). pose proof (Qfloor_le (this q)) as F. pose proof (Qlt_floor (this q)) as G. rewrite inject_Z_plus in G. change (inject_Z 1) with 1%Q in G. split; lra.
Qed.
(** relTimeSec is the time since the first record of the array; unixnano is a billion times the whole seconds. *)
Theorem array_times a num c r0 rs : new_channel a num = Some c -> In "p_timestamp" (fields a) -> rows a = r0 :: rs ->
  attr c "relTimeSec" NoCut None = Some (Nums (map (fun w => w "p_timestamp" - r0 "p_timestamp")%Qc (rows a))) /\
  (~ In "unixnano" (fields a) -> exists zs, attr c "unixnano" NoCut None = Some (Nums (map (fun z => Q2Qc (inject_Z z) * Q2Qc (inject_Z 1000000000))%Qc zs)) /\ Forall2 (fun w z => whole (w "p_timestamp") z) (rows a) zs) /\
  (In "unixnano" (fields a) -> attr c "unixnano" NoCut None = Some (Nums (map (fun w => w "unixnano") (rows a)))).
Proof.
  intros H I R. assert (P : has (fields a) "p_timestamp" = true) by now apply has_In. rewrite (new_time a num r0 rs P R) in H. apply (f_equal (fun o => match o with Some x => x | None => c end)) in H. cbv beta iota in H. subst c.
  unfold attr, index_with_cuts, get_attr, craft, time_book. cbn [arr recipes].
  split; [|split].
  - cbn -[has rows column]. unfold column. rewrite P. cbn. now rewrite map_map.
  - intros N. assert (U : has (fields a) "unixnano" = false) by (destruct (has (fields a) "unixnano") eqn:E; [exfalso; apply N; now apply has_In|reflexivity]). rewrite U.
    exists (map (fun w : row => trunc (w "p_timestamp")) (rows a)). split.
    + cbn -[has rows column billion]. unfold column. rewrite P. cbn -[rows billion]. now rewrite !map_map.
    + clear. induction (rows a) as [|w t IH]; cbn; constructor; [apply trunc_whole|exact IH].
  - intros N. apply has_In in N. rewrite N. cbn -[has rows column]. unfold column. now rewrite N.
Qed.
Print Assumptions array_times.
(** unixnano loses the part of a second: pulses most of a second apart get the same. *)
Theorem unixnano_resolution_refuted : exists a c l, new_channel a 1 = Some c /\ (rows a = [fun _ => 0; fun _ => Q2Qc (9 # 10)])%Qc /\ attr c "unixnano" NoCut None = Some (Nums l) /\ length l = 2%nat /\ nth 0 l 0%Qc = nth 1 l 0%Qc.
Proof.
  set (a := mkArray ["p_timestamp"] [fun _ => 0; fun _ => Q2Qc (9 # 10)]%Qc). assert (R : rows a = (fun _ => 0%Qc) :: [fun _ => Q2Qc (9 # 10)]) by reflexivity.
  exists a. eexists. exists (map (fun w : row => Q2Qc (inject_Z (trunc (w "p_timestamp"))) * billion)%Qc (rows a)).
  split; [exact (new_time a 1 _ _ eq_refl R)|]. split; [reflexivity|]. split; [reflexivity|]. split; [reflexivity|]. apply Qc_is_canon. vm_compute. reflexivity.
Qed.
Print Assumptions unixnano_resolution_refuted.
Example array_instance : exists c, new_channel (mkArray ["p_timestamp"; "energy"] [fun _ => Q2Qc 5; fun _ => Q2Qc 7]) 3 = Some c /\ map fst (recipes c) = ["relTimeSec"; "cutNone"; "unixnano"] /\
  match attr c "relTimeSec" (Slices [(1, 2); (0, 2)]%nat) None with Some (Nums l) => map this l = [2; 0; 2]%Q | _ => False end.
Proof. eexists. split; [reflexivity|]. split; [reflexivity|]. vm_compute. reflexivity. Qed.

(** * Recipe classes *)
Theorem recipe_class_values r s l : call (subtract r) [Nums l] = Some (Nums (map (fun x => x - r)%Qc l)) /\ call (add_to r) [Nums l] = Some (Nums (map (fun x => x + r)%Qc l)) /\
  call (subtract_then_scale r s) [Nums l] = Some (Nums (map (fun x => s * x - s * r)%Qc l)) /\ (forall v, call trues [v] = Some (Bools (repeat true (vlen v)))).
Proof. repeat split. cbn. do 2 f_equal. apply map_ext. intros x. ring. Qed.
Theorem ratio_recipe x y z : call divide_two [Nums x; Nums y] = Some (Nums z) -> length z = length x /\ length y = length x /\ forall i, (i < length x)%nat -> (nth i z 0 * nth i y 0 = nth i x 0)%Qc.
Proof.
  cbn. destruct (Nat.eqb_spec (length x) (length y)) as [L|]; [|discriminate]. destruct (forallb _ y) eqn:F; [|discriminate]. cbn [andb]. intros H. injection H as <-.
  assert (NZ : forall v, In v y -> v <> 0%Qc). { intros v I E. rewrite forallb_forall in F. specialize (F v I). subst v. discriminate. } clear F.
  split; [rewrite map_length, combine_length; lia|]. split; [congruence|]. revert y L NZ. induction x as [|a x IH]; intros [|b y] L NZ i I; cbn in *; try lia. destruct i as [|i]; [field; apply NZ; now left|].
  apply IH; [lia|intros; apply NZ; now right|lia].
Qed.
Print Assumptions recipe_class_values.
Print Assumptions ratio_recipe.
Example ratio_instance2 : match call divide_two [Nums [Q2Qc 6; Q2Qc 3]; Nums [Q2Qc 2; Q2Qc 4]] with Some (Nums l) => map this l = [3; 3 # 4]%Q | _ => False end.
Proof. vm_compute. reflexivity. Qed.

(** * Groups of such channels *)
(** A number gives the last channel given with it; the default cut is that of a good channel; without a good channel it raises. *)
Lemma find_last {A} (p : A -> bool) l : match find p (rev l) with Some x => last_with (fun y => p y = true) l x | None => forall x, In x l -> p x = false end.
Proof.
  induction l as [|x t IH] using rev_ind; cbn; [intros ? []|]. rewrite rev_app_distr. cbn. destruct (p x) eqn:E.
  - exists t, []. repeat split; [exact E|intros y []].
  - destruct (find p (rev t)) as [y|].
    + destruct IH as (l1 & l2 & -> & Y & N). exists l1, (l2 ++ [x])%list. split; [now rewrite <- app_assoc|]. split; [exact Y|]. intros z I. apply in_app_iff in I as [I | [<- | []]]; [now apply N|congruence].
    + intros z I. apply in_app_iff in I as [I | [<- | []]]; [now apply IH|exact E].
Qed.
Theorem array_group cs g d : group_of cs = Some (g, d) ->
  (forall k c, glookup g k = Some c <-> last_with (fun c => channum c = k) cs c) /\ exists k c, In (k, c) g /\ bad c = false /\ d = default_cut c.
Proof.
  unfold group_of. destruct (filter _ (fold_left gset cs [])) as [|[k0 c0] rest] eqn:F; [discriminate|]. intros H. injection H as <- <-. split.
  - intros k c. rewrite glookup_fold. pose proof (find_last (fun c => Z.eqb (channum c) k) cs) as L. destruct (find _ (rev cs)) as [x|].
    + assert (U : forall y, last_with (fun c => channum c = k) cs y <-> x = y).
      { destruct L as (l1 & l2 & E & Y & N). apply Z.eqb_eq in Y. intros y. split.
        - intros (m1 & m2 & E2 & Y2 & N2). rewrite E in E2. revert m1 E2. clear E. induction l1 as [|u l1 IH]; intros [|v m1] E2; cbn in E2.
          + congruence.
          + injection E2 as -> ->. exfalso. apply (N y); [apply in_app_iff; right; now left|]. now apply Z.eqb_eq.
          + injection E2 as -> <-. exfalso. apply (N2 x); [apply in_app_iff; right; now left|exact Y].
          + injection E2 as _ E2. now apply (IH m1).
        - intros <-. exists l1, l2. split; [exact E|]. split; [exact Y|]. intros z I C. apply (N z I). now apply Z.eqb_eq. }
      rewrite U. split; [intros H; now injection H|intros <-; reflexivity].
    + split; [discriminate|]. intros (l1 & l2 & -> & Y & _). specialize (L c). cbv beta in L. rewrite Y, Z.eqb_refl in L. assert (true = false) by (apply L, in_app_iff; right; now left). discriminate.
  - exists k0, c0. assert (I : In (k0, c0) (filter (fun e => negb (bad (snd e))) (fold_left gset cs []))) by (rewrite F; now left). apply filter_In in I as [I B]. split; [exact I|]. split; [|reflexivity]. cbn in B. now destruct (bad c0).
Qed.
Print Assumptions array_group.
Theorem array_group_raises cs : (forall c, In c cs -> bad c = true) -> group_of cs = None.
Proof.
  intros H. unfold group_of. assert (G : forall cs g, (forall c, In c cs -> bad c = true) -> (forall e, In e g -> bad (snd e) = true) -> forall e, In e (fold_left gset cs g) -> bad (snd e) = true).
  { clear. induction cs as [|c t IH]; intros g C E e I; cbn in I; [now apply E|]. apply (IH (gset g c)); [intros; apply C; now right| |exact I]. intros e' I'. clear I.
    induction g as [|[k d] g IHg]; cbn in I'; [destruct I' as [<- | []]; apply C; now left|]. destruct (Z.eqb k (channum c)); destruct I' as [<- | I']; try (apply C; now left); try (apply E; now left); try (apply E; now right). apply IHg; [intros; apply E; now right|exact I']. }
  destruct (filter _ (fold_left gset cs [])) as [|e l] eqn:F; [reflexivity|]. assert (I : In e (filter (fun e => negb (bad (snd e))) (fold_left gset cs []))) by (rewrite F; now left). apply filter_In in I as [I B].
  rewrite (G cs [] H ltac:(intros ? []) e I) in B. discriminate.
Qed.
Print Assumptions array_group_raises.
Example group_instance : let c n b := mkChannel (mkArray ["e"] []) [] n 1 b in group_of [c "cutA" false; c "cutB" false] = Some ([(1%Z, c "cutB" false)], "cutB") /\ group_of [c "cutA" true] = None.
Proof. split; reflexivity. Qed.
