(** Property C16: merging sorted lists. *)
From Coq Require Import ZArith QArith Qcanon List Lia Permutation.
From Verif Require Import QcPre LagModel QSort MrgModel MrgSpec.
Import ListNotations.
Local Open Scope Qc_scope.

Lemma flag_all (b : bool) l : map fst (map (fun v : Qc => (v, b)) l) = l.
Proof. rewrite map_map. apply map_id. Qed.
Lemma flag_filter (b c : bool) l : map fst (filter (fun p : Qc * bool => if c then snd p else negb (snd p)) (map (fun v => (v, b)) l)) = if Bool.eqb b c then l else [].
Proof. induction l as [|a t IH]; [destruct b, c; reflexivity|]. destruct b, c; cbn in *; rewrite ?IH; reflexivity. Qed.

Lemma merge_loop_ok : forall fuel x1 x2, (length x1 + length x2 <= fuel)%nat -> x1 <> [] -> x2 <> [] ->
  qsorted x1 -> qsorted x2 -> merges x1 x2 (merge_loop fuel x1 x2) /\
  forall a, In a (map fst (merge_loop fuel x1 x2)) -> In a x1 \/ In a x2.
Proof.
  induction fuel as [|f IH]; intros x1 x2 Hf H1 H2 S1 S2; [destruct x1; [contradiction|cbn in Hf; lia]|].
  destruct x1 as [|a t1]; [contradiction|]. destruct x2 as [|b t2]; [contradiction|]. cbn [merge_loop].
  pose proof S1 as [A1 A2]. pose proof S2 as [B1 B2]. destruct (qltb a b) eqn:E.
  - apply qltb_lt in E. destruct t1 as [|a' t1].
    + split.
      * split; [|split].
        -- cbn [map fst]. rewrite flag_all. split; [|exact S2]. intros c [<- | Hc]; [qlra|]. specialize (B1 c Hc). qlra.
        -- cbn [filter snd map fst]. f_equal. apply (flag_filter false true (b :: t2)).
        -- cbn [filter snd negb map fst]. apply (flag_filter false false (b :: t2)).
      * intros c. cbn [map fst]. rewrite flag_all. cbn. tauto.
    + destruct (IH (a' :: t1) (b :: t2)) as [[M1 [M2 M3]] M4]; try discriminate; [cbn in *; lia|exact A2|exact S2|].
      set (out := merge_loop f (a' :: t1) (b :: t2)) in *. clearbody out. split.
      * split; [|split].
        -- cbn [map fst]. split; [|exact M1]. intros c Hc. destruct (M4 c Hc) as [K | [<- | K]]; [auto|qlra|]. specialize (B1 c K). qlra.
        -- cbn [filter snd map fst]. f_equal. exact M2.
        -- cbn [filter snd negb map fst]. exact M3.
      * intros c [<- | Hc]; [left; left; reflexivity|]. destruct (M4 c Hc); [left; right; assumption|right; assumption].
  - apply qltb_ge in E. destruct t2 as [|b' t2].
    + split.
      * split; [|split].
        -- cbn [map fst]. rewrite flag_all. split; [|exact S1]. intros c [<- | Hc]; [qlra|]. specialize (A1 c Hc). qlra.
        -- cbn [filter snd map fst]. apply (flag_filter true true (a :: t1)).
        -- cbn [filter snd negb map fst]. f_equal. apply (flag_filter true false (a :: t1)).
      * intros c. cbn [map fst]. rewrite flag_all. cbn. tauto.
    + destruct (IH (a :: t1) (b' :: t2)) as [[M1 [M2 M3]] M4]; try discriminate; [cbn in *; lia|exact S1|exact B2|].
      set (out := merge_loop f (a :: t1) (b' :: t2)) in *. clearbody out. split.
      * split; [|split].
        -- cbn [map fst]. split; [|exact M1]. intros c Hc. destruct (M4 c Hc) as [[<- | K] | K]; [qlra| |auto]. specialize (A1 c K). qlra.
        -- cbn [filter snd map fst]. exact M2.
        -- cbn [filter snd negb map fst]. f_equal. exact M3.
      * intros c [<- | Hc]; [right; left; reflexivity|]. destruct (M4 c Hc); [left; assumption|right; right; assumption].
Qed.

(** With a non-empty first list the result is the sorted merge with correct flags. *)
Theorem merge_sorted : forall x1 x2, x1 <> [] -> qsorted x1 -> qsorted x2 ->
  exists out, merge_orderedlists x1 x2 = Some out /\ merges x1 x2 out.
Proof.
  intros x1 x2 H1 S1 S2. destruct x1 as [|a t1]; [contradiction|]. destruct x2 as [|b t2]; cbn [merge_orderedlists].
  - eexists. split; [reflexivity|]. split; [rewrite flag_all; exact S1|]. split; [apply (flag_filter true true (a :: t1))|apply (flag_filter true false (a :: t1))].
  - eexists. split; [reflexivity|]. apply merge_loop_ok; try discriminate; auto.
Qed.
Print Assumptions merge_sorted.

(** With an empty first list the values are right but every one is flagged as coming from the first list; with
    two empty lists it raises. *)
Theorem merge_empty_first : forall x2,
  match merge_orderedlists [] x2 with
  | Some out => x2 <> [] /\ map fst out = x2 /\ forall p, In p out -> snd p = true
  | None => x2 = []
  end.
Proof.
  intros [|b t]; [reflexivity|]. cbn [merge_orderedlists]. split; [discriminate|]. split; [apply flag_all|].
  intros p Hp. apply in_map_iff in Hp as [v [<- _]]. reflexivity.
Qed.
Print Assumptions merge_empty_first.
(** So an empty first list breaks the claim: the values are right but every one is flagged as coming from the first list. *)
Theorem merge_empty_first_refuted : exists x2 out, qsorted x2 /\ merge_orderedlists [] x2 = Some out /\ ~ merges [] x2 out.
Proof.
  exists [qz 1; qz 2], [(qz 1, true); (qz 2, true)]. split; [|split].
  - split; [intros b [<- | []]; intro X; discriminate X|]. split; [intros b []|exact I].
  - reflexivity.
  - intros [_ [H _]]. discriminate H.
Qed.
Print Assumptions merge_empty_first_refuted.

Example merge_instance : merge_orderedlists (map qz [1; 3; 3; 7]%Z) (map qz [2; 3]%Z)
  = Some [(qz 1, true); (qz 2, false); (qz 3, false); (qz 3, true); (qz 3, true); (qz 7, true)].
Proof. vm_compute. reflexivity. Qed.
