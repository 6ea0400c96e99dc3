From Coq Require Import ZArith QArith Qround Qcanon String Bool List Lia.
From Verif Require Import RecModel NpModel.
Import ListNotations.
Local Open Scope string_scope.

Definition time_book (t0 : Qc) (nano : bool) : book val :=
  ([("relTimeSec", Recipe (subtract t0) [("p_timestamp", None)]); ("cutNone", Recipe trues [("p_timestamp", None)])]
   ++ (if nano then [("unixnano", Recipe (mult_int64 billion) [("p_timestamp", None)])] else []))%list.
Lemma add_one bases (b : book val) n f i : has bases i = true -> length (arg_names f) = 1%nat -> bget b n = None -> String.eqb n "__temp__" = false -> String.prefix "!" n = false ->
  add bases b n f (Some [i]) false = Some (bset b n (Recipe f [(i, bget b i)]), Recipe f [(i, bget b i)]).
Proof. intros H L B T P. unfold add, ingredient_names. rewrite L. cbn [length Nat.leb forallb andb]. rewrite H. cbn [orb andb]. change (keys_of [] [i]) with [i]. cbn [map]. now rewrite T, B, P. Qed.
Lemma new_time a num r0 rs : has (fields a) "p_timestamp" = true -> rows a = r0 :: rs ->
  new_channel a num = Some (mkChannel a (time_book (r0 "p_timestamp") (negb (has (fields a) "unixnano"))) "cutNone" num false).
Proof.
  intros H R. unfold new_channel, default_defs. rewrite H, R. destruct (has (fields a) "unixnano"); cbn [app adds d_name d_fn d_ings d_over]; rewrite !add_one by (exact H || reflexivity); reflexivity.
Qed.
Lemma new_other a num f fs : has (fields a) "p_timestamp" = false -> fields a = f :: fs ->
  new_channel a num = Some (mkChannel a [("cutNone", Recipe trues [(f, None)])] "cutNone" num false).
Proof.
  intros H F. unfold new_channel, default_defs. rewrite H, F. assert (HF : has (f :: fs) f = true) by (cbn; now rewrite String.eqb_refl). cbn [adds d_name d_fn d_ings d_over]. rewrite add_one by (exact HF || reflexivity). reflexivity.
Qed.
Lemma has_In l n : has l n = true <-> In n l.
Proof. unfold has. rewrite existsb_exists. split; [intros (x & I & E); apply String.eqb_eq in E; now subst|intros I; exists n; split; [exact I|apply String.eqb_refl]]. Qed.
Lemma bool_index_true A (r : list A) : bool_index r (repeat true (length r)) = Some r.
Proof. induction r as [|x t IH]; cbn; [reflexivity|]. now rewrite IH. Qed.
Lemma cut_none c a num r : new_channel a num = Some c -> cut_of c "cutNone" r = Some (repeat true (length r)).
Proof.
  intros H. destruct (has (fields a) "p_timestamp") eqn:P.
  - destruct (rows a) as [|r0 rs] eqn:R; [unfold new_channel, default_defs in H; rewrite P, R in H; discriminate|]. rewrite (new_time a num r0 rs P R) in H. injection H as <-.
    unfold cut_of, craft, craft_cut, time_book, column. cbn -[has]. rewrite P. cbn. now rewrite map_length.
  - destruct (fields a) as [|f fs] eqn:F; [unfold new_channel, default_defs in H; rewrite F in H; cbn in H; discriminate|]. rewrite <- F in P. rewrite (new_other a num f fs P F) in H. injection H as <-.
    unfold cut_of, craft, craft_cut, column. cbn -[has]. rewrite F. assert (HF : has (f :: fs) f = true) by (cbn; now rewrite String.eqb_refl). rewrite HF. cbn. now rewrite map_length.
Qed.
Lemma new_arr a num c : new_channel a num = Some c -> arr c = a /\ default_cut c = "cutNone" /\ channum c = num /\ bad c = false.
Proof. unfold new_channel. destruct (default_defs a); [|discriminate]. destruct (adds _ _ _); [|discriminate]. intros H. injection H as <-. repeat split. Qed.
Lemma sequence_some A B (f : A -> option B) (g : A -> B) l : (forall x, In x l -> f x = Some (g x)) -> sequence (map f l) = Some (map g l).
Proof. induction l as [|x t IH]; intros H; cbn; [reflexivity|]. rewrite (H x (or_introl eq_refl)), IH by (intros; apply H; now right). reflexivity. Qed.
(** The dictionary of a group *)
Fixpoint glookup (g : list (Z * channel)) (k : Z) : option channel := match g with [] => None | (k', c) :: t => if Z.eqb k' k then Some c else glookup t k end.
Lemma glookup_gset g c k : glookup (gset g c) k = if Z.eqb (channum c) k then Some c else glookup g k.
Proof.
  induction g as [|[k' d] t IH]; cbn; [destruct (Z.eqb_spec (channum c) k); reflexivity|]. destruct (Z.eqb_spec k' (channum c)) as [-> | N]; cbn; [destruct (Z.eqb_spec (channum c) k); reflexivity|].
  rewrite IH. destruct (Z.eqb_spec k' k) as [-> | N']; [|reflexivity]. destruct (Z.eqb_spec (channum c) k); [congruence|reflexivity].
Qed.
Lemma glookup_fold cs g k : glookup (fold_left gset cs g) k = match find (fun c => Z.eqb (channum c) k) (rev cs) with Some c => Some c | None => glookup g k end.
Proof.
  revert g. induction cs as [|c t IH]; intros g; cbn; [reflexivity|]. rewrite IH, glookup_gset.
  assert (FA : forall A (p : A -> bool) l x, find p (l ++ [x])%list = match find p l with Some y => Some y | None => if p x then Some x else None end) by (intros A p l x; induction l as [|y l' IHl]; cbn; [reflexivity|]; destruct (p y); [reflexivity|exact IHl]).
  rewrite FA. destruct (find _ (rev t)); [reflexivity|]. destruct (Z.eqb (channum c) k); reflexivity.
Qed.
