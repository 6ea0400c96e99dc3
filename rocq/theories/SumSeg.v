(** Summaries of a whole file, segment by segment. *)
From Coq Require Import ZArith QArith Qround Qcanon List Bool Lia.
From Verif Require Import QcPre LagModel DerModel SumModel SumSpec SumProofs SumRow.
Import ListNotations.
Local Open Scope Z_scope.

Lemma map_opt_length {A B} (f : A -> option B) l : forall r, map_opt f l = Some r -> length r = length l.
Proof.
  induction l as [|x l IH]; intros r H; cbn [map_opt] in H; [injection H as <-; reflexivity|].
  destruct (f x); [|discriminate]. destruct (map_opt f l) as [r'|]; [|discriminate]. injection H as <-. cbn. f_equal. apply IH. reflexivity.
Qed.
Lemma map_opt_app {A B} (f : A -> option B) l l' :
  map_opt f (l ++ l') = match map_opt f l, map_opt f l' with Some r, Some r' => Some (r ++ r') | _, _ => None end.
Proof.
  induction l as [|x l IH]; cbn [app map_opt]; [destruct (map_opt f l'); reflexivity|]. rewrite IH.
  destruct (f x); [|reflexivity]. destruct (map_opt f l); [|reflexivity]. destruct (map_opt f l'); reflexivity.
Qed.
Lemma map_opt_ext {A B} (f g : A -> option B) l : (forall x, In x l -> f x = g x) -> map_opt f l = map_opt g l.
Proof. induction l as [|x l IH]; intros H; [reflexivity|]. cbn [map_opt]. rewrite (H x (or_introl eq_refl)), IH by (intros; apply H; right; assumption). reflexivity. Qed.
(** The result of [map_opt] says for each element what [f] gives. *)
Lemma map_opt_spec {A B} (f : A -> option B) l r : map_opt f l = Some r <-> map f l = map Some r.
Proof.
  revert r. induction l as [|x l IH]; intros r; cbn [map_opt map]; [split; [intros H; injection H as <-; reflexivity|destruct r; [reflexivity|discriminate]]|].
  split.
  - destruct (f x) as [y|]; [|discriminate]. destruct (map_opt f l) as [r'|]; [|discriminate]. intros H. injection H as <-. cbn [map]. f_equal. apply IH. reflexivity.
  - destruct r as [|y r]; [discriminate|]. cbn [map]. intros H. injection H as H1 H2. rewrite H1. rewrite (proj2 (IH r) H2). reflexivity.
Qed.

Section Segments.
Variables (timebase : Qc) (peak_sample ignore npre : Z) (per_seg : nat).
Let row := summarize_row timebase peak_sample ignore npre.
Let piece (rows : list (list Z)) i := match summarize_segment timebase peak_sample ignore npre (segment per_seg i rows) with
                       | Some r => store (length (segment per_seg i rows)) r
                       | None => None
                       end.

Lemma short_segment seg : Z.of_nat (length seg) <= 65535 ->
  summarize_segment timebase peak_sample ignore npre seg = map_opt row seg.
Proof. intros H. unfold summarize_segment. rewrite ushort_id by lia. rewrite Nat2Z.id, firstn_all. reflexivity. Qed.
Lemma piece_short rows i : Z.of_nat per_seg <= 65535 -> piece rows i = map_opt row (segment per_seg i rows).
Proof.
  intros H. unfold piece. assert (L : (length (segment per_seg i rows) <= per_seg)%nat) by (unfold segment; rewrite firstn_length; lia).
  rewrite short_segment by lia. destruct (map_opt row (segment per_seg i rows)) as [r|] eqn:E; [|reflexivity].
  unfold store. rewrite (map_opt_length _ _ _ E), Nat.eqb_refl. reflexivity.
Qed.
Lemma segments_prefix n rows : Z.of_nat per_seg <= 65535 ->
  option_map (@concat summary) (map_opt (piece rows) (seq 0 n)) = map_opt row (firstn (n * per_seg) rows).
Proof.
  intros H. induction n as [|n IH]; [reflexivity|]. rewrite seq_S, map_opt_app. cbn [Nat.add map_opt].
  assert (F : firstn (S n * per_seg) rows = firstn (n * per_seg) rows ++ segment per_seg n rows).
  { unfold segment. replace (S n * per_seg)%nat with (n * per_seg + per_seg)%nat by lia. generalize (n * per_seg)%nat. intros a. clear.
    revert rows. induction a as [|a IHa]; intros rows; [reflexivity|]. destruct rows as [|x rows]; [cbn; destruct per_seg; reflexivity|]. cbn [Nat.add firstn skipn app]. f_equal. apply IHa. }
  rewrite F, map_opt_app, <- IH, piece_short by exact H.
  destruct (map_opt (piece rows) (seq 0 n)) as [r|]; [|reflexivity]. cbn [option_map].
  destruct (map_opt row (segment per_seg n rows)) as [q|]; [|reflexivity]. cbn [option_map]. rewrite concat_app. cbn [concat]. rewrite app_nil_r. reflexivity.
Qed.
Lemma data_short n rows : Z.of_nat per_seg <= 65535 -> (length rows <= n * per_seg)%nat ->
  summarize_data timebase peak_sample ignore npre per_seg n rows = map_opt row rows.
Proof. intros H L. unfold summarize_data. fold (piece rows). rewrite segments_prefix by exact H. rewrite firstn_all2 by exact L. reflexivity. Qed.

(** A segment of more than 65535 records. *)
Lemma data_long n rows i : (i < n)%nat -> 65536 <= Z.of_nat (length (segment per_seg i rows)) -> Z.of_nat (length (segment per_seg i rows)) mod 65536 <> 1 ->
  summarize_data timebase peak_sample ignore npre per_seg n rows = None.
Proof.
  intros Hi H65 H1. unfold summarize_data. fold (piece rows).
  assert (P : piece rows i = None).
  { unfold piece. set (seg := segment per_seg i rows) in *. clearbody seg. destruct (summarize_segment timebase peak_sample ignore npre seg) as [r|] eqn:E; [|reflexivity].
    unfold summarize_segment in E. apply map_opt_length in E. pose proof (Z.mod_pos_bound (Z.of_nat (length seg)) 65536).
    rewrite firstn_length_le in E by (unfold ushort; lia). unfold store. rewrite (proj2 (Nat.eqb_neq _ _)) by (rewrite E; unfold ushort; lia).
    destruct r as [|x [|y r]]; [reflexivity| |reflexivity]. cbn in E. unfold ushort in E. exfalso. apply H1. lia. }
  rewrite (seq_app i (n - i) 0) || replace n with (i + (n - i))%nat by lia. try rewrite seq_app. rewrite map_opt_app. cbn [Nat.add].
  destruct (n - i)%nat as [|k] eqn:K; [lia|]. cbn [seq map_opt]. rewrite P. destruct (map_opt (piece rows) (seq 0 i)); reflexivity.
Qed.
(** 65537 records in one segment. *)
Lemma data_repeats x rows s : Z.of_nat (length rows) = 65536 -> (length (x :: rows) <= per_seg)%nat -> row x = Some s ->
  summarize_data timebase peak_sample ignore npre per_seg 1 (x :: rows) = Some (map (fun _ => s) (x :: rows)).
Proof.
  intros L P R. unfold summarize_data. cbn [seq map_opt].
  assert (S : segment per_seg 0 (x :: rows) = x :: rows).
  { unfold segment. rewrite Nat.mul_0_l. change (skipn 0 (x :: rows)) with (x :: rows). apply firstn_all2. exact P. }
  rewrite S. unfold summarize_segment.
  assert (U : Z.to_nat (ushort (Z.of_nat (length (x :: rows)))) = 1%nat) by (cbn [length]; rewrite Nat2Z.inj_succ, L; reflexivity).
  rewrite U. cbn [firstn map_opt]. fold row. rewrite R. unfold store.
  rewrite (proj2 (Nat.eqb_neq _ _)) by (cbn [length]; lia). cbn [option_map]. unfold concat. rewrite app_nil_r. f_equal.
  generalize (x :: rows). intros l. clear. induction l as [|y l IH]; [reflexivity|]. cbn [length repeat map]. f_equal. exact IH.
Qed.
End Segments.
