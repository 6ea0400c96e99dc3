(** Lemmas about pulse summaries. *)
From Coq Require Import ZArith QArith Qround Qcanon List Bool Lia.
From Verif Require Import QcPre LagModel LagProofs FluxModel FluxProofs DerModel SumModel SumSpec.
Import ListNotations.
Local Open Scope Z_scope.

(* ---------- sums ---------- *)

Lemma zsum_app l l' : zsum (l ++ l') = zsum l + zsum l'.
Proof. induction l as [|x l IH]; cbn; [reflexivity|]. fold (zsum (l ++ l')) (zsum l). lia. Qed.
Lemma total_zsum l : total (map qz l) = qz (zsum l).
Proof. induction l as [|x l IH]; [reflexivity|]. cbn [map total fold_right zsum]. fold (total (map qz l)) (zsum l). rewrite IH, qz_add. reflexivity. Qed.
Lemma total_squares l : total (map (fun x => qz x * qz x)%Qc l) = qz (zsum (squares l)).
Proof. induction l as [|x l IH]; [reflexivity|]. cbn [map total fold_right zsum squares]. fold (total (map (fun x => qz x * qz x)%Qc l)) (squares l) (zsum (squares l)). rewrite IH, qz_add, qz_mul. reflexivity. Qed.
Lemma squares_app l l' : squares (l ++ l') = squares l ++ squares l'.
Proof. apply map_app. Qed.
Lemma total_app l l' : (total (l ++ l') = total l + total l')%Qc.
Proof. unfold total. induction l as [|x l IH]; cbn [app fold_right]; [ring|]. rewrite IH. ring. Qed.

Lemma qz_S n : qz (Z.of_nat (S n)) = (qz (Z.of_nat n) + 1)%Qc.
Proof. replace (Z.of_nat (S n)) with (Z.of_nat n + 1) by lia. rewrite qz_add. reflexivity. Qed.
(** Deviations from [c] in terms of the sums. *)
Lemma total_deviations l c :
  (total (map (fun x => (qz x - c) * (qz x - c)) l) = qz (zsum (squares l)) - c * qz 2 * qz (zsum l) + c * c * qz (Z.of_nat (length l)))%Qc.
Proof.
  induction l as [|x l IH]; [cbn; change (qz 0) with 0%Qc; ring|].
  cbn [map total fold_right length zsum squares]. fold (total (map (fun x => (qz x - c) * (qz x - c))%Qc l)) (squares l) (zsum (squares l)) (zsum l).
  rewrite IH, qz_S, !qz_add, qz_mul. change (qz 2) with (1 + 1)%Qc. ring.
Qed.
Lemma qz_pos n : 0 < n -> (0 < qz n)%Qc.
Proof. intros H. change 0%Qc with (qz 0). apply qz_lt. exact H. Qed.
Lemma qz_len {A} (l : list A) : l <> [] -> (qz (Z.of_nat (length l)) <> 0)%Qc.
Proof. intros H. apply qz_neq. destruct l; [contradiction|cbn; lia]. Qed.

(* ---------- samples selected by their position ---------- *)

Fixpoint keep (p : Z -> bool) (k : Z) (l : list Z) : list Z :=
  match l with [] => [] | x :: t => if p k then x :: keep p (k + 1) t else keep p (k + 1) t end.
Lemma keep_app p l l' : forall k, keep p k (l ++ l') = keep p k l ++ keep p (k + Z.of_nat (length l)) l'.
Proof.
  induction l as [|x l IH]; intros k; cbn [app keep length]; [f_equal; lia|].
  rewrite IH. replace (k + 1 + Z.of_nat (length l)) with (k + Z.of_nat (S (length l))) by lia. destruct (p k); reflexivity.
Qed.
Lemma keep_none p l : forall k, (forall i, k <= i < k + Z.of_nat (length l) -> p i = false) -> keep p k l = [].
Proof.
  induction l as [|x l IH]; intros k H; cbn [keep]; [reflexivity|]. rewrite (H k) by (cbn [length]; lia).
  apply IH. intros i Hi. apply H. cbn [length]. lia.
Qed.
Lemma keep_all p l : forall k, (forall i, k <= i < k + Z.of_nat (length l) -> p i = true) -> keep p k l = l.
Proof.
  induction l as [|x l IH]; intros k H; cbn [keep]; [reflexivity|]. rewrite (H k) by (cbn [length]; lia). f_equal.
  apply IH. intros i Hi. apply H. cbn [length]. lia.
Qed.
Lemma keep_lt (e : nat) l : forall k, keep (fun i => i <? Z.of_nat (k + e)) (Z.of_nat k) l = firstn e l.
Proof.
  revert e. induction l as [|x l IH]; intros e k; cbn [keep]; [rewrite firstn_nil; reflexivity|].
  destruct e as [|e].
  - rewrite Nat.add_0_r, Z.ltb_irrefl. cbn [firstn]. apply keep_none. intros i Hi. apply Z.ltb_ge. lia.
  - destruct (Z.ltb_spec (Z.of_nat k) (Z.of_nat (k + S e))); [|lia]. cbn [firstn]. f_equal.
    replace (k + S e)%nat with (S k + e)%nat by lia. replace (Z.of_nat k + 1) with (Z.of_nat (S k)) by lia. apply IH.
Qed.
Lemma keep_ge (e : nat) l : forall k, keep (fun i => Z.of_nat (k + e) <=? i) (Z.of_nat k) l = skipn e l.
Proof.
  revert e. induction l as [|x l IH]; intros e k; cbn [keep]; [rewrite skipn_nil; reflexivity|].
  destruct e as [|e].
  - cbn [skipn]. rewrite Nat.add_0_r, Z.leb_refl. f_equal. apply keep_all. intros i Hi. apply Z.leb_le. lia.
  - destruct (Z.leb_spec (Z.of_nat (k + S e)) (Z.of_nat k)); [lia|]. cbn [skipn].
    replace (k + S e)%nat with (S k + e)%nat by lia. replace (Z.of_nat k + 1) with (Z.of_nat (S k)) by lia. apply IH.
Qed.
Lemma keep_between (f n : nat) l : forall k, keep (fun i => (Z.of_nat (k + f) <=? i) && (i <? Z.of_nat (k + f + n))) (Z.of_nat k) l = firstn n (skipn f l).
Proof.
  revert f. induction l as [|x l IH]; intros f k; cbn [keep]; [rewrite skipn_nil, firstn_nil; reflexivity|].
  destruct f as [|f].
  - cbn [skipn]. rewrite Nat.add_0_r. rewrite <- (keep_lt n (x :: l) k). cbn [keep]. rewrite Z.leb_refl. cbn [andb].
    assert (E : keep (fun i => (Z.of_nat k <=? i) && (i <? Z.of_nat (k + n))) (Z.of_nat k + 1) l = keep (fun i => i <? Z.of_nat (k + n)) (Z.of_nat k + 1) l).
    { generalize (Z.le_succ_diag_r (Z.of_nat k)). unfold Z.succ. generalize (Z.of_nat k + 1). generalize (Z.of_nat (k + n)). clear. revert k.
      induction l as [|x l IH]; intros k b c Hc; cbn [keep]; [reflexivity|]. rewrite (proj2 (Z.leb_le (Z.of_nat k) c)) by lia. cbn [andb]. rewrite (IH k b (c + 1)) by lia. reflexivity. }
    rewrite E. reflexivity.
  - destruct (Z.leb_spec (Z.of_nat (k + S f)) (Z.of_nat k)); [lia|]. cbn [skipn andb].
    replace (k + S f)%nat with (S k + f)%nat by lia. replace (Z.of_nat k + 1) with (Z.of_nat (S k)) by lia. apply IH.
Qed.

(* ---------- the loop ---------- *)

Fixpoint peaks (k : Z) (l : list Z) (p i : Z) : Z * Z :=
  match l with [] => (p, i) | x :: t => if p <? x then peaks (k + 1) t x (ushort k) else peaks (k + 1) t p i end.
Lemma peaks_app l l' : forall k p i, peaks k (l ++ l') p i = peaks (k + Z.of_nat (length l)) l' (fst (peaks k l p i)) (snd (peaks k l p i)).
Proof.
  induction l as [|x l IH]; intros k p i; cbn [app peaks length]; [f_equal; lia|].
  replace (k + Z.of_nat (S (length l))) with (k + 1 + Z.of_nat (length l)) by lia. destruct (p <? x); apply IH.
Qed.

Lemma add_if_keep b k l p s x : p k = b -> zsum (keep p k (x :: l)) + s = zsum (keep p (k + 1) l) + add_if b s x.
Proof. intros <-. cbn [keep]. unfold add_if. destruct (p k); cbn [zsum fold_right]; fold (zsum (keep p (k + 1) l)); lia. Qed.
Lemma add_if_keep2 b k l p s x : p k = b -> zsum (squares (keep p k (x :: l))) + s = zsum (squares (keep p (k + 1) l)) + add_if b s (x * x).
Proof. intros <-. cbn [keep]. unfold add_if. destruct (p k); cbn [squares map zsum fold_right]; fold (squares (keep p (k + 1) l)); fold (zsum (squares (keep p (k + 1) l))); lia. Qed.

Lemma scan_app npre epre l l' : forall k a, scan npre epre k (l ++ l') a =
  match scan npre epre k l a with None => None | Some a' => scan npre epre (k + Z.of_nat (length l)) l' a' end.
Proof.
  induction l as [|x l IH]; intros k a; cbn [app scan length]; [f_equal; lia|].
  destruct (sample_step npre epre k x a); [|reflexivity]. rewrite IH. replace (k + 1 + Z.of_nat (length l)) with (k + Z.of_nat (S (length l))) by lia. reflexivity.
Qed.

Lemma scan_plain npre epre l : forall k a, (forall i, k <= i < k + Z.of_nat (length l) -> i <> npre - 1) ->
  scan npre epre k l a = Some (mkAcc
    (fst (peaks k l (a_peak a) (a_index a))) (snd (peaks k l (a_peak a) (a_index a))) (fold_left Z.min l (a_min a))
    (zsum (keep (fun i => i <? epre) k l) + a_pre a) (zsum (squares (keep (fun i => i <? epre) k l)) + a_pre2 a)
    (zsum (keep (fun i => (a_from a <=? i) && (i <? a_to a)) k l) + a_prompt a) (a_from a) (a_to a)
    (zsum (keep (fun i => npre - 1 <=? i) k l) + a_pulse a) (zsum (squares (keep (fun i => npre - 1 <=? i) k l)) + a_pulse2 a) (a_base a)).
Proof.
  induction l as [|x l IH]; intros k a H; [destruct a; reflexivity|].
  cbn [scan]. unfold sample_step. destruct (Z.eqb_spec k (npre - 1)) as [E|_]; [exfalso; apply (H k); [cbn [length]; lia|exact E]|].
  rewrite IH by (intros i Hi; apply H; cbn [length]; lia).
  cbn [a_peak a_index a_min a_pre a_pre2 a_prompt a_from a_to a_pulse a_pulse2 a_base peaks fold_left].
  rewrite <- !(add_if_keep _ k l) by reflexivity. rewrite <- !(add_if_keep2 _ k l) by reflexivity.
  f_equal. f_equal; try (destruct (a_peak a <? x); reflexivity).
  f_equal. destruct (Z.ltb_spec x (a_min a)); lia.
Qed.

(** The loop over a whole record [l1 ++ x :: l2] whose sample [x] is the last before the trigger. *)
Lemma scan_record npre epre l1 x l2 : Z.of_nat (length l1) = npre - 1 -> npre + 8 < 65536 ->
  scan npre epre 0 (l1 ++ x :: l2) (start_acc npre) =
  if epre =? 0 then None
  else
    let l := l1 ++ x :: l2 in
    let pre := keep (fun i => i <? epre) 0 (l1 ++ [x]) in
    let ptm := (qz (zsum pre) / qz epre)%Qc in
    let var := (qz (zsum (squares pre)) / qz epre - ptm * ptm)%Qc in
    let s := shifted x ptm var in
    let d := if s then 1 else 0 in
    Some (mkAcc (fst (peaks 0 l 0 0)) (snd (peaks 0 l 0 0)) (fold_left Z.min l 65535)
            (zsum (keep (fun i => i <? epre) 0 l)) (zsum (squares (keep (fun i => i <? epre) 0 l)))
            (zsum (keep (fun i => (npre + 2 - d <=? i) && (i <? npre + 8 - d)) npre l2)) (npre + 2 - d) (npre + 8 - d)
            (zsum (x :: l2)) (zsum (squares (x :: l2))) (Some (ptm, var, s))).
Proof.
  intros H1 H8. rewrite scan_app, scan_plain by lia. rewrite Z.add_0_l, H1. cbn [scan].
  unfold sample_step at 1. cbn [a_peak a_index a_min a_pre a_pre2 a_prompt a_from a_to a_pulse a_pulse2 a_base start_acc]. rewrite Z.eqb_refl.
  destruct (epre =? 0); [reflexivity|].
  assert (U2 : ushort (npre + 2) = npre + 2) by (apply Z.mod_small; lia).
  assert (U8 : ushort (npre + 8) = npre + 8) by (apply Z.mod_small; lia).
  rewrite U2, U8.
  rewrite (keep_none (fun i => (npre + 2 <=? i) && (i <? npre + 8)) l1 0) by (intros i Hi; rewrite (proj2 (Z.leb_gt (npre + 2) i)) by lia; reflexivity).
  rewrite (keep_none (fun i => npre - 1 <=? i) l1 0) by (intros i Hi; apply Z.leb_gt; lia).
  rewrite (proj2 (Z.leb_gt (npre + 2) (npre - 1))) by lia. rewrite Z.leb_refl. cbn [add_if andb zsum squares map fold_right].
  assert (P1 : add_if (npre - 1 <? epre) (zsum (keep (fun i => i <? epre) 0 l1) + 0) x = zsum (keep (fun i => i <? epre) 0 (l1 ++ [x]))).
  { rewrite keep_app, zsum_app, Z.add_0_l, H1. cbn [keep]. unfold add_if. destruct (npre - 1 <? epre); cbn [zsum fold_right]; lia. }
  assert (P2 : add_if (npre - 1 <? epre) (zsum (squares (keep (fun i => i <? epre) 0 l1)) + 0) (x * x) = zsum (squares (keep (fun i => i <? epre) 0 (l1 ++ [x])))).
  { rewrite keep_app, squares_app, zsum_app, Z.add_0_l, H1. cbn [keep]. unfold add_if. destruct (npre - 1 <? epre); cbn [squares map zsum fold_right]; lia. }
  rewrite P1, P2. cbv zeta.
  set (ptm := (qz (zsum (keep (fun i => i <? epre) 0 (l1 ++ [x]))) / qz epre)%Qc).
  set (var := (qz (zsum (squares (keep (fun i => i <? epre) 0 (l1 ++ [x])))) / qz epre - ptm * ptm)%Qc).
  set (s := shifted x ptm var). clearbody s.
  rewrite scan_plain by lia. cbn [a_peak a_index a_min a_pre a_pre2 a_prompt a_from a_to a_pulse a_pulse2 a_base].
  replace (npre - 1 + 1) with npre by lia.
  rewrite (keep_all (fun i => npre - 1 <=? i) l2 npre) by (intros i Hi; apply Z.leb_le; lia).
  assert (F : (if s then ushort (npre + 2 - 1) else npre + 2) = npre + 2 - (if s then 1 else 0)) by (destruct s; [apply Z.mod_small; lia|lia]).
  assert (T : (if s then ushort (npre + 8 - 1) else npre + 8) = npre + 8 - (if s then 1 else 0)) by (destruct s; [apply Z.mod_small; lia|lia]).
  rewrite F, T. f_equal.
  assert (PK : forall A (g : Z * Z -> A), g (peaks npre l2 (if fst (peaks 0 l1 0 0) <? x then x else fst (peaks 0 l1 0 0)) (if fst (peaks 0 l1 0 0) <? x then ushort (npre - 1) else snd (peaks 0 l1 0 0))) = g (peaks 0 (l1 ++ x :: l2) 0 0)).
  { intros A g. rewrite peaks_app. cbn [peaks]. rewrite Z.add_0_l, H1. replace (npre - 1 + 1) with npre by lia. destruct (fst (peaks 0 l1 0 0) <? x); reflexivity. }
  rewrite !PK.
  assert (PA : l1 ++ x :: l2 = (l1 ++ [x]) ++ l2) by (rewrite <- app_assoc; reflexivity).
  f_equal.
  - rewrite fold_left_app. cbn [fold_left]. f_equal. destruct (Z.ltb_spec x (fold_left Z.min l1 65535)); lia.
  - rewrite PA, (keep_app _ (l1 ++ [x])), zsum_app, app_length. cbn [length]. replace (0 + Z.of_nat (length l1 + 1)) with npre by lia. lia.
  - rewrite PA, (keep_app _ (l1 ++ [x])), squares_app, zsum_app, app_length. cbn [length]. replace (0 + Z.of_nat (length l1 + 1)) with npre by lia. lia.
  - lia.
  - cbn [zsum fold_right]. fold (zsum l2). lia.
  - cbn [zsum squares map fold_right]. fold (squares l2). fold (zsum (squares l2)). lia.
Qed.
