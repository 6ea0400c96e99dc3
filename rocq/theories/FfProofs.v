(** Proofs about Fourier filters. *)
From Coq Require Import Reals ZArith Bool Lra Lia List.
From Verif Require Import FtModel FtAlg FtSpec FtProofs FoModel FoSpec FoProofs FfModel FfSpec.
Import ListNotations.

Section Any.
Context {A C B : Type} (rft : list A -> list C) (irft : list C -> nat -> list A) (to_c : A -> C) (czero : C) (azero : A) (scale : list A -> A -> A) (ratio : C -> C -> C) (limit : nat -> nat -> C -> C) (rescale : list A -> list A -> list A) (finish : list A -> B).
Hypothesis rft_length : forall x, (0 < length x)%nat -> length (rft x) = (length x / 2 + 1)%nat.
Hypothesis irft_length : forall X n, length (irft X n) = n.
Notation computed := (compute_fourier A C B rft irft to_c czero azero scale ratio limit rescale finish).

Lemma normalized_length npre s : length (normalized A azero scale npre s) = length s.
Proof. unfold normalized. rewrite app_length, repeat_length, skipn_length, map_length. lia. Qed.
Lemma weighted_length d s psd : (0 < length s)%nat -> length (weighted A C rft irft to_c czero ratio limit d s psd) = (length s / 2 + 1)%nat.
Proof. intros N. unfold weighted. rewrite map_length, seq_length. now apply rft_length. Qed.
Lemma normalize_too_long asserts f s : (length s <= length f + 1)%nat -> (2 <= length f <= length s)%nat -> normalize_5lag A rescale asserts f s = inl (if asserts then AssertErr else ValueErr).
Proof.
  intros H1 H2. unfold normalize_5lag. destruct (Nat.ltb_spec (length s) (length f + 4)); [|lia]. destruct asserts; [reflexivity|]. cbn [andb].
  destruct (forallb _ _) eqn:E; [|reflexivity]. rewrite forallb_forall in E. specialize (E 2%nat ltac:(apply in_seq; lia)). apply Nat.eqb_eq in E. lia.
Qed.
Lemma computed_error asserts signal npre psd a b :
  computed asserts signal npre psd a b = inl
    (match psd with
     | None => ValueErr
     | Some p => if ((0 <? a) || (0 <? b))%Z then NotImplErr else if ((a <? 0) || (b <? 0))%Z then ValueErr
                 else if (6 <=? length signal)%nat && (length p =? length signal / 2 + 1)%nat then (if asserts then AssertErr else ValueErr) else ValueErr
     end).
Proof.
  unfold compute_fourier. destruct psd as [p|]; [|reflexivity]. destruct ((0 <? a) || (0 <? b))%Z; [reflexivity|]. destruct ((a <? 0) || (b <? 0))%Z; [reflexivity|].
  destruct signal as [|v r]; [reflexivity|]. set (sg := v :: r). assert (NS : (0 < length sg)%nat) by (cbn; lia). clearbody sg. clear v r.
  set (s := firstn _ _). assert (LS : length s = (length sg - 4)%nat) by (unfold s; rewrite firstn_length, skipn_length, normalized_length; lia). clearbody s.
  destruct s as [|v r]; [cbn in LS; destruct (Nat.leb_spec 6 (length sg)); [lia|reflexivity]|]. set (s := v :: r) in *. assert (N : (0 < length s)%nat) by (cbn; lia). clearbody s. clear v r.
  rewrite rft_length by exact N. rewrite weighted_length by exact N.
  assert (D : (length sg / 2 = length s / 2 + 2)%nat) by (replace (length sg) with (length s + 2 * 2)%nat by lia; rewrite Nat.div_add by lia; lia).
  pose proof (Nat.div_mod (length s) 2 ltac:(lia)) as DM. pose proof (Nat.mod_upper_bound (length s) 2 ltac:(lia)).
  destruct (Nat.eqb_spec (length s / 2 + 1 + 2) (length p)) as [E|E]; cbn [negb].
  - assert (EP : (length p =? length sg / 2 + 1)%nat = true) by (apply Nat.eqb_eq; lia). rewrite EP, andb_true_r. destruct (Nat.eqb_spec (length s / 2 + 1) 1) as [E1|E1].
    + assert (length s = 1)%nat by lia. destruct (Nat.leb_spec 6 (length sg)); [lia|reflexivity].
    + destruct (Nat.leb_spec 6 (length sg)); [|lia]. rewrite normalize_too_long; [reflexivity| |]; rewrite irft_length; lia.
  - assert (EP : (length p =? length sg / 2 + 1)%nat = false) by (apply Nat.eqb_neq; lia). now rewrite EP, andb_false_r.
Qed.
Lemma shortened_length psd : (3 <= length psd)%nat -> length (shortened A C rft irft to_c psd) = (length psd - 2)%nat.
Proof.
  intros N. set (n := length psd) in *. unfold shortened. fold n. set (r := irft _ _). assert (LR : length r = (2 * (n - 1))%nat) by apply irft_length.
  assert (L : length (firstn (n - 3) r ++ skipn (length r - (n - 2)) r) = (2 * (n - 3) + 1)%nat) by (rewrite app_length, firstn_length, skipn_length; lia).
  rewrite rft_length by lia. rewrite L. rewrite (Nat.mul_comm 2 (n - 3)), Nat.div_add_l by lia. cbn [Nat.div Nat.divmod fst]. lia.
Qed.
End Any.

Local Open Scope R_scope.
Lemma delta_rfft p m : rfft (p :: repeat 0 m) = repeat (real p) (S m / 2 + 1).
Proof.
  apply (list_nth_eq c0); [rewrite rfft_length by (cbn; lia); cbn [length]; now rewrite !repeat_length|]. rewrite rfft_length by (cbn; lia). cbn [length]. rewrite repeat_length. intros k K.
  assert (K2 : (2 * k <= S m)%nat) by (pose proof (Nat.div_mod (S m) 2 ltac:(lia)); lia). rewrite rfft_nth by (cbn [length]; rewrite ?repeat_length; lia).
  assert (R : nth k (repeat (real p) (S m / 2 + 1)) c0 = real p) by (apply (repeat_spec (S m / 2 + 1)), nth_In; now rewrite repeat_length). rewrite R.
  unfold F. cbn [length]. rewrite repeat_length. rewrite (csum_one (S m) _ 0); [|lia|].
  - cbn [nth]. rewrite Z.mul_0_l || idtac. cbn [Z.of_nat Z.mul Z.opp]. rewrite wave_0. unfold c1. apply ceq; cbn [fst snd cmul real]; ring.
  - intros i I NI. destruct i as [|i]; [contradiction|]. cbn [nth]. assert (Z0 : nth i (repeat 0 m) 0 = 0) by (destruct (nth_in_or_default i (repeat 0 m) 0) as [H|H]; [now apply repeat_spec in H|exact H]). rewrite Z0. apply ceq; cbn [fst snd cmul real c0]; ring.
Qed.
Lemma skipn_repeat_ {A : Type} (a : A) n k : skipn k (repeat a n) = repeat a (n - k).
Proof. revert n; induction k as [|k IH]; intros [|n]; cbn; try reflexivity. apply IH. Qed.
Lemma firstn_repeat_ {A : Type} (a : A) n k : firstn k (repeat a n) = repeat a (Nat.min k n).
Proof. revert n; induction k as [|k IH]; intros [|n]; cbn; try reflexivity. now rewrite IH. Qed.
Lemma white_left p n : (4 <= n)%nat -> noise_left (repeat p n) = repeat (real p) (n - 2).
Proof.
  intros N. unfold noise_left, shortened. rewrite repeat_length.
  assert (I : irfft (map real (repeat p n)) (2 * (n - 1)) = p :: repeat 0 (2 * n - 3)).
  { pose proof (delta_rfft p (2 * n - 3)) as D. replace (S (2 * n - 3) / 2 + 1)%nat with n in D by (replace (S (2 * n - 3)) with ((n - 1) * 2)%nat by lia; rewrite Nat.div_mul by lia; lia).
    assert (M : map real (repeat p n) = repeat (real p) n) by (clear; induction n; cbn; congruence). rewrite M, <- D.
    replace (2 * (n - 1))%nat with (length (p :: repeat 0 (2 * n - 3))) by (cbn [length]; rewrite repeat_length; lia). apply irfft_rfft. cbn. lia. }
  rewrite I. cbn [length]. rewrite repeat_length. replace (S (2 * n - 3) - (n - 2))%nat with (S (n - 1))%nat by lia. cbn [skipn]. rewrite skipn_repeat_. replace (n - 3)%nat with (S (n - 4)) by lia. cbn [firstn]. rewrite firstn_repeat_. rewrite <- app_comm_cons, <- repeat_app.
  rewrite delta_rfft. f_equal. replace (S (Nat.min (n - 4) (2 * n - 3) + (2 * n - 3 - (n - 1)))) with ((n - 3) * 2 + 1)%nat by lia. rewrite Nat.div_add_l by lia. cbn [Nat.div Nat.divmod fst]. lia.
Qed.
Definition shape_gain (dt : R) (fmax f3 : option R) (psd : list R) (k : nat) : complex :=
  match k with O => c0 | _ => cmul (real (band_gain fmax f3 (INR k * (1 / 2) / (INR (length psd - 1) * dt)))) (cdiv c1 (nth k (noise_left psd) c0)) end.
Lemma shape_filtered dt fmax f3 s psd : (0 < length s)%nat -> Nat.even (length s) = true ->
  fourier_shape dt fmax f3 s psd = irfft (times (shape_gain dt fmax f3 psd) (rfft s)) (length s).
Proof.
  intros N E. unfold fourier_shape. rewrite (default_even _ (length s)); [|exact N|exact E|unfold weighted; rewrite map_length, seq_length; now apply rfft_length].
  f_equal. unfold weighted, times. apply map_ext. intros [|k]; [cbn [shape_gain]; apply ceq; cbn [fst snd cmul c0]; ring|]. unfold shape_gain, fourier_limit, cdiv, noise_left. set (d := nth _ (shortened _ _ _ _ _ _) _). set (v := nth _ (rfft s) _). set (g := band_gain _ _ _). apply ceq; cbn [fst snd cmul c1 conj real]; ring.
Qed.
Lemma shape_sum_0 dt fmax f3 s psd : (0 < length s)%nat -> Nat.even (length s) = true -> sum (fourier_shape dt fmax f3 s psd) = 0.
Proof. intros N E. rewrite shape_filtered, gain_sum by assumption. cbn. ring. Qed.
Lemma nth_repeat_ {A : Type} (a d : A) n k : (k < n)%nat -> nth k (repeat a n) d = a.
Proof. intros K. apply (repeat_spec n), nth_In. now rewrite repeat_length. Qed.
Lemma shape_white_gain dt fmax f3 s p : p <> 0 -> (forall c, f3 = Some c -> c <> 0) -> (2 <= length s)%nat -> Nat.even (length s) = true ->
  scaled_by (length s) (white_gain p fmax f3 (fun k => INR k / (2 * INR (length s / 2 + 2) * dt))) s (fourier_shape dt fmax f3 s (repeat p (length s / 2 + 3))).
Proof.
  intros P C N E. rewrite shape_filtered by (try assumption; lia). apply scaled_by_F. split; [reflexivity|]. split; [apply irfft_length|]. intros k K. rewrite general_F by (try exact K; lia).
  pose proof (even_half _ E) as EH. set (m := (length s / 2)%nat) in *. assert (KM : (k < m + 3 - 2)%nat) by lia.
  destruct k as [|k].
  - exists 0. split; [now left|]. apply ceq; cbn [tidy shape_gain Nat.eqb orb fst snd cmul real c0]; ring.
  - set (f := INR (S k) / (2 * INR (m + 2) * dt)). exists (band_gain fmax f3 f / p). split.
    + right. split; [lia|]. exists (band_gain fmax f3 f). split; [now apply gain_kept|field; exact P].
    + f_equal. assert (G : shape_gain dt fmax f3 (repeat p (m + 3)) (S k) = real (band_gain fmax f3 f / p)).
      { unfold shape_gain. rewrite repeat_length. replace (m + 3 - 1)%nat with (m + 2)%nat by lia. rewrite white_left by lia. rewrite nth_repeat_ by lia. replace (INR (S k) * (1 / 2) / (INR (m + 2) * dt)) with f by (unfold f, Rdiv; rewrite !Rinv_mult; ring). set (g := band_gain _ _ _). unfold cdiv. apply ceq; cbn [fst snd cmul c1 conj real]; field; exact P. }
      unfold tidy. rewrite G. now destruct (_ || _).
Qed.
