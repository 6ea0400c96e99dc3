(** Proofs about five-lag filtering from coefficients. *)
From Coq Require Import ZArith QArith Qcanon Lia List.
From Verif Require Import QcPre LagModel LagSpec LagProofs FlModel FlSpec.
Import ListNotations.
Local Open Scope Qc_scope.

Lemma dot_qsum a b : length a = length b -> dot a b = qsum (length a) (fun i => nth i a 0 * nth i b 0).
Proof.
  revert b. induction a as [|x a IH]; intros [|y b] L; simpl in L; try discriminate; [reflexivity|].
  cbn [dot length]. rewrite qsum_S_l. cbn [nth]. f_equal. apply IH. lia.
Qed.
Lemma column_length c m : length (column c m) = length m. Proof. apply map_length. Qed.
Lemma column_nth c m i : nth i (column c m) 0 = nth c (nth i m []) 0.
Proof. unfold column. rewrite <- (map_nth (fun r => nth c r 0)). f_equal. destruct c; reflexivity. Qed.

Lemma lag_rows_length basis j : (j <= 4)%nat -> length (lag_rows basis j) = (length basis - 4)%nat.
Proof.
  intros J. unfold lag_rows. destruct (Nat.eqb_spec j 4) as [->|N]; [apply skipn_length|].
  rewrite firstn_length, skipn_length. lia.
Qed.
Lemma nth_firstn_lt {A} (d : A) : forall n l i, (i < n)%nat -> nth i (firstn n l) d = nth i l d.
Proof. induction n as [|n IH]; intros l i H; [lia|]. destruct l as [|x l]; [destruct i; reflexivity|]. destruct i; [reflexivity|]. simpl. apply IH. lia. Qed.
Lemma nth_skipn_add {A} (d : A) : forall n l i, nth i (skipn n l) d = nth (n + i) l d.
Proof. induction n as [|n IH]; intros l i; [reflexivity|]. destruct l as [|x l]; [destruct i; reflexivity|]. simpl. apply IH. Qed.
Lemma lag_rows_nth basis j i : (j <= 4)%nat -> (i < length basis - 4)%nat -> nth i (lag_rows basis j) [] = nth (i + j) basis [].
Proof.
  intros J I. unfold lag_rows. destruct (Nat.eqb_spec j 4) as [->|N].
  - rewrite nth_skipn_add. f_equal. lia.
  - rewrite nth_firstn_lt by lia. rewrite nth_skipn_add. f_equal. lia.
Qed.

(** The output of the filter at lag j is linear in the coefficients. *)
Definition lag_vector (w : nat) (filter : list Qc) (basis : matrix) (j : nat) : list Qc :=
  map (fun c => dot filter (column c (lag_rows basis j))) (seq 0 w).
Lemma in_basis_ok w filter basis : length filter = (length basis - 4)%nat ->
  in_basis w filter basis = Some (map (lag_vector w filter basis) (seq 0 5)).
Proof.
  intros L. unfold in_basis. cbn [seq map all]. unfold vec_mat. rewrite !lag_rows_length by lia. rewrite L, Nat.eqb_refl. reflexivity.
Qed.
Lemma in_basis_raises w filter basis : length filter <> (length basis - 4)%nat -> in_basis w filter basis = None.
Proof.
  intros L. unfold in_basis. cbn [seq map all]. unfold vec_mat at 1. rewrite lag_rows_length by lia.
  now replace (Nat.eqb (length filter) (length basis - 4)) with false by (symmetry; now apply Nat.eqb_neq).
Qed.
Lemma nth_map_seq (f : nat -> Qc) w c : (c < w)%nat -> nth c (map f (seq 0 w)) 0 = f c.
Proof. intros H. rewrite (nth_indep _ 0 (f O)) by (rewrite map_length, seq_length; exact H). rewrite map_nth, seq_nth by exact H. reflexivity. Qed.
Lemma lag_vector_dot w filter basis coefs j : length filter = (length basis - 4)%nat -> (4 <= length basis)%nat -> (j <= 4)%nat ->
  qsum w (fun c => nth c coefs 0 * nth c (lag_vector w filter basis j) 0) = lagged filter (modelled w basis coefs) j.
Proof.
  intros L N J. transitivity (qsum w (fun c => qsum (length filter) (fun k => nth k filter 0 * (nth c (nth (k + j) basis []) 0 * nth c coefs 0)))).
  - apply qsum_ext. intros c C. unfold lag_vector. rewrite nth_map_seq by exact C. rewrite dot_qsum by (rewrite column_length, lag_rows_length by lia; exact L).
    rewrite <- qsum_scale. apply qsum_ext. intros k K. rewrite column_nth, lag_rows_nth by lia. ring.
  - rewrite qsum_swap. unfold lagged. apply qsum_ext. intros k K. rewrite qsum_scale. f_equal. unfold modelled.
    set (g := fun row : list Qc => qsum w (fun c => nth c row 0 * nth c coefs 0)). rewrite (nth_indep _ 0 (g [])) by (rewrite map_length; lia). now rewrite map_nth.
Qed.
Lemma cba_value w filter basis coefs : length filter = (length basis - 4)%nat -> (4 <= length basis)%nat -> length coefs = w ->
  exists b, fit_in_basis w filter basis = Some b /\
  let y := lagged filter (modelled w basis coefs) in
  cba b coefs = Some [fst (fst (parabola (y 0%nat) (y 1%nat) (y 2%nat) (y 3%nat) (y 4%nat))); snd (fst (parabola (y 0%nat) (y 1%nat) (y 2%nat) (y 3%nat) (y 4%nat)));
                      snd (parabola (y 0%nat) (y 1%nat) (y 2%nat) (y 3%nat) (y 4%nat))].
Proof.
  intros L N W. unfold fit_in_basis. rewrite in_basis_ok by exact L. eexists. split; [reflexivity|]. cbv zeta. unfold cba, vec_mat.
  rewrite map_length, seq_length, W, Nat.eqb_refl. f_equal. cbn [seq map].
  assert (E : forall r, (r < 3)%nat -> dot coefs (column r (map (fun c => map (fun q => dot q (column c (map (lag_vector w filter basis) (seq 0 5)))) fit_array) (seq 0 w)))
     = qsum w (fun c => nth c coefs 0 * dot (nth r fit_array []) (map (fun j => nth c (lag_vector w filter basis j) 0) (seq 0 5)))).
  { intros r R. rewrite dot_qsum by (rewrite column_length, map_length, seq_length; exact W). rewrite W. apply qsum_ext. intros c C. f_equal.
    unfold column at 1. rewrite map_map. rewrite nth_map_seq by exact C. 
    rewrite (nth_indep _ 0 (dot [] (column c (map (lag_vector w filter basis) (seq 0 5))))) by (rewrite map_length; exact R).
    rewrite (map_nth (fun q => dot q (column c (map (lag_vector w filter basis) (seq 0 5))))). f_equal. }
  assert (V : forall j, (j <= 4)%nat -> qsum w (fun c => nth c coefs 0 * nth c (lag_vector w filter basis j) 0) = lagged filter (modelled w basis coefs) j)
    by (intros; now apply lag_vector_dot).
  cbn [seq map] in E. rewrite (E 0%nat), (E 1%nat), (E 2%nat) by lia. cbn [nth fit_array map seq dot].
  unfold parabola. cbn [fst snd]. rewrite <- (V 0%nat), <- (V 1%nat), <- (V 2%nat), <- (V 3%nat), <- (V 4%nat) by lia.
  repeat match goal with |- context [qsum w ?f * q70 ?z] => rewrite <- (qsum_scale_r w (q70 z) f) end.
  repeat rewrite <- qsum_add.
  f_equal; [apply qsum_ext; intros; ring|]. f_equal; [apply qsum_ext; intros; ring|]. f_equal. apply qsum_ext; intros; ring.
Qed.
Lemma off_five_lag_value w filter basis coefs : length filter = (length basis - 4)%nat -> (4 <= length basis)%nat -> length coefs = w ->
  let y := lagged filter (modelled w basis coefs) in
  off_five_lag w filter basis coefs = Some (match vertex (parabola (y 0%nat) (y 1%nat) (y 2%nat) (y 3%nat) (y 4%nat)) with None => (None, None) | Some (x, v) => (Some x, Some v) end).
Proof.
  intros L N W y. unfold off_five_lag. destruct (cba_value w filter basis coefs L N W) as (b & E & V). rewrite E, V. fold y.
  destruct (parabola _ _ _ _ _) as [[p0 p1] p2]. unfold vertex, peak_x, filt_value. cbn [fst snd]. destruct (Qc_eq_dec p2 0); reflexivity.
Qed.
