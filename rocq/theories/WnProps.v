(** C92: white noise, and the strength of the noise. *)
From Coq Require Import ZArith QArith Qcanon List Bool Lia.
From Verif Require Import QcPre LagModel ToepModel WhiModel OptModel OptProps WnModel WnSpec WnProofs.
Import ListNotations.
Local Open Scope Qc_scope.

(** C92. Noise k times as strong gives the same five-lag filter, peak and signal, and k times the variance; and an error
    exactly when the other noise does. *)
Theorem five_lag_noise_strength : forall s p nz d w u a b k, k <> 0 ->
  compute_5lag (mkMaker s p (Some (scaled k nz)) d w u) a b =
  option_map (fun F => mkF5 (values F) (nominal_peak F) (k * variance F) (avg_signal F)) (compute_5lag (mkMaker s p (Some nz) d w u) a b).
Proof. intros s p nz d w u a b k K. exact (five_lag_scaled k (mkMaker s p (Some nz) d w u) a b K). Qed.
Print Assumptions five_lag_noise_strength.

(** C92. And the same arrival-time-safe filters, with a whitener or without. *)
Theorem ats_noise_strength : forall s p nz d w u a b k, k <> 0 ->
  compute_ats (mkMaker s p (Some (scaled k nz)) d w u) a b =
  option_map (fun F => mkFA (f_values F) (f_dt F) (f_baseline F) (a_peak F) (k * a_variance F) (a_signal F) (a_dt F))
    (compute_ats (mkMaker s p (Some nz) d w u) a b).
Proof. intros s p nz d w u a b k K. exact (ats_scaled k (mkMaker s p (Some nz) d w u) a b K). Qed.
Print Assumptions ats_noise_strength.

(** C92. Toeplitz equations k times as large have 1/k of the solution. *)
Theorem toeplitz_strength : forall k T y, k <> 0 -> solve_symmetric (scaled k T) y = option_map (scaled (/ k)) (solve_symmetric T y).
Proof. exact solve_scaled. Qed.
Print Assumptions toeplitz_strength.

(** C92. Noise that is there is kept. *)
Theorem white_noise_kept : forall v dt d x, In x (autocorrelation d) -> x <> 0 -> assume_white_noise v dt false d = d.
Proof.
  intros v dt d x I X. unfold assume_white_noise. cbn [orb].
  assert (E : forallb (fun x => if Qc_eq_dec x 0 then true else false) (autocorrelation d) = false).
  { apply not_true_is_false. intros E. rewrite forallb_forall in E. specialize (E x I). destruct (Qc_eq_dec x 0); [contradiction|discriminate]. }
  now rewrite E.
Qed.
Print Assumptions white_noise_kept.

Lemma white_set v dt d : assume_white_noise v dt true d =
  mkNoise (white v (length (autocorrelation d))) (repeat (qz 2 * v * dt) (length (psd d))).
Proof.
  unfold assume_white_noise. cbn [orb]. f_equal.
  - destruct (autocorrelation d) as [|x t]; [reflexivity|]. simpl. f_equal. induction t as [|y t IH]; [reflexivity|]. simpl. now rewrite IH.
  - induction (psd d) as [|y t IH]; [reflexivity|]. simpl. now rewrite IH.
Qed.
(** C92. Otherwise the noise becomes white: the variance at lag zero, nothing at other lags, a flat spectrum of twice the
    variance times the sample time; no array changes its length. *)
Theorem white_noise_set : forall v dt force d, (force = true \/ forall x, In x (autocorrelation d) -> x = 0) ->
  assume_white_noise v dt force d = mkNoise (white v (length (autocorrelation d))) (repeat (qz 2 * v * dt) (length (psd d))).
Proof.
  intros v dt force d H. rewrite <- white_set. unfold assume_white_noise. destruct force; [reflexivity|]. destruct H as [H|H]; [discriminate|].
  assert (E : forallb (fun x => if Qc_eq_dec x 0 then true else false) (autocorrelation d) = true).
  { apply forallb_forall. intros x I. rewrite (H x I). destruct (Qc_eq_dec 0 0); [reflexivity|]. congruence. }
  now rewrite E.
Qed.
Print Assumptions white_noise_set.

(** C92. A second call changes nothing, whatever variance it is given, unless the first variance was zero. *)
Theorem white_noise_once : forall v w dt dt' force d, autocorrelation d <> [] -> v <> 0 ->
  assume_white_noise w dt' false (assume_white_noise v dt force d) = assume_white_noise v dt force d.
Proof.
  intros v w dt dt' force d N V. remember (assume_white_noise v dt force d) as e eqn:E. unfold assume_white_noise in E.
  destruct (force || _)%bool eqn:B.
  - subst e. apply white_noise_kept with v; [|exact V]. simpl. destruct (autocorrelation d); [congruence|]. now left.
  - apply orb_false_elim in B as [_ B]. subst e. 
    assert (X : exists x, In x (autocorrelation d) /\ x <> 0).
    { clear N. induction (autocorrelation d) as [|x t IH]; [discriminate|]. simpl in B. destruct (Qc_eq_dec x 0) as [_|X].
      - destruct IH as (y & I & Y); [exact B|]. exists y. split; [now right|exact Y].
      - exists x. split; [now left|exact X]. }
    destruct X as (x & I & X). now apply white_noise_kept with x.
Qed.
Print Assumptions white_noise_once.

(** C92. The docstring's claim: two variances, neither of them zero, give the same filters; only the predicted variance
    differs, by their ratio. *)
Theorem white_noise_same_filters : forall v w dt dat s p d wh u a b, v <> 0 -> w <> 0 ->
  compute_5lag (mkMaker s p (Some (autocorrelation (assume_white_noise w dt true dat))) d wh u) a b =
  option_map (fun F => mkF5 (values F) (nominal_peak F) (w / v * variance F) (avg_signal F))
    (compute_5lag (mkMaker s p (Some (autocorrelation (assume_white_noise v dt true dat))) d wh u) a b) /\
  compute_ats (mkMaker s p (Some (autocorrelation (assume_white_noise w dt true dat))) d wh u) a b =
  option_map (fun F => mkFA (f_values F) (f_dt F) (f_baseline F) (a_peak F) (w / v * a_variance F) (a_signal F) (a_dt F))
    (compute_ats (mkMaker s p (Some (autocorrelation (assume_white_noise v dt true dat))) d wh u) a b).
Proof.
  intros v w dt dat s p d wh u a b V W. rewrite !white_set. cbn [autocorrelation].
  assert (K : w / v <> 0) by (unfold Qcdiv; apply mul_nz; [exact W|now apply inv_nz]).
  replace (white w (length (autocorrelation dat))) with (scaled (w / v) (white v (length (autocorrelation dat)))).
  2:{ destruct (length (autocorrelation dat)) as [|n]; [reflexivity|]. simpl. f_equal; [field; exact V|].
      induction n as [|n IH]; [reflexivity|]. simpl. rewrite IH. f_equal. ring. }
  split; [apply five_lag_noise_strength|apply ats_noise_strength]; exact K.
Qed.
Print Assumptions white_noise_same_filters.

(** C92. In white noise the five-lag filter is the average pulse itself without its two first and two last samples, less
    its mean, times a constant; its variance is that of the noise times the sum of the squared filter values. *)
Theorem white_noise_filter : forall v n s p d w u a b F, v <> 0 -> compute_5lag (mkMaker s p (Some (white v n)) d w u) a b = Some F ->
  (exists c, values F = repeat 0 a ++ scaled c (centred (interior (avg_signal F))) ++ repeat 0 b) /\
  variance F = v * sum_of_squares (values F).
Proof. intros v n s p d w u a b F V E. apply (five_lag_white (mkMaker s p (Some (white v n)) d w u) a b v n F); [reflexivity|exact V|exact E]. Qed.
Print Assumptions white_noise_filter.

(** C92. With a variance of zero there is no filter. *)
Theorem white_noise_zero_variance : forall dt dat s p d w u a b,
  compute_5lag (mkMaker s p (Some (autocorrelation (assume_white_noise 0 dt true dat))) d w u) a b = None.
Proof.
  intros dt dat s p d w u a b. rewrite white_set. cbn [autocorrelation]. unfold compute_5lag.
  destruct (normalize_signal _ a b) as [[[t peak] e]|]; [|reflexivity]. destruct (Nat.ltb _ _); [reflexivity|].
  match goal with |- (do _ <- solve_symmetric ?T ?y; _) = None => assert (E : solve_symmetric T y = None) end.
  { unfold autocorr. cbn [noise]. cbv beta iota. rewrite !white_firstn. unfold solve_symmetric. rewrite white_length. destruct (_ || _)%bool; [reflexivity|].
    rewrite !white_nth. unfold qdiv at 1. destruct (Qc_eq_dec _ 0) as [_|N]; [reflexivity|]. exfalso. apply N. now destruct (_ && _)%bool. }
  now rewrite E.
Qed.
Print Assumptions white_noise_zero_variance.

Example white_noise_instance :
  let d := mkNoise (qs [0; 0; 0; 0; 0; 0; 0; 0; 0]%Z) (qs [0; 0]%Z) in
  assume_white_noise (qz 3) (qz 5) false d = mkNoise (qs [3; 0; 0; 0; 0; 0; 0; 0; 0]%Z) (qs [30; 30]%Z) /\
  assume_white_noise (qz 7) (qz 5) false (assume_white_noise (qz 3) (qz 5) false d) = mkNoise (qs [3; 0; 0; 0; 0; 0; 0; 0; 0]%Z) (qs [30; 30]%Z).
Proof.
  cbv zeta. assert (E : assume_white_noise (qz 3) (qz 5) false (mkNoise (qs [0; 0; 0; 0; 0; 0; 0; 0; 0]%Z) (qs [0; 0]%Z)) =
    mkNoise (qs [3; 0; 0; 0; 0; 0; 0; 0; 0]%Z) (qs [30; 30]%Z)).
  { rewrite white_noise_set.
    - simpl. f_equal.
    - right. intros x I. cbn in I. repeat (destruct I as [<-|I]; [reflexivity|]). destruct I. }
  split; [exact E|]. rewrite E. apply white_noise_kept with (qz 3); [now left|]. intros X. apply (f_equal (fun q => Qnum (this q))) in X. discriminate X.
Qed.
Example white_filter_instance : exists F, 
  compute_5lag (mkMaker (qs [1; 1; 1; 9; 7; 5; 3; 2; 1]%Z) 3 (Some (white (qz 4) 9)) None None 0) 0 0 = Some F /\ length (values F) = 5%nat.
Proof.
  destruct (compute_5lag _ 0 0) as [F|] eqn:E; [|vm_compute in E; discriminate E]. exists F. split; [reflexivity|].
  apply (f_equal (option_map (fun F => length (values F)))) in E. vm_compute in E. injection E as E. exact (eq_sym E).
Qed.
Example noise_strength_instance : exists F G,
  compute_5lag demo 0 0 = Some F /\ compute_5lag (mkMaker (sig demo) (npre demo) (option_map (scaled (qz 3)) (noise demo)) (dtm demo) (wht demo) (upeak demo)) 0 0 = Some G /\
  show (values F) = show (values G) /\ this (variance G) = this (qz 3 * variance F).
Proof.
  destruct (compute_5lag demo 0 0) as [F|] eqn:E; [|vm_compute in E; discriminate E].
  exists F, (mkF5 (values F) (nominal_peak F) (qz 3 * variance F) (avg_signal F)). split; [reflexivity|]. split; [|split; reflexivity].
  pose proof (five_lag_noise_strength (sig demo) (npre demo) (qs [4; 2; 1; 0; 0; 0; 0; 0; 0]%Z) (dtm demo) (wht demo) (upeak demo) 0 0 (qz 3)) as H.
  change (mkMaker (sig demo) (npre demo) (Some (qs [4; 2; 1; 0; 0; 0; 0; 0; 0]%Z)) (dtm demo) (wht demo) (upeak demo)) with demo in H. rewrite E in H.
  apply H. intros X. apply (f_equal (fun q => Qnum (this q))) in X. discriminate X.
Qed.
