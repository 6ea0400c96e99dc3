(** C31: kink_model and fit_kink_model. *)
From Coq Require Import ZArith QArith Qcanon Bool Permutation List Lia.
From Verif Require Import QcPre KinkModel KinkSpec KinkProofs.
Import ListNotations.
Local Open Scope Qc_scope.

(** C31. (a, b, c) is the only kinked line with the least sum of squares. *)
Theorem kink_model_optimum : forall k x y m a b c x2, kink_model k x y = Some (m, (a, b, c), x2) ->
  exists s, squares k a b c x y s /\
    (forall a' b' c' s', squares k a' b' c' x y s' -> s <= s') /\
    (forall a' b' c', squares k a' b' c' x y s -> (a', b', c') = (a, b, c)).
Proof. exact kink_best. Qed.
Print Assumptions kink_model_optimum.

(** C31. It is found exactly if the samples determine it. *)
Theorem kink_model_found : forall k x y, length x = length y -> (kink_model k x y <> None <-> determined k x).
Proof. exact kink_model_some. Qed.
Print Assumptions kink_model_found.

(** C31. (a, b, c) does not depend on the order of the samples. *)
Theorem kink_model_order : forall k x y x' y' m abc x2, length x' = length y' ->
  Permutation (combine x y) (combine x' y') -> kink_model k x y = Some (m, abc, x2) ->
  exists m' x2', kink_model k x' y' = Some (m', abc, x2').
Proof. exact kink_perm. Qed.
Print Assumptions kink_model_order.

(** C31. If the samples left of the kink come first, the model values belong to the samples and X2 is the
    sum of squares. *)
Theorem kink_model_residuals : forall k x y m a b c x2, kink_model k x y = Some (m, (a, b, c), x2) ->
  (forall i j, (i < j)%nat -> (j < length x)%nat -> k <= nth i x 0 -> k <= nth j x 0) ->
  Forall2 (on_kink k a b c) x m /\ squares k a b c x y x2.
Proof. exact kink_sorted. Qed.
Print Assumptions kink_model_residuals.

Definition zs (l : list Z) : list Qc := map (fun z => Q2Qc (inject_Z z)) l.
Definition vals (r : option (list Qc * (Qc * Qc * Qc) * Qc)) : option (list Q * (Q * Q * Q) * Q) :=
  option_map (fun r => let '(m, (a, b, c), x2) := r in (map this m, (this a, this b, this c), this x2)) r.
Example kink_model_instance :
  vals (kink_model (Q2Qc 2) (zs [0; 1; 2; 3; 4]%Z) (zs [0; 1; 2; 2; 2]%Z)) = Some ([0; 1; 2; 2; 2], (2, 1, 0), 0)%Q.
Proof. vm_compute. reflexivity. Qed.

(** C31. X2 depends on the order: two orders of five samples on a kinked line. *)
Theorem kink_model_order_refuted : exists k x y x' y' m m' abc x2 x2',
  Permutation (combine x y) (combine x' y') /\ length x' = length y' /\
  kink_model k x y = Some (m, abc, x2) /\ kink_model k x' y' = Some (m', abc, x2') /\ x2 = 0 /\ 0 < x2'.
Proof.
  exists (Q2Qc 2), (zs [0; 1; 2; 3; 4]%Z), (zs [0; 1; 2; 2; 2]%Z), (zs [4; 1; 2; 3; 0]%Z), (zs [2; 1; 2; 2; 0]%Z).
  do 5 eexists.
  split. { cbn. apply (perm_trans (l' := [(Q2Qc (inject_Z 4), Q2Qc (inject_Z 2)); (Q2Qc (inject_Z 0), Q2Qc (inject_Z 0)); (Q2Qc (inject_Z 1), Q2Qc (inject_Z 1)); (Q2Qc (inject_Z 2), Q2Qc (inject_Z 2)); (Q2Qc (inject_Z 3), Q2Qc (inject_Z 2))])).
    - apply (Permutation_app_comm [_; _; _; _] [_]).
    - apply perm_skip. apply (Permutation_app_comm [_] [_; _; _]). }
  split; [reflexivity|]. split; [vm_compute; reflexivity|]. split; [vm_compute; reflexivity|]. split; [apply Qc_is_canon; reflexivity | reflexivity].
Qed.
Print Assumptions kink_model_order_refuted.

(** C31. fit_kink_model, given samples in order: no kink in the bounds and no line does better, as far as
    minimize_scalar finds the minimum of what it is given. *)
Theorem fit_kink_optimum : forall minimize x y kb m k a b c x2,
  fit_kink_model minimize x y kb = Some (m, (k, a, b, c), x2) ->
  let penalty := fun k => option_map snd (kink_model k x y) in
  (forall lo hi k', minimize penalty lo hi = Some k' -> minimiser penalty lo hi k') ->
  (forall i j, (i < j)%nat -> (j < length x)%nat -> nth i x 0 <= nth j x 0) ->
  exists lo hi, match kb with Some (u, v) => u = lo /\ v = hi | None => In lo x /\ In hi x /\ forall w, In w x -> lo <= w /\ w <= hi end /\
    (exists u v, In u x /\ In v x /\ u <= lo /\ hi <= v) /\
    lo <= k /\ k <= hi /\ squares k a b c x y x2 /\
    forall k' a' b' c' s', lo <= k' -> k' <= hi -> determined k' x -> squares k' a' b' c' x y s' -> x2 <= s'.
Proof. exact fit_kink_ok. Qed.
Print Assumptions fit_kink_optimum.

Definition at_two (f : Qc -> option Qc) (lo hi : Qc) : option Qc := if (qleb lo (Q2Qc 2) && qleb (Q2Qc 2) hi)%bool then Some (Q2Qc 2) else None.
Example fit_kink_instance :
  let x := zs [0; 1; 2; 3; 4]%Z in
  let y := zs [0; 1; 2; 2; 2]%Z in
  let penalty := fun k => option_map snd (kink_model k x y) in
  (forall lo hi k', at_two penalty lo hi = Some k' -> minimiser penalty lo hi k') /\
  option_map (fun r => let '(m, (k, a, b, c), x2) := r in (map this m, (this k, this a, this b, this c), this x2))
    (fit_kink_model at_two x y (Some (Q2Qc 1, Q2Qc 3))) = Some ([0; 1; 2; 2; 2], (2, 2, 1, 0), 0)%Q.
Proof.
  intros x y penalty. split; [|vm_compute; reflexivity].
  intros lo hi k' H. unfold at_two in H. destruct (qleb lo (Q2Qc 2)) eqn:E1; [|discriminate]. destruct (qleb (Q2Qc 2) hi) eqn:E2; [|discriminate].
  assert (k' = Q2Qc 2) by (cbn [andb] in H; congruence). subst k'. apply qleb_le in E1, E2. split; [exact E1|]. split; [exact E2|].
  exists 0. split; [vm_compute; f_equal; apply Qc_is_canon; reflexivity|]. intros k v _ _ Hv. unfold penalty in Hv.
  destruct (kink_model k x y) as [[[m [[a b] c]] x2]|] eqn:E; [|discriminate]. cbn [option_map snd] in Hv.
  destruct (kink_model_parts _ _ _ _ _ _ _ _ E) as (_ & _ & _ & ->). assert (v = sumsq (map (fun p => fst p - snd p) (combine m y))) by congruence. subst v.
  unfold sumsq. rewrite sum_map. apply lsum_nonneg. intros p. apply sq_nonneg.
Qed.
