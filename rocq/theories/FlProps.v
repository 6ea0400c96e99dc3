(** C96: five-lag filtering from the coefficients stored in an OFF file. *)
From Coq Require Import ZArith QArith Qcanon Lia List.
From Verif Require Import QcPre LagModel LagSpec LagProofs FlModel FlSpec FlProofs.
Import ListNotations.
Local Open Scope Qc_scope.

(** C96. The recipes give exactly what filter_data of mass.core gives on the record that the coefficients stand for. *)
Theorem off_lag_of_record : forall w filter basis coefs ptmean,
  (length filter + 4 = length basis)%nat -> length coefs = w ->
  exists r, filter_data_row false None filter ptmean (modelled w basis coefs) = Some r /\
  off_five_lag w filter basis coefs = Some (match r with None => (None, None) | Some (x, v) => (Some x, Some v) end).
Proof.
  intros w filter basis coefs ptmean L W. eexists. split.
  - unfold filter_data_row. apply segment_row_ok. unfold modelled. rewrite map_length. exact L.
  - apply off_five_lag_value; [lia|lia|exact W].
Qed.
Print Assumptions off_lag_of_record.

(** C96. Phase and value are the vertex of the least-squares parabola through the filter's five outputs on that record,
    and both are undefined only if this parabola is a straight line. *)
Theorem off_lag_vertex : forall w filter basis coefs,
  (length filter + 4 = length basis)%nat -> length coefs = w ->
  exists a b c, best_parabola (lagged filter (modelled w basis coefs)) a b c /\
  ((c = 0 /\ off_five_lag w filter basis coefs = Some (None, None)) \/
   (c <> 0 /\ exists x v, off_five_lag w filter basis coefs = Some (Some x, Some v) /\ is_vertex a b c x v)).
Proof.
  intros w filter basis coefs L W. rewrite (off_five_lag_value w filter basis coefs) by (assumption || lia).
  destruct (parabola _ _ _ _ _) as [[a b] c] eqn:E. exists a, b, c. split; [apply normal_best, (parabola_normal (lagged filter (modelled w basis coefs))), E|].
  destruct (Qc_eq_dec c 0) as [Z|Z].
  - left. split; [exact Z|]. apply vertex_none with (p0 := a) (p1 := b) in Z. now rewrite Z.
  - right. split; [exact Z|]. destruct (vertex (a, b, c)) as [[x v]|] eqn:V; [|apply vertex_none in V; contradiction].
    exists x, v. split; [reflexivity|]. now apply vertex_ok.
Qed.
Print Assumptions off_lag_vertex.

(** C96. An exception is raised exactly when the filter is not four samples shorter than the records, or when there are not
    as many coefficients as basis elements. *)
Theorem off_lag_raises : forall w filter basis coefs,
  off_five_lag w filter basis coefs = None <-> length filter <> (length basis - 4)%nat \/ length coefs <> w.
Proof.
  intros w filter basis coefs. unfold off_five_lag, fit_in_basis. destruct (Nat.eq_dec (length filter) (length basis - 4)) as [L|L].
  - rewrite in_basis_ok by exact L. unfold cba, vec_mat. rewrite map_length, seq_length. destruct (Nat.eqb_spec (length coefs) w) as [E|E].
    + split; [discriminate|]. intros [H|H]; contradiction.
    + split; auto.
  - rewrite in_basis_raises by exact L. split; auto.
Qed.
Print Assumptions off_lag_raises.

(** C96. Twice the pulse has twice the value and the same phase. *)
Theorem off_lag_scale : forall w filter basis coefs s x v,
  (length filter + 4 = length basis)%nat -> length coefs = w -> s <> 0 -> off_five_lag w filter basis coefs = Some (Some x, Some v) ->
  off_five_lag w filter basis (map (fun q => s * q) coefs) = Some (Some x, Some (s * v)).
Proof.
  intros w filter basis coefs s x v L W S H.
  rewrite (off_five_lag_value w filter basis coefs) in H by (assumption || lia).
  rewrite (off_five_lag_value w filter basis (map (fun q => s * q) coefs)) by (rewrite ?map_length; assumption || lia).
  assert (M : forall j, lagged filter (modelled w basis (map (fun q => s * q) coefs)) j = s * lagged filter (modelled w basis coefs) j).
  { intros j. unfold lagged. rewrite <- qsum_scale. apply qsum_ext. intros k K.
    assert (E : forall i, nth i (modelled w basis (map (fun q => s * q) coefs)) 0 = s * nth i (modelled w basis coefs) 0).
    { intros i. unfold modelled. destruct (Nat.lt_ge_cases i (length basis)) as [I|I].
      - set (g := fun row : list Qc => qsum w (fun c => nth c row 0 * nth c (map (fun q => s * q) coefs) 0)).
        set (h := fun row : list Qc => qsum w (fun c => nth c row 0 * nth c coefs 0)).
        rewrite (nth_indep _ 0 (g [])) by (rewrite map_length; exact I). rewrite map_nth. rewrite (nth_indep _ 0 (h [])) by (rewrite map_length; exact I). rewrite map_nth.
        unfold g, h. rewrite <- qsum_scale. apply qsum_ext. intros c C.
        rewrite (nth_indep (map (fun q => s * q) coefs) 0 (s * 0)) by (rewrite map_length; lia). rewrite (map_nth (fun q => s * q)). ring.
      - rewrite !nth_overflow by (rewrite map_length; exact I). ring. }
    rewrite E. ring. }
  rewrite !M. clear M L W. revert H. generalize (lagged filter (modelled w basis coefs)). intros y. unfold parabola, vertex.
  set (a := y 0%nat * q70 10 + y 1%nat * q70 (-5) + y 2%nat * q70 (-10) + y 3%nat * q70 (-5) + y 4%nat * q70 10).
  set (b := y 0%nat * q70 (-14) + y 1%nat * q70 (-7) + y 3%nat * q70 7 + y 4%nat * q70 14).
  set (c := y 0%nat * q70 (-6) + y 1%nat * q70 24 + y 2%nat * q70 34 + y 3%nat * q70 24 + y 4%nat * q70 (-6)).
  replace (s * y 0%nat * q70 10 + s * y 1%nat * q70 (-5) + s * y 2%nat * q70 (-10) + s * y 3%nat * q70 (-5) + s * y 4%nat * q70 10) with (s * a) by (unfold a; ring).
  replace (s * y 0%nat * q70 (-14) + s * y 1%nat * q70 (-7) + s * y 3%nat * q70 7 + s * y 4%nat * q70 14) with (s * b) by (unfold b; ring).
  replace (s * y 0%nat * q70 (-6) + s * y 1%nat * q70 24 + s * y 2%nat * q70 34 + s * y 3%nat * q70 24 + s * y 4%nat * q70 (-6)) with (s * c) by (unfold c; ring).
  destruct (Qc_eq_dec a 0) as [A|A]; [discriminate|]. intros H. injection H as <- <-.
  destruct (Qc_eq_dec (s * a) 0) as [B|B]; [apply Qcmult_integral in B as [B|B]; contradiction|].
  f_equal. f_equal; f_equal; (field; repeat split; auto; try discriminate).
Qed.
Print Assumptions off_lag_scale.

(** Two basis elements, records of eight samples and a filter of four. *)
Example off_lag_instance :
  let filter := map qz [1; 2; 3; 1]%Z in
  let basis := map (map qz) [[1; 0]; [1; 0]; [1; 1]; [1; 5]; [1; 9]; [1; 7]; [1; 2]; [1; 1]]%Z in
  (length filter + 4 = length basis)%nat /\ match off_five_lag 2 filter basis (map qz [3; 2]%Z) with Some (Some x, Some v) => this x = (112 # 215)%Q | _ => False end.
Proof. split; [reflexivity|]. vm_compute. reflexivity. Qed.
