(** C34: fit ranges contain their lines and do not overlap. *)
From Coq Require Import ZArith QArith Qcanon List.
From Verif Require Import QcPre QSort LagModel FitModel FitSpec FitProofs.
Import ListNotations.
Local Open Scope Qc_scope.

(** The call succeeds exactly if no two of the lines, included or excluded, have the same
    energy. *)
Theorem fit_ranges_succeed {A : Type} (energy : A -> Qc) d lines excluded width :
  build_fit_ranges energy d lines excluded width <> None <-> NoDup (map energy (lines ++ excluded)).
Proof. exact (fit_ranges_distinct energy d lines excluded width). Qed.
Print Assumptions fit_ranges_succeed.

(** Each range is exactly the set of energies that are within half the width of its line and
    not closer to any other line. *)
Theorem fit_ranges_exact {A : Type} (energy : A -> Qc) d lines excluded width es ranges slopes :
  build_fit_ranges energy d lines excluded width = Some (es, ranges, slopes) ->
  es = qsort (map energy lines) /\ slopes = map d es /\ length ranges = length es /\
  forall i, (i < length es)%nat -> forall x,
    fst (nth i ranges (0, 0)) <= x <= snd (nth i ranges (0, 0)) <->
    nearby (map energy (lines ++ excluded)) (width / qz 2) (nth i es 0) x.
Proof. exact (fit_ranges_all energy d lines excluded width es ranges slopes). Qed.
Print Assumptions fit_ranges_exact.

Theorem fit_ranges_contain_line {A : Type} (energy : A -> Qc) d lines excluded width es ranges slopes :
  build_fit_ranges energy d lines excluded width = Some (es, ranges, slopes) -> 0 <= width ->
  forall i, (i < length es)%nat -> let '(lo, hi) := nth i ranges (0, 0) in let e := nth i es 0 in
    lo <= e <= hi /\ e - lo <= width / qz 2 /\ hi - e <= width / qz 2.
Proof. exact (fit_ranges_contain energy d lines excluded width es ranges slopes). Qed.
Print Assumptions fit_ranges_contain_line.

(** Ranges of different lines have at most an end point in common. *)
Theorem fit_ranges_do_not_overlap {A : Type} (energy : A -> Qc) d lines excluded width es ranges slopes :
  build_fit_ranges energy d lines excluded width = Some (es, ranges, slopes) -> 0 <= width ->
  forall i j, (i < j < length es)%nat -> snd (nth i ranges (0, 0)) <= fst (nth j ranges (0, 0)).
Proof. exact (fit_ranges_disjoint energy d lines excluded width es ranges slopes). Qed.
Print Assumptions fit_ranges_do_not_overlap.

(** Any other line, excluded ones as well, is outside the range, beyond its end by at least the
    distance of that end from the range's own line. *)
Theorem fit_ranges_avoid {A : Type} (energy : A -> Qc) d lines excluded width es ranges slopes :
  build_fit_ranges energy d lines excluded width = Some (es, ranges, slopes) -> 0 <= width ->
  forall i y, (i < length es)%nat -> In y (map energy (lines ++ excluded)) ->
    let '(lo, hi) := nth i ranges (0, 0) in let e := nth i es 0 in
    (y < e -> e - lo <= lo - y) /\ (e < y -> hi - e <= y - hi).
Proof. exact (fit_ranges_between energy d lines excluded width es ranges slopes). Qed.
Print Assumptions fit_ranges_avoid.

(** The same in pulse heights, for a calibration that is monotone. *)
Theorem fit_ranges_ph {A : Type} (energy : A -> Qc) d f lines excluded width es ranges slopes :
  build_fit_ranges_ph energy d f lines excluded width = Some (es, ranges, slopes) -> 0 <= width ->
  (forall x y, x <= y -> f x <= f y) ->
  (forall i, (i < length es)%nat -> fst (nth i ranges (0, 0)) <= f (nth i es 0) <= snd (nth i ranges (0, 0))) /\
  (forall i j, (i < j < length es)%nat -> snd (nth i ranges (0, 0)) <= fst (nth j ranges (0, 0))).
Proof. exact (fit_ranges_ph_map energy d f lines excluded width es ranges slopes). Qed.
Print Assumptions fit_ranges_ph.

(** With a negative width the "range" does not contain its line. *)
Theorem fit_ranges_negative_refuted : exists (lines : list Qc) width es ranges slopes,
  build_fit_ranges (fun e => e) (fun _ => 1) lines [] width = Some (es, ranges, slopes) /\
  (0 < length es)%nat /\ ~ (fst (nth 0 ranges (0, 0)) <= nth 0 es 0 <= snd (nth 0 ranges (0, 0))).
Proof.
  exists [qz 5], (qz (-2)).
  destruct (build_fit_ranges (fun e => e) (fun _ => 1) [qz 5] [] (qz (-2))) as [[[es rs] ss]|] eqn:E;
    [|exfalso; vm_compute in E; discriminate E].
  exists es, rs, ss. split; [reflexivity|].
  pose proof (f_equal (option_map (fun t => (map this (fst (fst t)), map (fun r => (this (fst r), this (snd r))) (snd (fst t))))) E) as F.
  vm_compute in F. destruct es as [|e es]; [discriminate F|]. destruct rs as [|r rs]; [discriminate F|].
  injection F as F1 _ F2 F3 _. split; [apply Nat.lt_0_succ|].
  change (5%Q = this e) in F1. change (6%Q = this (fst r)) in F2.
  cbn [nth]. unfold Qcle. rewrite <- F1, <- F2. intros [C _]. vm_compute in C. apply C. reflexivity.
Qed.
Print Assumptions fit_ranges_negative_refuted.

(** Lines at 110, 100 and 130, an excluded one at 104, width 20. *)
Example fit_ranges_instance :
  option_map (fun t => (map this (fst (fst t)), map (fun r => (this (fst r), this (snd r))) (snd (fst t))))
    (build_fit_ranges qz (fun _ => 1) [110; 100; 130]%Z [104]%Z (qz 20))
  = Some ([100; 110; 130]%Q, [(90, 102); (107, 120); (120, 140)]%Q).
Proof. vm_compute. reflexivity. Qed.
Example fit_ranges_same_energy :
  build_fit_ranges qz (fun _ => 1) [110; 100]%Z [100]%Z (qz 20) = None.
Proof. vm_compute. reflexivity. Qed.
