(** Property C12: correction of flux jumps. *)
From Coq Require Import ZArith QArith Qcanon List.
From Verif Require Import QcPre LagModel FluxModel FluxSpec FluxProofs.
Import ListNotations.
Local Open Scope Qc_scope.

(** Each value changes by whole quanta, the first not at all, and all results lie within one quantum. *)
Theorem flux_jumps_whole_quanta : forall vals g q out,
  0 < q -> correct_flux_jumps vals g q = Some out ->
  hd_error out = hd_error vals /\
  Forall2 (fun v w => exists k, w = v + quanta k q) vals out /\
  forall x y, In x out -> In y out -> x - y < q.
Proof. exact flux_quanta. Qed.
Print Assumptions flux_jumps_whole_quanta.

(** A baseline that varies by less than a quarter quantum is restored, if the values span at least one quantum. *)
Theorem flux_jumps_restored : forall vals g q base jumps out,
  0 < q -> correct_flux_jumps vals g q = Some out ->
  length base = length vals -> length jumps = length vals ->
  jumped base jumps q g vals -> steady base g (q / qz 4) ->
  (exists u v, In u vals /\ In v vals /\ q <= u - v) ->
  restored base g out.
Proof. exact flux_restores. Qed.
Print Assumptions flux_jumps_restored.

(** Values that span less than one quantum are returned as they are. *)
Theorem flux_jumps_unchanged : forall vals g q,
  vals <> [] -> (forall u v, In u vals -> In v vals -> u - v < q) -> correct_flux_jumps vals g q = Some vals.
Proof.
  intros [|v0 vals] g q Hne H; [contradiction|]. unfold correct_flux_jumps.
  destruct (spread (v0 :: vals)) as [s|] eqn:E; [|discriminate E].
  destruct (proj1 (spread_spec _ _ E)) as [hi [lo [Hhi [Hlo Es]]]]. specialize (H hi lo Hhi Hlo).
  destruct (qleb q s) eqn:L; [|reflexivity]. apply qleb_le in L. exfalso. rewrite Es in L. qlra.
Qed.
Print Assumptions flux_jumps_unchanged.

(** With at least one quantum, it raises only when the mask has another length or marks no value as good. *)
Theorem flux_jumps_raises : forall vals g q,
  correct_flux_jumps vals g q = None ->
  vals = [] \/ length g <> length vals \/ Forall (fun b => b = false) g.
Proof. exact flux_raises. Qed.
Print Assumptions flux_jumps_raises.

(** Without the last condition of [flux_jumps_restored] it is not restored: a jump by one quantum that leaves the range just below one quantum
    is kept. *)
Theorem flux_jumps_restored_refuted : exists vals g q base jumps out,
  0 < q /\ correct_flux_jumps vals g q = Some out /\
  length base = length vals /\ length jumps = length vals /\
  jumped base jumps q g vals /\ steady base g (q / qz 4) /\ ~ restored base g out.
Proof.
  exists [qz 1 / qz 10; 1], [true; true], 1, [qz 1 / qz 10; 0], [0; 1]%Z, [qz 1 / qz 10; 1].
  split; [reflexivity|]. split; [vm_compute; reflexivity|]. split; [reflexivity|]. split; [reflexivity|]. split; [|split].
  - intros [|[|i]] v; cbn; try (destruct i; discriminate).
    + intros [= <-] _. exists (qz 1 / qz 10), 0%Z. repeat split.
    + intros [= <-] _. exists 0, 1%Z. repeat split.
  - intros [|[|i]] [|[|j]] a b; cbn; try (destruct i; discriminate); try (destruct j; discriminate); intros _ _ [= <-] [= <-]; reflexivity.
  - intros H. specialize (H 0%nat 1%nat _ _ _ _ eq_refl eq_refl eq_refl eq_refl eq_refl eq_refl). discriminate.
Qed.
Print Assumptions flux_jumps_restored_refuted.

Example flux_instance :
  correct_flux_jumps (map qz [101; 99; 199; 302; 98; 650]%Z) [true; true; true; true; true; false] (qz 100)
  = Some (map qz [101; 99; 99; 102; 98; 150]%Z).
Proof. vm_compute. reflexivity. Qed.
Example flux_instance_hypotheses :
  jumped (map qz [101; 99; 99; 102; 98; 0]%Z) [0; 0; 1; 2; 0; 0]%Z (qz 100) [true; true; true; true; true; false]
         (map qz [101; 99; 199; 302; 98; 650]%Z) /\
  steady (map qz [101; 99; 99; 102; 98; 0]%Z) [true; true; true; true; true; false] (qz 100 / qz 4).
Proof.
  split.
  - intros [|[|[|[|[|[|i]]]]]] v; cbn; try discriminate; try (destruct i; discriminate); intros [= <-] _; eexists _, _; (split; [reflexivity|]); (split; [reflexivity|]); vm_compute; reflexivity.
  - intros [|[|[|[|[|[|i]]]]]] [|[|[|[|[|[|j]]]]]] a b; cbn; try discriminate; try (destruct i; discriminate); try (destruct j; discriminate); intros _ _ [= <-] [= <-]; reflexivity.
Qed.
Example flux_unchanged_instance : correct_flux_jumps (map qz [5; 7; 9]%Z) [] (qz 5) = Some (map qz [5; 7; 9]%Z) /\
  correct_flux_jumps (map qz [5; 7; 19]%Z) [false; false; false] (qz 5) = None.
Proof. split; vm_compute; reflexivity. Qed.
