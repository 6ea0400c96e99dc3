(** Property C09: nearest trigger times. *)
From Coq Require Import ZArith List Lia.
From Verif Require Import ArrModel ArrSpec ArrProofs.
Import ListNotations.
Local Open Scope Z_scope.

(** Two or more triggers: every row is right, ties included. *)
Theorem nearest_arrivals_correct : forall ps a b ts,
  ps <> [] -> ascending ps -> ascending (a :: b :: ts) ->
  exists rows, nearest_arrivals ps (a :: b :: ts) = Pair rows /\
    Forall2 (fun pt row => since_last max_value (a :: b :: ts) pt (fst row) /\
                           until_next max_value (a :: b :: ts) pt (snd row)) ps rows.
Proof. exact nearest_ok. Qed.
Print Assumptions nearest_arrivals_correct.

(** No trigger. *)
Theorem nearest_arrivals_no_trigger : forall ps,
  ps <> [] -> exists rows, nearest_arrivals ps [] = Pair rows /\
    Forall2 (fun pt row => since_last max_value [] pt (fst row) /\ until_next max_value [] pt (snd row)) ps rows.
Proof. exact nearest_none. Qed.
Print Assumptions nearest_arrivals_no_trigger.

(** One trigger: right for the pulses after it; for any other the time since the trigger is reported as missing
    and the time until it as 0. *)
Theorem nearest_arrivals_one_trigger : forall ps a,
  ps <> [] -> exists rows, nearest_arrivals ps [a] = Pair rows /\
    Forall2 (fun pt row =>
      (a < pt -> since_last max_value [a] pt (fst row) /\ until_next max_value [a] pt (snd row)) /\
      (pt <= a -> row = (max_value, 0))) ps rows.
Proof. exact nearest_one. Qed.
Print Assumptions nearest_arrivals_one_trigger.

(** So it is wrong for a pulse before the trigger. *)
Theorem nearest_arrivals_one_trigger_refuted : exists ps a rows,
  ascending ps /\ nearest_arrivals ps [a] = Pair rows /\
  ~ Forall2 (fun pt row => since_last max_value [a] pt (fst row) /\ until_next max_value [a] pt (snd row)) ps rows.
Proof. exact nearest_one_refuted. Qed.
Print Assumptions nearest_arrivals_one_trigger_refuted.

(** The Python version, documented as identical, agrees when no pulse coincides with a trigger ... *)
Theorem nearest_arrivals_versions_agree : forall ps a b ts,
  ps <> [] -> ascending ps -> ascending (a :: b :: ts) -> (forall p, In p ps -> ~ In p (a :: b :: ts)) ->
  exists rows rows', nearest_arrivals ps (a :: b :: ts) = Pair rows /\
    python_nearest_arrivals ps (a :: b :: ts) = Some rows' /\ Forall2 (same_row max_value) rows rows'.
Proof. exact versions_agree. Qed.
Print Assumptions nearest_arrivals_versions_agree.

(** ... and differs on ties. *)
Theorem nearest_arrivals_versions_agree_refuted : exists ps ts rows rows',
  ascending ps /\ ascending ts /\ (2 <= length ts)%nat /\
  nearest_arrivals ps ts = Pair rows /\ python_nearest_arrivals ps ts = Some rows' /\ ~ Forall2 (same_row max_value) rows rows'.
Proof. exact versions_differ. Qed.
Print Assumptions nearest_arrivals_versions_agree_refuted.

Example arrivals_instance :
  nearest_arrivals [1; 5; 5; 9; 20] [5; 8; 8; 12] =
  Pair [(max_value, 4); (0, 3); (0, 3); (1, 3); (8, max_value)].
Proof. reflexivity. Qed.

(** The hypotheses of the theorems above are met by this data (repeated triggers and pulses). *)
Example arrivals_hypotheses : [1; 5; 5; 9; 20] <> [] /\ ascending [1; 5; 5; 9; 20] /\ ascending [5; 8; 8; 12].
Proof. split; [discriminate|]. rewrite !asc_cons. cbn. repeat split; intros; try lia; intros i j x y _ Hx; destruct i; discriminate. Qed.
Example arrivals_agree_instance :
  nearest_arrivals [1; 6; 20] [5; 8] = Pair [(max_value, 4); (1, 2); (12, max_value)] /\
  python_nearest_arrivals [1; 6; 20] [5; 8] = Some [(None, Some 4); (Some 1, Some 2); (Some 12, None)].
Proof. split; reflexivity. Qed.
Example arrivals_one_trigger_instance : nearest_arrivals [7; 8] [5] = Pair [(2, max_value); (3, max_value)].
Proof. reflexivity. Qed.
