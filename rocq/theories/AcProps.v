(** C51 and C63: auto_cuts and apply_cuts. *)
From Coq Require Import ZArith NArith QArith Qcanon Bool String Permutation List.
From Verif Require Import QcPre CutModel CutSpec CutProofs CutMaskProofs CutHistProofs CutRefute HistModel DerModel AvgSpec XtModel AcModel AcSpec AcProofs.
Import ListNotations.
Local Open Scope list_scope.

(** C63. apply_cuts adds to each of its fields exactly the pulses whose quantity fails the limits;
    the last field compares with the median over the pulses good so far; other fields are only
    cleared, if asked; categories stay. *)
Theorem apply_cuts_exact : forall ops tb p ctl clear ws,
  let r := run ops init_registry in
  (forall f, In f (departure_field :: plain_fields) -> registered r f) -> ws <> [] -> sized p (length ws) ->
  let c := match ctl with Some c => c | None => standard_control end in
  usable_controls c ->
  exists ws', apply_cuts r tb p ctl clear ws = Some ws' /\ length ws' = length ws /\
    (forall i n a x, (i < length ws)%nat -> quantity tb p c i n a x ->
       (cut_by r n ws' i <-> (clear = false /\ cut_by r n ws i) \/ outside a x)) /\
    (exists l m, picked (good_before r clear ws ws') 0 (pretrig_mean p) l /\ (l <> [] -> middle l m) /\
       forall i x, nth_error (pretrig_mean p) i = Some x ->
       (cut_by r departure_field ws' i <->
        (clear = false /\ cut_by r departure_field ws i) \/ (l <> [] /\ outside (c_departure c) (xsub x m)))) /\
    (forall n i, registered r n -> ~ In n (departure_field :: plain_fields) ->
       (cut_by r n ws' i <-> clear = false /\ cut_by r n ws i)) /\
    (forall h, category_codes r h ws' = category_codes r h ws).
Proof. intros ops tb p ctl clear ws r. apply apply_cuts_ok, run_winv, init_winv. Qed.
Print Assumptions apply_cuts_exact.

(** C63. Every field but the last has one quantity per pulse. *)
Theorem apply_cuts_quantities : forall tb p c n i, sized p n -> (i < n)%nat -> forall f, In f plain_fields ->
  exists a x, quantity tb p c i f a x.
Proof. exact quantity_values. Qed.
Print Assumptions apply_cuts_quantities.

Theorem apply_cuts_fields : forall f, In f (departure_field :: plain_fields) -> registered init_registry f.
Proof. exact builtin_registered. Qed.
Print Assumptions apply_cuts_fields.

Definition three_pulses : quantities :=
  mkQuant [Fin 0; Fin 0; Fin 0] [Fin 1; Fin 13; Fin 2] [Fin 100; Fin 100; Fin 160] [Fin 0; Fin 0; Fin 0] [Fin (1 # 10000); Fin (1 # 10000); Fin (1 # 10000)]
          [Fin 1; Fin 1; NaN] [Fin 1; Fin 1; Fin 1] [Fin 1; Fin 1; Fin 1] [Fin 100; Fin 100; Fin 160] [Fin 1; Fin 2; Fin 3] [Fin 1; Fin 1; Fin 1].
Example apply_cuts_instance :
  apply_cuts init_registry 1 three_pulses None false [0; 0; 0]%N = Some [0; 1; 0]%N /\
  sized three_pulses 3 /\ usable_controls standard_control.
Proof. split; [vm_compute; reflexivity|]. split; unfold sized, usable_controls; cbn; tauto. Qed.

(** C63. The limits used when none are given. *)
Theorem apply_cuts_standard : forall ops tb p ws,
  let r := run ops init_registry in
  (forall f, In f (departure_field :: plain_fields) -> registered r f) -> ws <> [] -> sized p (length ws) ->
  exists ws' l m, apply_cuts r tb p None true ws = Some ws' /\ picked (good_before r true ws ws') 0 (pretrig_mean p) l /\
    (l <> [] -> middle l m) /\ standard_limits r p l m ws'.
Proof. intros ops tb p ws r. apply standard_ok, run_winv, init_winv. Qed.
Print Assumptions apply_cuts_standard.

(** C51. A pulse passes exactly if its peak time, rise time, pretrigger rms and postpeak derivative are
    inside the limits. *)
Theorem auto_cuts_exact : forall ops tb p l force s,
  let r := run ops init_registry in
  (forall f, In f (departure_field :: plain_fields) -> registered r f) -> c_masks s <> [] -> sized p (length (c_masks s)) ->
  saved s = None \/ force = true ->
  exists s', auto_cuts r tb p (Some l) force true s = Some s' /\ length (c_masks s') = length (c_masks s) /\
    saved s' = Some (auto_controls l) /\
    (forall h, category_codes r h (c_masks s') = category_codes r h (c_masks s)) /\
    forall i pt rt rms dv, nth_error (peak_time p) i = Some (Fin pt) -> nth_error (rise_time p) i = Some (Fin rt) ->
      nth_error (pretrig_rms p) i = Some (Fin rms) -> nth_error (postpeak_deriv p) i = Some (Fin dv) ->
      (is_good r (c_masks s') i <->
       (0 < 1000 * pt < l_peak l)%Q /\ (0 < 1000 * rt < l_rise l)%Q /\ (rms < l_pt l)%Q /\ (dv < l_md l)%Q).
Proof. intros ops tb p l force s r. apply auto_cuts_ok, run_winv, init_winv. Qed.
Print Assumptions auto_cuts_exact.

(** C51. The limits: the one for the pretrigger rms comes from the median and the median absolute
    deviation over all noise records, the one for the derivative from the last record. *)
Theorem auto_cuts_limits : forall std noise last npre ps np tb a b pctl, (7 <= length last)%nat ->
  exists l m d v, auto_limits std (noise ++ [last]) npre ps np tb a b pctl = Some l /\
    is_mad (map (fun r => std (firstn npre r)) (noise ++ [last])) m d /\
    default_deriv last v /\ l_md l = v /\
    l_pt l = match pctl with Some x => maxq (maxq 0 (m + d * Q2Qc (7413 # 5000) * a)) x | None => maxq 0 (m + d * Q2Qc (7413 # 5000) * a)%Qc end /\
    l_peak l = (Q2Qc (inject_Z (ps + 3 - np)) * tb * Q2Qc 1250)%Qc /\ l_rise l = (Q2Qc (inject_Z (ps + 3 - np)) * tb * Q2Qc 1100)%Qc.
Proof. exact auto_limits_ok. Qed.
Print Assumptions auto_cuts_limits.

(** C51. The order of the noise records does not matter for the pretrigger limit. *)
Theorem auto_cuts_limits_order : forall std noise noise' npre ps np tb a b pctl l l',
  Permutation noise noise' -> Forall (fun r => 7 <= length r)%nat noise ->
  auto_limits std noise npre ps np tb a b pctl = Some l -> auto_limits std noise' npre ps np tb a b pctl = Some l' ->
  l_pt l = l_pt l'.
Proof. exact limits_permuted. Qed.
Print Assumptions auto_cuts_limits_order.

(** C51. The derivative limit depends on the last record alone, not even on nsigma_max_deriv. *)
Theorem auto_cuts_deriv_last : forall std std' n n' last npre npre' ps np tb a b pctl ps' np' tb' a' b' pctl' l l',
  (7 <= length last)%nat ->
  auto_limits std (n ++ [last]) npre ps np tb a b pctl = Some l ->
  auto_limits std' (n' ++ [last]) npre' ps' np' tb' a' b' pctl' = Some l' -> l_md l = l_md l'.
Proof. exact deriv_limit_last. Qed.
Print Assumptions auto_cuts_deriv_last.

(** C51. So a noise file with large derivatives in an earlier record gives the limits of a flat one. *)
Theorem auto_cuts_all_records_refuted : exists std noise noise' l,
  default_deriv (nth 0 noise' []) (XtModel.q 10) /\
  length noise = 2%nat /\ length noise' = 2%nat /\ nth 0 noise [] <> nth 0 noise' [] /\
  (forall npre, (npre <= 2)%nat -> map (fun d => std (firstn npre d)) noise = map (fun d => std (firstn npre d)) noise') /\
  (forall a b, auto_limits std noise 2 5 2 1 a b None = Some (l a) /\ auto_limits std noise' 2 5 2 1 a b None = Some (l a)) /\
  (forall a, l_md (l a) = 0%Qc).
Proof. exact all_records_refuted. Qed.
Print Assumptions auto_cuts_all_records_refuted.

(** C51. The upper limits read back from the file are those applied. *)
Theorem auto_cuts_reload : forall ops tb p l force s s',
  let r := run ops init_registry in
  (forall f, In f (departure_field :: plain_fields) -> registered r f) -> c_masks s <> [] -> sized p (length (c_masks s)) ->
  saved s = None \/ force = true -> auto_cuts r tb p (Some l) force true s = Some s' ->
  exists ws1, apply_cuts r tb p (saved (load_auto_cuts s')) true (c_masks s) = Some ws1 /\
    forall i pt rt rms dv, nth_error (peak_time p) i = Some (Fin pt) -> nth_error (rise_time p) i = Some (Fin rt) ->
      nth_error (pretrig_rms p) i = Some (Fin rms) -> nth_error (postpeak_deriv p) i = Some (Fin dv) ->
      (is_good r ws1 i <-> (1000 * pt < l_peak l)%Q /\ (1000 * rt < l_rise l)%Q /\ (rms < l_pt l)%Q /\ (dv < l_md l)%Q).
Proof. intros ops tb p l force s s' r. apply reload_ok, run_winv, init_winv. Qed.
Print Assumptions auto_cuts_reload.

(** C51. The limits read back from the file are not those applied: the lower limits are lost. *)
Theorem auto_cuts_reload_refuted : exists p l s s',
  auto_cuts init_registry 1 p (Some l) false true s = Some s' /\
  saved (load_auto_cuts s') <> saved s' /\
  exists w, apply_cuts init_registry 1 p (saved s') true (c_masks s) = Some (c_masks s') /\
            apply_cuts init_registry 1 p (saved (load_auto_cuts s')) true (c_masks s) = Some w /\
            is_good init_registry w 0 /\ ~ is_good init_registry (c_masks s') 0.
Proof. exact reload_refuted. Qed.
Print Assumptions auto_cuts_reload_refuted.

Definition ramp : list Qc := map XtModel.q [0; 1; 2; 3; 4; 5; 6; 7; 8; 9]%Z.
Example auto_cuts_instance :
  match auto_limits (fun d => nth 1 d 0%Qc) [map XtModel.q [3; 3; 3; 3; 3; 3; 3; 3; 3; 3]%Z; ramp; ramp] 2 8 3 (Q2Qc (1 # 1000)) (XtModel.q 8) (XtModel.q 8) None with
  | Some l => this (l_pt l) = 1%Q /\ this (l_md l) = 1%Q /\ this (l_peak l) = 10%Q
  | None => False
  end.
Proof. vm_compute. auto. Qed.
