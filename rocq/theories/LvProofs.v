(** Lemmas about the vectors of LJH channels. *)
From Coq Require Import String Bool ZArith QArith Qcanon Lia List.
From Verif Require Import LvModel LvSpec.
Import ListNotations.
Local Open Scope string_scope.
Local Open Scope list_scope.
Local Open Scope nat_scope.
Local Notation length := List.length.

Lemma get_app {A} (a b : list (string * A)) k : get (a ++ b) k = match get a k with Some v => Some v | None => get b k end.
Proof. induction a as [|[x v] a IH]; cbn; [reflexivity|]. destruct (String.eqb x k); [reflexivity|exact IH]. Qed.
Lemma get_set {A} (d : list (string * A)) k v x : get (set d k v) x = if String.eqb k x then Some v else get d x.
Proof.
  induction d as [|[y w] d IH]; cbn; [reflexivity|]. destruct (String.eqb_spec y k) as [->|N]; cbn; [destruct (String.eqb k x); reflexivity|].
  rewrite IH. destruct (String.eqb_spec y x) as [->|]; [|reflexivity]. destruct (String.eqb_spec k x) as [->|]; [contradiction|reflexivity].
Qed.
Lemma get_remove (h : sets) k x : get (remove h k) x = if String.eqb k x then None else get h x.
Proof.
  unfold remove. induction h as [|[y w] d IH]; cbn; [now destruct (String.eqb k x)|]. destruct (String.eqb_spec y k) as [->|N]; cbn; rewrite IH; [destruct (String.eqb k x); reflexivity|].
  destruct (String.eqb_spec y x) as [->|]; [|reflexivity]. destruct (String.eqb_spec k x) as [->|]; [contradiction|reflexivity].
Qed.
Lemma has_get {A} (d : list (string * A)) k : has d k = true <-> get d k <> None.
Proof. unfold has. destruct (get d k); split; intros; congruence. Qed.

Definition field_of (l : list field) (k : string) : option (dtype * nat) := get (map (fun f => (fst (fst f), (snd (fst f), snd f))) l) k.
Definition names (l : list field) : list string := map (fun f => fst (fst f)) l.
Lemma field_of_none l k : field_of l k = None <-> ~ In k (names l).
Proof.
  unfold field_of, names. induction l as [|[[x t] n] l IH]; cbn; [tauto|]. destruct (String.eqb_spec x k) as [->|N]; [split; [discriminate|intros H; exfalso; apply H; now left]|].
  rewrite IH. split; [intros H [E|I]; [congruence|tauto]|tauto].
Qed.
Lemma field_of_in l k t n : NoDup (names l) -> field_of l k = Some (t, n) <-> In (k, t, n) l.
Proof.
  intros ND. unfold field_of. induction l as [|[[x t'] n'] l IH]; cbn; [split; [discriminate|tauto]|]. cbn in ND. inversion ND as [|? ? N1 N2]; subst. destruct (String.eqb_spec x k) as [->|N].
  - split; [intros E; injection E as -> ->; now left|]. intros [E|I]; [injection E as -> ->; reflexivity|]. exfalso. apply N1. unfold names. apply in_map_iff. exists (k, t, n). auto.
  - rewrite (IH N2). split; [now right|]. intros [E|I]; [congruence|exact I].
Qed.
Definition fill (l : list field) (k : string) : option dataset := option_map (fun p => blank (fst p) (snd p)) (field_of l k).
Definition adds (h h' : sets) (l : list field) : Prop := forall k, get h' k = match get h k with Some d => Some d | None => fill l k end.
Definition fine (h : sets) (f : field) : bool :=
  match get h (fst (fst f)) with None => true | Some d => Nat.eqb (length (vals d)) (snd f) && can_cast (snd (fst f)) (dtyp d) end.
Lemma fine_compatible h l : forallb (fine h) l = true <-> compatible h l.
Proof.
  rewrite forallb_forall. unfold compatible, fine, stands. split.
  - intros H k t n d I G. specialize (H _ I). cbn in H. rewrite G in H. apply andb_true_iff in H as [H1 H2]. apply Nat.eqb_eq in H1. auto.
  - intros H [[k t] n] I. cbn. destruct (get h k) as [d|] eqn:G; [|reflexivity]. destruct (H k t n d I G) as [-> ->]. now rewrite Nat.eqb_refl.
Qed.
Lemma require_all_kept l : forall h h' ok, require_all h l = (h', ok) -> kept h h'.
Proof.
  induction l as [|[[k t] n] l IH]; cbn; intros h h' ok E; [injection E as <- _; red; auto|]. unfold require in E. destruct (get h k) as [d|] eqn:G.
  - destruct (_ && _)%bool; [eapply IH, E|injection E as <- _; red; auto].
  - apply IH in E. intros x d X. apply E. rewrite get_app, X. reflexivity.
Qed.
Lemma require_all_spec l : NoDup (names l) -> forall h, exists h', require_all h l = (h', forallb (fine h) l) /\ (forallb (fine h) l = true -> adds h h' l).
Proof.
  induction l as [|[[k t] n] l IH]; intros ND h.
  - exists h. split; [reflexivity|]. intros _ x. unfold fill. cbn. now destruct (get h x).
  - cbn in ND. inversion ND as [|? ? N1 N2]; subst. specialize (IH N2).
    assert (S : forall h' d, get h' k = Some d -> (forall x, x <> k -> get h' x = get h x) -> forallb (fine h') l = forallb (fine h) l).
    { intros h' d G X. clear IH ND N2. induction l as [|[[x t'] n'] l IH]; [reflexivity|]. cbn [forallb]. rewrite IH by (intros I; apply N1; now right). f_equal. unfold fine. cbn. rewrite X; [reflexivity|]. intros ->. apply N1. now left. }
    cbn [require_all forallb]. assert (FK : fine h (k, t, n) = match get h k with None => true | Some d => Nat.eqb (length (vals d)) n && can_cast t (dtyp d) end) by reflexivity. unfold require. rewrite FK. clear FK. destruct (get h k) as [d|] eqn:G.
    + destruct (Nat.eqb (length (vals d)) n && can_cast t (dtyp d))%bool eqn:F; cbn [andb].
      * destruct (IH h) as (h' & E1 & E2). exists h'. split; [exact E1|]. intros A x. rewrite (E2 A x). destruct (get h x) eqn:X; [reflexivity|]. unfold fill, field_of. cbn. destruct (String.eqb_spec k x) as [->|]; [congruence|reflexivity].
      * exists h. split; [reflexivity|discriminate].
    + cbn [andb]. destruct (IH (h ++ [(k, blank t n)])) as (h' & E1 & E2). assert (Q : forall x, get (h ++ [(k, blank t n)]) x = match get h x with Some d => Some d | None => if String.eqb k x then Some (blank t n) else None end) by (intros x; now rewrite get_app).
      rewrite (S _ (blank t n)) in E1, E2; [|rewrite Q, G, String.eqb_refl; reflexivity|intros x N; rewrite Q; destruct (get h x); [reflexivity|]; destruct (String.eqb_spec k x); [congruence|reflexivity]..|rewrite Q, G, String.eqb_refl; reflexivity|intros x N; rewrite Q; destruct (get h x); [reflexivity|]; destruct (String.eqb_spec k x); [congruence|reflexivity]].
      exists h'. split; [exact E1|]. intros A x. rewrite (E2 A x), Q. destruct (get h x) eqn:X; [reflexivity|]. unfold fill, field_of. cbn. destruct (String.eqb k x); reflexivity.
Qed.
Lemma adds_filled l h h' k : NoDup (names l) -> adds h h' l -> filled l h h' k.
Proof.
  intros ND A. split; [|split].
  - intros d G. now rewrite (A k), G.
  - intros t n I G. rewrite (A k), G. unfold fill. rewrite (proj2 (field_of_in l k t n ND) I). cbn. eexists. split; [reflexivity|]. cbn. rewrite repeat_length. repeat split; try reflexivity. apply Forall_forall. intros x X. now apply repeat_spec in X.
  - intros G N. rewrite (A k), G. unfold fill. destruct (field_of l k) as [[t n]|] eqn:F; [|reflexivity]. apply field_of_in in F; [|exact ND]. destruct (N t n F).
Qed.

(** * All vectors of a channel *)
Lemma wanted_parts c n m : wanted c n m = pulse_fields n ++ [(c, I64, n)] ++ other_fields m.
Proof. reflexivity. Qed.
Lemma wanted_nodup c n m : c = "rowcount" \/ c = "subframecount" -> NoDup (names (wanted c n m)).
Proof. intros [-> | ->]; cbn; repeat (apply NoDup_cons; [cbn; intros I; repeat (destruct I as [I|I]; [discriminate I|]); exact I|]); constructor. Qed.
Lemma names_same c n m n' m' : names (wanted c n m) = names (wanted c n' m').
Proof. reflexivity. Qed.
Lemma require_all_app l1 : forall l2 h, require_all h (l1 ++ l2) = let '(h1, ok) := require_all h l1 in if ok then require_all h1 l2 else (h1, false).
Proof. induction l1 as [|[[k t] n] l1 IH]; intros l2 h; cbn; [destruct (require_all h l2); reflexivity|]. destruct (require h k t n); [apply IH|reflexivity]. Qed.
Lemma called_counter h : called h (counter h).
Proof. unfold called, counter, has. destruct (get h "rowcount"); [left; split; congruence|right; auto]. Qed.
Lemma called_one h c c' : called h c -> called h c' -> c = c'.
Proof. intros [[-> A]|[-> A]] [[-> B]|[-> B]]; congruence. Qed.
Lemma called_names h c : called h c -> c = "rowcount" \/ c = "subframecount".
Proof. intros [[-> _]|[-> _]]; auto. Qed.
Lemma nodup_firsts (l1 l2 : list field) : NoDup (names (l1 ++ l2)) -> NoDup (names l1).
Proof. unfold names. rewrite map_app. intros H. induction (map (fun f : field => fst (fst f)) l1) as [|a l IH]; [constructor|]. cbn in H. inversion H; subst. constructor; [intros I; apply H2, in_app_iff; now left|now apply IH]. Qed.

Lemma setup_as_one h n m : exists h1, require_all h (wanted (counter h) n m) = (h1, forallb (fine h) (wanted (counter h) n m)) /\
  (forallb (fine h) (wanted (counter h) n m) = true -> adds h h1 (wanted (counter h) n m)) /\
  setup_vectors h n m = if forallb (fine h) (wanted (counter h) n m) then setup_mask h1 n else (h1, false).
Proof.
  pose proof (wanted_nodup (counter h) n m (called_names _ _ (called_counter h))) as ND.
  destruct (require_all_spec _ ND h) as (h1 & E & A). exists h1. split; [exact E|]. split; [exact A|].
  rewrite wanted_parts in E, ND |- *. revert E. generalize (forallb (fine h) (pulse_fields n ++ [(counter h, I64, n)] ++ other_fields m)). intros b E. rewrite require_all_app in E. unfold setup_vectors. destruct (require_all_spec (pulse_fields n) (nodup_firsts _ _ ND) h) as (h2 & E2 & A2). rewrite E2 in *.
  destruct (forallb (fine h) (pulse_fields n)) eqn:F; cbn [negb].
  - assert (C : counter h2 = counter h). { unfold counter, has. rewrite (A2 eq_refl "rowcount"). destruct (get h "rowcount"); reflexivity. }
    rewrite C. rewrite require_all_app in E. destruct (require_all h2 [(counter h, I64, n)]) as [h3 ok3]. destruct ok3; cbn [negb].
    + destruct (require_all h3 (other_fields m)) as [h4 ok4]. injection E as -> ->. destruct b; reflexivity.
    + injection E as -> <-. reflexivity.
  - injection E as -> <-. reflexivity.
Qed.
Lemma mask_apart c n m t x : c = "rowcount" \/ c = "subframecount" -> ~ In ("cuts/mask", t, x) (wanted c n m).
Proof. intros [-> | ->] I; cbn in I; repeat (destruct I as [I|I]; [discriminate I|]); exact I. Qed.

Lemma mask_new h n : get h "cuts/mask" = None -> setup_mask h n = (h ++ [("cuts/mask", blank U32 n)], true).
Proof. intros G. unfold setup_mask, require. now rewrite G. Qed.
Lemma mask_old h n d : get h "cuts/mask" = Some d -> stands d U32 n -> setup_mask h n = (h, true).
Proof. intros G [L C]. unfold setup_mask, require. rewrite G, L, Nat.eqb_refl, C. reflexivity. Qed.
Lemma mask_signed h n d : get h "cuts/mask" = Some d -> ~ stands d U32 n -> stands d I32 n ->
  setup_mask h n = (remove h "cuts/mask" ++ [("cuts/mask", mkSet U32 (map unsigned (vals d)))], true).
Proof.
  intros G NS [L C]. unfold setup_mask, require. rewrite G, L, Nat.eqb_refl, C. destruct (can_cast U32 (dtyp d)) eqn:Q; [destruct NS; split; assumption|]. reflexivity.
Qed.
Lemma mask_bad h n d : get h "cuts/mask" = Some d -> ~ stands d U32 n -> ~ stands d I32 n -> setup_mask h n = (h, false).
Proof.
  intros G N1 N2. unfold setup_mask, require. rewrite G. unfold stands in *. destruct (Nat.eqb_spec (length (vals d)) n) as [L|L]; [|reflexivity]. cbn [andb].
  destruct (can_cast U32 (dtyp d)); [tauto|]. destruct (can_cast I32 (dtyp d)); [tauto|reflexivity].
Qed.

Definition stands_b (d : dataset) (t : dtype) (n : nat) : bool := Nat.eqb (length (vals d)) n && can_cast t (dtyp d).
Lemma stands_b_spec d t n : stands_b d t n = true <-> stands d t n.
Proof. unfold stands_b, stands. rewrite andb_true_iff, Nat.eqb_eq. reflexivity. Qed.
Lemma stands_dec d t n : {stands d t n} + {~ stands d t n}.
Proof. destruct (stands_b d t n) eqn:E; [left; now apply stands_b_spec|right; rewrite <- stands_b_spec; congruence]. Qed.

Lemma setup_ok h n m c : called h c -> compatible h (wanted c n m) -> mask_usable h n -> exists h', setup_vectors h n m = (h', true) /\
  (forall k, k <> "cuts/mask" -> filled (wanted c n m) h h' k) /\
  (get h "cuts/mask" = None -> get h' "cuts/mask" = Some (blank U32 n)) /\
  (forall d, get h "cuts/mask" = Some d -> stands d U32 n -> get h' "cuts/mask" = Some d) /\
  (forall d, get h "cuts/mask" = Some d -> ~ stands d U32 n -> get h' "cuts/mask" = Some (mkSet U32 (map unsigned (vals d)))).
Proof.
  intros CA CO MU. rewrite (called_one _ _ _ CA (called_counter h)) in *. clear CA. destruct (setup_as_one h n m) as (h1 & _ & A & E). apply fine_compatible in CO. rewrite CO in E. specialize (A CO). rewrite E.
  pose proof (called_names _ _ (called_counter h)) as CN. pose proof (wanted_nodup (counter h) n m CN) as ND.
  assert (M : get h1 "cuts/mask" = get h "cuts/mask").
  { rewrite (A "cuts/mask"). destruct (get h "cuts/mask"); [reflexivity|]. unfold fill. destruct (field_of (wanted (counter h) n m) "cuts/mask") as [[t x]|] eqn:F; [|reflexivity]. apply field_of_in in F; [|exact ND]. destruct (mask_apart _ _ _ _ _ CN F). }
  assert (FI : forall h' k, (k <> "cuts/mask" -> get h' k = get h1 k) -> k <> "cuts/mask" -> filled (wanted (counter h) n m) h h' k).
  { intros h' k Q N. specialize (Q N). pose proof (adds_filled _ h h1 k ND A) as F. unfold filled in *. now rewrite Q. }
  destruct (get h "cuts/mask") as [d|] eqn:G.
  - destruct (stands_dec d U32 n) as [S|S].
    + rewrite (mask_old h1 n d M S). exists h1. split; [reflexivity|]. split; [intros k; apply FI; reflexivity|]. split; [discriminate|]. split; intros d' X; injection X as <-; [auto|tauto].
    + assert (S2 : stands d I32 n) by (destruct (MU d G); tauto). rewrite (mask_signed h1 n d M S S2). eexists. split; [reflexivity|].
      assert (Q : forall k, get (remove h1 "cuts/mask" ++ [("cuts/mask", mkSet U32 (map unsigned (vals d)))]) k = if String.eqb "cuts/mask" k then Some (mkSet U32 (map unsigned (vals d))) else get h1 k).
      { intros k. rewrite get_app, get_remove. cbn [get]. destruct (String.eqb "cuts/mask" k); [reflexivity|]. destruct (get h1 k); reflexivity. }
      split; [intros k; apply FI; intros N; rewrite Q; destruct (String.eqb_spec "cuts/mask" k); congruence|]. split; [discriminate|]. split; intros d' X; injection X as <-; [tauto|]. intros _. now rewrite Q.
  - rewrite (mask_new h1 n M). eexists. split; [reflexivity|]. split; [intros k; apply FI; intros N; rewrite get_app; destruct (get h1 k); [reflexivity|]; cbn [get]; destruct (String.eqb_spec "cuts/mask" k); congruence|].
    split; [intros _; rewrite get_app, M; reflexivity|]. split; intros d' X; discriminate.
Qed.
Lemma setup_only h n m h' c : called h c -> setup_vectors h n m = (h', true) -> compatible h (wanted c n m) /\ mask_usable h n.
Proof.
  intros CA E. rewrite (called_one _ _ _ CA (called_counter h)) in *. clear CA. destruct (setup_as_one h n m) as (h1 & R & A & E1). rewrite E1 in E. destruct (forallb (fine h) (wanted (counter h) n m)) eqn:F; [|discriminate]. split; [now apply fine_compatible|].
  intros d G. specialize (A eq_refl). assert (G1 : get h1 "cuts/mask" = Some d) by (now rewrite (A "cuts/mask"), G). destruct (stands_dec d U32 n); [now left|]. destruct (stands_dec d I32 n); [now right|]. rewrite (mask_bad h1 n d) in E by assumption. discriminate.
Qed.
Lemma setup_fails h n m h' : setup_vectors h n m = (h', false) -> kept h h'.
Proof.
  intros E. destruct (setup_as_one h n m) as (h1 & R & A & E1). apply require_all_kept in R. rewrite E1 in E. destruct (forallb (fine h) (wanted (counter h) n m)); [|now injection E as <-].
  destruct (get h1 "cuts/mask") as [d|] eqn:G; [|rewrite (mask_new h1 n G) in E; discriminate]. destruct (stands_dec d U32 n); [rewrite (mask_old h1 n d) in E by assumption; discriminate|].
  destruct (stands_dec d I32 n); [rewrite (mask_signed h1 n d) in E by assumption; discriminate|]. rewrite (mask_bad h1 n d) in E by assumption. now injection E as <-.
Qed.
Lemma require_all_same l : forall h, (forall k t n, In (k, t, n) l -> exists d, get h k = Some d /\ stands d t n) -> require_all h l = (h, true).
Proof.
  induction l as [|[[k t] n] l IH]; intros h H; [reflexivity|]. cbn. unfold require. destruct (H k t n (or_introl eq_refl)) as (d & G & S). rewrite G. apply stands_b_spec in S. unfold stands_b in S. rewrite S. apply IH. intros x t' n' I. apply H. now right.
Qed.
Lemma setup_same h n m : present h n m -> setup_vectors h n m = (h, true).
Proof.
  intros ((c & CA & H) & d & G & S). rewrite (called_one _ _ _ CA (called_counter h)) in H. clear CA. destruct (setup_as_one h n m) as (h1 & R & A & E1). rewrite (require_all_same _ _ H) in R. revert R E1. generalize (forallb (fine h) (wanted (counter h) n m)). intros b R E1. injection R as <- <-. rewrite E1. now apply mask_old with d.
Qed.
Lemma cast_self t : can_cast t t = true.
Proof. now destruct t. Qed.
Lemma unsigned_blank n : stands (blank U32 n) U32 n.
Proof. split; [apply repeat_length|reflexivity]. Qed.
Lemma setup_present h n m h' : setup_vectors h n m = (h', true) -> present h' n m.
Proof.
  intros E. pose proof (called_counter h) as CA. destruct (setup_only h n m h' _ CA E) as [CO MU]. destruct (setup_ok h n m _ CA CO MU) as (h2 & E2 & F & M1 & M2 & M3). rewrite E in E2. injection E2 as <-. pose proof (called_names _ _ CA) as CN.
  split.
  - exists (counter h). split.
    + assert (N : "rowcount" <> "cuts/mask") by discriminate. destruct CA as [[-> R]|[-> R]]; [left|right]; (split; [reflexivity|]); destruct (F "rowcount" N) as (F1 & F2 & F3).
      * destruct (get h "rowcount") as [d|]; [|congruence]. rewrite (F1 d eq_refl). discriminate.
      * apply F3; [exact R|]. assert (CH : counter h = "subframecount") by (unfold counter, has; now rewrite R). intros t x I. rewrite CH in I. cbn in I. repeat (destruct I as [I|I]; [discriminate I|]). exact I.
    + intros k t x I. assert (N : k <> "cuts/mask") by (intros ->; exact (mask_apart _ _ _ _ _ CN I)). destruct (F k N) as (F1 & F2 & _). destruct (get h k) as [d|] eqn:G.
      * exists d. split; [now apply F1|]. exact (CO k t x d I G).
      * destruct (F2 t x I eq_refl) as (d & D1 & D2 & D3 & _). exists d. split; [exact D1|]. split; [exact D3|]. rewrite D2. apply cast_self.
  - destruct (get h "cuts/mask") as [d|] eqn:G.
    + destruct (stands_dec d U32 n) as [S|S]; [exists d; split; [now apply M2|exact S]|]. exists (mkSet U32 (map unsigned (vals d))). split; [now apply M3|]. split; [|reflexivity]. cbn. rewrite map_length. destruct (MU d G) as [[L _]|[L _]]; exact L.
    + exists (blank U32 n). split; [now apply M1|]. apply unsigned_blank.
Qed.
Lemma unsigned_spec z : (- 2 ^ 31 <= z < 2 ^ 31)%Z -> unsigned (Q2Qc (inject_Z z)) = Q2Qc (inject_Z (if (z <? 0)%Z then z + 2 ^ 32 else z)).
Proof.
  intros H. unfold unsigned. assert (E : Qnum (this (Q2Qc (inject_Z z))) = z).
  { cbn [this Q2Qc]. rewrite Qred_identity; [reflexivity|]. cbn. apply Z.gcd_1_r. }
  rewrite E. do 2 f_equal. destruct (Z.ltb_spec z 0).
  - symmetry. apply (Z.mod_unique z (2 ^ 32) (-1)); lia.
  - apply Z.mod_small. lia.
Qed.

(** * Channels *)
Section Channel.
Variable (cal scal corr scorr : Type).
Variable (save_cal : cal -> scal) (load_cal : scal -> option cal) (ph2energy : cal -> list Qc -> option (list Qc)).
Variable (save_corr : option scorr -> corr -> scorr) (load_corr : scorr -> option corr).
Variable (uniform : corr -> list Qc -> option (list Qc)) (correct : corr -> list Qc -> list Qc -> option (list Qc)).
Hypothesis cal_kept : forall k, load_cal (save_cal k) = Some k.
Hypothesis corr_loads : forall o k, load_corr (save_corr o k) <> None.
Local Notation channel := (channel cal scal corr scorr).
Local Notation sound := (sound load_cal load_corr).

Definition pairs (a : string * scal) (b : string * cal) : Prop := fst a = fst b /\ load_cal (snd a) = Some (snd b).
Lemma load_cals_spec l r : load_cals load_cal l = Some r <-> Forall2 pairs l r.
Proof.
  revert r. induction l as [|[k x] l IH]; intros r; cbn.
  - split; [intros E; injection E as <-; constructor|intros H; inversion H; reflexivity].
  - split.
    + destruct (load_cal x) as [c|] eqn:L; [|discriminate]. destruct (load_cals load_cal l) as [r'|]; [|discriminate]. intros E; injection E as <-. constructor; [split; [reflexivity|exact L]|now apply IH].
    + intros H. inversion H as [|? [k' c] ? r' [P1 P2] Q]; subst. cbn in *. subst. rewrite P2. apply IH in Q. now rewrite Q.
Qed.
Lemma pairs_set l r k c : Forall2 pairs l r -> Forall2 pairs (set l k (save_cal c)) (set r k c).
Proof.
  induction 1 as [|[a x] [b y] l r [P1 P2] H IH]; cbn; [constructor; [split; [reflexivity|apply cal_kept]|constructor]|]. cbn in P1, P2. subst b. destruct (String.eqb a k); constructor; auto; split; cbn; auto.
Qed.
Lemma pairs_get l r k c : Forall2 pairs l r -> get r k = Some c -> exists x, get l k = Some x /\ load_cal x = Some c.
Proof.
  induction 1 as [|[a x] [b y] l r [P1 P2] H IH]; cbn; [discriminate|]. cbn in P1, P2. subst b. destruct (String.eqb a k); [intros E; injection E as <-; eauto|exact IH].
Qed.

Lemma opened_sound g n m c g' (ch : channel) : open load_cal load_corr g n m c = (g', Some ch) ->
  sound ch /\ g' = Some (st ch) /\ npulses ch = n /\ nsamples ch = m /\ channum ch = c /\ last_used ch = None /\ peak_samplenumber ch = peak_attr (st ch) /\
  corrector ch = match scorr_of (st ch) with None => None | Some x => load_corr x end.
Proof.
  intros E. unfold open in E. destruct g as [s|]; [|discriminate]. destruct (check_attrs s n c) as [s1 ok1] eqn:CA. destruct ok1; [|discriminate]. cbn [negb] in E. destruct (setup_vectors (dsets s1) n m) as [h ok2] eqn:SV. destruct ok2; [|discriminate]. cbn [negb] in E.
  assert (AT : a_npulses s1 = Some n /\ a_channum s1 = Some c).
  { unfold check_attrs in CA. destruct (a_npulses s) as [x|] eqn:A1, (a_channum s) as [y|] eqn:A2.
    - destruct (Nat.eqb_spec x n) as [->|]; [|discriminate]. injection CA as <- Q. apply Z.eqb_eq in Q. subst. auto.
    - destruct (Nat.eqb_spec x n) as [->|]; [|discriminate]. injection CA as <-. auto.
    - injection CA as <- Q. apply Z.eqb_eq in Q. subst. auto.
    - injection CA as <-. auto. }
  destruct AT as [AT1 AT2]. cbn [scals with_sets scorr_of] in E. destruct (load_cals load_cal (scals s1)) as [cs|] eqn:LC; [|discriminate]. apply load_cals_spec in LC.
  assert (PR : present h n m) by (eapply setup_present, SV).
  destruct (scorr_of s1) as [x|] eqn:SC.
  - destruct (load_corr x) as [k|] eqn:LK; [|discriminate]. injection E as <- <-. unfold LvSpec.sound. cbn. rewrite SC. repeat (split; [solve [reflexivity | assumption]|]). split; [|repeat split; try reflexivity; now rewrite LK].
    repeat (split; [solve [reflexivity | assumption]|]). intros y Y. injection Y as <-. congruence.
  - injection E as <- <-. unfold LvSpec.sound. cbn. rewrite SC. split; [|repeat split; reflexivity].
    repeat (split; [solve [reflexivity | assumption]|]). discriminate.
Qed.
Lemma reopened (ch : channel) : sound ch -> open load_cal load_corr (Some (st ch)) (npulses ch) (nsamples ch) (channum ch) =
  (Some (st ch), Some (mkCh (st ch) (npulses ch) (nsamples ch) (channum ch) (peak_attr (st ch)) (cals ch) None (match scorr_of (st ch) with None => None | Some x => load_corr x end))).
Proof.
  intros (A1 & A2 & PR & LC & SC). unfold open, check_attrs. rewrite A1, A2, Nat.eqb_refl, Z.eqb_refl. cbn [negb]. rewrite (setup_same _ _ _ PR). cbn [negb]. change (scals (with_sets (st ch) (dsets (st ch)))) with (scals (st ch)). rewrite (proj2 (load_cals_spec _ _) LC).
  change (scorr_of (with_sets (st ch) (dsets (st ch)))) with (scorr_of (st ch)). assert (W : with_sets (st ch) (dsets (st ch)) = st ch) by (destruct (st ch); reflexivity). rewrite W. destruct (scorr_of (st ch)) as [x|] eqn:Q; [|reflexivity]. specialize (SC x eq_refl). destruct (load_corr x); [reflexivity|congruence].
Qed.

Lemma write_spec k v (ch ch' : channel) : write k v ch = Some ch' -> exists d, get (dsets (st ch)) k = Some d /\ length v = length (vals d) /\
  (forall x, get (dsets (st ch')) x = if String.eqb k x then Some (mkSet (dtyp d) v) else get (dsets (st ch)) x) /\
  a_npulses (st ch') = a_npulses (st ch) /\ a_channum (st ch') = a_channum (st ch) /\ peak_attr (st ch') = peak_attr (st ch) /\ scals (st ch') = scals (st ch) /\ scorr_of (st ch') = scorr_of (st ch) /\
  npulses ch' = npulses ch /\ nsamples ch' = nsamples ch /\ channum ch' = channum ch /\ peak_samplenumber ch' = peak_samplenumber ch /\ cals ch' = cals ch /\ last_used ch' = last_used ch /\ corrector ch' = corrector ch.
Proof.
  unfold write. destruct (get (dsets (st ch)) k) as [d|] eqn:G; [|discriminate]. destruct (Nat.eqb_spec (length v) (length (vals d))) as [L|]; [|discriminate]. intros E. injection E as <-. exists d. cbn. repeat (split; [solve [reflexivity|assumption|intros x; apply get_set]|]). reflexivity.
Qed.
Lemma present_write h h' n m k d v : present h n m -> get h k = Some d -> length v = length (vals d) ->
  (forall x, get h' x = if String.eqb k x then Some (mkSet (dtyp d) v) else get h x) -> present h' n m.
Proof.
  intros ((c & CA & H) & dm & G & S) GK L Q.
  assert (P : forall x t y, (exists e, get h x = Some e /\ stands e t y) -> exists e, get h' x = Some e /\ stands e t y).
  { intros x t y (e & E1 & E2 & E3). rewrite Q. destruct (String.eqb_spec k x) as [->|]; [|exists e; repeat split; assumption]. eexists. split; [reflexivity|]. rewrite GK in E1. injection E1 as <-. split; cbn; congruence. }
  split.
  - exists c. split; [|intros x t y I; apply P, H, I]. destruct CA as [[-> R]|[-> R]]; [left|right]; (split; [reflexivity|]); rewrite Q; destruct (String.eqb_spec k "rowcount") as [->|]; congruence.
  - apply P. eauto.
Qed.
Lemma write_sound k v (ch ch' : channel) : sound ch -> write k v ch = Some ch' -> sound ch'.
Proof.
  intros (A1 & A2 & PR & LC & SC) W. apply write_spec in W as (d & G & L & Q & W1 & W2 & W3 & W4 & W5 & W6 & W7 & W8 & W9 & W10 & W11 & W12).
  unfold LvSpec.sound. rewrite W1, W2, W4, W5, W6, W7, W8, W10. repeat (split; [solve [assumption | eapply present_write; eassumption]|]). exact SC.
Qed.
Lemma convert_cases attr cn (ch ch' : channel) ok : convert_to_energy ph2energy attr cn ch = (ch', ok) ->
  if ok then exists k v e c1, get (cals ch) (match cn with None => attr | Some x => x end) = Some k /\ attribute ch attr = Some v /\ ph2energy k v = Some e /\ write "energy" e ch = Some c1 /\
    ch' = mkCh (st c1) (npulses c1) (nsamples c1) (channum c1) (peak_samplenumber c1) (cals c1) (Some k) (corrector c1)
  else ch' = ch.
Proof.
  unfold convert_to_energy. intros E. destruct (get (cals ch) _) as [k|] eqn:G; [|injection E as <- <-; reflexivity]. destruct (attribute ch attr) as [v|] eqn:A; [|injection E as <- <-; reflexivity]. destruct (ph2energy k v) as [e|] eqn:P; [|injection E as <- <-; reflexivity].
  destruct (write "energy" e ch) as [c1|] eqn:W; injection E as <- <-; [|reflexivity]. exists k, v, e, c1. auto.
Qed.
Lemma convert_sound attr cn (ch : channel) : sound ch -> sound (fst (convert_to_energy ph2energy attr cn ch)).
Proof.
  intros S. destruct (convert_to_energy ph2energy attr cn ch) as [ch' ok] eqn:E. apply convert_cases in E. destruct ok; [|subst; exact S]. destruct E as (k & v & e & c1 & _ & _ & _ & W & ->). exact (write_sound _ _ _ _ S W).
Qed.
Definition calibrated (k : cal) (calname : string) (ch : channel) : channel :=
  mkCh (mkStore (a_npulses (st ch)) (a_channum (st ch)) (dsets (st ch)) (peak_attr (st ch)) (set (scals (st ch)) calname (save_cal k)) (scorr_of (st ch)))
       (npulses ch) (nsamples ch) (channum ch) (peak_samplenumber ch) (set (cals ch) calname k) (last_used ch) (corrector ch).
Lemma calibrated_sound k cn (ch : channel) : sound ch -> sound (calibrated k cn ch).
Proof. intros (A1 & A2 & PR & LC & SC). repeat (split; [solve [assumption | apply pairs_set, LC]|]). exact SC. Qed.
Lemma calibrate_cases fit attr ext good force (ch : channel) : calibrate save_cal ph2energy fit attr ext good force ch =
  match (if force then None else get (cals ch) (String.append attr ext)) with
  | Some k => (ch, Returned k)
  | None => match attribute ch attr with
            | None => (ch, Raised)
            | Some v => match fit (select good v) with
                        | None => (ch, Raised)
                        | Some k => let r := convert_to_energy ph2energy attr (Some (String.append attr ext)) (calibrated k (String.append attr ext) ch) in (fst r, if snd r then Nothing else Raised)
                        end
            end
  end.
Proof.
  unfold calibrate. destruct (if force then None else _); [reflexivity|]. destruct (attribute ch attr); [|reflexivity]. destruct (fit _); [|reflexivity]. unfold calibrated. destruct (convert_to_energy _ _ _ _) as [c1 ok1]. reflexivity.
Qed.
Lemma calibrate_sound fit attr ext good force (ch : channel) : sound ch -> sound (fst (calibrate save_cal ph2energy fit attr ext good force ch)).
Proof.
  intros S. rewrite calibrate_cases. destruct (if force then None else _); [exact S|]. destruct (attribute ch attr); [|exact S]. destruct (fit _); [|exact S]. cbn. apply convert_sound, calibrated_sound, S.
Qed.
Lemma phase_sound make attr good force tofile (ch : channel) : sound ch -> sound (fst (phase_correct save_corr uniform correct make attr good force tofile ch)).
Proof.
  intros S. unfold phase_correct. destruct (_ && _)%bool; [exact S|]. destruct (attribute ch "p_filt_phase") as [ph|]; [|exact S]. destruct (attribute ch attr) as [v|]; [|exact S]. destruct (make _ _) as [k|]; [|exact S].
  assert (S0 : sound (with_corrector k ch)) by exact S. destruct (uniform k ph) as [u|]; [|exact S0]. destruct (write "filt_phase_corr" u (with_corrector k ch)) as [c1|] eqn:W1; [|exact S0]. apply (write_sound _ _ _ _ S0) in W1.
  destruct (attribute c1 attr) as [v1|]; [|exact W1]. destruct (correct k ph v1) as [w|]; [|exact W1]. destruct (write "filt_value_phc" w c1) as [c2|] eqn:W2; [|exact W1]. apply (write_sound _ _ _ _ W1) in W2.
  destruct tofile; [|exact W2]. destruct W2 as (A1 & A2 & PR & LC & SC). repeat (split; [assumption|]). cbn. intros x E. injection E as <-. apply corr_loads.
Qed.
Definition perform (s : step cal corr) (ch : channel) : channel :=
  match s with
  | Convert a n => fst (convert_to_energy ph2energy a n ch)
  | Calibrate f a e g fo => fst (calibrate save_cal ph2energy f a e g fo ch)
  | Correct f a g fo t => fst (phase_correct save_corr uniform correct f a g fo t ch)
  | Write k v => match write k v ch with Some c => c | None => ch end
  end.
Lemma perform_sound s (ch : channel) : sound ch -> sound (perform s ch).
Proof.
  intros S. destruct s; cbn; [now apply convert_sound|now apply calibrate_sound|now apply phase_sound|]. destruct (write k v ch) eqn:W; [eapply write_sound; eassumption|exact S].
Qed.
Lemma session_sound l : forall ch : channel, sound ch -> sound (fold_left (fun c s => perform s c) l ch).
Proof. induction l as [|s l IH]; intros ch S; cbn; [exact S|]. apply IH, perform_sound, S. Qed.
Lemma perform_size s (ch : channel) : npulses (perform s ch) = npulses ch /\ nsamples (perform s ch) = nsamples ch /\ channum (perform s ch) = channum ch.
Proof.
  assert (W : forall k v (c c' : channel), write k v c = Some c' -> npulses c' = npulses c /\ nsamples c' = nsamples c /\ channum c' = channum c).
  { intros k v c c' E. apply write_spec in E as (d & _ & _ & _ & _ & _ & _ & _ & _ & A & B & C & _). auto. }
  assert (V : forall a n (c : channel), npulses (fst (convert_to_energy ph2energy a n c)) = npulses c /\ nsamples (fst (convert_to_energy ph2energy a n c)) = nsamples c /\ channum (fst (convert_to_energy ph2energy a n c)) = channum c).
  { intros a n c. destruct (convert_to_energy ph2energy a n c) as [c' ok] eqn:E. apply convert_cases in E. destruct ok; [|subst; auto]. destruct E as (k & v & e & c1 & _ & _ & _ & E & ->). apply W in E. exact E. }
  destruct s; cbn.
  - apply V.
  - rewrite calibrate_cases. destruct (if force then None else _); [auto|]. destruct (attribute ch attr); [|auto]. destruct (fit _); [|auto]. cbn [fst]. destruct (V attr (Some (String.append attr ext)) (calibrated c (String.append attr ext) ch)) as (A & B & C). rewrite A, B, C. auto.
  - unfold phase_correct. destruct (_ && _)%bool; [auto|]. destruct (attribute ch "p_filt_phase"); [|auto]. destruct (attribute ch attr); [|auto]. destruct (make _ _) as [k|]; [|auto].
    destruct (uniform k l); [|auto]. destruct (write "filt_phase_corr" l1 (with_corrector k ch)) as [c1|] eqn:W1; [|auto]. apply W in W1. cbn in W1. destruct W1 as (A & B & C). destruct (attribute c1 attr); [|cbn; auto]. destruct (correct k l l2); [|cbn; auto].
    destruct (write "filt_value_phc" l3 c1) as [c2|] eqn:W2; [|cbn; auto]. apply W in W2 as (A' & B' & C'). destruct to_file; cbn; rewrite A', B', C'; auto.
  - destruct (write k v ch) eqn:E; [eapply W; eassumption|auto].
Qed.
Lemma session_size l : forall ch : channel, let c := fold_left (fun c s => perform s c) l ch in npulses c = npulses ch /\ nsamples c = nsamples ch /\ channum c = channum ch.
Proof. induction l as [|s l IH]; intros ch; cbn; [auto|]. destruct (IH (perform s ch)) as (A & B & C), (perform_size s ch) as (A' & B' & C'). rewrite A, B, C. auto. Qed.
End Channel.
Arguments perform {cal scal corr scorr} _ _ _ _ _ _ _.
Arguments calibrated {cal scal corr scorr} _ _ _ _.

(** * Attributes *)
Lemma substring_all s : substring 0 (String.length s) s = s.
Proof. induction s as [|a s IH]; cbn; [reflexivity|]. now rewrite IH. Qed.
Lemma p_name k : substring 2 (String.length (String.append "p_" k) - 2) (String.append "p_" k) = k.
Proof. cbn. rewrite Nat.sub_0_r. apply substring_all. Qed.
Lemma p_prefix a : prefix "p_" a = true -> exists k, a = String.append "p_" k.
Proof.
  destruct a as [|x [|y t]]; cbn [prefix]; intros H; repeat (match type of H with context [Ascii.ascii_dec ?u ?v] => destruct (Ascii.ascii_dec u v) as [E|]; try (rewrite <- E; clear E) end); try discriminate H. now exists t.
Qed.
Lemma pulse_names n k : existsb (fun f => String.eqb (fst (fst f)) k) (pulse_fields n) = existsb (fun f => String.eqb (fst (fst f)) k) (pulse_fields 0).
Proof. reflexivity. Qed.
Lemma attribute_get {cal scal corr scorr} (ch : channel cal scal corr scorr) k t n : In (k, t, n) (pulse_fields n) -> k <> "subframecount" ->
  attribute ch (String.append "p_" k) = option_map vals (get (dsets (st ch)) k).
Proof.
  intros I N. unfold attribute. destruct (String.eqb_spec (String.append "p_" k) "p_subframecount") as [E|_]; [cbn in E; injection E as E; contradiction|].
  assert (P : prefix "p_" (String.append "p_" k) = true) by (cbn; destruct k; reflexivity). rewrite P, p_name.
  assert (X : existsb (fun f => String.eqb (fst (fst f)) k) (pulse_fields 0) = true). { rewrite <- (pulse_names n). apply existsb_exists. exists (k, t, n). split; [exact I|apply String.eqb_refl]. }
  now rewrite X.
Qed.
Lemma attribute_apart {cal scal corr scorr} (ch ch' : channel cal scal corr scorr) k : (k = "rowcount" -> False) -> (k = "subframecount" -> False) ->
  (forall x, x <> k -> get (dsets (st ch')) x = get (dsets (st ch)) x) -> forall a, a <> String.append "p_" k -> attribute ch' a = attribute ch a.
Proof.
  intros N1 N2 Q a N. unfold attribute. destruct (String.eqb_spec a "p_subframecount") as [->|].
  - assert (C : counter (dsets (st ch')) = counter (dsets (st ch))) by (unfold counter, has; rewrite Q by congruence; reflexivity). rewrite C. rewrite Q; [reflexivity|]. unfold counter. destruct (has _ _); congruence.
  - destruct (prefix "p_" a) eqn:P; [|reflexivity]. apply p_prefix in P as (j & ->). rewrite p_name. rewrite Q; [reflexivity|]. intros ->. apply N. reflexivity.
Qed.
Lemma select_spec g v : select g v = map snd (filter fst (combine g v)).
Proof. revert v. induction g as [|b g IH]; intros [|x v]; cbn; try reflexivity. rewrite IH. now destruct b. Qed.
