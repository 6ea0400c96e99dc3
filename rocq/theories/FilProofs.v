(** Proofs about filter stacks. *)
From Coq Require Import Reals Lra Lia Bool String Permutation List.
Import ListNotations.
From Verif Require Import FilModel FilSpec.
Local Open Scope R_scope.

Lemma fil_inj {A} (x y : A) : Some x = Some y -> x = y.
Proof. congruence. Qed.

(* ---------- films ---------- *)

Lemma depths_layers mu f : depths mu f = map (fun p => mu (fst (fst p)) (snd (fst p)) * snd p) (layers (materials f) (densities f) (thicknesses f)).
Proof.
  unfold depths. destruct f as [ms ds ts fi ab]. cbn. revert ds ts.
  induction ms as [|m ms IH]; intros [|d ds] [|t ts]; cbn; try reflexivity. now rewrite IH.
Qed.
Lemma prod_exp mu l :
  prod (map (fun d => exp (- d)) (map (fun p : string * R * R => mu (fst (fst p)) (snd (fst p)) * snd p) l)) = exp (- optical_depth mu l).
Proof.
  induction l as [|((m, d), t) l IH].
  - unfold prod. cbn [map fold_right optical_depth]. replace (- 0) with 0 by lra. now rewrite exp_0.
  - unfold prod in *. cbn [map fold_right optical_depth fst snd]. rewrite IH.
    replace (- (mu m d * t + optical_depth mu l)) with (- (mu m d * t) + - optical_depth mu l) by lra.
    now rewrite exp_plus.
Qed.

Lemma film_value mu f :
  film_efficiency mu f =
  match layers (materials f) (densities f) (thicknesses f) with
  | [] => None
  | l => Some ((if absorber f then absorbed else passed) (optical_depth mu l) (fill_fraction f))
  end.
Proof.
  unfold film_efficiency. rewrite depths_layers.
  destruct (layers (materials f) (densities f) (thicknesses f)) as [|x l] eqn:E; [reflexivity|].
  pose proof (prod_exp mu (x :: l)) as P. cbn [map] in *. f_equal. rewrite P. unfold absorbed, passed. destruct (absorber f); lra.
Qed.

Lemma depth_nonneg mu l : (forall m d t, In (m, d, t) l -> 0 <= mu m d /\ 0 <= t) -> 0 <= optical_depth mu l.
Proof.
  induction l as [|((m, d), t) l IH]; intros H; cbn; [lra|].
  assert (0 <= optical_depth mu l) by (apply IH; intros; apply H; now right).
  destruct (H m d t (or_introl eq_refl)). assert (0 <= mu m d * t) by (apply Rmult_le_pos; assumption). lra.
Qed.
Lemma exp_unit x : 0 <= x -> 0 < exp (- x) <= 1.
Proof.
  intros H. split; [apply exp_pos|]. destruct (Req_dec x 0) as [-> | N].
  - replace (- 0) with 0 by lra. rewrite exp_0. lra.
  - rewrite <- exp_0. left. apply exp_increasing. lra.
Qed.

Lemma film_unit mu f e : physical mu f -> film_efficiency mu f = Some e -> 0 <= e <= 1.
Proof.
  intros [P F]. rewrite film_value. destruct (layers (materials f) (densities f) (thicknesses f)) as [|x l] eqn:E; [discriminate|].
  intros H. apply fil_inj in H. subst e.
  assert (D : 0 <= optical_depth mu (x :: l)) by (apply depth_nonneg; exact P).
  destruct (exp_unit _ D). set (T := exp (- optical_depth mu (x :: l))) in *.
  assert (0 <= fill_fraction f * (1 - T) <= 1 * 1) by (split; [apply Rmult_le_pos; lra | apply Rmult_le_compat; lra]).
  destruct (absorber f); unfold absorbed, passed; fold T; lra.
Qed.

(* ---------- making a film ---------- *)

Lemma standard_length element ms r : standard element ms = Some r -> List.length r = List.length ms.
Proof.
  revert r. induction ms as [|m ms IH]; intros r; cbn; [now intros [= <-]|].
  destruct (element m); [|discriminate]. destruct (standard element ms) as [q|]; [|discriminate].
  intros [= <-]. cbn. now rewrite (IH q eq_refl).
Qed.
Lemma standard_known element ms : standard element ms <> None <-> forall m, In m ms -> element m <> None.
Proof.
  induction ms as [|m ms IH]; cbn; [split; [intros _ ? []|discriminate]|]. split.
  - destruct (element m) eqn:E; [|easy]. destruct (standard element ms) as [q|] eqn:F; [|easy].
    intros _ x [<- | I]; [now rewrite E|]. apply IH; [easy|exact I].
  - intros H. destruct (element m) eqn:E; [|exfalso; apply (H m); auto].
    destruct (standard element ms) as [q|] eqn:F; [easy|]. exfalso. apply (proj2 IH); [|reflexivity]. intros x I. apply H. now right.
Qed.

Lemma divide_equal_spec a b r :
  divide_equal a b = Some r -> List.length a = List.length b /\ List.length r = List.length b /\
  forall i, (i < List.length b)%nat -> nth i r 0 * nth i b 0 = nth i a 0.
Proof.
  revert b r. induction a as [|x a IH]; intros [|y b] r; cbn; try discriminate.
  - intros [= <-]. repeat split; intros; lia.
  - destruct (Req_EM_T y 0) as [|N]; [discriminate|]. destruct (divide_equal a b) as [q|] eqn:E; [|discriminate].
    intros [= <-]. destruct (IH b q E) as (L & M & V). cbn. repeat split; try lia.
    intros [|i] Hi; [field; exact N|]. apply V. lia.
Qed.
Lemma divide_equal_ok a b : List.length a = List.length b -> (forall y, In y b -> y <> 0) -> divide_equal a b <> None.
Proof.
  revert b. induction a as [|x a IH]; intros [|y b] L N; cbn in *; try discriminate.
  destruct (Req_EM_T y 0) as [Z|_]; [now apply N in Z; auto|].
  destruct (divide_equal a b) eqn:E; [discriminate|]. exfalso. apply (IH b); auto.
Qed.

Lemma divide_same a b : List.length a = List.length b -> divide a b = divide_equal a b.
Proof.
  intros L. unfold divide. destruct a as [|x [|x' a]].
  - destruct b; [reflexivity|discriminate].
  - destruct b as [|y [|]]; try discriminate. reflexivity.
  - destruct b as [|y [|y' b]]; try discriminate. reflexivity.
Qed.
Lemma divide_one x b : divide [x] b = divide_equal (repeat x (List.length b)) b.
Proof. reflexivity. Qed.

Lemma mass_layers kappa ms ds ts areas :
  List.length ds = List.length ms -> List.length ts = List.length ms -> List.length areas = List.length ms ->
  (forall i, (i < List.length ms)%nat -> nth i ts 0 * nth i ds 0 = nth i areas 0) ->
  optical_depth (fun m d => kappa m * d) (layers ms ds ts) = mass_depth kappa ms areas.
Proof.
  revert ds ts areas. induction ms as [|m ms IH]; intros [|d ds] [|t ts] [|a areas] L1 L2 L3 H; try discriminate; cbn; [reflexivity|].
  rewrite (IH ds ts areas); cbn in *; try lia.
  - pose proof (H 0%nat ltac:(lia)) as H0. cbn in H0. rewrite <- H0. lra.
  - intros i Hi. apply (H (S i)). lia.
Qed.
Lemma depth_ext mu mu' l : (forall m d, mu m d = mu' m d) -> optical_depth mu l = optical_depth mu' l.
Proof. intros H. induction l as [|((m, d), t) l IH]; cbn; [reflexivity|]. now rewrite H, IH. Qed.

Lemma layers_full ms ds ts : List.length ds = List.length ms -> List.length ts = List.length ms -> ms <> [] -> layers ms ds ts <> [].
Proof. destruct ms, ds, ts; cbn; try easy. Qed.

Lemma with_area element ms areas dens fill ab f mu kappa :
  (forall m d, mu m d = kappa m * d) -> ms <> [] -> List.length areas = List.length ms ->
  make_film element ms (Some areas) None dens fill ab = Some f ->
  film_efficiency mu f = Some ((if ab then absorbed else passed) (mass_depth kappa ms areas) fill).
Proof.
  intros K N L. unfold make_film. destruct (standard element ms) as [us|] eqn:S; [|discriminate].
  pose proof (standard_length _ _ _ S) as LS.
  destruct (match dens with None => Some us | Some d => if (List.length ms =? List.length d)%nat then Some d else None end) as [d|] eqn:D; [|discriminate].
  assert (LD : List.length d = List.length ms).
  { destruct dens as [d'|]; [|now injection D as <-]. destruct (List.length ms =? List.length d')%nat eqn:Q; [|discriminate].
    injection D as <-. apply Nat.eqb_eq in Q. now symmetry. }
  rewrite divide_same by congruence. destruct (divide_equal areas d) as [t|] eqn:T; [|discriminate].
  destruct (divide_equal_spec _ _ _ T) as (_ & LT & V).
  destruct (1 <=? List.length t)%nat; [|discriminate]. intros H. apply fil_inj in H. subst f.
  rewrite film_value. cbn [materials densities thicknesses fill_fraction absorber].
  rewrite <- (mass_layers kappa ms d t areas) by (try congruence; intros; apply V; lia).
  rewrite <- (depth_ext mu) by exact K.
  destruct (layers ms d t) eqn:E; [exfalso; revert E; apply layers_full; congruence|]. reflexivity.
Qed.
Lemma with_one_area element ms area dens fill ab f mu kappa :
  (forall m d, mu m d = kappa m * d) -> ms <> [] ->
  make_film element ms (Some [area]) None dens fill ab = Some f ->
  film_efficiency mu f = Some ((if ab then absorbed else passed) (mass_depth kappa ms (repeat area (List.length ms))) fill).
Proof.
  intros K N H. apply (with_area element ms (repeat area (List.length ms)) dens fill ab f mu kappa K N).
  - apply repeat_length.
  - revert H. unfold make_film. destruct (standard element ms) as [us|] eqn:S; [|discriminate].
    pose proof (standard_length _ _ _ S) as LS.
    destruct (match dens with None => Some us | Some d => if (List.length ms =? List.length d)%nat then Some d else None end) as [d|] eqn:D; [|discriminate].
    assert (LD : List.length d = List.length ms).
    { destruct dens as [d'|]; [|now injection D as <-]. destruct (List.length ms =? List.length d')%nat eqn:Q; [|discriminate].
      injection D as <-. apply Nat.eqb_eq in Q. now symmetry. }
    rewrite (divide_same (repeat area (List.length ms))) by now rewrite repeat_length.
    rewrite divide_one, LD. intros H; exact H.
Qed.

Lemma with_thickness element ms nm dens d fill ab f mu :
  make_film element ms None (Some nm) dens fill ab = Some f ->
  (match dens with Some d' => Some d' | None => standard element ms end) = Some d ->
  film_efficiency mu f =
  match layers ms d (map (fun v => v / 10000000) nm) with
  | [] => None
  | l => Some ((if ab then absorbed else passed) (optical_depth mu l) fill)
  end.
Proof.
  unfold make_film. destruct (standard element ms) as [us|] eqn:S; [|discriminate].
  intros H E. assert (D : match dens with None => Some us | Some d => if (List.length ms =? List.length d)%nat then Some d else None end = Some d \/ 
     match dens with None => Some us | Some d => if (List.length ms =? List.length d)%nat then Some d else None end = None).
  { destruct dens as [d'|]; [|left; exact E]. injection E as ->. destruct (List.length ms =? List.length d)%nat; auto. }
  destruct D as [D|D]; rewrite D in H; [|discriminate]. rewrite map_length in H.
  destruct (1 <=? List.length nm)%nat; [|discriminate]. apply fil_inj in H. subst f.
  rewrite film_value. reflexivity.
Qed.

Lemma accepts element ms area nm dens fill ab :
  make_film element ms area nm dens fill ab <> None <->
  (forall m, In m ms -> element m <> None) /\
  exists d, (match dens with Some d' => Some d' | None => standard element ms end) = Some d /\ List.length d = List.length ms /\
  ((area = None /\ exists t, nm = Some t /\ t <> []) \/ (nm = None /\ exists a t, area = Some a /\ divide a d = Some t /\ t <> [])).
Proof.
  rewrite <- standard_known. unfold make_film. destruct (standard element ms) as [us|] eqn:S; [|split; [easy|intros [[] _]; reflexivity]].
  pose proof (standard_length _ _ _ S) as LS.
  assert (NL : forall l : list R, (1 <=? List.length l)%nat = true <-> l <> []) by (intros [|]; cbn; split; congruence).
  assert (Main : forall d, (let thick := match area, nm with None, Some t => Some (map (fun v => v * / 10000000) t) | Some a, None => divide a d | _, _ => None end in
     match thick with None => None | Some t => if (1 <=? List.length t)%nat then Some {| materials := ms; densities := d; thicknesses := t; fill_fraction := fill; absorber := ab |} else None end) <> None <->
     ((area = None /\ exists t, nm = Some t /\ t <> []) \/ (nm = None /\ exists a t, area = Some a /\ divide a d = Some t /\ t <> []))).
  { intros d. cbn zeta. destruct area as [a|], nm as [t|].
    - split; [easy|]. intros [(? & _)|(? & _)]; discriminate.
    - split.
      + destruct (divide a d) as [t|] eqn:E; [|easy]. destruct (1 <=? List.length t)%nat eqn:Q; [|easy]. intros _. right. split; [reflexivity|].
        exists a, t. split; [reflexivity|]. split; [exact E|]. now apply NL.
      + intros [(? & _)|(_ & a' & t & [= <-] & E & N)]; [discriminate|]. rewrite E. apply NL in N. now rewrite N.
    - rewrite map_length. split.
      + destruct (1 <=? List.length t)%nat eqn:Q; [|easy]. intros _. left. split; [reflexivity|]. exists t. split; [reflexivity|]. now apply NL.
      + intros [(_ & t' & [= <-] & N)|(? & _)]; [|discriminate]. apply NL in N. now rewrite N.
    - split; [easy|]. intros [(_ & ? & ? & _)|(_ & ? & ? & ? & _)]; discriminate. }
  destruct dens as [d|].
  - destruct (List.length ms =? List.length d)%nat eqn:Q.
    + apply Nat.eqb_eq in Q. rewrite Main. split.
      * intros H. split; [easy|]. exists d. auto.
      * intros (_ & d' & [= <-] & _ & H). exact H.
    + apply Nat.eqb_neq in Q. split; [easy|]. intros (_ & d' & [= <-] & L & _). congruence.
  - rewrite Main. split.
    + intros H. split; [easy|]. exists us. auto.
    + intros (_ & d' & [= <-] & _ & H). exact H.
Qed.

(* ---------- stacks ---------- *)

Lemma product_app a b : product (a ++ b) = match product a, product b with Some x, Some y => Some (x * y) | _, _ => None end.
Proof.
  induction a as [|[x|] a IH]; cbn; [destruct (product b); f_equal; lra | | reflexivity].
  rewrite IH. destruct (product a), (product b); try reflexivity. f_equal. lra.
Qed.
Lemma product_perm a b : Permutation a b -> product a = product b.
Proof.
  induction 1 as [|[x|] a b P IH|[x|] [y|] l|a b c P1 IH1 P2 IH2]; cbn; try reflexivity; try now rewrite ?IH; try congruence.
  all: destruct (product l); try reflexivity. f_equal. lra.
Qed.
Lemma product_value l : (forall x, In x l -> x <> None) -> exists r, product l = Some r.
Proof.
  induction l as [|[x|] l IH]; intros H; cbn.
  - eauto.
  - destruct IH as (r & ->); [|eauto]. intros y I. apply H. now right.
  - exfalso. apply (H None); [now left|reflexivity].
Qed.
Lemma product_unit l : (forall e, In (Some e) l -> 0 <= e <= 1) -> forall r, product l = Some r -> 0 <= r <= 1.
Proof.
  induction l as [|[x|] l IH]; intros H r; cbn; [intros [= <-]; lra | | discriminate].
  destruct (product l) as [q|] eqn:E; [|discriminate]. intros E'. apply fil_inj in E'. subst r.
  destruct (H x (or_introl eq_refl)). destruct (IH (fun e I => H e (or_intror I)) q eq_refl).
  split; [apply Rmult_le_pos; assumption|]. replace 1 with (1 * 1) by lra. apply Rmult_le_compat; assumption.
Qed.

Lemma efficiency_stack mu ps : ps <> [] -> efficiency mu (AStack ps) = product (map (fun np => efficiency mu (snd np)) ps).
Proof.
  intros N. destruct ps as [|(n, p) ps]; [congruence|]. clear N. cbn [efficiency map product snd].
  destruct (efficiency mu p) as [e|]; [|reflexivity].
  match goal with |- match ?x with _ => _ end = _ => assert (E : x = product (map (fun np => efficiency mu (snd np)) ps)) end.
  { induction ps as [|(m, q) ps IH]; [reflexivity|]. cbn [map product snd]. destruct (efficiency mu q); [|reflexivity]. now rewrite IH. }
  now rewrite E.
Qed.
Lemma films_stack ps : films (AStack ps) = flat_map (fun np => films (snd np)) ps.
Proof. induction ps as [|(n, p) ps IH]; [reflexivity|]. cbn in *. now rewrite IH. Qed.

Definition part_induction (P : part -> Prop) (F : forall f, P (AFilm f)) (S : forall ps, (forall n p, In (n, p) ps -> P p) -> P (AStack ps)) : forall p, P p :=
  fix go p := match p with
              | AFilm f => F f
              | AStack ps => S ps ((fix over l : forall n p, In (n, p) l -> P p :=
                  match l with
                  | [] => fun n p I => match I with end
                  | (m, q) :: t => fun n p I => match I with
                                                | or_introl E => eq_ind q P (go q) p (f_equal snd E)
                                                | or_intror I' => over t n p I'
                                                end
                  end) ps)
              end.

Lemma product_flat {A} (g : A -> list (option R)) l : product (flat_map g l) = product (map (fun a => product (g a)) l).
Proof.
  induction l as [|a l IH]; cbn; [reflexivity|]. rewrite product_app, IH. reflexivity.
Qed.
Lemma efficiency_films mu p : furnished p -> efficiency mu p = product (map (film_efficiency mu) (films p)).
Proof.
  induction p as [f|ps IH] using part_induction; intros F.
  - cbn. destruct (film_efficiency mu f); [f_equal; lra|reflexivity].
  - inversion F as [|ps' N G]; subst. rewrite efficiency_stack by exact N. rewrite films_stack.
    transitivity (product (flat_map (fun np => map (film_efficiency mu) (films (snd np))) ps)).
    + rewrite product_flat. f_equal. apply map_ext_in. intros (n, p) I. cbn. apply (IH n p I). exact (G n p I).
    + f_equal. clear. induction ps as [|(n, p) ps IH]; [reflexivity|]. cbn. now rewrite map_app, IH.
Qed.
Lemma product_none l : In None l -> product l = None.
Proof.
  induction l as [|[x|] l IH]; cbn; [easy| |reflexivity]. intros [H|H]; [discriminate|]. now rewrite (IH H).
Qed.
Lemma efficiency_empty mu p : ~ furnished p -> efficiency mu p = None.
Proof.
  induction p as [f|ps IH] using part_induction; intros F; [exfalso; apply F; constructor|].
  destruct ps as [|np ps]; [reflexivity|]. rewrite efficiency_stack by discriminate.
  destruct (existsb (fun q => match efficiency mu (snd q) with None => true | Some _ => false end) (np :: ps)) eqn:E.
  - apply existsb_exists in E. destruct E as (q & I & E). apply product_none.
    apply in_map_iff. exists q. split; [|exact I]. destruct (efficiency mu (snd q)); [discriminate|reflexivity].
  - exfalso. apply F. constructor; [discriminate|]. intros n p I.
    (* decidability of being furnished is not needed: a component that has an efficiency is furnished *)
    assert (E' : efficiency mu p <> None).
    { intros Z. assert (existsb (fun q => match efficiency mu (snd q) with None => true | Some _ => false end) (np :: ps) = true) as T; [|congruence].
      apply existsb_exists. exists (n, p). split; [exact I|]. cbn. now rewrite Z. }
    clear - E'. revert E'. induction p as [f|ps IH] using part_induction; intros E; [constructor|].
    destruct ps as [|np ps]; [now contradiction E|]. constructor; [discriminate|]. intros n p I. apply (IH n p I).
    intros Z. apply E. rewrite efficiency_stack by discriminate. apply product_none. apply in_map_iff. exists (n, p). auto.
Qed.

Lemma unit_stack mu p e : (forall f, In f (films p) -> physical mu f) -> efficiency mu p = Some e -> 0 <= e <= 1.
Proof.
  intros H E. destruct (efficiency mu p) eqn:Q; [|discriminate]. apply fil_inj in E. subst r.
  assert (F : furnished p).
  { revert Q. clear. revert e. induction p as [f|ps IH] using part_induction; intros e E; [constructor|].
    destruct ps as [|np ps]; [discriminate|]. constructor; [discriminate|]. intros n p I.
    destruct (efficiency mu p) eqn:Z; [exact (IH n p I _ Z)|]. exfalso.
    rewrite efficiency_stack in E by discriminate. rewrite product_none in E; [discriminate|]. apply in_map_iff. exists (n, p). auto. }
  rewrite (efficiency_films mu p F) in Q. revert Q. apply product_unit. intros x I. apply in_map_iff in I. destruct I as (f & V & I).
  exact (film_unit mu f x (H f I) V).
Qed.

Lemma put_fresh ps n c : named ps n = None -> put ps n c = ps ++ [(n, c)].
Proof.
  unfold named. induction ps as [|(m, k) ps IH]; cbn; [reflexivity|]. destruct (String.eqb m n); [discriminate|]. intros H. now rewrite IH.
Qed.
Lemma named_put ps n c : named (put ps n c) n = Some c.
Proof.
  unfold named. induction ps as [|(m, k) ps IH]; cbn; [now rewrite String.eqb_refl|].
  destruct (String.eqb m n) eqn:E; cbn; rewrite E; [reflexivity|exact IH].
Qed.
Lemma named_put_other ps n c n' : n' <> n -> named (put ps n c) n' = named ps n'.
Proof.
  intros N. unfold named. induction ps as [|(m, k) ps IH]; cbn.
  - destruct (String.eqb_spec n n'); [congruence|reflexivity].
  - destruct (String.eqb_spec m n) as [->|M]; cbn.
    + destruct (String.eqb_spec n n'); [congruence|reflexivity].
    + destruct (String.eqb m n'); [reflexivity|exact IH].
Qed.
Lemma put_names ps n c : map fst (put ps n c) = match named ps n with Some _ => map fst ps | None => map fst ps ++ [n] end.
Proof.
  unfold named. induction ps as [|(m, k) ps IH]; cbn; [reflexivity|]. destruct (String.eqb m n) eqn:E; cbn; [reflexivity|].
  rewrite IH. destruct (find (fun p => String.eqb (fst p) n) ps); reflexivity.
Qed.

(* ---------- two layers ---------- *)

Lemma depth_app mu a b : optical_depth mu (a ++ b) = optical_depth mu a + optical_depth mu b.
Proof. induction a as [|((m, d), t) a IH]; cbn; [lra|]. rewrite IH. lra. Qed.
Lemma depth_sum mu ms ds t1 t2 : List.length t1 = List.length t2 ->
  optical_depth mu (layers ms ds (map (fun p => fst p + snd p) (combine t1 t2))) = optical_depth mu (layers ms ds t1) + optical_depth mu (layers ms ds t2).
Proof.
  revert ds t1 t2. induction ms as [|m ms IH]; intros ds t1 t2 L; cbn; [lra|].
  destruct ds as [|d ds]; [cbn; lra|]. destruct t1 as [|a t1], t2 as [|b t2]; try discriminate; cbn; [lra|].
  rewrite IH by (cbn in L; lia). lra.
Qed.

(* ---------- aluminium films ---------- *)

Lemma layers_app ms ms' ds ds' ts ts' : List.length ms = List.length ds -> List.length ds = List.length ts ->
  layers (ms ++ ms') (ds ++ ds') (ts ++ ts') = layers ms ds ts ++ layers ms' ds' ts'.
Proof.
  revert ds ts. induction ms as [|m ms IH]; intros [|d ds] [|t ts] L1 L2; try discriminate; cbn; [reflexivity|].
  rewrite IH; cbn in *; congruence || lia.
Qed.
Lemma layers_repeat (l : list (string * R)) (c t : R) k :
  (List.length l <= k)%nat -> layers (map fst l) (map (fun p => c * snd p) l) (repeat t k) = map (fun p => (fst p, c * snd p, t)) l.
Proof.
  revert k. induction l as [|(m, x) l IH]; intros [|k] H; cbn in *; try reflexivity; try lia. rewrite IH by lia. reflexivity.
Qed.
Lemma layers_repeat_short (l : list (string * R)) (c t : R) k :
  (k <= List.length l)%nat -> layers (map fst l) (map (fun p => c * snd p) l) (repeat t k) = map (fun p => (fst p, c * snd p, t)) (firstn k l).
Proof.
  revert k. induction l as [|(m, x) l IH]; intros [|k] H; cbn in *; try reflexivity; try lia. rewrite IH by lia. reflexivity.
Qed.

Lemma map_same {A B} (f : A -> B) a k : map f (repeat a k) = repeat (f a) k.
Proof. induction k; cbn; congruence. Qed.
Lemma all_known element (l : list string) : (forall m, In m l -> element m <> None) -> exists r, standard element l = Some r.
Proof. intros H. apply standard_known in H. destruct (standard element l) as [r|]; [eauto|congruence]. Qed.

Lemma oxide_film element oxide al_nm al_density surfaces :
  (forall m, In m ("Al"%string :: map fst (elements oxide)) -> element m <> None) -> surfaces = 1%nat \/ surfaces = 2%nat ->
  exists f, al_with_oxide element oxide al_nm al_density surfaces = Some f /\ fill_fraction f = 1 /\ absorber f = false /\
  layers (materials f) (densities f) (thicknesses f) =
  al_layer al_nm al_density :: map (fun p => (fst p, density oxide * snd p, INR surfaces * 3 / 10000000)) (elements oxide).
Proof.
  intros K S. unfold al_with_oxide.
  assert (((surfaces =? 1) || (surfaces =? 2))%nat = true) as -> by (destruct S as [-> | ->]; reflexivity).
  unfold make_film. destruct (all_known element _ K) as (us & ->).
  match goal with |- context [(?a =? ?b)%nat] => assert ((a =? b)%nat = true) as -> by (apply Nat.eqb_eq; cbn; now rewrite ?app_length, !map_length) end.
  cbn [map List.length Nat.leb]. eexists. split; [reflexivity|]. split; [reflexivity|]. split; [reflexivity|].
  cbn [materials densities thicknesses layers]. unfold al_layer. f_equal.
  replace (map (fun v : R => v * / 10000000) (repeat (INR surfaces * 3) (List.length (elements oxide))))
    with (repeat (INR surfaces * 3 / 10000000) (List.length (elements oxide))) by (rewrite map_same; reflexivity).
  apply layers_repeat. apply Nat.le_refl.
Qed.

Lemma polymer_film element oxide polymer al_nm polymer_nm al_density surfaces m x rest :
  (forall m, In m ("Al"%string :: map fst (elements oxide) ++ map fst (elements polymer)) -> element m <> None) ->
  surfaces = 1%nat \/ surfaces = 2%nat -> elements oxide = (m, x) :: rest ->
  exists f, al_with_polymer element oxide polymer al_nm polymer_nm al_density surfaces = Some f /\ fill_fraction f = 1 /\ absorber f = false /\
  layers (materials f) (densities f) (thicknesses f) =
  al_layer al_nm al_density :: (m, density oxide * x, INR surfaces * 3 / 10000000) ::
  firstn (List.length (elements polymer))
    (map (fun p => (fst p, density oxide * snd p, polymer_nm / 10000000)) rest ++ map (fun p => (fst p, density polymer * snd p, polymer_nm / 10000000)) (elements polymer)).
Proof.
  intros K S E. unfold al_with_polymer.
  assert (((surfaces =? 1) || (surfaces =? 2))%nat = true) as -> by (destruct S as [-> | ->]; reflexivity).
  unfold make_film. destruct (all_known element _ K) as (us & ->).
  match goal with |- context [(?a =? ?b)%nat] => assert ((a =? b)%nat = true) as -> by (apply Nat.eqb_eq; cbn; now rewrite ?app_length, !map_length) end.
  cbn [map List.length Nat.leb]. eexists. split; [reflexivity|]. split; [reflexivity|]. split; [reflexivity|].
  cbn [materials densities thicknesses layers]. rewrite E. cbn [map layers fst snd app]. unfold al_layer. f_equal. f_equal.
  replace (map (fun v : R => v * / 10000000) (repeat polymer_nm (List.length (elements polymer))))
    with (repeat (polymer_nm / 10000000) (List.length (elements polymer))) by (rewrite map_same; reflexivity).
  generalize (List.length (elements polymer)) as k. generalize (elements polymer) as ps. clear. intros ps k.
  revert k. induction rest as [|(m, x) rest IH]; intros k; cbn [map app].
  - rewrite firstn_map. destruct (Nat.le_ge_cases k (List.length ps)).
    + now apply layers_repeat_short.
    + rewrite firstn_all2 by lia. now apply layers_repeat.
  - destruct k as [|k]; cbn; [reflexivity|]. now rewrite IH.
Qed.
