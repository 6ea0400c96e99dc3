(** What rates, summaries and peaks should be. *)
From Coq Require Import ZArith NArith QArith Qround Qcanon Bool Arith String List.
From Verif Require Import Kept CutModel CutHistProofs HistModel HistSpec CmModel.
Import ListNotations.
Local Open Scope nat_scope.

(** n edges from t0, w apart *)
Definition regular (t0 w : Q) (n : nat) (edges : list Q) : Prop :=
  length edges = n /\ forall k, k < n -> exists e, nth_error edges k = Some e /\ (e == t0 + inject_Z (Z.of_nat k) * w)%Q.
(** rates and middles of regular bins *)
Definition rates_of (t0 w : Q) (n : nat) (times : list Q) (centers rates : list Q) : Prop :=
  exists edges, regular t0 w (S n) edges /\ length centers = n /\ length rates = n /\
  forall i, i < n -> exists c r k, nth_error centers i = Some c /\ nth_error rates i = Some r /\ (c == t0 + (inject_Z (Z.of_nat i) + (1 # 2)) * w)%Q /\
    (r * w == inject_Z (Z.of_nat k))%Q /\ tally (fun t => in_bin (map Fin edges) i (Fin t)) times k.
(** the largest value comes first at k *)
Definition first_largest (l : list Z) (k : nat) : Prop :=
  exists x, nth_error l k = Some x /\ forall j y, nth_error l j = Some y -> (y <= x)%Z /\ (j < k -> (y < x)%Z).
(** how often a value occurs *)
Fixpoint often (x : nat) (l : list nat) : nat := match l with [] => 0 | y :: t => (if Nat.eq_dec x y then 1 else 0) + often x t end.
Definition most_common (l : list nat) (m : nat) : Prop := In m l /\ forall v, often v l <= often m l /\ (often v l = often m l -> m <= v).
