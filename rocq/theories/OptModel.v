(** Model of FilterMaker.compute_5lag and compute_ats without low-pass smoothing (fmax = f_3db = None), their helpers and
    bracketR: /repo/mass/core/optimal_filtering.py:362-424, 509-589, 591-669, 671-690, 706-722; and of the single-lag
    estimator _filter_data_segment_ats without transform, /repo/mass/core/channel.py:1439-1460.
    Exact rationals; None stands for any exception and for infinities or NaN in the result. The resolution
    (a logarithm and a square root of the variance) is not modelled. *)
From Coq Require Import ZArith QArith Qcanon List.
From Verif Require Import QcPre LagModel DerModel ToepModel WhiModel.
Import ListNotations.
Local Open Scope Qc_scope.

Definition total (l : list Qc) : Qc := qsum (length l) (fun i => nth i l 0).

(** bracketR, lines 706-722. r has 2n-1 entries: noise[:n] reversed, then forwards from the middle. *)
Definition mirror (n : nat) (noise : list Qc) : list Qc := rev (firstn n noise) ++ tl (firstn n noise).
Definition bracketR (q noise : list Qc) : option Qc :=
  let n := length q in
  if Nat.ltb (length noise) n || Nat.eqb n 0 then None else
  Some (fold_left (fun acc i => acc + nth i q 0 * dot (slice (mirror n noise) (n - i - 1) n) q) (seq 0 n) 0).

Definition lmin (l : list Qc) : option Qc :=
  match l with [] => None | x :: t => Some (fold_left (fun m y => if qltb y m then y else m) t x) end.
Definition lmax (l : list Qc) : option Qc :=
  match l with [] => None | x :: t => Some (fold_left (fun m y => if qltb m y then y else m) t x) end.
(** l[a : len - b] *)
Definition cut (a b : nat) (l : list Qc) : list Qc := firstn (length l - a - b) (skipn a l).

(** The arguments of FilterMaker that are used here, lines 349-360. [peak] at most zero: find it. *)
Record maker := mkMaker { sig : list Qc; npre : nat; noise : option (list Qc); dtm : option (list Qc); wht : option (list Qc * list Qc); upeak : Qc }.

(** _normalize_signal, lines 612-669: (signal, peak, dt). The mean runs over sig[cut_pre : n_pretrigger-1], which for
    n_pretrigger = 0 means all but the last sample. *)
Definition normalize_signal (m : maker) (a b : nat) : option (list Qc * Qc * list Qc) :=
  let ns := length (sig m) in
  if Nat.leb ns (a + b) then None else
  let stop := match npre m with O => (ns - 1)%nat | S k => Nat.min k ns end in
  let pre := slice (sig m) a (stop - a) in
  do pre_avg <- qdiv (total pre) (qz (Z.of_nat (length pre)));
  do lo <- lmin (cut a b (sig m));
  do hi <- lmax (cut a b (sig m));
  let peak := if qltb 0 (upeak m) then upeak m
              else if qltb (hi - pre_avg) (pre_avg - lo) then lo - pre_avg else hi - pre_avg in
  let s := map (fun x => x - pre_avg) (sig m) in
  do top <- lmax s;
  do rescale <- qdiv 1 top;
  let s := map (fun x => x * rescale) s in
  let s := repeat 0 (Nat.min (npre m) ns) ++ skipn (npre m) s in
  Some (cut a b s, peak, match dtm m with None => [] | Some d => slice (map (fun x => x * rescale) d) a (ns - b - a) end).

(** _compute_autocorr, lines 591-610 *)
Definition autocorr (m : maker) (a b : nat) : list Qc :=
  match noise m with None => [] | Some c => firstn (length (sig m) - (a + b)) c end.

(** _normalize_5lag_filter, lines 671-690. numpy's polyfit of degree two through five points is the parabola
    of LagModel. *)
Definition normalize_5lag (f s : list Qc) : option (list Qc) :=
  if Nat.ltb (length s) (length f + 4) then None else
  let conv i := dot f (slice s i (length f)) in
  let '(p0, p1, p2) := parabola (conv 0%nat) (conv 1%nat) (conv 2%nat) (conv 3%nat) (conv 4%nat) in
  do h <- qdiv p1 p2;
  let ctr := - (qz 1 / qz 2) * h in
  let fit_peak := p0 + ctr * (p1 + ctr * p2) in
  do scale <- qdiv 1 fit_peak;
  Some (map (fun x => x * scale) f).

Definition pad (a b : nat) (f : list Qc) : list Qc := repeat 0 a ++ f ++ repeat 0 b.

Record filter5 := mkF5 { values : list Qc; nominal_peak : Qc; variance : Qc; avg_signal : list Qc }.

(** compute_5lag, lines 362-424. *)
Definition compute_5lag (m : maker) (a b : nat) : option filter5 :=
  do (s, peak, _) <- normalize_signal m a b;
  let nz := autocorr m a b in
  let truncated := cut 2 2 s in
  let n := length truncated in
  if Nat.ltb (length nz) n then None else
  let corr := firstn n nz in
  do rs <- solve_symmetric corr truncated;
  do r1 <- solve_symmetric corr (repeat 1 n);
  let f := map (fun i => total r1 * nth i rs 0 - total rs * nth i r1 0) (seq 0 n) in
  do f <- normalize_5lag f s;
  do v <- bracketR f corr;
  Some (mkF5 (pad a b f) peak v s).

(** numpy.linalg.inv of a 3 x 3 matrix: the inverse, or an exception when the matrix is singular. *)
Definition inv3 (A : nat -> nat -> Qc) : option (nat -> nat -> Qc) :=
  let nx i := match i with O => 1%nat | 1%nat => 2%nat | _ => 0%nat end in
  let cof i j := A (nx i) (nx j) * A (nx (nx i)) (nx (nx j)) - A (nx i) (nx (nx j)) * A (nx (nx i)) (nx j) in
  let det := A 0%nat 0%nat * cof 0%nat 0%nat + A 0%nat 1%nat * cof 0%nat 1%nat + A 0%nat 2%nat * cof 0%nat 2%nat in
  if Qc_eq_dec det 0 then None else Some (fun i j => cof j i / det).

Definition opt3 {A} (f : list Qc -> option A) (l : list (list Qc)) : option (list A) :=
  fold_right (fun x acc => do y <- f x; do t <- acc; Some (y :: t)) (Some []) l.

Record filter_ats := mkFA { f_values : list Qc; f_dt : list Qc; f_baseline : list Qc; a_peak : Qc; a_variance : Qc; a_signal : list Qc; a_dt : list Qc }.

Definition row (l : list (list Qc)) (i : nat) : list Qc := nth i l [].
Definition combine3 (ns : nat) (c : nat -> Qc) (vs : list (list Qc)) : list Qc :=
  map (fun j => c 0%nat * nth j (row vs 0) 0 + c 1%nat * nth j (row vs 1) 0 + c 2%nat * nth j (row vs 2) 0) (seq 0 ns).

(** compute_ats, lines 509-589: with a whitener (lines 559-564) or the noise autocorrelation (566-574). The variance
    uses the noise autocorrelation in both cases, so it must be present. *)
Definition compute_ats (m : maker) (a b : nat) : option filter_ats :=
  do (s, peak, d) <- normalize_signal m a b;
  let ns := length s in
  match dtm m with None => None | Some _ =>
  if negb (Nat.eqb ns (length d)) then None else
  let MT := [s; d; repeat 1 ns] in
  do (A, V) <-
    match wht m with
    | Some (theta, phi) =>
        do WM <- opt3 (whiten theta phi) MT;
        do WtWM <- opt3 (applyWT theta phi) WM;
        Some (fun i j => dot (row WM i) (row WM j), WtWM)
    | None =>
        let nz := autocorr m a b in
        if Nat.ltb (length nz) ns then None else
        do RM <- opt3 (solve_symmetric (firstn ns nz)) MT;
        Some (fun i j => dot (row MT i) (row RM j), RM)
    end;
  do Ainv <- inv3 A;
  let filt i := pad a b (combine3 ns (Ainv i) V) in
  do c <- noise m;
  do v <- bracketR (filt 0%nat) c;
  Some (mkFA (filt 0%nat) (filt 1%nat) (filt 2%nat) peak v s d)
  end.

(** _filter_data_segment_ats for one record: (arrival time, value). *)
Definition ats_row (filter filter_at : list Qc) (shift1 : bool) (pulse : list Qc) : option (Qc * Qc) :=
  if negb (Nat.eqb (length filter + 1) (length pulse)) then None else
  let d := if shift1 then firstn (length pulse - 1) pulse else tl pulse in
  let c0 := dot d filter in
  let c1 := dot d filter_at in
  do t <- qdiv c1 c0; Some (t, c0).
