(** Convolutions computed with Fourier transforms: the autocorrelation of noise (mass/core/channel.py:331-334), the
    smoothing of histograms (mass/core/analysis_algorithms.pyx:257-268, mass/calibration/algorithms.py:48-58) and the
    exponential tails of line models (mass/calibration/line_models.py:56-68).  Exact reals. *)
From Coq Require Import Reals ZArith Bool List.
From Verif Require Import FtModel.
Import ListNotations.
Local Open Scope R_scope.

(** numpy.fft.irfft without n: the even length that has so many frequencies. *)
Definition irfft_default (x : list complex) : list R := irfft x (2 * (length x - 1)).

(** channel.py:331-334 *)
Definition correlated (x : list R) : list R :=
  irfft_default (map (fun k => match k with O => c0 | _ => let v := nth k (rfft x) c0 in real (fst (cmul v (conj v))) end) (seq 0 (length (rfft x)))).
(** analysis_algorithms.pyx:260-266 *)
Definition convolved (kernel contents : list R) : list R :=
  irfft_default (times (fun k => nth k (rfft kernel) c0) (rfft contents)).
(** algorithms.py:49-58: rfftfreq(n, (lo - hi) / n) and the transform of a Gaussian *)
Definition smoothing_gain (fwhm lo hi : R) (n k : nat) : R :=
  let sigma := fwhm / (sqrt (ln 2 * 2) * 2) in
  let tbw := 1 / sigma / (PI * 2) in
  let tx := INR k / (INR n * ((lo - hi) / INR n)) in
  exp (- tx ^ 2 / 2 / tbw ^ 2).
Definition smoothed (hist : list R) (fwhm lo hi : R) : list R :=
  irfft_default (times (fun k => real (smoothing_gain fwhm lo hi (length hist) k)) (rfft hist)).
(** line_models.py:56-68.  One part of the spectrum is left as it is, and two are drawn out: x / (1 - i y) is
    x (1 + i y) / (1 + y^2).  A weight of zero stands for a part that is left out (60, 62). *)
Definition tail (weight y : R) : complex := (weight / (1 + y ^ 2), weight * y / (1 + y ^ 2)).
Definition tail_gain (sharp lo tau_lo hi tau_hi step : R) (n k : nat) : complex :=
  let f := INR k / (INR n * step) in
  cadd (cadd (real sharp) (tail lo (2 * PI * f * tau_lo))) (tail hi (- (2 * PI * f * tau_hi))).
Definition tailed (sharp lo tau_lo hi tau_hi step : R) (raw : list R) : list R :=
  irfft (times (tail_gain sharp lo tau_lo hi tau_hi step (length raw)) (rfft raw)) (length raw).
