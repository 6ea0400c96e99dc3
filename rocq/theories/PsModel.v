(** Power spectra: mass/mathstat/power_spectrum.py:65-215, 281-325 (the segments are those of NoiModel), over exact
    reals.  None is an exception.  A window whose squares sum to zero divides by zero, which is not modelled. *)
From Coq Require Import Reals ZArith Bool List.
From Verif Require Import FtModel.
From Verif Require NoiModel.
Import ListNotations.
Local Open Scope R_scope.

Fixpoint total (l : list R) : R := match l with [] => 0 | v :: r => v + total r end.

(** A window: none, something that is called with the length, or a sequence. *)
Inductive window := WNone | WCall (f : nat -> list R) | WSeq (l : list R).
(** 105-112: the data times the window and the sum of the window's squares.  A window of one entry is broadcast. *)
Definition windowed (w : window) (m2 : nat) (data : list R) : option (list R * R) :=
  let use l :=
    if (length l =? m2)%nat then Some (map (fun p => fst p * snd p) (combine l data), total (map (fun v => v ^ 2) l))
    else match l with [v] => Some (map (fun d => v * d) data, v ^ 2) | _ => None end in
  match w with WNone => Some (data, INR m2) | WCall f => use (f m2) | WSeq l => use l end.

Record power := { p_m : nat; p_dt : R; p_segments : nat; p_sum : list R }.
(** 73-82 *)
Definition new_power (m : nat) (dt : option R) : power :=
  {| p_m := m; p_dt := match dt with Some d => d | None => 1 end; p_segments := 0; p_sum := repeat 0 (m + 1) |}.
(** 93-124; the transform of nothing raises.  A broadcast is not done for a single datum, as there are 2m of them. *)
Definition add_segment (p : power) (data : list R) (w : window) : option power :=
  let m2 := (2 * p_m p)%nat in
  if negb (length data =? m2)%nat then None
  else match windowed w m2 data with
       | None => None
       | Some (x, s) =>
           match m2 with
           | O => None
           | _ =>
               let scale := 2 / (s * INR m2) * (p_dt p * INR m2) in
               let ft := rfft x in
               Some {| p_m := p_m p; p_dt := p_dt p; p_segments := S (p_segments p);
                       p_sum := map (fun k => nth k (p_sum p) 0 + scale * (fst (nth k ft c0) ^ 2 + snd (nth k ft c0) ^ 2)) (seq 0 (p_m p + 1)) |}
           end
       end.
Fixpoint add_segments (p : power) (l : list (list R)) (w : window) : option power :=
  match l with [] => Some p | d :: r => match add_segment p d w with Some q => add_segments q r w | None => None end end.
(** 136-139 *)
Definition spectrum (p : power) : list R := map (fun v => v / INR (p_segments p)) (p_sum p).
(** 153-159, without rebinning *)
Definition frequencies (p : power) : list R := map (fun k => INR k / (2 * p_dt p * INR (p_m p))) (seq 0 (p_m p + 1)).
(** 126-134 *)
Definition add_long_data (p : power) (data : list R) (w : window) : option power :=
  match NoiModel.long_data (p_m p) data with None => None | Some segs => add_segments p segs w end.
(** 304-325: a window is called here, and one that cannot be called is dropped. *)
Definition compute_spectrum (data : list R) (segfactor : nat) (dt : option R) (w : window) : option (option (list R) * list R) :=
  let m := (length data / (2 * segfactor))%nat in
  let w' := match w with WCall f => WSeq (f (2 * m)%nat) | _ => WNone end in
  match NoiModel.compute_spectrum data segfactor with
  | None => None
  | Some segs =>
      match add_segments (new_power m dt) segs w' with
      | None => None
      | Some p => Some (match dt with Some _ => Some (frequencies p) | None => None end, spectrum p)
      end
  end.

(** 217-241; numpy's windows of one entry are one. *)
Definition spread (n : nat) (f : R -> R) : list R := map (fun k => f (INR k / (INR n - 1))) (seq 0 n).
Definition bartlett (n : nat) : list R := match n with 1%nat => [1] | _ => spread n (fun t => if Rle_dec t (1 / 2) then 2 * t else 2 - 2 * t) end.
Definition welch (n : nat) : list R := spread n (fun t => 1 - (2 * t - 1) ^ 2).
Definition hann (n : nat) : list R := match n with 1%nat => [1] | _ => spread n (fun t => 1 / 2 - 1 / 2 * cos (2 * PI * t)) end.
Definition hamming (n : nat) : list R := match n with 1%nat => [1] | _ => spread n (fun t => 54 / 100 - 46 / 100 * cos (2 * PI * t)) end.
