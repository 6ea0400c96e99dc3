(** Smaller methods of a channel, mass/core/channel.py: the count rate (2105-2117), the summary of cuts (2119-2134), smart_cuts (2242-2263),
    compute_noise (1605-1628) and the sample number of the peak (886-895).  [None]: an exception.  Exact arithmetic. *)
From Coq Require Import ZArith NArith QArith Qround Qcanon Bool Arith String List.
From Verif Require Import CutModel HistModel.
From Verif Require NoiModel.
Import ListNotations.
Local Open Scope list_scope.
Local Open Scope nat_scope.

(** * count_rate *)
(** np.arange(start, stop, step): ceil((stop - start)/step) numbers; a step of zero raises. *)
Definition arange (start stop step : Q) : option (list Q) :=
  if Qeq_bool step 0 then None
  else Some (map (fun k => (start + inject_Z (Z.of_nat k) * step)%Q) (seq 0 (Z.to_nat (Qceiling ((stop - start) / step))))).
Inductive bins := Width (w : Q) | Edges (e : list Q).
Definition chosen {A : Type} (g : list bool) (l : list A) : list A := map snd (filter fst (combine g l)).
Definition with_edges (times edges : list Q) : option (list Q * list Q) :=
  match histogram (map Fin times) (map Fin edges), edges with
  | Some counts, e0 :: e1 :: _ => Some (map (fun e => (e + (1 # 2) * (e1 - e0))%Q) (removelast edges), map (fun c => (inject_Z (Z.of_nat c) / (e1 - e0))%Q) counts)
  | _, _ => None
  end.
(** [g]: the good pulses; [times]: p_timestamp, finite *)
Definition count_rate (goodonly : bool) (b : bins) (g : list bool) (times : list Q) : option (list Q * list Q) :=
  let ts := chosen (if goodonly then g else map (fun _ => true) g) times in
  match b with
  | Width w => match ts with
               | [] => None
               | t0 :: _ => match arange t0 (last ts t0) w with None => None | Some e => with_edges ts e end
               end
  | Edges e => with_edges ts e
  end.

(** * cut_summary: what is printed *)
Inductive printed := Pair (n_and n_or : nat) (c1 c2 : string) | Empty | Braces (* the text with the braces: the string is no f-string *) | Total (n : nat).
Definition boolean_fields (r : registry) : list string := filter (fun n => negb (String.eqb n "")) (map fst (bdesc r)).
Definition tally_ (l : list bool) : nat := List.length (filter (fun b => b) l).
Definition pair_line (r : registry) (ws : list N) (c1 c2 : string) : option printed :=
  match bad r [c1] [] ws, bad r [c2] [] ws with
  | Some a, Some b => Some (Pair (tally_ (map2 andb a b)) (tally_ (map2 orb a b)) c1 c2)
  | _, _ => None
  end.
(** c1 is c2: the same element of the list *)
Fixpoint all_ok {A : Type} (l : list (option A)) : option (list A) := match l with [] => Some [] | None :: _ => None | Some a :: t => option_map (cons a) (all_ok t) end.
Definition numbered (l : list string) : list (nat * string) := combine (seq 0 (List.length l)) l.
Definition cut_summary (r : registry) (ws : list N) : option (list printed) :=
  let f := numbered (boolean_fields r) in
  match all_ok (flat_map (fun c1 => flat_map (fun c2 => if fst c1 =? fst c2 then [] else [pair_line r ws (snd c1) (snd c2)]) f) f) with
  | None => None
  | Some p => Some (p ++ [Empty] ++ map (fun _ => Braces) f ++ [Total (List.length ws)])
  end.

(** * smart_cuts.  [rows]: pretrigger mean and rms, minimum and derivative of each pulse; [fit]: MinCovDet().fit, which gives distances. *)
Definition smart_cuts (r : registry) (fit : list (list Qc) -> option (list Qc -> Qc)) (threshold : Qc) (n_trainings : nat) (forceNew : bool) (rows : list (list Qc)) (ws : list N) : option (list N) :=
  match good r ["smart_cuts"%string] [] ws with
  | None => None
  | Some g =>
      if forallb (fun b => b) g || forceNew then
        match fit (firstn n_trainings rows) with
        | None => None
        | Some dist => cut r "smart_cuts" (BoolMask (map (fun x => if Qclt_le_dec (threshold * threshold)%Qc (dist x) then true else false) rows)) ws
        end
      else Some ws
  end.

(** * compute_noise: stored autocorrelation and power spectrum, and whether it ended without an exception.  [spectrum], [autocorr]: what the noise
    records compute. *)
Definition compute_noise (forceNew : bool) (spectrum autocorr : option (list Qc)) (stored_ac stored_psd : list Qc) : (list Qc * list Qc) * bool :=
  if forceNew || forallb (fun x => if Qc_eq_dec x 0 then true else false) stored_ac then
    match spectrum, autocorr with
    | Some s, Some a =>
        match NoiModel.store (List.length stored_ac) (Some (firstn (List.length stored_ac) a)) with
        | None => ((stored_ac, stored_psd), false)
        | Some a' => match NoiModel.store (List.length stored_psd) (Some (firstn (List.length stored_psd) s)) with
                     | None => ((a', stored_psd), false)
                     | Some s' => ((a', s'), true)
                     end
        end
    | _, _ => ((stored_ac, stored_psd), false)
    end
  else ((stored_ac, stored_psd), true).

(** * _compute_peak_samplenumber *)
(** np.argmax: the first place of the largest value *)
Fixpoint argmax_from (best : Z) (at_ k : nat) (l : list Z) : nat :=
  match l with [] => at_ | x :: t => if (best <? x)%Z then argmax_from x k (S k) t else argmax_from best at_ (S k) t end.
Definition argmax (l : list Z) : option nat := match l with [] => None | x :: t => Some (argmax_from x 0 1 t) end.
Definition times_in (x : nat) (l : list nat) : nat := List.length (filter (Nat.eqb x) l).
(** scipy.stats.mode: the most common value, the smallest of several *)
Definition mode (l : list nat) : option nat :=
  match l with
  | [] => None
  | x :: _ => Some (fold_left (fun m v => if (times_in m l <? times_in v l) || ((times_in v l =? times_in m l) && (v <? m)) then v else m) l x)
  end.
Definition peak_samplenumber (cut_pre cut_post nSamples : nat) (data : list (list Z)) : option nat :=
  match all_ok (map (fun row => option_map (fun k => k + cut_pre) (argmax (firstn (nSamples - cut_post - cut_pre) (skipn cut_pre row)))) data) with
  | None => None
  | Some idx => mode idx
  end.
