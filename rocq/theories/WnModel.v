(* assume_white_noise, core/channel.py:1564-1581: the noise autocorrelation and power spectral density of a channel. *)
From Coq Require Import ZArith QArith Qcanon List.
From Verif Require Import QcPre LagModel.
Import ListNotations.
Local Open Scope Qc_scope.

Record noise_data := mkNoise { autocorrelation : list Qc; psd : list Qc }.

Definition assume_white_noise (variance timebase : Qc) (force_new : bool) (d : noise_data) : noise_data :=
  if force_new || forallb (fun x => if Qc_eq_dec x 0 then true else false) (autocorrelation d) then
    mkNoise (match autocorrelation d with [] => [] | _ :: t => variance :: map (fun _ => 0) t end)
            (map (fun _ => qz 2 * variance * timebase) (psd d))
  else d.
