(** kink_model and fit_kink_model, mass/mathstat/fitting.py.  Arithmetic is exact. *)
From Coq Require Import ZArith QArith Qcanon Bool List.
From Verif Require Import QcPre.
Import ListNotations.
Local Open Scope Qc_scope.

Definition sum (l : list Qc) : Qc := fold_right Qcplus 0 l.
Definition size (l : list Qc) : Qc := Q2Qc (inject_Z (Z.of_nat (length l))).
Definition sumsq (l : list Qc) : Qc := sum (map (fun v => v * v) l).

(** 52-56: [np.linalg.solve] for the matrix [[n, si, sj], [si, si2, 0], [sj, 0, sj2]].  In exact
    arithmetic elimination finds the only solution (here by Cramer's rule); a singular matrix raises
    LinAlgError. *)
Definition solve (n si sj si2 sj2 v0 v1 v2 : Qc) : option (Qc * Qc * Qc) :=
  let det := n * si2 * sj2 - si * si * sj2 - sj * sj * si2 in
  if Qc_eq_dec det 0 then None
  else Some ((v0 * si2 * sj2 - si * sj2 * v1 - sj * si2 * v2) / det,
             (n * v1 * sj2 - si * sj2 * v0 - sj * sj * v1 + si * sj * v2) / det,
             (n * si2 * v2 - si * si * v2 + si * sj * v1 - sj * si2 * v0) / det).

(** 18-59, [kink_model]: the model values, (a, b, c) and X2.  [None]: an exception. *)
Definition kink_model (k : Qc) (x y : list Qc) : option (list Qc * (Qc * Qc * Qc) * Qc) :=
  if negb (Nat.eqb (length x) (length y)) then None
  else
    let xi := filter (fun v => qltb v k) x in
    let xj := filter (fun v => qleb k v) x in
    let yi := map snd (filter (fun p => qltb (fst p) k) (combine x y)) in
    let yj := map snd (filter (fun p => qleb k (fst p)) (combine x y)) in
    if (Nat.eqb (length xi) 0 || Nat.eqb (length xj) 0)%bool then None
    else
      let dxi := map (fun v => v - k) xi in
      let dxj := map (fun v => v - k) xj in
      match solve (size x) (sum dxi) (sum dxj) (sumsq dxi) (sumsq dxj)
                  (sum y) (sum (map (fun p => fst p * snd p) (combine yi dxi))) (sum (map (fun p => fst p * snd p) (combine yj dxj))) with
      | None => None
      | Some (a, b, c) =>
          let model := map (fun d => a + b * d) dxi ++ map (fun d => a + c * d) dxj in
          Some (model, (a, b, c), sumsq (map (fun p => fst p - snd p) (combine model y)))
      end.

(** Smallest and largest value. *)
Definition minl (l : list Qc) : option Qc :=
  match l with [] => None | h :: t => Some (fold_left (fun m v => if qltb v m then v else m) t h) end.
Definition maxl (l : list Qc) : option Qc :=
  match l with [] => None | h :: t => Some (fold_left (fun m v => if qltb m v then v else m) t h) end.

(** 62-108, [fit_kink_model]: the model values, (k, a, b, c) and X2.  [minimize f lo hi] is
    scipy.optimize.minimize_scalar with method "Bounded" ([None]: an exception, for instance one raised
    by f). *)
Definition fit_kink_model (minimize : (Qc -> option Qc) -> Qc -> Qc -> option Qc) (x y : list Qc) (kbounds : option (Qc * Qc))
  : option (list Qc * (Qc * Qc * Qc * Qc) * Qc) :=
  match minl x, maxl x with
  | Some lo, Some hi =>
      let bounds := match kbounds with
                    | None => Some (lo, hi)
                    | Some (u, v) => if (qltb u lo || qltb hi v)%bool then None else Some (u, v)
                    end in
      match bounds with
      | None => None
      | Some (u, v) =>
          match minimize (fun k => option_map snd (kink_model k x y)) u v with
          | None => None
          | Some k => match kink_model k x y with
                      | Some (m, (a, b, c), x2) => Some (m, (k, a, b, c), x2)
                      | None => None
                      end
          end
      end
  | _, _ => None
  end.
