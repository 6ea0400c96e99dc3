(** Property theorems: groups of noise files. *)
From Coq Require Import ZArith Ascii String Bool QArith QArith.Qcanon Lia List.
From Verif Require Import LjhModel TgModel TgProofs TnModel TnProofs.
Import ListNotations.
Open Scope Z_scope.

(** Every file becomes a channel, in order. *)
Theorem noise_channels h l g : setup_noise h l = Some g -> chans g = map (fun f => (f, None)) l.
Proof. apply (add_noises_chans l (empty h [])). Qed.
Print Assumptions noise_channels.

(** If all have records, they share nSamples, nPresamples and timebase, which are the group's. *)
Theorem noise_one_shape h l g : (forall f, In f l -> 0 < p_nseg f) -> setup_noise h l = Some g ->
  forall f, In f l -> p_shape f = shape g.
Proof. intros P H f I. apply (add_noises_shape l (empty h []) g P ltac:(cbn; lia) H f I). Qed.
Print Assumptions noise_one_shape.

(** Files of distinct channels with one shape can always be opened into a new HDF5 file, which
    then names each of them. *)
Theorem noise_opens sh l : NoDup (map p_chan l) -> (forall f, In f l -> p_shape f = sh) ->
  exists g, setup_noise [] l = Some g /\ h5 g = map (fun f => (p_chan f, mkA (p_path f) (p_npulses f) None)) l.
Proof.
  intros N S. apply (add_noises_opens sh l (empty [] []) N); auto. cbn. intros E. contradiction.
Qed.
Print Assumptions noise_opens.

(** For distinct channels with records, being openable is having one shape. *)
Theorem noise_opens_iff f l : NoDup (map p_chan (f :: l)) -> (forall x, In x (f :: l) -> 0 < p_nseg x) ->
  ((exists g, setup_noise [] (f :: l) = Some g) <-> forall x, In x l -> p_shape x = p_shape f).
Proof.
  intros N P. split.
  - intros [g G] x I. pose proof (noise_one_shape [] _ g P G) as S.
    rewrite (S x (or_intror I)), (S f (or_introl eq_refl)). reflexivity.
  - intros S. destruct (noise_opens (p_shape f) (f :: l) N) as (g & G & _); [|eauto].
    intros x [<-|I]; auto.
Qed.
Print Assumptions noise_opens_iff.

Definition m1 : pfile := mkP (bs "n_chan1.noi") 1 10 (100, 50, 1%Qc) 1.
Definition m3 : pfile := mkP (bs "n_chan3.noi") 3 20 (100, 50, 1%Qc) 2.

(** All channels of a group of noise files have one shape: not when a file has no records, since
    the shape is then not yet taken as known. *)
Theorem noise_empty_file_refuted : exists l g, setup_noise [] l = Some g /\ NoDup (map p_chan l) /\
  exists f f', In (f, None) (chans g) /\ In (f', None) (chans g) /\ p_shape f <> p_shape f'.
Proof.
  set (e := mkP (bs "n_chan5.noi") 5 0 (200, 50, 1%Qc) 0).
  exists [e; m1]. eexists. split; [reflexivity|]. split.
  - constructor; [intros [H|[]]; discriminate H|]. constructor; [intros []|constructor].
  - exists e, m1. split; [now left|]. split; [right; now left|]. discriminate.
Qed.
Print Assumptions noise_empty_file_refuted.

(** * Examples *)

Example noise_two : exists g, setup_noise [] [m1; m3] = Some g /\ map fst (h5 g) = [1; 3] /\ nseg g = 2 /\
  chans g = [(m1, None); (m3, None)].
Proof. eexists. split; [reflexivity|]. repeat split. Qed.
Example noise_two_shapes : setup_noise [] [m1; mkP (bs "n_chan3.noi") 3 20 (100, 40, 1%Qc) 2] = None.
Proof. reflexivity. Qed.
Example noise_changed : setup_noise [(1, mkA (bs "n_chan1.noi") 9 None)] [m1] = None.
Proof. reflexivity. Qed.
Example noise_hypotheses : NoDup (map p_chan [m1; m3]) /\ (forall x, In x [m1; m3] -> 0 < p_nseg x) /\
  (forall x, In x [m1; m3] -> p_shape x = (100, 50, 1%Qc)).
Proof.
  split; [|split].
  - constructor; [intros [H|[]]; discriminate H|]. constructor; [intros []|constructor].
  - intros x [<-|[<-|[]]]; reflexivity.
  - intros x [<-|[<-|[]]]; reflexivity.
Qed.
