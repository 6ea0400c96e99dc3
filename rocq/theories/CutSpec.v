(** What a user relies on, stated over bits and field names only. *)
From Coq Require Import NArith String Bool List.
From Verif Require Import CutModel.
Import ListNotations.
Local Open Scope N_scope.

(** A registered field: a named boolean slot or a categorical field. *)
Definition fields (r : registry) : list (name * N) :=
  filter (fun p => negb (String.eqb (fst p) "")) (bdesc r) ++ cdesc r.

(** The field [f] owns bit [b]. *)
Definition owns (f : name * N) (b : N) : Prop := N.testbit (snd f) b = true.

(** Each field owns a bit, all bits are below 32, and no bit has two owners. *)
Definition disjoint_fields (r : registry) : Prop :=
  (forall f, In f (fields r) -> exists b, owns f b) /\
  (forall f b, In f (fields r) -> owns f b -> b < 32) /\
  (forall i j f g b, nth_error (fields r) i = Some f -> nth_error (fields r) j = Some g ->
                     owns f b -> owns g b -> i = j).

(** The used word records exactly the owned bits. *)
Definition used_exact (r : registry) : Prop :=
  forall b, N.testbit (used r) b = true <-> exists f, In f (fields r) /\ owns f b.

(** At least: no owned bit is considered free. *)
Definition used_covers (r : registry) : Prop :=
  forall f b, In f (fields r) -> owns f b -> N.testbit (used r) b = true.

(** Names that fit the 64-byte storage. *)
Definition short (n : name) : Prop := (String.length n <= 64)%nat.
Definition op_short (o : reg_op) : Prop :=
  match o with
  | RegB ns | UnregB ns => Forall short ns
  | RegC f cs d => short f /\ Forall short cs /\ short d
  | UnregC f => short f
  end.

(** The bit pattern of one pulse restricted to one field, as the user sees it:
    a pulse is cut by a boolean field / its category bits. *)
Definition field_bits (f : name * N) (w : N) : N := N.land w (snd f).

(** A word whose bits 32 and above are zero. *)
Definition word (w : N) : Prop := w < 2 ^ 32.
