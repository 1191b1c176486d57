(** Promoted methods, stated as the Go specification does: a selector denotes the
    method at the shallowest depth where there is one, and there must be exactly
    one there. *)
From Verif Require Import Types Embed.

(** There is a method at the end of the way [p] of [n] embedded fields. *)
Inductive reaches (has : meth -> bool) : nat -> decl -> way -> meth -> Prop :=
| reach_own c t : has c = true -> reaches has 0 (DOwn c t) [] c
| reach_field n fs i h d p c : nth_error fs i = Some (Embedded, h, d) -> reaches has n d p c -> reaches has (S n) (DStruct fs) ((i, false) :: p) c
| reach_pointer n fs i h d p c : nth_error fs i = Some (Pointed, h, d) -> reaches has n d p c -> reaches has (S n) (DStruct fs) ((i, true) :: p) c.

Definition the_method (has : meth -> bool) (d : decl) (p : way) (c : meth) : Prop :=
  exists n, reaches has n d p c /\ (forall p' c', reaches has n d p' c' -> p' = p /\ c' = c) /\
    forall m p' c', (m < n)%nat -> ~ reaches has m d p' c'.

(** The way goes through a pointer. *)
Definition pointing (p : way) : Prop := exists i, In (i, true) p.

(** A method on the pointer seen as one on the value. *)
Definition by_value (c : codec) : codec := mkCodec (c_marshal c) true (c_marshal_nil c) (c_unmarshal c).

(** Neither way leads through the other's end. *)
Inductive apart : way -> way -> Prop :=
| apart_here i j b c p q : i <> j -> apart ((i, b) :: p) ((j, c) :: q)
| apart_below i b p q : apart p q -> apart ((i, b) :: p) ((i, b) :: q).
