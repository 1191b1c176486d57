(** How much a decoded value takes up (C83). *)
From Verif Require Import Types DecPrim Enc Dec Spec DecWithin DecLocal.
Notation length := Datatypes.length.

(** The slots of a value: one for each number, pointer, slice, map, struct ... in
    it, and one for each byte of a text. *)
Fixpoint slots (v : val) : Z :=
  match v with
  | VStr s => 1 + zlen s
  | VPtr (Some x) => 1 + slots x
  | VSeq l | VSlice (Some l) | VStruct l => 1 + (fix go l := match l with [] => 0 | x :: l' => slots x + go l' end) l
  | VMap (Some es) => 1 + (fix go l := match l with [] => 0 | (k, x) :: l' => slots k + slots x + go l' end) es
  | _ => 1
  end.

(** A method whose result takes up no more than the variable did and its work
    [cc] pays for. *)
Definition codec_modest (cc : codec -> val -> dst -> Z) (c : codec) (u : ty) : Prop :=
  forall f, c_unmarshal c = Some f -> forall v s, inside s -> fits u v -> 0 <= cc c v s /\
    forall x s', f v s = (Ok x, s') -> slots x <= slots v + 1 + cc c v s.
