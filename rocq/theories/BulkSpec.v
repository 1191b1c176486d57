(** How much encoding a value hands to the writer (C84). *)
From Verif Require Import Types EncPrim Enc Spec Cost MemSpec.
Notation length := Datatypes.length.

(** All bytes given to Write, accepted or not, and one for each call. *)
Definition load (s : est) : Z := zlen (List.concat (e_hist s)) + zlen (e_hist s).

(** A method that hands over at most [kc] for each slot of the value. *)
Definition codec_terse (kc : codec -> Z) (c : codec) (u : ty) : Prop :=
  (forall f, c_marshal c = Some f -> forall v s, load (snd (f v s)) <= load s + kc c * slots v) /\
  forall s, load (snd (c_marshal_nil c s)) <= load s + kc c.

(** The most that one slot of a value of the type is good for.  Nothing but
    methods and, in Borsh, nil pointers make it more than 24: for these the zero
    value of what they would lead to is written. *)
Fixpoint weight (kc : codec -> Z) (E : encoding) (t : ty) : Z :=
  match t with
  | TPtr t' => if is_borsh E then 10 + weight kc E t' * room t' else weight kc E t'
  | TArray _ t' | TSlice t' => weight kc E t'
  | TMap k v => Z.max (weight kc E k) (weight kc E v)
  | TStruct fs => fold_right (fun ht n => Z.max (weight kc E (snd ht)) n) 24 fs
  | TCodec c u => 10 + Z.max (kc c) (weight kc E u)
  | _ => 24
  end.
