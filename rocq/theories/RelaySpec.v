(** Values as Go has them: the keys of each map differ (C87). *)
From Verif Require Import Types Enc Dec Spec WriteSpec.
Notation length := Datatypes.length.

Fixpoint keyed (t : ty) (v : val) {struct t} : Prop :=
  match t, v with
  | TPtr t', VPtr (Some x) => keyed t' x
  | TArray _ t', VSeq l | TSlice t', VSlice (Some l) => Forall (keyed t') l
  | TMap kt vt, VMap (Some m) => distinct kt (map fst m) /\ Forall (fun e => keyed kt (fst e) /\ keyed vt (snd e)) m
  | TStruct fs, VStruct vs => each_field keyed fs vs
  | TCodec _ u, _ => keyed u v
  | _, _ => True
  end.

(** A method whose results are such values. *)
Definition codec_keyed (c : codec) (u : ty) : Prop :=
  forall f, c_unmarshal c = Some f -> forall v s x s', keyed u v -> f v s = (Ok x, s') -> keyed u x.

(** Types without maps. *)
Fixpoint mapless (t : ty) : bool :=
  match t with
  | TPtr t' | TArray _ t' | TSlice t' | TCodec _ t' => mapless t'
  | TMap _ _ => false
  | TStruct fs => forallb (fun ht => mapless (snd ht)) fs
  | _ => true
  end.
