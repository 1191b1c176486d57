(** When the work of the decoders is bounded (C71). *)
From Verif Require Import Types DecPrim Enc Dec Spec DecWithin DecLocal Cost.

(** Every map has keys or values that take up room in the input ([solid]); if
    [strict], so have the elements of every slice. *)
Section Fed.
  Variable E : encoding.
  Fixpoint fed (strict : bool) (t : ty) : Prop :=
    match t with
    | TPtr t' | TArray _ t' => fed strict t'
    | TSlice t' => (strict = true -> uint_kind t' = None -> solid E t') /\ fed strict t'
    | TMap kt vt => (solid E kt \/ solid E vt) /\ fed strict kt /\ fed strict vt
    | TStruct fs => (fix go fs := match fs with [] => True | (_, t') :: fs' => fed strict t' /\ go fs' end) fs
    | TCodec c u => match c_unmarshal c with Some _ => True | None => fed strict u end
    | _ => True
    end.
End Fed.

(** What a run used up: the bytes it moved over, or, if it did not succeed, all
    that was left. *)
Definition used {A} (r : outcome A * dst) (s : dst) : Z :=
  match fst r with Ok _ => d_pos (snd r) - d_pos s | _ => remaining_of s end.

(** Methods: their work is at most [kc c] for each byte they use up (and once more),
    and those of integer types (whose result can be the length of a slice) use
    up a byte. *)
Definition codec_cheap (cc : codec -> val -> dst -> Z) (kc : codec -> Z) (c : codec) (u : ty) : Prop :=
  forall f, c_unmarshal c = Some f ->
    (forall v s, inside s -> fits u v -> cc c v s <= kc c * (1 + used (f v s) s)) /\
    (forall v s x s', inside s -> f v s = (Ok x, s') -> sizeof_val u x <> None -> d_pos s < d_pos s').

(** A unit for each byte a method uses up, and one more. *)
Definition byte_cost (c : codec) (v : val) (s : dst) : Z :=
  match c_unmarshal c with Some f => 1 + used (f v s) s | None => 0 end.

(** The work on a value that cannot be stored, [dec_sealed]. *)
Fixpoint seal (t : ty) : Z :=
  match t with
  | TPtr t' | TCodec _ t' => 1 + seal t'
  | TArray n t' => 6 + Z.of_nat n * (3 + seal t')
  | TStruct fs => 6 + zlen fs
  | _ => 6
  end.

(** The work for each byte. *)
Section Toll.
  Variable kc : codec -> Z.
  Fixpoint toll (t : ty) : Z :=
    match t with
    | TPtr t' => toll t' + room t' + 5
    | TArray n t' => Z.of_nat n * (2 + toll t') + toll t' + 2 * room t + 6
    | TSlice t' => 3 * toll t' + 2 * room t' + 11
    | TMap kt vt => 2 * (toll kt + toll vt) + room kt + room vt + 9
    | TStruct fs => fold_right Z.add 0 (map (fun ht => match ht with (h, t') => 3 + 2 * toll t' + if f_exported h then 0 else seal t' end) fs) + 2 * room t + 9
    | TCodec c u => match c_unmarshal c with Some _ => kc c + room u + 7 | None => toll u + room u + 5 end
    | _ => 8
    end.
End Toll.
