(** The Write calls that encoding a value makes (C82), stated without the
    encoder: each item of [calls] is the argument of one call of
    io.Writer.Write. *)
From Verif Require Import Types EncPrim Enc Spec.

(** WriteBytes without length makes no call for no bytes
    (/repo/encoder.go:102-115). *)
Definition one_call (b : list Z) : list (list Z) := match b with [] => [] | _ => [b] end.

(** A string: the length, then the content. *)
Definition text_calls (E : encoding) (s : list Z) : list (list Z) :=
  [match E with Bin => fixed LE 8 (zlen s) | _ => count E (zlen s) end] ++ one_call s.

(** The calls of a MarshalWithEncoder method. *)
Definition codec_calls (f : val -> EM unit) (E : encoding) (o : order) (v : val) : list (list Z) :=
  e_hist (snd (f v (mkE E (fun _ => None) (Some o) 0 [] []))).

(** A flag of its own makes one call. *)
Definition flag_calls (E : encoding) (tg : field_tag) (v : val) (cs : list (list Z)) : list (list Z) :=
  let copt := is_borsh E && ft_coption tg in
  if ft_option tg && is_zero v then [flag E false]
  else (if ft_option tg then [flag E true] else []) ++
       (if copt && is_zero v then [cflag false]
        else (if copt then [cflag true] else []) ++ cs).

Section CallsFields.
  Variable E : encoding.
  Variable calls : ty -> option Z -> order -> val -> list (list Z).
  Fixpoint calls_fields (fs : list (fhdr * ty)) (vs : list val) (s : sizes) : list (list Z) :=
    match fs, vs with
    | (h, t) :: fs', v :: vs' =>
        let tg := parse_field_tag (f_tag h) in
        if live h then
          flag_calls E tg v (calls t (s (f_name h)) (ft_order tg) v) ++
          calls_fields fs' vs' (bind_size tg v s)
        else calls_fields fs' vs' s
    | _, _ => []
    end.
  Fixpoint calls_nth (fs : list (fhdr * ty)) (vs : list val) (n : nat) : list (list Z) :=
    match fs, vs, n with
    | (_, t) :: _, v :: _, O => calls t None LE v
    | _ :: fs', _ :: vs', S n' => calls_nth fs' vs' n'
    | _, _, _ => []
    end.
End CallsFields.

Definition number_bytes (w : width) (x : val) : list Z :=
  match x with VNum z => fixed LE (wbytes w) z | _ => [] end.

(** One call for each number, boolean, count, flag and enum index; one for
    the content of a string and for all the elements of an array or slice of
    unsigned integers, unless there are none. *)
Fixpoint calls (E : encoding) (t : ty) (sz : option Z) (o : order) (v : val)
  {struct t} : list (list Z) :=
  let elems t' l :=
    match uint_kind t' with
    | Some w => one_call (flat_map (number_bytes w) l)
    | None => flat_map (calls E t' None LE) l
    end in
  match t, v with
  | TBool, VBool b => [[if b then 1 else 0]]
  | (TUint _ w | TInt _ w), VNum z => [fixed (num_order E o) (wbytes w) z]
  | TFloat f, VFloat b => [fixed (num_order E o) (fbytes f) (quiet f b)]
  | TString, VStr s => text_calls E s
  | TPtr t', VPtr p =>
      match ptr_marshal t', p with
      | Some f, Some x => codec_calls f E o x
      | Some _, None => []
      | None, _ =>
          match E, p with
          | Borsh, Some x => calls E t' None LE x
          | Borsh, None => calls E t' None LE (zero_val t')
          | _, Some x => calls E t' sz o x
          | _, None => []
          end
      end
  | TArray _ t', VSeq l => elems t' l
  | TSlice t', VSlice ol =>
      let l := match ol with Some l => l | None => [] end in
      (match sz with Some _ => [] | None => [count E (zlen l)] end) ++ elems t' l
  | TMap kt vt, VMap om =>
      let m := match om with Some m => m | None => [] end in
      [count E (zlen m)] ++
      flat_map (fun e => calls E kt None LE (fst e) ++ calls E vt None LE (snd e))
        (entries E kt m)
  | TStruct fs, VStruct vs =>
      if enum_struct E fs then
        match vs with
        | VNum z :: _ =>
            [z] :: calls_nth
                     (fun t' _ _ v' =>
                        match t', v' with
                        | TPtr (TCodec _ u), VPtr (Some x) => calls E u None LE x
                        | TCodec _ u, _ => calls E u None LE v'
                        | _, _ => calls E t' None LE v'
                        end)
                     fs vs (S (Z.to_nat z))
        | _ => []
        end
      else calls_fields E (calls E) fs vs no_sizes
  | TCodec c u, _ =>
      match val_marshal c with
      | Some f => codec_calls f E o v
      | None => calls E u sz o v
      end
  | _, _ => []
  end.
