(** The encoders with another IsZero.  The model takes reflect.Value.IsZero as it
    is in Go 1.16 to 1.19, with which the repository is tested
    (/repo/.github/workflows/tests.yml).  From Go 1.22 on IsZero says what
    comparing with == says ("These changes make IsZero consistent with
    comparing a value to zero using the language == operator", release notes):
    -0.0 is zero, and fields called _ do not count.  The encoders use it for
    fields with the options optional and coption (bin:42, cu16:41, borsh:80, 94). *)
From Coq Require Import String.
From Verif Require Import Types EncPrim Enc Builtin Spec.
Notation length := Datatypes.length.

(** -0.0 *)
Definition negative_zero (f : fwidth) : Z := 2 ^ (fbits f - 1).

(** reflect.Value.IsZero of Go 1.22. *)
Fixpoint is_zero122 (t : ty) (v : val) {struct t} : bool :=
  match t with
  | TFloat f => match v with VFloat b => (b =? 0) || (b =? negative_zero f) | _ => false end
  | TArray _ t' => match v with VSeq l => forallb (is_zero122 t') l | _ => false end
  | TStruct fs =>
      match v with
      | VStruct vs =>
          (fix go fs vs := match fs, vs with
                           | ht :: fs', v :: vs' => (String.eqb (f_name (fst ht)) "_" || is_zero122 (snd ht) v) && go fs' vs'
                           | _, _ => true
                           end) fs vs
      | _ => false
      end
  | TCodec _ u => is_zero122 u v
  | _ => is_zero v
  end.

(** [enc_val] of Enc.v with [isz] in the place of IsZero; the rest is the same. *)
Section Enc.
  Variable isz : ty -> val -> bool.
  Fixpoint enc_val_z (E : encoding) (t : ty) (m : emode) (v : val) {struct t} : EM unit :=
    (* encodeStructXxx *)
    let enc_struct (fs : list (fhdr * ty)) (vs : list val) : EM unit :=
      if is_borsh E && is_enum fs then
        match vs with
        | VNum z :: _ =>
            write_byte z ;;;
            nth_field
              (fun h t' v' =>
                 if negb (f_exported h) then sealed_payload t' v' else
                 match t' with
                 | TPtr t'' =>
                     match v' with
                     | VPtr (Some x) => enc_val_z E t'' EPayload x
                     | VPtr None => ret tt
                     | _ => stuck
                     end
                 | _ => enc_val_z E t' EPayload v'
                 end)
              (fail EMsg) stuck fs vs (S (Z.to_nat (z mod 256)))
        | _ => stuck
        end
      else enc_fields E (fun t' o' v' => enc_val_z E t' (EFull o') v') fs vs []
    in
    let order := match m with EFull o => o_order o | EPayload => LE end in
    let size := match m with EFull o => o_size o | EPayload => None end in
    (* the part after the option flags *)
    let core : EM unit :=
      match t with
      | TBool => match v with VBool b => write_bool b | _ => stuck end
      | TUint _ w | TInt _ w =>
          match v with VNum z => write_int E w z order | _ => stuck end
      | TFloat f =>
          match v with
          | VFloat b => write_float f (f32_through64 f b) (scalar_order E order)
          | _ => stuck
          end
      | TString => match v with VStr s => write_str E s | _ => stuck end
      | TStruct fs =>
          match v with VStruct vs => enc_struct fs vs | _ => stuck end
      | TCodec c u =>
          match m with
          | EPayload => enc_val_z E u EPayload v
          | EFull o =>
              match c_marshal c, c_byval c with
              | Some f, true => f v
              | _, _ => enc_val_z E u (EFull (cut_opt o)) v
              end
          end
      | TDeep => deep
      | _ =>
          match m with
          | EPayload => ret tt                       (* borsh:273: not written *)
          | EFull o =>
              match t with
              | TIface => match v with VIface _ => ret tt | _ => stuck end
              | TPtr t' =>
                  match match codec_of t' with
                        | Some c => match c_marshal c with
                                    | Some f => Some (c, f)
                                    | None => None
                                    end
                        | None => None
                        end with
                  | Some (c, f) =>                   (* the pointer is a Marshaler *)
                      match v with
                      | VPtr (Some x) => f x
                      | VPtr None =>
                          match E with
                          | Borsh => ret tt          (* borsh:115 *)
                          | _ => if c_byval c then panic else c_marshal_nil c
                          end
                      | _ => stuck
                      end
                  | None =>
                      match v with
                      | VPtr (Some x) =>
                          match E with
                          | Borsh => enc_val_z E t' (EFull opt0) x
                          | _ => enc_val_z E t' (EFull (cut_opt o)) x
                          end
                      | VPtr None =>
                          match E with
                          | Borsh => enc_val_z E t' (EFull opt0) (zero_val t')
                          | _ => ret tt              (* bin:56 *)
                          end
                      | _ => stuck
                      end
                  end
              | TArray n t' =>
                  match v with
                  | VSeq l =>
                      match uint_kind t' with
                      | Some w => write_uints w (Z.of_nat n) l
                      | None => each (enc_val_z E t' (EFull opt0)) l
                      end
                  | _ => stuck
                  end
              | TSlice t' =>
                  match v with
                  | VSlice ol =>
                      let l := match ol with Some l => l | None => [] end in
                      (match size with
                       | Some _ => ret tt
                       | None => write_count E (zlen l)
                       end) ;;;
                      let n := match size with Some n => n | None => zlen l end in
                      match uint_kind t' with
                      | Some w => write_uints w n l
                      | None =>
                          each (enc_val_z E t' (EFull opt0)) (firstn (Z.to_nat n) l) ;;;
                          if zlen l <? n then panic else ret tt
                      end
                  | _ => stuck
                  end
              | TMap kt vt =>
                  match v with
                  | VMap om =>
                      let m := match om with Some m => m | None => [] end in
                      match ordered_keys E kt (map fst m) with
                      | None => unsortable kt
                      | Some keys =>
                          write_count E (zlen m) ;;;
                          enc_map kt vt (enc_val_z E kt (EFull opt0))
                            (enc_val_z E vt (EFull opt0)) m keys
                      end
                  | _ => stuck
                  end
              | _ => fail EMsg                       (* unsupported type *)
              end
          end
      end
    in
    match m with
    | EPayload => core
    | EFull o =>
        e_set_cur (o_order o) ;;;
        (* option flags: bin:41-54, cu16:40-53, borsh:79-106 *)
        let rest : EM unit :=
          if is_borsh E && o_copt o then
            if isz t v then write_coption false
            else write_coption true ;;; core
          else core in
        if o_opt o then
          if isz t v then write_flag E false
          else write_flag E true ;;; rest
        else rest
    end.
End Enc.

(** Encoder.Encode, /repo/encoder.go:75-86, with Go 1.22. *)
Definition encode122 (t : ty) (v : val) : EM unit :=
  E <- e_get_enc ;; enc_val_z is_zero122 E t (EFull opt0) v.
(** MarshalBin, MarshalBorsh, MarshalCompactU16, /repo/interface.go:38-57, with Go 1.22. *)
Definition marshal122 (E : encoding) (t : ty) (v : val) : outcome unit * list Z :=
  let '(r, s) := encode122 t v (new_encoder E buffer) in (r, e_acc s).

(** * Specification *)

(** What is different: a value of an optional field that equals zero is
    forgotten, also if it is -0.0 or has something in a field called _.
    [forget122 E false t v] is [v] after that; [forget122 E true t v] if [v] is the
    payload of a Borsh enum.  What a MarshalWithEncoder method gets is left
    alone. *)
Section ForgetFields.
  Variable E : encoding.
  Variable forget122 : ty -> val -> val.
  Fixpoint forget_fields (fs : list (fhdr * ty)) (vs : list val) : list val :=
    match fs, vs with
    | (h, t) :: fs', v :: vs' =>
        (if flagged_field E (parse_field_tag (f_tag h)) && is_zero122 t v then zero_val t else forget122 t v) :: forget_fields fs' vs'
    | _, _ => vs
    end.
  Fixpoint forget_each (fs : list (fhdr * ty)) (vs : list val) : list val :=
    match fs, vs with
    | (h, t) :: fs', v :: vs' => forget122 t v :: forget_each fs' vs'
    | _, _ => vs
    end.
End ForgetFields.
Definition method_takes (c : codec) : bool := isSome (c_marshal c) && c_byval c.
Definition pointer_taken (t : ty) : bool := match codec_of t with Some c => isSome (c_marshal c) | None => false end.
Fixpoint forget122 (E : encoding) (payload : bool) (t : ty) (v : val) {struct t} : val :=
  match t, v with
  | TStruct fs, VStruct vs =>
      VStruct (if is_borsh E && is_enum fs
               then forget_each (fun t v => match t, v with
                                            | TPtr t', VPtr (Some x) => VPtr (Some (forget122 E true t' x))
                                            | TPtr _, _ => v
                                            | _, _ => forget122 E true t v
                                            end) fs vs
               else forget_fields E (forget122 E false) fs vs)
  | TCodec c u, _ => if negb payload && method_takes c then v else forget122 E payload u v
  | TPtr t', VPtr (Some x) => if payload || pointer_taken t' then v else VPtr (Some (forget122 E false t' x))
  | TArray _ t', VSeq l => if payload then v else VSeq (map (forget122 E false t') l)
  | TSlice t', VSlice (Some l) => if payload then v else VSlice (Some (map (forget122 E false t') l))
  | TMap kt vt, VMap (Some m) =>
      if payload then v else VMap (Some (map (fun e => (forget122 E false kt (fst e), forget122 E false vt (snd e))) m))
  | _, _ => v
  end.
