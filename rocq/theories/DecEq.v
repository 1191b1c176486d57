(** Unfolding equations of the reflection decoder. *)
From Verif Require Import Types DecPrim Enc Dec.

(** Entry of decodeBin etc. *)
Lemma dec_start_eq E t o v :
  dec_val E t (DStart o) v =
  (d_set_cur (o_order o) ;;;
   if o_opt o || (is_borsh E && o_copt o) then dec_val E t (DNull o) v
   else dec_val E t (DWalk o false) v).
Proof. destruct t; cbn [dec_val mode_opt]; cbv zeta; reflexivity. Qed.

(** Flags. *)
Definition dec_flagged (E : encoding) (t : ty) (o : fopt) (v : val) : DM val :=
  if o_opt o then
    b <- read_flag E ;;
    if b then dec_val E t (DWalk o (is_borsh E && o_copt o)) v else ret (zero_val t)
  else
    b <- read_cflag ;;
    if b then dec_val E t (DWalk o false) v else ret (zero_val t).

Lemma dec_null_eq E t o v :
  dec_val E t (DNull o) v =
  match t with
  | TPtr t' =>
      if is_ptr t' then
        match v with
        | VPtr (Some x) => fmap (fun y => VPtr (Some y)) (dec_val E t' (DNull o) x)
        | _ => dec_flagged E t o v
        end
      else dec_flagged E t o v
  | TCodec c u => match c_unmarshal c with Some _ => panic | None => dec_flagged E t o v end
  | TDeep => deep
  | _ => dec_flagged E t o v
  end.
Proof.
  destruct t; unfold dec_flagged; cbn [dec_val mode_opt]; cbv zeta; try reflexivity.
Qed.

Definition with_pend (pend : bool) (t : ty) (core : DM val) : DM val :=
  if pend then b <- read_cflag ;; if b then core else ret (zero_val t) else core.

(** A struct. *)
Definition dec_struct (E : encoding) (fs : list (fhdr * ty)) (ps : list val) : DM val :=
  if is_borsh E && is_enum fs then
    n <- read_byte ;;
    match fs, ps with
    | (h, _) :: fs', _ :: ps' =>
        if negb (f_exported h) then panic
        else
          rest <- dec_variant (fun t' o' v' => dec_val E t' (DStart o') v')
                    fs' ps' (Z.to_nat n) ;;
          ret (VStruct (VNum n :: rest))
    | _, _ => stuck
    end
  else
    fmap VStruct
      (dec_fields E (fun t' o' v' => dec_val E t' (DStart o') v') fs ps [] false).

Lemma dec_walk_eq E t o pend v :
  dec_val E t (DWalk o pend) v =
  match t with
  | TPtr t' => fmap (fun x => VPtr (Some x)) (dec_val E t' (DWalk o pend) (pointee t' v))
  | TCodec c u =>
      match c_unmarshal c with
      | Some f => if pend then panic else f v
      | None => dec_val E u (DWalk o pend) v
      end
  | TDeep => deep
  | TBool => with_pend pend t (fmap VBool read_bool)
  | TUint _ w => with_pend pend t (fmap VNum (read_uintw w (scalar_order E (o_order o))))
  | TInt _ w => with_pend pend t (fmap VNum (read_intw w (scalar_order E (o_order o))))
  | TFloat f =>
      with_pend pend t
        (fmap (fun b => VFloat (f32_through64 f b)) (read_float f (scalar_order E (o_order o))))
  | TString => with_pend pend t (fmap VStr (read_str E))
  | TIface => with_pend pend t (ret v)
  | TArray n t' =>
      with_pend pend t
        (match uint_kind t' with
         | Some w => fmap (fun zs => VSeq (map VNum zs)) (read_uints w (Z.of_nat n))
         | None =>
             match v with
             | VSeq ps => fmap VSeq (each_dec (dec_val E t' (DStart opt0)) ps)
             | _ => stuck
             end
         end)
  | TSlice t' =>
      with_pend pend t
        (l <- (match o_size o with Some n => ret n | None => read_count E end) ;;
         if is_borsh E && (l =? 0) then ret v
         else
           r <- d_remaining ;;
           if r <? l then fail EUnexpectedEOF
           else
             match uint_kind t' with
             | Some w => fmap (fun zs => VSlice (Some (map VNum zs))) (read_uints w l)
             | None =>
                 fmap (fun vs => VSlice (Some vs))
                   (read_rep (Z.to_nat l) (dec_val E t' (DStart opt0) (zero_val t')))
             end)
  | TMap kt vt =>
      with_pend pend t
        (l <- read_count E ;;
         if l =? 0 then ret v
         else
           fmap (fun es => VMap (Some es))
             (dec_map kt (Z.to_nat l)
                (dec_val E kt (DStart opt0) (zero_val kt))
                (dec_val E vt (DStart opt0) (zero_val vt)) []))
  | TStruct fs =>
      with_pend pend t (match v with VStruct ps => dec_struct E fs ps | _ => stuck end)
  | TNative _ | TOther => with_pend pend t (fail EMsg)
  end.
Proof.
  destruct t; cbn [dec_val mode_opt]; cbv zeta; try reflexivity.
Qed.
