(** The reflection decoders with a count of their work: the functions of Dec.v
    once more, over programs that carry a price.  Counted are: every call of
    decodeBin / decodeCompactU16 / decodeBorsh, every step of [indirect], every
    struct field looked at, every round of a loop, every byte of a text and
    every number of a bulk read, and every slot of a new variable
    (reflect.New, reflect.Zero): see [room].  What an UnmarshalWithDecoder
    method costs is a parameter, [cc].  Line numbers as in Dec.v. *)
From Verif Require Import Types DecPrim Enc Dec.

(** A program and what running it from a state costs. *)
Record priced (A : Type) : Type := mkP { prog : DM A; price : dst -> Z }.
Arguments mkP {A}. Arguments prog {A}. Arguments price {A}.

(** A program taken over from the decoder: one unit, and [f a] more if it
    yields [a]. *)
Definition prim_by {A} (f : A -> Z) (m : DM A) : priced A :=
  mkP m (fun s => 1 + match m s with (Ok a, _) => f a | _ => 0 end).
Definition prim {A} (m : DM A) : priced A := prim_by (fun _ => 0) m.
Definition tick {A} (n : Z) (p : priced A) : priced A := mkP (prog p) (fun s => n + price p s).
Definition p_bind {A B} (p : priced A) (k : A -> priced B) : priced B :=
  mkP (bind (prog p) (fun a => prog (k a)))
      (fun s => price p s + match prog p s with (Ok a, s') => price (k a) s' | _ => 0 end).
Definition p_fmap {A B} (f : A -> B) (p : priced A) : priced B := mkP (fmap f (prog p)) (price p).
Definition p_map_err {A} (f : err -> err) (p : priced A) : priced A := mkP (map_err f (prog p)) (price p).

(** The number of slots of a new variable of type [t]. *)
Fixpoint room (t : ty) : Z :=
  match t with
  | TArray n t' => 1 + Z.of_nat n * room t'
  | TStruct fs => 1 + fold_right Z.add 0 (map (fun ht => match ht with (_, t') => room t' end) fs)
  | TCodec _ u => room u
  | _ => 1
  end.

(** bin:230-242, cu16:229-241, borsh:269-281. *)
Fixpoint p_map (kt : ty) (n : nat) (pk pv : priced val) (m : list (val * val)) : priced (list (val * val)) :=
  match n with
  | O => prim (ret m)
  | S n' => tick 1 (p_bind pk (fun k => p_bind pv (fun v => p_map kt n' pk pv (map_set kt m k v))))
  end.
(** bin:169-173, cu16:168-172, borsh:204-208. *)
Section Each.
  Context {A B : Type}.
  Variable f : A -> priced B.
  Fixpoint p_each (l : list A) : priced (list B) :=
    match l with
    | [] => prim (ret [])
    | a :: r => tick 1 (p_bind (f a) (fun b => p_bind (p_each r) (fun bs => prim (ret (b :: bs)))))
    end.
End Each.
(** bin:202-212, cu16:201-211, borsh:241-251. *)
Fixpoint p_rep {A} (n : nat) (p : priced A) : priced (list A) :=
  match n with
  | O => prim (ret [])
  | S n' => tick 1 (p_bind p (fun a => p_bind (p_rep n' p) (fun r => prim (ret (a :: r)))))
  end.

Section Work.
  (** What the method of a codec costs on a variable holding [v]. *)
  Variable cc : codec -> val -> dst -> Z.

  Definition p_codec (c : codec) (f : val -> DM val) (v : val) : priced val :=
    mkP (f v) (fun s => 1 + cc c v s).

  (** borsh:411-435. *)
  Definition p_field_unmarshaler (t : ty) : option (priced val) :=
    match t with
    | TCodec c u =>
        match c_unmarshal c with
        | Some f => Some (tick (room u) (p_codec c f (zero_val u)))
        | None => None
        end
    | TPtr (TCodec c u) =>
        match c_unmarshal c with
        | Some f => Some (tick (room u) (p_fmap (fun x => VPtr (Some x)) (p_codec c f (zero_val u))))
        | None => None
        end
    | _ => None
    end.

  (** bin:259-351, cu16:258-350, borsh:333-452. *)
  Section Fields.
    Variable E : encoding.
    Variable rec : ty -> fopt -> val -> priced val.
    Fixpoint p_fields (fs : list (fhdr * ty)) (ps : list val) (sizes : smap) (seen : bool) {struct fs} :
      priced (list val) :=
      match fs, ps with
      | [], [] => prim (ret [])
      | (h, t) :: fs', p :: ps' =>
          let tg := parse_field_tag (f_tag h) in
          let keep sn := p_fmap (cons p) (p_fields fs' ps' sizes sn) in
          tick 1
            (if ft_skip tg then keep seen
             else if negb (ft_ext tg) && seen then prim panic
             else
               let seen' := seen || ft_ext tg in
               let body :=
                 if negb (f_exported h) then keep seen'
                 else
                   match is_borsh E, p_field_unmarshaler t with
                   | true, Some m => p_bind m (fun x => p_fmap (cons x) (p_fields fs' ps' sizes seen'))
                   | _, _ =>
                       p_bind (p_map_err EWrap (rec t (field_opt E tg (f_name h) sizes) p)) (fun x =>
                       if String.eqb (ft_sizeof tg) "" then p_fmap (cons x) (p_fields fs' ps' sizes seen')
                       else match sizeof_val t x with
                            | None => prim panic
                            | Some n => p_fmap (cons x) (p_fields fs' ps' ((ft_sizeof tg, n) :: sizes) seen')
                            end)
                   end in
               if ft_ext tg then
                 p_bind (prim d_rest) (fun rest => match rest with [] => keep seen' | _ => body end)
               else body)
      | _, _ => prim stuck
      end.

    (** borsh:302-306, [dec_sealed]. *)
    Fixpoint p_sealed (t : ty) (v : val) {struct t} : priced unit :=
      match t with
      | TString => p_bind (prim_by zlen read_string) (fun _ => prim panic)
      | TPtr t' =>
          match v with VPtr (Some x) => tick 1 (p_sealed t' x) | VPtr None => prim panic | _ => prim stuck end
      | TCodec _ u => tick 1 (p_sealed u v)
      | TArray n t' =>
          match uint_kind t' with
          | Some w =>
              p_bind (prim_by zlen (read_uints w (Z.of_nat n))) (fun _ =>
              prim (match n with O => if plain_uint t' then panic else ret tt | S _ => panic end))
          | None =>
              match v with
              | VSeq ps =>
                  p_bind (p_each (fun x => p_bind (prim (d_set_cur LE)) (fun _ => p_sealed t' x)) ps)
                    (fun _ => prim (ret tt))
              | _ => prim stuck
              end
          end
      | TSlice t' =>
          p_bind (prim (read_count Borsh)) (fun l =>
          if l =? 0 then prim (ret tt)
          else
            p_bind (prim d_remaining) (fun r =>
            if r <? l then prim (fail EUnexpectedEOF)
            else
              match uint_kind t' with
              | Some w => p_bind (prim_by zlen (read_uints w l)) (fun _ => prim panic)
              | None => prim panic
              end))
      | TMap _ _ =>
          p_bind (prim (read_count Borsh)) (fun l => if l =? 0 then prim (ret tt) else prim panic)
      | TStruct fs => tick (zlen fs) (prim (dec_sealed t v))
      | _ => prim (dec_sealed t v)
      end.
    Fixpoint p_variant (fs : list (fhdr * ty)) (ps : list val) (n : nat) : priced (list val) :=
      match fs, ps with
      | (h, t) :: fs', p :: ps' =>
          match n with
          | O => if negb (f_exported h) then
                   p_bind (prim (d_set_cur LE)) (fun _ => p_bind (p_sealed t p) (fun _ => prim (ret ps)))
                 else p_bind (rec t opt0 p) (fun x => prim (ret (x :: ps')))
          | S n' => p_fmap (cons p) (p_variant fs' ps' n')
          end
      | [], [] => prim (fail EMsg)
      | _, _ => prim stuck
      end.
  End Fields.

  (** decodeBin bin:44-250, decodeCompactU16 cu16:43-249, decodeBorsh
      borsh:44-289. *)
  Fixpoint pdec (E : encoding) (t : ty) (m : dmode) (v : val) {struct t} : priced val :=
    let o := mode_opt m in
    let p_struct (fs : list (fhdr * ty)) (ps : list val) : priced val :=
      if is_borsh E && is_enum fs then
        p_bind (prim read_byte) (fun n =>
        match fs, ps with
        | (h, _) :: fs', _ :: ps' =>
            if negb (f_exported h) then prim panic
            else p_bind (p_variant (fun t' o' v' => pdec E t' (DStart o') v') fs' ps' (Z.to_nat n))
                   (fun rest => prim (ret (VStruct (VNum n :: rest))))
        | _, _ => prim stuck
        end)
      else p_fmap VStruct (p_fields E (fun t' o' v' => pdec E t' (DStart o') v') fs ps [] false)
    in
    let core (v : val) : priced val :=
      match t with
      | TBool => prim (fmap VBool read_bool)
      | TUint _ w => prim (fmap VNum (read_uintw w (scalar_order E (o_order o))))
      | TInt _ w => prim (fmap VNum (read_intw w (scalar_order E (o_order o))))
      | TFloat f =>
          prim (fmap (fun b => VFloat (f32_through64 f b)) (read_float f (scalar_order E (o_order o))))
      | TString => p_fmap VStr (prim_by zlen (read_str E))
      | TIface => prim (ret v)
      | TArray n t' =>
          match uint_kind t' with
          | Some w => p_fmap (fun zs => VSeq (map VNum zs)) (prim_by zlen (read_uints w (Z.of_nat n)))
          | None =>
              match v with
              | VSeq ps => p_fmap VSeq (p_each (pdec E t' (DStart opt0)) ps)
              | _ => prim stuck
              end
          end
      | TSlice t' =>
          p_bind (prim (match o_size o with Some n => ret n | None => read_count E end)) (fun l =>
          if is_borsh E && (l =? 0) then prim (ret v)
          else
            p_bind (prim d_remaining) (fun r =>
            if r <? l then prim (fail EUnexpectedEOF)
            else
              match uint_kind t' with
              | Some w => p_fmap (fun zs => VSlice (Some (map VNum zs))) (prim_by zlen (read_uints w l))
              | None =>
                  p_fmap (fun vs => VSlice (Some vs))
                    (p_rep (Z.to_nat l) (tick (room t') (pdec E t' (DStart opt0) (zero_val t'))))
              end))
      | TMap kt vt =>
          p_bind (prim (read_count E)) (fun l =>
          if l =? 0 then prim (ret v)
          else
            p_fmap (fun es => VMap (Some es))
              (p_map kt (Z.to_nat l)
                 (tick (room kt) (pdec E kt (DStart opt0) (zero_val kt)))
                 (tick (room vt) (pdec E vt (DStart opt0) (zero_val vt))) []))
      | TStruct fs => match v with VStruct ps => p_struct fs ps | _ => prim stuck end
      | TNative _ | TOther => prim (fail EMsg)
      | TPtr _ | TCodec _ _ | TDeep => prim stuck
      end
    in
    let walk (pend : bool) (v : val) : priced val :=
      match t with
      | TPtr t' =>
          tick (match v with VPtr (Some _) => 1 | _ => 1 + room t' end)
            (p_fmap (fun x => VPtr (Some x)) (pdec E t' (DWalk o pend) (pointee t' v)))
      | TCodec c u =>
          match c_unmarshal c with
          | Some f => if pend then prim panic else p_codec c f v
          | None => tick 1 (pdec E u (DWalk o pend) v)
          end
      | TDeep => prim deep
      | _ =>
          if pend then
            p_bind (prim read_cflag) (fun b => if b then core v else tick (room t) (prim (ret (zero_val t))))
          else core v
      end
    in
    let flagged (v : val) : priced val :=
      if o_opt o then
        p_bind (prim (read_flag E)) (fun b =>
        if b then walk (is_borsh E && o_copt o) v else tick (room t) (prim (ret (zero_val t))))
      else
        p_bind (prim read_cflag) (fun b =>
        if b then walk false v else tick (room t) (prim (ret (zero_val t))))
    in
    let null (v : val) : priced val :=
      match t with
      | TPtr t' =>
          if is_ptr t' then
            match v with
            | VPtr (Some x) => tick 1 (p_fmap (fun y => VPtr (Some y)) (pdec E t' (DNull o) x))
            | _ => flagged v
            end
          else flagged v
      | TCodec c u =>
          match c_unmarshal c with
          | Some _ => prim panic
          | None => flagged v
          end
      | TDeep => prim deep
      | _ => flagged v
      end
    in
    match m with
    | DStart _ =>
        p_bind (prim (d_set_cur (o_order o))) (fun _ =>
        if o_opt o || (is_borsh E && o_copt o) then null v else walk false v)
    | DNull _ => null v
    | DWalk _ pend => walk pend v
    end.

  (** UnmarshalBin / UnmarshalCompactU16 / UnmarshalBorsh: the work for the
      input [data]. *)
  Definition work (E : encoding) (t : ty) (v : val) (data : list Z) : Z :=
    price (pdec E t (DStart opt0) v) (mkD data 0 None E).
End Work.
