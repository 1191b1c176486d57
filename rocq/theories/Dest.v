(** The reflection decoders once more, with what they leave in the destination
    when they fail.  Dec.v gives the new contents of the destination if
    decoding succeeds; here every step says what the destination holds
    afterwards, whatever the outcome.  C62 ties the two together.  Line numbers
    "bin:", "cu16:", "borsh:" as in Dec.v. *)
From Verif Require Import Types DecPrim Enc Dec.

(** Outcome, contents left, state. *)
Definition LM (A : Type) : Type := dst -> outcome unit * A * dst.

Definition blame {A} (r : outcome A) : outcome unit :=
  match r with Ok _ => Ok tt | Err e => Err e | Panic => Panic | Deep => Deep | Stuck => Stuck end.

(** Stop with [r]; the destination holds [a]. *)
Definition stop {A} (r : outcome unit) (a : A) : LM A := fun s => (r, a, s).
Definition done {A} (a : A) : LM A := stop (Ok tt) a.
(** Read something before the destination is touched: it holds [a] if that
    fails. *)
Definition after {A B} (m : DM B) (a : A) (k : B -> LM A) : LM A :=
  fun s => match m s with
           | (Ok b, s') => k b s'
           | (r, s') => (blame r, a, s')
           end.
(** The destination is part of a larger one. *)
Definition hold {A B} (f : A -> B) (m : LM A) : LM B :=
  fun s => let '(r, a, s') := m s in (r, f a, s').
(** One part after the other; [bad] builds what is left if the first fails. *)
Definition next {A B} (m : LM A) (bad : A -> B) (k : A -> LM B) : LM B :=
  fun s => match m s with
           | (Ok tt, a, s') => k a s'
           | (r, a, s') => (r, bad a, s')
           end.
(** n, err = dec.ReadXxx(); rv.SetXxx(n): the result of a failing read is the
    zero value, and it is stored (bin:96-152, cu16:95-151, borsh:129-185). *)
Definition scalar {A B} (m : DM B) (f : B -> A) (zero old : A) : LM A :=
  fun s => match m s with
           | (Ok b, s') => (Ok tt, f b, s')
           | (Err e, s') => (Err e, zero, s')
           | (r, s') => (blame r, old, s')
           end.
Definition wrap {A} (m : LM A) : LM A :=
  fun s => match m s with (Err e, a, s') => (Err (EWrap e), a, s') | x => x end.

(** Elements of an array, bin:169-173, cu16:168-172, borsh:204-208. *)
Section EachDest.
  Variable f : val -> LM val.
  Fixpoint each_dest (l : list val) : LM (list val) :=
    match l with
    | [] => done []
    | p :: r => next (f p) (fun x => x :: r) (fun x => hold (cons x) (each_dest r))
    end.
End EachDest.

(** Elements of a slice: each is decoded into a new variable and appended;
    bin:203-213, cu16:202-212, borsh:242-252. *)
Fixpoint rep_dest (n : nat) (m : LM val) (acc : list val) : LM (list val) :=
  match n with
  | O => done acc
  | S n' => next m (fun _ => acc) (fun x => rep_dest n' m (acc ++ [x]))
  end.

(** Entries of a map: bin:229-242, cu16:228-241, borsh:268-281. *)
Fixpoint map_dest (kt : ty) (n : nat) (mk mv : LM val) (m : list (val * val)) : LM (list (val * val)) :=
  match n with
  | O => done m
  | S n' => next mk (fun _ => m) (fun k => next mv (fun _ => m) (fun v => map_dest kt n' mk mv (map_set kt m k v)))
  end.

(** The fields of a struct, as [dec_fields].  A field that Borsh decodes
    through a new variable is not touched if that fails (borsh:411-435). *)
Section StructDest.
  Variable E : encoding.
  Variable rec : ty -> fopt -> val -> LM val.
  Fixpoint dest_fields (fs : list (fhdr * ty)) (ps : list val) (sizes : smap)
    (seen : bool) {struct fs} : LM (list val) :=
    match fs, ps with
    | [], [] => done []
    | (h, t) :: fs', p :: ps' =>
        let tg := parse_field_tag (f_tag h) in
        let keep sn := hold (cons p) (dest_fields fs' ps' sizes sn) in
        if ft_skip tg then keep seen
        else if negb (ft_ext tg) && seen then stop Panic ps
        else
          let seen' := seen || ft_ext tg in
          let body :=
            if negb (f_exported h) then keep seen'
            else
              match is_borsh E, borsh_field_unmarshaler t with
              | true, Some m =>
                  after m ps (fun x => hold (cons x) (dest_fields fs' ps' sizes seen'))
              | _, _ =>
                  next (wrap (rec t (field_opt E tg (f_name h) sizes) p)) (fun x => x :: ps') (fun x =>
                  if String.eqb (ft_sizeof tg) "" then
                    hold (cons x) (dest_fields fs' ps' sizes seen')
                  else match sizeof_val t x with
                       | None => stop Panic (x :: ps')
                       | Some n =>
                           hold (cons x)
                             (dest_fields fs' ps' ((ft_sizeof tg, n) :: sizes) seen')
                       end)
              end in
          if ft_ext tg then
            after d_rest ps (fun rest => match rest with [] => keep seen' | _ => body end)
          else body
    | _, _ => stop Stuck ps
    end.

  Fixpoint dest_variant (fs : list (fhdr * ty)) (ps : list val) (n : nat) : LM (list val) :=
    match fs, ps with
    | (h, t) :: fs', p :: ps' =>
        match n with
        | O => if negb (f_exported h) then
                 (* nothing can be stored *)
                 after (d_set_cur LE ;;; dec_sealed t p) ps (fun _ => done ps)
               else hold (fun x => x :: ps') (rec t opt0 p)
        | S n' => hold (cons p) (dest_variant fs' ps' n')
        end
    | [], [] => stop (Err EMsg) []
    | _, _ => stop Stuck ps
    end.
End StructDest.

(** decodeBin, decodeCompactU16, decodeBorsh, as [dec_val].  [W c u v s] is what
    a failing UnmarshalWithDecoder method of a type with codec [c] and
    underlying type [u] leaves in a variable that held [v]. *)
Section Dest.
  Variable E : encoding.
  Variable W : codec -> ty -> val -> dst -> val.

  Definition own (c : codec) (u : ty) (f : val -> DM val) (v : val) : LM val :=
    fun s => match f v s with
             | (Ok x, s') => (Ok tt, x, s')
             | (r, s') => (blame r, W c u v s, s')
             end.

  Fixpoint dest_val (t : ty) (m : dmode) (v : val) {struct t} : LM val :=
    let o := mode_opt m in
    let struct_ (fs : list (fhdr * ty)) (ps : list val) : LM val :=
      if is_borsh E && is_enum fs then
        after read_byte (VStruct ps) (fun n =>
        match fs, ps with
        | (h, _) :: fs', _ :: ps' =>
            if negb (f_exported h) then stop Panic (VStruct ps)
            else hold (fun rest => VStruct (VNum n :: rest))
                   (dest_variant (fun t' o' v' => dest_val t' (DStart o') v') fs' ps' (Z.to_nat n))
        | _, _ => stop Stuck (VStruct ps)
        end)
      else
        hold VStruct (dest_fields E (fun t' o' v' => dest_val t' (DStart o') v') fs ps [] false)
    in
    let core (v : val) : LM val :=
      match t with
      | TBool => scalar read_bool VBool (VBool false) v
      | TUint _ w => scalar (read_uintw w (scalar_order E (o_order o))) VNum (VNum 0) v
      | TInt _ w => scalar (read_intw w (scalar_order E (o_order o))) VNum (VNum 0) v
      | TFloat f =>
          scalar (read_float f (scalar_order E (o_order o))) (fun b => VFloat (f32_through64 f b)) (VFloat 0) v
      | TString => after (read_str E) v (fun s => done (VStr s))
      | TIface => done v
      | TArray n t' =>
          match uint_kind t' with
          | Some w => after (read_uints w (Z.of_nat n)) v (fun zs => done (VSeq (map VNum zs)))
          | None =>
              match v with
              | VSeq ps => hold VSeq (each_dest (dest_val t' (DStart opt0)) ps)
              | _ => stop Stuck v
              end
          end
      | TSlice t' =>
          after (match o_size o with Some n => ret n | None => read_count E end) v (fun l =>
          if is_borsh E && (l =? 0) then done v
          else
            after d_remaining v (fun r =>
            if r <? l then stop (Err EUnexpectedEOF) v
            else
              match uint_kind t' with
              | Some w => after (read_uints w l) v (fun zs => done (VSlice (Some (map VNum zs))))
              | None =>
                  hold (fun vs => VSlice (Some vs))
                    (rep_dest (Z.to_nat l) (dest_val t' (DStart opt0) (zero_val t')) [])
              end))
      | TMap kt vt =>
          after (read_count E) v (fun l =>
          if l =? 0 then done v
          else
            hold (fun es => VMap (Some es))
              (map_dest kt (Z.to_nat l)
                 (dest_val kt (DStart opt0) (zero_val kt))
                 (dest_val vt (DStart opt0) (zero_val vt)) []))
      | TStruct fs => match v with VStruct ps => struct_ fs ps | _ => stop Stuck v end
      | TNative _ | TOther => stop (Err EMsg) v
      | TPtr _ | TCodec _ _ | TDeep => stop Stuck v
      end
    in
    let walk (pend : bool) (v : val) : LM val :=
      match t with
      | TPtr t' =>
          (* a nil pointer is set to a new variable before anything is read *)
          hold (fun x => VPtr (Some x)) (dest_val t' (DWalk o pend) (pointee t' v))
      | TCodec c u =>
          match c_unmarshal c with
          | Some f => if pend then stop Panic v else own c u f v
          | None => dest_val u (DWalk o pend) v
          end
      | TDeep => stop Deep v
      | _ =>
          if pend then
            after read_cflag v (fun b => if b then core v else done (zero_val t))
          else core v
      end
    in
    let flagged (v : val) : LM val :=
      if o_opt o then
        after (read_flag E) v (fun b =>
        if b then walk (is_borsh E && o_copt o) v else done (zero_val t))
      else
        after read_cflag v (fun b => if b then walk false v else done (zero_val t))
    in
    let null (v : val) : LM val :=
      match t with
      | TPtr t' =>
          if is_ptr t' then
            match v with
            | VPtr (Some x) => hold (fun y => VPtr (Some y)) (dest_val t' (DNull o) x)
            | _ => flagged v
            end
          else flagged v
      | TCodec c u =>
          match c_unmarshal c with
          | Some _ => stop Panic v
          | None => flagged v
          end
      | TDeep => stop Deep v
      | _ => flagged v
      end
    in
    match m with
    | DStart _ =>
        after (d_set_cur (o_order o)) v (fun _ =>
        if o_opt o || (is_borsh E && o_copt o) then null v else walk false v)
    | DNull _ => null v
    | DWalk _ pend => walk pend v
    end.
End Dest.

(** UnmarshalBin, UnmarshalBorsh, UnmarshalCompactU16 (/repo/interface.go:59-72)
    into a variable that holds [v]: the error and what the variable holds. *)
Definition unmarshal_into (W : codec -> ty -> val -> dst -> val) (E : encoding) (t : ty) (v : val) (data : list Z)
  : outcome unit * val :=
  fst (dest_val E W t (DStart opt0) v (new_decoder E data)).
