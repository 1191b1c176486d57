(** The reflection decoders written down once more, one Go function at a time
    and in the order of their statements, over variables in memory:
    /repo/decoder_bin.go, /repo/decoder_compact-u16.go, /repo/decoder_borsh.go
    ("bin:", "cu16:", "borsh:") and [indirect] of /repo/decoder.go.  Dec.v and
    Dest.v merge the three and follow the type; C64 shows that they describe the
    same functions.  The logging statements are left out. *)
From Verif Require Import Types DecPrim Enc Dec Dest GoEnc.

(** * Memory *)

(** Variables; a location is a variable and the way to a part of it.
    Simplification: every pointer has its own variable to point to, which is
    kept as part of the pointer's value (as in [val]). *)
Inductive step : Type := Elem | Field (i : nat) | Index (i : nat).
Record loc : Type := mkLoc { l_var : nat; l_path : list step }.
Definition into (l : loc) (s : step) : loc := mkLoc (l_var l) (l_path l ++ [s]).

Definition part (v : val) (s : step) : option val :=
  match s, v with
  | Elem, VPtr p => p
  | Field i, VStruct l => nth_error l i
  | Index i, VSeq l => nth_error l i
  | _, _ => None
  end.
Fixpoint set_nth (l : list val) (i : nat) (x : val) : list val :=
  match l, i with
  | [], _ => []
  | _ :: r, O => x :: r
  | y :: r, S i' => y :: set_nth r i' x
  end.
Definition set_part (v : val) (s : step) (x : val) : val :=
  match s, v with
  | Elem, VPtr _ => VPtr (Some x)
  | Field i, VStruct l => VStruct (set_nth l i x)
  | Index i, VSeq l => VSeq (set_nth l i x)
  | _, _ => v
  end.
Fixpoint get_path (v : val) (p : list step) : option val :=
  match p with
  | [] => Some v
  | s :: p' => match part v s with Some w => get_path w p' | None => None end
  end.
Fixpoint set_path (v : val) (p : list step) (x : val) : val :=
  match p with
  | [] => x
  | s :: p' => match part v s with Some w => set_part v s (set_path w p' x) | None => v end
  end.
Definition mem : Type := list val.
Definition mget (m : mem) (l : loc) : option val :=
  match nth_error m (l_var l) with Some v => get_path v (l_path l) | None => None end.
Definition mset (m : mem) (l : loc) (x : val) : mem :=
  match nth_error m (l_var l) with Some v => set_nth m (l_var l) (set_path v (l_path l) x) | None => m end.

(** The decoder and the memory. *)
Record gst : Type := mkG { g_dec : dst; g_mem : mem }.
Definition GM (A : Type) : Type := SM gst A.
Definition lift {A} (m : DM A) : GM A :=
  fun s => let '(r, d) := m (g_dec s) in (r, mkG d (g_mem s)).
Definition load (l : loc) : GM val :=
  fun s => match mget (g_mem s) l with Some v => (Ok v, s) | None => (Stuck, s) end.
Definition store (l : loc) (v : val) : GM unit :=
  fun s => (Ok tt, mkG (g_dec s) (mset (g_mem s) l v)).
(** A new variable. *)
Definition new_var (v : val) : GM loc :=
  fun s => (Ok (mkLoc (List.length (g_mem s)) []), mkG (g_dec s) (g_mem s ++ [v])).
(** x, e := m; if e != nil { h(e) } *)
Definition catch {A} (m : GM A) (h : err -> GM A) : GM A :=
  fun s => match m s with (Err e, s') => h e s' | r => r end.

(** * reflect *)

(** [RVar t l ro]: the variable (or part of one) at [l], of type [t]; [ro]:
    reached through an unexported field.  [RAddr t l]: a pointer to [l] that is
    not itself in a variable: the result of Addr and New, or the argument of
    Decode.  [RAddrRo t l]: the same, reached through an unexported field.
    [RNil t]: a nil *t as the argument of Decode. *)
Inductive rval : Type :=
| RZero
| RVar (t : ty) (l : loc) (ro : bool)
| RAddr (t : ty) (l : loc)
| RAddrRo (t : ty) (l : loc)
| RNil (t : ty).

Definition r_kind (v : rval) : kind :=
  match v with RZero => KInvalid | RVar t _ _ => kind_of t | RAddr _ _ | RAddrRo _ _ | RNil _ => KPtr end.
Definition r_ro (v : rval) : bool := match v with RVar _ _ ro => ro | RAddrRo _ _ => true | _ => false end.
Definition r_can_set (v : rval) : bool := match v with RVar _ _ ro => negb ro | _ => false end.
Definition r_can_addr (v : rval) : bool := match v with RVar _ _ _ => true | _ => false end.
Definition r_type (v : rval) : GM ty :=
  match v with RZero => panic | RVar t _ _ => ret t | RAddr t _ | RAddrRo t _ | RNil t => ret (TPtr t) end.
Definition r_pointer (ro : bool) (t : ty) (l : loc) : rval := if ro then RAddrRo t l else RAddr t l.
Definition r_addr (v : rval) : rval := match v with RVar t l ro => r_pointer ro t l | _ => v end.
Definition r_load (v : rval) : GM val := match v with RVar _ l _ => load l | _ => stuck end.
(** Set (also SetUint, ...). *)
Definition r_set (v : rval) (x : val) : GM unit :=
  match v with RVar _ l false => store l x | _ => panic end.
(** Elem() of a pointer. *)
Definition r_elem (v : rval) : GM rval :=
  match v with
  | RAddr t l => ret (RVar t l false)
  | RAddrRo t l => ret (RVar t l true)
  | RVar t l ro =>
      x <- load l ;;
      match x with VPtr (Some _) => ret (RVar (elem_type t) (into l Elem) ro) | _ => ret RZero end
  | RNil _ => ret RZero
  | RZero => stuck
  end.
(** IsNil() of a pointer. *)
Definition r_is_nil (v : rval) : GM bool :=
  match v with
  | RAddr _ _ | RAddrRo _ _ => ret false
  | RNil _ => ret true
  | RVar _ l _ => x <- load l ;; ret (match x with VPtr (Some _) => false | _ => true end)
  | RZero => stuck
  end.
Definition r_field (v : rval) (i : nat) (h : fhdr) (t : ty) : rval :=
  match v with RVar _ l ro => RVar t (into l (Field i)) (ro || negb (f_exported h)) | _ => RZero end.
Definition r_index (v : rval) (i : nat) : rval :=
  match v with RVar t l ro => RVar (elem_type t) (into l (Index i)) ro | _ => RZero end.
(** New(t). *)
Definition r_new (t : ty) : GM rval := l <- new_var (zero_val t) ;; ret (RAddr t l).

Definition is_kptr (k : kind) : bool := match k with KPtr => true | _ => false end.
Definition is_kiface (k : kind) : bool := match k with KInterface => true | _ => false end.

(** What the memory does not say: which types have names (types with methods
    have), and what the value of an interface known as [z] is, if it is a pointer
    that is not nil: a pointer to the variable of type [t] at [l]. *)
Record outside : Type := mkOut { names : ty -> bool; holds : Z -> option (ty * loc) }.
Definition step_eq_dec (x y : step) : {x = y} + {x <> y}.
Proof. decide equality; apply Nat.eq_dec. Defined.
Definition loc_eq_dec (x y : loc) : {x = y} + {x <> y}.
Proof. decide equality; [apply (list_eq_dec step_eq_dec)|apply Nat.eq_dec]. Defined.

(** An UnmarshalWithDecoder method bound to its receiver. *)
Record method : Type := mkMethod { m_codec : codec; m_under : ty; m_fun : val -> DM val; m_recv : loc }.
(** v.Interface().(BinaryUnmarshaler) of a pointer, if CanInterface(). *)
Definition unmarshaler (v : rval) : option method :=
  match v with
  | RAddr (TCodec c u) l => match c_unmarshal c with Some f => Some (mkMethod c u f l) | None => None end
  | RVar (TPtr (TCodec c u)) l false =>
      match c_unmarshal c with Some f => Some (mkMethod c u f (into l Elem)) | None => None end
  | _ => None
  end.

Section Decoders.
  (** What failing methods leave behind, as in Dest.v; the world outside the
      memory. *)
  Variable W : codec -> ty -> val -> dst -> val.
  Variable named : outside.

  Definition call_unmarshaler (m : method) : GM unit :=
    v <- load (m_recv m) ;;
    fun s =>
      match m_fun m v (g_dec s) with
      | (Ok x, d) => store (m_recv m) x (mkG d (g_mem s))
      | (r, d) => let '(_, s') := store (m_recv m) (W (m_codec m) (m_under m) v (g_dec s)) (mkG d (g_mem s)) in (blame r, s')
      end.

  Definition has_name (t : ty) : bool := match t with TCodec _ _ => true | TPtr _ => false | _ => names named t end.

  (** v.Elem() of an interface, if that is a pointer and not nil: what it points
      to. *)
  Definition r_dynamic (v : rval) : GM (option (ty * loc)) :=
    x <- r_load v ;; ret (match x with VIface (Some z) => holds named z | _ => None end).
  (** v.Elem().Kind() == reflect.Interface && v.Elem().Elem() == v, e being
      v.Elem().  Values that are themselves in variables never compare equal to
      the contents of an interface; two pointers to [l] are taken to be of the
      same type. *)
  Definition r_itself (v e : rval) : GM bool :=
    match v with
    | RAddr _ l | RAddrRo _ l =>
        if is_kiface (r_kind e) then
          p <- r_dynamic e ;; ret (match p with Some (_, l') => if loc_eq_dec l' l then true else false | None => false end)
        else ret false
    | _ => ret false
    end.

  (** indirect, /repo/decoder.go:694-760. *)
  Fixpoint indirect_loop (fuel : nat) (v v0 : rval) (haveAddr decodingNull : bool) : GM (option method * rval) :=
    match fuel with
    | O => stuck
    | S fuel =>
        match v with
        | RVar TDeep _ _ => deep
        | _ =>
            p <- (if is_kiface (r_kind v) then r_dynamic v else ret None) ;;
            match p with
            | Some (t, l) =>
                if negb decodingNull || is_kptr (kind_of t) then indirect_loop fuel (r_pointer (r_ro v) t l) v0 false decodingNull
                else ret (None, v)
            | None =>
                if negb (is_kptr (r_kind v)) then ret (None, v)
                else
                  e <- r_elem v ;;
                  if negb (is_kptr (r_kind e)) && decodingNull && r_can_set v then ret (None, v)
                  else
                    i <- r_itself v e ;;
                    if i then ret (None, e)
                    else
                      b <- r_is_nil v ;;
                      t <- r_type v ;;
                      (if b then r_set v (VPtr (Some (zero_val (elem_type t)))) else ret tt) ;;;
                      match unmarshaler v with
                      | Some u => ret (Some u, RZero)
                      | None =>
                          if haveAddr then indirect_loop fuel v0 v0 false decodingNull
                          else e <- r_elem v ;; indirect_loop fuel e v0 false decodingNull
                      end
            end
        end
    end.
  Definition indirect (fuel : nat) (v : rval) (decodingNull : bool) : GM (option method * rval) :=
    if is_kptr (r_kind v) then indirect_loop fuel v v false decodingNull
    else
      t <- r_type v ;;
      if has_name t && r_can_addr v then indirect_loop fuel (r_addr v) v true decodingNull
      else indirect_loop fuel v v false decodingNull.

  (** var n T; n, err = dec.ReadXxx(); rv.SetXxx(n) *)
  Definition read_set {A} (rv : rval) (m : DM A) (f : A -> val) (zero : val) : GM unit :=
    n <- catch (fmap f (lift m)) (fun e => r_set rv zero ;;; fail e) ;; r_set rv n.
  (** reflect_readArrayOfUint_(dec, l, k, rv, LE), /repo/decoder.go:762-927.  An
      array that cannot be set: reflect.Copy panics, the loop over the elements
      (if their type has a name) only if there are some. *)
  Definition read_array (k : width) (l : Z) (rv : rval) : GM unit :=
    zs <- lift (read_uints k l) ;;
    match r_kind rv with
    | KArray =>
        rt <- r_type rv ;;
        if r_ro rv && negb (plain_uint (elem_type rt)) && (l <=? 0) then ret tt else r_set rv (VSeq (map VNum zs))
    | _ => r_set rv (VSlice (Some (map VNum zs)))
    end.

  (** for i := 0; i < n; i++ { body(i) } *)
  Fixpoint for_d (n i : nat) (body : nat -> GM unit) : GM unit :=
    match n with O => ret tt | S n' => body i ;;; for_d n' (S i) body end.

  (** rv.Set(reflect.Append(rv, element.Elem())) *)
  Definition append_to (rv element : rval) : GM unit :=
    e <- r_elem element ;; x <- r_load e ;; v <- r_load rv ;;
    match v with
    | VSlice (Some l) => r_set rv (VSlice (Some (l ++ [x])))
    | _ => r_set rv (VSlice (Some [x]))
    end.
  (** rv.SetMapIndex(key.Elem(), val.Elem()) *)
  Definition set_map_index (rv : rval) (kt : ty) (key value : rval) : GM unit :=
    k <- r_load key ;; x <- r_load value ;; v <- r_load rv ;;
    match v with
    | VMap (Some m) => r_set rv (VMap (Some (map_set kt m k x)))
    | _ => panic
    end.

  (** The loop over the elements of a slice (bin:203-213, cu16:202-212,
      borsh:242-252) and over the entries of a map (bin:229-243, cu16:228-242,
      borsh:268-282), the same text in the three files. *)
  Definition slice_loop (dec : rval -> GM unit) (rv : rval) (rt : ty) (l : Z) : GM unit :=
    r_set rv (VSlice (Some [])) ;;;
    for_d (Z.to_nat l) 0 (fun _ =>
      element <- r_new (elem_type rt) ;; dec element ;;; append_to rv element).
  Definition map_loop (dec : rval -> GM unit) (rv : rval) (rt : ty) (l : Z) : GM unit :=
    r_set rv (VMap (Some [])) ;;;
    for_d (Z.to_nat l) 0 (fun _ =>
      key <- r_new (key_type rt) ;; k <- r_elem key ;; dec k ;;;
      value <- r_new (elem_type rt) ;; x <- r_elem value ;; dec x ;;;
      set_map_index rv (key_type rt) k x).

  (** The loop over the fields of a struct, bin:260-350, cu16:259-349,
      borsh:334-451; [field]: what is done with a field that can be set, and
      whether a sizeof tag is heeded afterwards. *)
  Section StructLoop.
    Variable field : rval -> ty -> field_tag -> option Z -> GM bool.
    Fixpoint fields_loop (rv : rval) (rt : ty) (n i : nat) (sizeOfMap : smap) (seen : bool) {struct n} : GM unit :=
      match n with
      | O => ret tt
      | S n' =>
          match nth_error (type_fields rt) i with
          | None => stuck
          | Some (structField, ft) =>
              let fieldTag := parse_field_tag (f_tag structField) in
              if ft_skip fieldTag then fields_loop rv rt n' (S i) sizeOfMap seen
              else if negb (ft_ext fieldTag) && seen then panic
              else
                let seen := seen || ft_ext fieldTag in
                let go :=
                  let v := r_field rv i structField ft in
                  if negb (r_can_set v) && negb (r_can_addr v) then fail EMsg
                  else
                    let v := if negb (r_can_set v) then r_addr v else v in
                    if negb (r_can_set v) then fields_loop rv rt n' (S i) sizeOfMap seen
                    else
                      heed <- field v ft fieldTag (sm_get sizeOfMap (f_name structField)) ;;
                      if heed && negb (String.eqb (ft_sizeof fieldTag) "") then
                        x <- r_load v ;;
                        match sizeof_val ft x with
                        | None => panic
                        | Some size => fields_loop rv rt n' (S i) ((ft_sizeof fieldTag, size) :: sizeOfMap) seen
                        end
                      else fields_loop rv rt n' (S i) sizeOfMap seen in
                if ft_ext fieldTag then
                  rest <- lift d_rest ;;
                  if zlen rest <=? 0 then fields_loop rv rt n' (S i) sizeOfMap seen else go
                else go
          end
      end.
  End StructLoop.

  (** * decodeBin, bin:44-250; decodeStructBin, bin:252-352. *)
  Fixpoint decodeBin (fuel : nat) (rv : rval) (opt : option fopt) {struct fuel} : GM unit :=
    match fuel with
    | O => stuck
    | S fuel =>
        let opt := or_default opt in
        lift (d_set_cur (o_order opt)) ;;;
        ur <- indirect fuel rv (o_opt opt) ;;
        let rest (ur : option method * rval) : GM unit :=
          let '(u, rv) := ur in
          match u with
          | Some m => call_unmarshaler m
          | None =>
              rt <- r_type rv ;;
              match r_kind rv with
              | KString => s <- lift read_rust_string ;; r_set rv (VStr s)
              | KUint W8 => read_set rv read_byte VNum (VNum 0)
              | KInt W8 => read_set rv (read_intw W8 LE) VNum (VNum 0)
              | KInt W16 => read_set rv (read_intw W16 (o_order opt)) VNum (VNum 0)
              | KInt W32 => read_set rv (read_intw W32 (o_order opt)) VNum (VNum 0)
              | KInt W64 => read_set rv (read_intw W64 (o_order opt)) VNum (VNum 0)
              | KUint W16 => read_set rv (read_uint 2 (o_order opt)) VNum (VNum 0)
              | KUint W32 => read_set rv (read_uint 4 (o_order opt)) VNum (VNum 0)
              | KUint W64 => read_set rv (read_uint64 (o_order opt)) VNum (VNum 0)
              | KFloat f => read_set rv (read_float f (o_order opt)) (fun b => VFloat (f32_through64 f b)) (VFloat 0)
              | KBool => read_set rv read_bool VBool (VBool false)
              | KInterface => ret tt
              | KArray =>
                  let l := type_len rt in
                  match uint_kind (elem_type rt) with
                  | Some k => read_array k l rv
                  | None => for_d (Z.to_nat l) 0 (fun i => decodeBin fuel (r_index rv i) None)
                  end
              | KSlice =>
                  l <- match o_size opt with Some l => ret l | None => lift read_length end ;;
                  remaining <- lift d_remaining ;;
                  if remaining <? l then fail EUnexpectedEOF
                  else
                    match uint_kind (elem_type rt) with
                    | Some k => read_array k l rv
                    | None => slice_loop (fun x => decodeBin fuel x None) rv rt l
                    end
              | KStruct => decodeStructBin fuel rt rv
              | KMap =>
                  l <- lift read_length ;;
                  if l =? 0 then ret tt else map_loop (fun x => decodeBin fuel x None) rv rt l
              | KDeep => deep
              | _ => fail EMsg
              end
          end in
        if o_opt opt then
          let '(_, rv) := ur in
          isPresent <- catch (lift (read_uint 4 LE)) (fun _ => r_type rv ;;; fail EMsg) ;;
          if isPresent =? 0 then t <- r_type rv ;; r_set rv (zero_val t)
          else ur <- indirect fuel rv false ;; rest ur
        else rest ur
    end
  with decodeStructBin (fuel : nat) (rt : ty) (rv : rval) {struct fuel} : GM unit :=
    match fuel with
    | O => stuck
    | S fuel =>
        fields_loop (fun v ft fieldTag size =>
          let option := mkOpt (ft_option fieldTag) false size (ft_order fieldTag) in
          map_err EWrap (decodeBin fuel v (Some option)) ;;; ret true)
          rv rt (List.length (type_fields rt)) 0 [] false
    end.

  (** * decodeCompactU16, cu16:43-249; decodeStructCompactU16, cu16:251-351. *)
  Fixpoint decodeCompactU16 (fuel : nat) (rv : rval) (opt : option fopt) {struct fuel} : GM unit :=
    match fuel with
    | O => stuck
    | S fuel =>
        let opt := or_default opt in
        lift (d_set_cur (o_order opt)) ;;;
        ur <- indirect fuel rv (o_opt opt) ;;
        let rest (ur : option method * rval) : GM unit :=
          let '(u, rv) := ur in
          match u with
          | Some m => call_unmarshaler m
          | None =>
              rt <- r_type rv ;;
              match r_kind rv with
              | KString => s <- lift read_string ;; r_set rv (VStr s)
              | KUint W8 => read_set rv read_byte VNum (VNum 0)
              | KInt W8 => read_set rv (read_intw W8 LE) VNum (VNum 0)
              | KInt W16 => read_set rv (read_intw W16 (o_order opt)) VNum (VNum 0)
              | KInt W32 => read_set rv (read_intw W32 (o_order opt)) VNum (VNum 0)
              | KInt W64 => read_set rv (read_intw W64 (o_order opt)) VNum (VNum 0)
              | KUint W16 => read_set rv (read_uint 2 (o_order opt)) VNum (VNum 0)
              | KUint W32 => read_set rv (read_uint 4 (o_order opt)) VNum (VNum 0)
              | KUint W64 => read_set rv (read_uint64 (o_order opt)) VNum (VNum 0)
              | KFloat f => read_set rv (read_float f (o_order opt)) (fun b => VFloat (f32_through64 f b)) (VFloat 0)
              | KBool => read_set rv read_bool VBool (VBool false)
              | KInterface => ret tt
              | KArray =>
                  let l := type_len rt in
                  match uint_kind (elem_type rt) with
                  | Some k => read_array k l rv
                  | None => for_d (Z.to_nat l) 0 (fun i => decodeCompactU16 fuel (r_index rv i) None)
                  end
              | KSlice =>
                  l <- match o_size opt with Some l => ret l | None => lift read_compact_u16 end ;;
                  remaining <- lift d_remaining ;;
                  if remaining <? l then fail EUnexpectedEOF
                  else
                    match uint_kind (elem_type rt) with
                    | Some k => read_array k l rv
                    | None => slice_loop (fun x => decodeCompactU16 fuel x None) rv rt l
                    end
              | KStruct => decodeStructCompactU16 fuel rt rv
              | KMap =>
                  l <- lift read_compact_u16 ;;
                  if l =? 0 then ret tt else map_loop (fun x => decodeCompactU16 fuel x None) rv rt l
              | KDeep => deep
              | _ => fail EMsg
              end
          end in
        if o_opt opt then
          let '(_, rv) := ur in
          isPresent <- catch (lift read_byte) (fun _ => r_type rv ;;; fail EMsg) ;;
          if isPresent =? 0 then t <- r_type rv ;; r_set rv (zero_val t)
          else ur <- indirect fuel rv false ;; rest ur
        else rest ur
    end
  with decodeStructCompactU16 (fuel : nat) (rt : ty) (rv : rval) {struct fuel} : GM unit :=
    match fuel with
    | O => stuck
    | S fuel =>
        fields_loop (fun v ft fieldTag size =>
          let option := mkOpt (ft_option fieldTag) false size (ft_order fieldTag) in
          map_err EWrap (decodeCompactU16 fuel v (Some option)) ;;; ret true)
          rv rt (List.length (type_fields rt)) 0 [] false
    end.

  (** reflect.PtrTo(rt) or rt implements BinaryUnmarshaler, borsh:412-435: a
      new variable is decoded, then stored.  (Value receivers are not
      modelled.) *)
  Definition borsh_own (v : rval) (rt : ty) : option (GM unit) :=
    match rt with
    | TCodec c u =>
        match c_unmarshal c with
        | Some f => Some (m <- r_new rt ;;
                          match unmarshaler m with
                          | Some u => call_unmarshaler u ;;; e <- r_elem m ;; x <- r_load e ;; r_set v x
                          | None => stuck
                          end)
        | None => None
        end
    | TPtr (TCodec c u) =>
        match c_unmarshal c with
        | Some f => Some (m <- r_new (TCodec c u) ;;
                          match unmarshaler m with
                          | Some u => call_unmarshaler u ;;; e <- r_elem m ;; x <- r_load e ;; r_set v (VPtr (Some x))
                          | None => stuck
                          end)
        | None => None
        end
    | _ => None
    end.

  (** * decodeBorsh, borsh:44-288; decodeStructBorsh, borsh:316-453;
      deserializeComplexEnum, borsh:290-307. *)
  Fixpoint decodeBorsh (fuel : nat) (rv : rval) (opt : option fopt) {struct fuel} : GM unit :=
    match fuel with
    | O => stuck
    | S fuel =>
        let opt := or_default opt in
        lift (d_set_cur (o_order opt)) ;;;
        ur <- indirect fuel rv (o_opt opt || o_copt opt) ;;
        let rest (ur : option method * rval) : GM unit :=
          let '(u, rv) := ur in
          match u with
          | Some m => call_unmarshaler m
          | None =>
              rt <- r_type rv ;;
              match r_kind rv with
              | KString => s <- lift read_string ;; r_set rv (VStr s)
              | KUint W8 => read_set rv read_byte VNum (VNum 0)
              | KInt W8 => read_set rv (read_intw W8 LE) VNum (VNum 0)
              | KInt W16 => read_set rv (read_intw W16 LE) VNum (VNum 0)
              | KInt W32 => read_set rv (read_intw W32 LE) VNum (VNum 0)
              | KInt W64 => read_set rv (read_intw W64 LE) VNum (VNum 0)
              | KUint W16 => read_set rv (read_uint 2 LE) VNum (VNum 0)
              | KUint W32 => read_set rv (read_uint 4 LE) VNum (VNum 0)
              | KUint W64 => read_set rv (read_uint64 LE) VNum (VNum 0)
              | KFloat f => read_set rv (read_float f LE) (fun b => VFloat (f32_through64 f b)) (VFloat 0)
              | KBool => read_set rv read_bool VBool (VBool false)
              | KInterface => ret tt
              | KArray =>
                  let l := type_len rt in
                  match uint_kind (elem_type rt) with
                  | Some k => read_array k l rv
                  | None => for_d (Z.to_nat l) 0 (fun i => decodeBorsh fuel (r_index rv i) None)
                  end
              | KSlice =>
                  l <- match o_size opt with Some l => ret l | None => lift (read_uint 4 LE) end ;;
                  if l =? 0 then ret tt
                  else
                    remaining <- lift d_remaining ;;
                    if remaining <? l then fail EUnexpectedEOF
                    else
                      match uint_kind (elem_type rt) with
                      | Some k => read_array k l rv
                      | None => slice_loop (fun x => decodeBorsh fuel x None) rv rt l
                      end
              | KStruct => decodeStructBorsh fuel rt rv
              | KMap =>
                  l <- lift (read_uint 4 LE) ;;
                  if l =? 0 then ret tt else map_loop (fun x => decodeBorsh fuel x None) rv rt l
              | KDeep => deep
              | _ => fail EMsg
              end
          end in
        let coption (ur : option method * rval) : GM unit :=
          if o_copt opt then
            let '(_, rv) := ur in
            isPresent <- catch (lift read_coption) (fun _ => r_type rv ;;; fail EMsg) ;;
            if negb isPresent then t <- r_type rv ;; r_set rv (zero_val t)
            else ur <- indirect fuel rv false ;; rest ur
          else rest ur in
        if o_opt opt then
          let '(_, rv) := ur in
          isPresent <- catch (lift read_option) (fun _ => r_type rv ;;; fail EMsg) ;;
          if negb isPresent then t <- r_type rv ;; r_set rv (zero_val t)
          else ur <- indirect fuel rv false ;; coption ur
        else coption ur
    end
  with decodeStructBorsh (fuel : nat) (rt : ty) (rv : rval) {struct fuel} : GM unit :=
    match fuel with
    | O => stuck
    | S fuel =>
        let loop :=
          fields_loop (fun v ft fieldTag size =>
            let option := mkOpt (ft_option fieldTag) (ft_coption fieldTag) size (ft_order fieldTag) in
            match borsh_own v ft with
            | Some m => m ;;; ret false
            | None => map_err EWrap (decodeBorsh fuel v (Some option)) ;;; ret true
            end)
            rv rt (List.length (type_fields rt)) 0 [] false in
        match type_fields rt with
        | (firstField, TUint UBorshEnum W8) :: _ =>
            if ft_enum (parse_field_tag (f_tag firstField)) then deserializeComplexEnum fuel rt rv else loop
        | _ => loop
        end
    end
  with deserializeComplexEnum (fuel : nat) (rt : ty) (rv : rval) {struct fuel} : GM unit :=
    match fuel with
    | O => stuck
    | S fuel =>
        tmp <- lift read_byte ;;
        match nth_error (type_fields rt) 0 with
        | None => stuck
        | Some (h0, t0) =>
            r_set (r_field rv 0 h0 t0) (VNum tmp) ;;;
            let i := (Z.to_nat tmp + 1)%nat in
            if (List.length (type_fields rt) <=? i)%nat then fail EMsg
            else
              match nth_error (type_fields rt) i with
              | None => stuck
              | Some (h, ft) => decodeBorsh fuel (r_field rv i h ft) None
              end
        end
    end.

  (** Decode, /repo/decoder.go:127-138, with decodeWithOptionBin bin:29-42,
      decodeWithOptionCompactU16 cu16:28-41, decodeWithOptionBorsh
      borsh:29-42. *)
  Definition decodeWithOption (dec : rval -> option fopt -> GM unit) (rv : rval) (opt : option fopt) : GM unit :=
    if negb (is_kptr (r_kind rv)) then fail EInvalidDecoder else dec rv opt.
  Definition go_decode (fuel : nat) (rv : rval) : GM unit :=
    E <- lift d_get_enc ;;
    match E with
    | Bin => decodeWithOption (decodeBin fuel) rv None
    | Borsh => decodeWithOption (decodeBorsh fuel) rv None
    | CompactU16 => decodeWithOption (decodeCompactU16 fuel) rv None
    end.
End Decoders.
