(** The transcription of the encoders agrees with Enc.v (C63). *)
From Verif Require Import Types EncPrim Enc Spec NumFacts TyInd DecWire MapFacts GoEnc.
Notation length := Datatypes.length.

(** Types of Go programs: methods belong to defined types whose underlying type
    is not itself defined, nor a pointer or an interface (nor cut off). *)
Definition bare (t : ty) : Prop :=
  match t with TCodec _ _ | TPtr _ | TIface | TDeep => False | _ => True end.
Fixpoint go_type (t : ty) : Prop :=
  match t with
  | TPtr t' | TArray _ t' | TSlice t' => go_type t'
  | TMap k v => go_type k /\ go_type v
  | TCodec _ u => bare u /\ go_type u
  | TStruct fs => (fix go fs := match fs with [] => True | ht :: fs' => go_type (snd ht) /\ go fs' end) fs
  | _ => True
  end.
Lemma go_type_struct fs : go_type (TStruct fs) <-> Forall (fun ht => go_type (snd ht)) fs.
Proof.
  cbn [go_type]. induction fs as [|ht fs IH]; split; intro H; try easy.
  - destruct H as [H1 H2]. constructor; [exact H1|now apply IH].
  - inversion_clear H. split; [assumption|now apply IH].
Qed.

(** * Enc.v, unfolded *)
Definition enc_struct E (fs : list (fhdr * ty)) (vs : list val) : EM unit :=
  if is_borsh E && is_enum fs then
    match vs with
    | VNum z :: _ =>
        write_byte z ;;;
        nth_field
          (fun h t' v' =>
             if negb (f_exported h) then sealed_payload t' v' else
             match t' with
             | TPtr t'' =>
                 match v' with
                 | VPtr (Some x) => enc_val E t'' EPayload x
                 | VPtr None => ret tt
                 | _ => stuck
                 end
             | _ => enc_val E t' EPayload v'
             end)
          (fail EMsg) stuck fs vs (S (Z.to_nat (z mod 256)))
    | _ => stuck
    end
  else enc_fields E (fun t' o' v' => enc_val E t' (EFull o') v') fs vs [].

(** The pointer has a MarshalWithEncoder method. *)
Definition ptr_codec (t : ty) : option (codec * (val -> EM unit)) :=
  match codec_of t with
  | Some c => match c_marshal c with Some f => Some (c, f) | None => None end
  | None => None
  end.
Definition enc_core E (t : ty) (o : fopt) (v : val) : EM unit :=
  match t with
  | TBool => match v with VBool b => write_bool b | _ => stuck end
  | TUint _ w | TInt _ w =>
      match v with VNum z => write_int E w z (o_order o) | _ => stuck end
  | TFloat f =>
      match v with
      | VFloat b => write_float f (f32_through64 f b) (scalar_order E (o_order o))
      | _ => stuck
      end
  | TString => match v with VStr s => write_str E s | _ => stuck end
  | TStruct fs => match v with VStruct vs => enc_struct E fs vs | _ => stuck end
  | TCodec c u =>
      match c_marshal c, c_byval c with
      | Some f, true => f v
      | _, _ => enc_val E u (EFull (cut_opt o)) v
      end
  | TDeep => deep
  | TIface => match v with VIface _ => ret tt | _ => stuck end
  | TPtr t' =>
      match ptr_codec t' with
      | Some (c, f) =>
          match v with
          | VPtr (Some x) => f x
          | VPtr None =>
              match E with
              | Borsh => ret tt
              | _ => if c_byval c then panic else c_marshal_nil c
              end
          | _ => stuck
          end
      | None =>
          match v with
          | VPtr (Some x) =>
              match E with
              | Borsh => enc_val E t' (EFull opt0) x
              | _ => enc_val E t' (EFull (cut_opt o)) x
              end
          | VPtr None =>
              match E with
              | Borsh => enc_val E t' (EFull opt0) (zero_val t')
              | _ => ret tt
              end
          | _ => stuck
          end
      end
  | TArray n t' =>
      match v with
      | VSeq l =>
          match uint_kind t' with
          | Some w => write_uints w (Z.of_nat n) l
          | None => each (enc_val E t' (EFull opt0)) l
          end
      | _ => stuck
      end
  | TSlice t' =>
      match v with
      | VSlice ol =>
          let l := match ol with Some l => l | None => [] end in
          (match o_size o with
           | Some _ => ret tt
           | None => write_count E (zlen l)
           end) ;;;
          let n := match o_size o with Some n => n | None => zlen l end in
          match uint_kind t' with
          | Some w => write_uints w n l
          | None =>
              each (enc_val E t' (EFull opt0)) (firstn (Z.to_nat n) l) ;;;
              if zlen l <? n then panic else ret tt
          end
      | _ => stuck
      end
  | TMap kt vt =>
      match v with
      | VMap om =>
          let m := match om with Some m => m | None => [] end in
          match ordered_keys E kt (map fst m) with
          | None => unsortable kt
          | Some keys =>
              write_count E (zlen m) ;;;
              enc_map kt vt (enc_val E kt (EFull opt0))
                (enc_val E vt (EFull opt0)) m keys
          end
      | _ => stuck
      end
  | _ => fail EMsg
  end.
Definition flags E (o : fopt) (v : val) (core : EM unit) : EM unit :=
  let rest : EM unit :=
    if is_borsh E && o_copt o then
      if is_zero v then write_coption false
      else write_coption true ;;; core
    else core in
  if o_opt o then
    if is_zero v then write_flag E false
    else write_flag E true ;;; rest
  else rest.
Lemma enc_full_eq E t o v : enc_val E t (EFull o) v = (e_set_cur (o_order o) ;;; flags E o v (enc_core E t o v)).
Proof. destruct t; reflexivity. Qed.
Lemma enc_payload_eq E t v : enc_val E t EPayload v =
  match t with
  | TBool => match v with VBool b => write_bool b | _ => stuck end
  | TUint _ w | TInt _ w => match v with VNum z => write_int E w z LE | _ => stuck end
  | TFloat f =>
      match v with VFloat b => write_float f (f32_through64 f b) (scalar_order E LE) | _ => stuck end
  | TString => match v with VStr s => write_str E s | _ => stuck end
  | TStruct fs => match v with VStruct vs => enc_struct E fs vs | _ => stuck end
  | TCodec c u => enc_val E u EPayload v
  | TDeep => deep
  | _ => ret tt
  end.
Proof. destruct t; reflexivity. Qed.
Global Opaque enc_val.

(** * Small facts *)
Lemma bind_ret {A B} (a : A) (k : A -> EM B) : forall s, (x <- ret a ;; k x) s = k a s.
Proof. reflexivity. Qed.
Lemma bind_same {A B} (m m' : EM A) (k k' : A -> EM B) s : m s = m' s -> (forall a s', k a s' = k' a s') ->
  (x <- m ;; k x) s = (x <- m' ;; k' x) s.
Proof. intros H Hk. unfold bind. rewrite H. destruct (m' s) as [[a|e| | |] s1]; auto. Qed.
Lemma then_same {A B} (m m' : EM A) (k k' : EM B) s : m s = m' s -> (forall s', k s' = k' s') -> (m ;;; k) s = (m' ;;; k') s.
Proof. intros H Hk. apply bind_same; auto. Qed.
Lemma map_err_same (m m' : EM unit) s : m s = m' s -> map_err EWrap m s = map_err EWrap m' s.
Proof. intro H. unfold map_err. now rewrite H. Qed.

Lemma for_each (f : val -> EM unit) l : forall n i s,
  for_ n i (fun i => match nth_error l i with Some x => f x | None => panic end) s =
  (each f (firstn n (skipn i l)) ;;; if (length l <? i + n)%nat && negb (n =? 0)%nat then panic else ret tt) s.
Proof.
  induction n as [|n IH]; intros i s; [cbn; now rewrite andb_false_r|].
  cbn [for_]. cbn [Nat.eqb negb]. rewrite andb_true_r.
  destruct (nth_error l i) as [x|] eqn:En.
  - assert (Hs : skipn i l = x :: skipn (S i) l).
    { clear IH. revert i En. induction l as [|y l IHl]; intros [|i] En; try discriminate; cbn [nth_error] in En; [now injection En as ->|].
      cbn [skipn]. rewrite (IHl _ En). reflexivity. }
    rewrite Hs. cbn [firstn each]. assert (Hi : (i < length l)%nat) by (apply nth_error_Some; congruence).
    unfold bind. destruct (f x s) as [[[]|e| | |] s1]; try reflexivity.
    rewrite IH. unfold bind. destruct (each f (firstn n (skipn (S i) l)) s1) as [[[]|e| | |] s2]; try reflexivity.
    replace (i + S n)%nat with (S i + n)%nat by lia. destruct n; [|cbn [Nat.eqb negb]; now rewrite andb_true_r].
    cbn [Nat.eqb negb]. rewrite andb_false_r. destruct (length l <? S i + 0)%nat eqn:E; [apply Nat.ltb_lt in E; lia|reflexivity].
  - apply nth_error_None in En. rewrite skipn_all2 by lia. cbn [firstn each].
    destruct (length l <? i + S n)%nat eqn:E; [reflexivity|]. apply Nat.ltb_ge in E. lia.
Qed.
Lemma each_same (f g : val -> EM unit) l : (forall x, In x l -> forall s, f x s = g x s) -> forall s, each f l s = each g l s.
Proof.
  induction l as [|x l IH]; intros H s; [reflexivity|]. cbn [each]. apply then_same; [apply H; now left|].
  intro s'. apply IH. intros y Hy. apply H. now right.
Qed.

(** * Structs *)
Section Fields.
  Variable E : encoding.
  Variable enc : rvalue -> fopt -> EM unit.
  Lemma struct_loop_eq rv fs vs : type_fields (rv_type rv) = fs -> rv_fields rv = vs -> rv_ro rv = false -> length vs = length fs ->
    (forall i h t v o s, nth_error fs i = Some (h, t) -> nth_error vs i = Some v -> enc (Rv t v) o s = enc_val E t (EFull o) v s) ->
    forall fs2 vs2 fs1 vs1 sz s, fs = fs1 ++ fs2 -> vs = vs1 ++ vs2 -> length vs1 = length fs1 ->
    struct_loop (fun tg => mkOpt (ft_option tg) (is_borsh E && ft_coption tg) None (ft_order tg)) enc rv (length fs2) (length fs1) sz s =
    enc_fields E (fun t' o' v' => enc_val E t' (EFull o') v') fs2 vs2 sz s.
  Proof.
    intros Hfs Hvs Hro Hl Henc. induction fs2 as [|[h t] fs2 IH]; intros [|v vs2] fs1 vs1 sz s H1 H2 H3.
    - reflexivity.
    - exfalso. rewrite H1, H2, !app_length in Hl. cbn [length] in Hl. lia.
    - exfalso. rewrite H1, H2, !app_length in Hl. cbn [length] in Hl. lia.
    - cbn [length struct_loop enc_fields]. rewrite Hfs, Hvs.
      assert (N1 : nth_error fs (length fs1) = Some (h, t)) by (rewrite H1, nth_error_app2, Nat.sub_diag by lia; reflexivity).
      assert (N2 : nth_error vs (length fs1) = Some v) by (rewrite H2, <- H3, nth_error_app2, Nat.sub_diag by lia; reflexivity).
      rewrite N1, N2. cbv zeta. rewrite Hro, orb_false_r. set (tg := parse_field_tag (f_tag h)).
      assert (IH' : forall sz s, struct_loop (fun tg => mkOpt (ft_option tg) (is_borsh E && ft_coption tg) None (ft_order tg)) enc rv
                                   (length fs2) (S (length fs1)) sz s = enc_fields E (fun t' o' v' => enc_val E t' (EFull o') v') fs2 vs2 sz s).
      { intros sz' s'. specialize (IH vs2 (fs1 ++ [(h, t)]) (vs1 ++ [v]) sz' s'). rewrite !app_length in IH. cbn [length] in IH.
        rewrite !Nat.add_1_r in IH. apply IH; [now rewrite <- app_assoc|now rewrite <- app_assoc|lia]. }
      destruct (ft_skip tg); [apply IH'|].
      assert (Hgo : forall sz s,
        (if negb (f_exported h) then struct_loop (fun tg => mkOpt (ft_option tg) (is_borsh E && ft_coption tg) None (ft_order tg)) enc rv (length fs2) (S (length fs1)) sz
         else map_err EWrap (enc (Rv t v) match sm_get sz (f_name h) with
                                          | Some s => mkOpt (ft_option tg) (is_borsh E && ft_coption tg) (Some s) (ft_order tg)
                                          | None => mkOpt (ft_option tg) (is_borsh E && ft_coption tg) None (ft_order tg)
                                          end) ;;;
              struct_loop (fun tg => mkOpt (ft_option tg) (is_borsh E && ft_coption tg) None (ft_order tg)) enc rv (length fs2) (S (length fs1)) sz) s =
        (if negb (f_exported h) then enc_fields E (fun t' o' v' => enc_val E t' (EFull o') v') fs2 vs2 sz
         else map_err EWrap (enc_val E t (EFull (field_opt E tg (f_name h) sz)) v) ;;;
              enc_fields E (fun t' o' v' => enc_val E t' (EFull o') v') fs2 vs2 sz) s).
      { intros sz' s'. destruct (f_exported h); cbn [negb]; [|apply IH']. apply then_same; [|intro; apply IH'].
        apply map_err_same. rewrite (Henc (length fs1) h t v) by assumption.
        unfold field_opt. now destruct (sm_get sz' (f_name h)). }
      cbn [o_opt o_copt o_size o_order].
      destruct (String.eqb (ft_sizeof tg) ""); cbn [negb]; [apply Hgo|]. destruct (sizeof_val t v) as [z|]; [apply Hgo|reflexivity].
  Qed.
  (** A struct reached through an unexported field. *)
  Lemma struct_loop_ro opt_of rec rv fs vs : type_fields (rv_type rv) = fs -> rv_fields rv = vs -> rv_ro rv = true -> length vs = length fs ->
    forall fs2 vs2 fs1 vs1 sz s, fs = fs1 ++ fs2 -> vs = vs1 ++ vs2 -> length vs1 = length fs1 ->
    struct_loop opt_of enc rv (length fs2) (length fs1) sz s = enc_fields E rec (hide fs2) vs2 sz s.
  Proof.
    intros Hfs Hvs Hro Hl. induction fs2 as [|[h t] fs2 IH]; intros [|v vs2] fs1 vs1 sz s H1 H2 H3.
    - reflexivity.
    - exfalso. rewrite H1, H2, !app_length in Hl. cbn [length] in Hl. lia.
    - exfalso. rewrite H1, H2, !app_length in Hl. cbn [length] in Hl. lia.
    - cbn [length struct_loop hide map enc_fields fst snd f_name f_tag f_exported negb]. rewrite Hfs, Hvs. fold (hide fs2).
      assert (N1 : nth_error fs (length fs1) = Some (h, t)) by (rewrite H1, nth_error_app2, Nat.sub_diag by lia; reflexivity).
      assert (N2 : nth_error vs (length fs1) = Some v) by (rewrite H2, <- H3, nth_error_app2, Nat.sub_diag by lia; reflexivity).
      rewrite N1, N2. cbv zeta. rewrite Hro, orb_true_r. set (tg := parse_field_tag (f_tag h)).
      assert (IH' : forall sz s, struct_loop opt_of enc rv (length fs2) (S (length fs1)) sz s = enc_fields E rec (hide fs2) vs2 sz s).
      { intros sz' s'. specialize (IH vs2 (fs1 ++ [(h, t)]) (vs1 ++ [v]) sz' s'). rewrite !app_length in IH. cbn [length] in IH.
        rewrite !Nat.add_1_r in IH. apply IH; [now rewrite <- app_assoc|now rewrite <- app_assoc|lia]. }
      destruct (ft_skip tg); [apply IH'|].
      destruct (String.eqb (ft_sizeof tg) ""); cbn [negb]; [apply IH'|]. destruct (sizeof_val t v) as [z|]; [apply IH'|reflexivity].
  Qed.
End Fields.

(** * The three transcriptions together *)
Definition goEd dyn (E : encoding) (fuel : nat) (rv : rvalue) (opt : option fopt) : EM unit :=
  match E with
  | Bin => encodeBin dyn fuel rv opt
  | CompactU16 => encodeCompactU16 dyn fuel rv opt
  | Borsh => encodeBorsh dyn fuel rv opt
  end.
Definition goSd dyn (E : encoding) (fuel : nat) (rv : rvalue) : EM unit :=
  match E with
  | Bin => encodeStructBin dyn fuel rv
  | CompactU16 => encodeStructCompactU16 dyn fuel rv
  | Borsh => encodeStructBorsh dyn fuel rv
  end.
Definition next_opt (E : encoding) (o : fopt) : fopt :=
  match E with Borsh => cut_opt o | _ => set_Optional o false end.
Definition go_elemd dyn E fuel (rv : rvalue) (o : fopt) : EM unit :=
  match E with
  | Borsh =>
      if rv_is_zero rv then
        encodeBorsh dyn fuel (Rv (elem_type (rv_type rv)) (zero_val (elem_type (rv_type rv)))) None
      else encodeBorsh dyn fuel (rv_elem rv) None
  | _ => goEd dyn E fuel (rv_elem rv) (Some (next_opt E o))
  end.
Definition go_indexedd dyn E fuel (rv : rvalue) (l : Z) : EM unit :=
  match uint_kind (elem_type (rv_type rv)) with
  | Some k => write_uints k l (rv_elems rv)
  | None =>
      for_ (Z.to_nat l) 0 (fun i =>
        match rv_index rv i with Some x => goEd dyn E fuel x None | None => panic end)
  end.
Definition go_switchd dyn E fuel (rv : rvalue) (o : fopt) : EM unit :=
  match rv_kind rv with
  | KString => write_str E (rv_string rv)
  | KUint w | KInt w => write_int E w (rv_num rv) (o_order o)
  | KFloat f => write_float f (f32_through64 f (rv_float rv)) (scalar_order E (o_order o))
  | KBool => write_bool (rv_bool rv)
  | KPtr => go_elemd dyn E fuel rv o
  | KInterface => ret tt
  | KArray => go_indexedd dyn E fuel rv (type_len (rv_type rv))
  | KSlice =>
      l <- match o_size o with
           | Some l => ret l
           | None => write_count E (zlen (rv_elems rv)) ;;; ret (zlen (rv_elems rv))
           end ;;
      go_indexedd dyn E fuel rv l
  | KStruct => goSd dyn E fuel rv
  | KMap =>
      match sort_keys dyn E (key_type (rv_type rv)) (rv_map_keys rv) with
      | None => cannot_sort dyn (key_type (rv_type rv)) (rv_map_keys rv)
      | Some keys =>
          write_count E (zlen (rv_entries rv)) ;;;
          encode_entries dyn rv (fun x => goEd dyn E fuel x None) keys
      end
  | KNative _ | KOther | KInvalid => fail EMsg
  | KDeep => deep
  end.
Definition go_cored dyn E fuel (rv : rvalue) (o : fopt) : EM unit :=
  if match rv_kind rv with KInvalid => true | _ => false end then ret tt
  else
    match marshaler rv with
    | Some m =>
        if is_borsh E && match rv_kind rv with KPtr => rv_is_zero rv | _ => false end then ret tt else m
    | None => go_switchd dyn E fuel rv o
    end.
Lemma sort_keys_plain dyn E kt keys : kt <> TIface -> sort_keys dyn E kt keys = ordered_keys E kt keys.
Proof. intro H. unfold sort_keys. destruct E, kt; try reflexivity; congruence. Qed.
Lemma sort_keys_few dyn E kt keys : (length keys <= 1)%nat -> sort_keys dyn E kt keys = ordered_keys E kt keys.
Proof. intro H. unfold sort_keys. destruct E, kt; try reflexivity. destruct keys as [|? [|]]; try reflexivity. cbn in H. lia. Qed.
Lemma sort_keys_some dyn E kt keys ks : ordered_keys E kt keys = Some ks -> sort_keys dyn E kt keys = Some ks.
Proof.
  intro H. destruct E, kt; try exact H. destruct keys as [|? [|]]; try exact H. discriminate.
Qed.
Lemma common_unknown keys : common_class unknown keys = None.
Proof. unfold common_class. destruct keys as [|[| | | | | | | | |[]|] ?]; reflexivity. Qed.
Lemma sort_keys_unknown E kt keys : sort_keys unknown E kt keys = ordered_keys E kt keys /\
  (ordered_keys E kt keys = None -> cannot_sort unknown kt keys = unsortable kt).
Proof.
  split.
  - unfold sort_keys. rewrite common_unknown. destruct E, kt; try reflexivity. destruct keys as [|? [|]]; reflexivity.
  - intros _. unfold cannot_sort, unsortable. rewrite common_unknown. reflexivity.
Qed.
Lemma zlen_keys rv : zlen (rv_map_keys rv) = zlen (rv_entries rv).
Proof. unfold rv_map_keys, zlen. now rewrite map_length. Qed.
Ltac go_kinds rv :=
  destruct (rv_kind rv) as [| |[]|[]| | | | | | | | | | |]; destruct (marshaler rv); reflexivity.
Lemma goEd_eq dyn E fuel rv opt s : goEd dyn E (S fuel) rv opt s =
  (e_set_cur (o_order (or_default opt)) ;;; flags E (or_default opt) (rv_val rv) (go_cored dyn E fuel rv (or_default opt))) s.
Proof.
  destruct E; unfold goEd, flags, go_cored, go_switchd, go_indexedd; cbn [encodeBin encodeCompactU16 encodeBorsh is_borsh andb];
    cbv zeta; unfold rv_is_zero; rewrite ?zlen_keys;
    set (o := or_default opt); destruct o as [oo oc os od]; unfold set_Optional, set_COptional; cbn [o_opt o_copt o_size o_order];
    (apply then_same; [reflexivity|]); intro s1.
  - destruct oo; cbn [andb].
    + destruct (is_zero (rv_val rv)); [reflexivity|]. apply then_same; [reflexivity|]. intro s2. go_kinds rv.
    + go_kinds rv.
  - destruct oo; cbn [andb].
    + destruct (is_zero (rv_val rv)); [reflexivity|]. apply then_same; [reflexivity|]. intro s2. go_kinds rv.
    + go_kinds rv.
  - unfold go_elemd, encodePrimitive, rv_is_zero. destruct (is_zero (rv_val rv)), oo, oc; cbn [andb]; try reflexivity;
      try (apply then_same; [reflexivity|]; intro s2); try (apply then_same; [reflexivity|]; intro s3); go_kinds rv.
Qed.

(** Without dynamic values. *)
Notation goE := (goEd unknown).
Notation goS := (goSd unknown).
Notation go_elem := (go_elemd unknown).
Notation go_indexed := (go_indexedd unknown).
Notation go_switch := (go_switchd unknown).
Notation go_core := (go_cored unknown).
Lemma goE_eq E fuel rv opt s : goE E (S fuel) rv opt s =
  (e_set_cur (o_order (or_default opt)) ;;; flags E (or_default opt) (rv_val rv) (go_core E fuel rv (or_default opt))) s.
Proof. apply goEd_eq. Qed.

(** * The current order *)
Lemma to_writer_cur bs s s' : to_writer bs s = (Ok tt, s') -> e_cur s' = e_cur s.
Proof. unfold to_writer. destruct (e_w s (e_hist s ++ [bs])) as [[k n]|]; [discriminate|]. intro H. injection H as <-. reflexivity. Qed.
Lemma to_writer_then {A} bs (m m' : EM A) s :
  (forall s', e_cur s' = e_cur s -> m s' = m' s') -> (to_writer bs ;;; m) s = (to_writer bs ;;; m') s.
Proof.
  intro H. unfold bind. destruct (to_writer bs s) as [[[]|e| | |] s1] eqn:E; try reflexivity.
  apply H. now apply (to_writer_cur bs).
Qed.
Lemma flags_same E o v m m' s :
  (forall s', e_cur s' = e_cur s -> m s' = m' s') -> flags E o v m s = flags E o v m' s.
Proof.
  intro H. unfold flags, write_flag, write_coption, write_bool, write_byte, write_uint.
  destruct E, (o_opt o), (o_copt o), (is_zero v); cbn [is_borsh andb];
    try reflexivity; try (now apply H); apply to_writer_then; intros s1 H1;
    try (now apply H); apply to_writer_then; intros s2 H2; apply H; congruence.
Qed.
Lemma set_cur_same o s : e_cur s = Some o -> e_set_cur o s = (Ok tt, s).
Proof. destruct s as [e w c n h a]. intro H. change (c = Some o) in H. now rewrite H. Qed.

(** * Fuel *)
Lemma goE_none E fuel rv s : goE E fuel rv None s = goE E fuel rv (Some opt0) s.
Proof. destruct fuel; [now destruct E|]. now rewrite !goE_eq. Qed.
Lemma enc_copt E t o b v : E <> Borsh -> enc_val E t (EFull (set_COptional o b)) v = enc_val E t (EFull o) v.
Proof. intro H. rewrite !enc_full_eq. destruct E; [| |easy]; destruct t; reflexivity. Qed.
Lemma for_same n : forall i (b b' : nat -> EM unit) s, (forall i s, b i s = b' i s) -> for_ n i b s = for_ n i b' s.
Proof. induction n as [|n IH]; intros i b b' s H; [reflexivity|]. cbn [for_]. apply then_same; [apply H|]. intro. now apply IH. Qed.

Definition agrees (t : ty) : Prop :=
  forall E v o s fuel, fits t v -> (3 * ty_size t <= fuel)%nat -> goE E fuel (Rv t v) (Some o) s = enc_val E t (EFull o) v s.

Lemma indexed_eq E fuel rv t l n s : agrees t -> elem_type (rv_type rv) = t -> rv_elems rv = l -> rv_ro rv = false -> Forall (fits t) l ->
  (3 * ty_size t <= fuel)%nat ->
  go_indexed E fuel rv n s =
  match uint_kind t with
  | Some w => write_uints w n l
  | None =>
      each (enc_val E t (EFull opt0)) (firstn (Z.to_nat n) l) ;;;
      if zlen l <? n then panic else ret tt
  end s.
Proof.
  intros IH Ht Hl Hro Hf Hn. unfold go_indexedd. rewrite Ht, Hl. destruct (uint_kind t) as [w|]; [reflexivity|].
  rewrite (for_same _ _ _ (fun i => match nth_error l i with Some x => goE E fuel (Rv t x) None | None => panic end)).
  - rewrite (for_each (fun x => goE E fuel (Rv t x) None) l). cbn [skipn Nat.add]. apply bind_same.
    + apply each_same. intros x Hx s'. rewrite goE_none. apply IH; [|exact Hn].
      rewrite Forall_forall in Hf. apply Hf. rewrite <- (firstn_skipn (Z.to_nat n) l). apply in_or_app. now left.
    + intros _ s'. unfold zlen. destruct (length l <? Z.to_nat n)%nat eqn:E1, (Z.to_nat n =? 0)%nat eqn:E2, (Z.of_nat (length l) <? n) eqn:E3;
        try reflexivity; exfalso;
        rewrite ?Nat.ltb_lt, ?Nat.ltb_ge, ?Nat.eqb_eq, ?Nat.eqb_neq, ?Z.ltb_lt, ?Z.ltb_ge in *; lia.
  - intros i s'. unfold rv_index, rv_inner. rewrite Hl, Ht, Hro. now destruct (nth_error l i).
Qed.

(** * Structs *)
Definition go_payload (fuel : nat) (rv : rvalue) : EM unit :=
  match rv_kind rv with
  | KStruct => encodeStructBorsh unknown fuel rv
  | KDeep => deep
  | _ => match encodePrimitive rv with Some m => m | None => ret tt end
  end.
Definition agrees_payload (t : ty) : Prop :=
  forall v s fuel, fits t v -> (3 * ty_size t <= fuel)%nat -> go_payload fuel (Rv t v) s = enc_val Borsh t EPayload v s.

Lemma fits_fields_length fs : forall vs, fits_fields fits fs vs -> length vs = length fs.
Proof. induction fs as [|a fs IH]; intros [|v vs] H; cbn [fits_fields] in H; try easy. cbn [length]. f_equal. now apply IH. Qed.
Lemma fits_fields_nth fs : forall vs i h t v, fits_fields fits fs vs -> nth_error fs i = Some (h, t) -> nth_error vs i = Some v -> fits t v.
Proof.
  induction fs as [|a fs IH]; intros [|v vs] [|i] h t v' H H1 H2; cbn [fits_fields nth_error] in *; try easy.
  - injection H1 as ->. injection H2 as ->. apply H.
  - destruct H as [_ H]. exact (IH vs i h t v' H H1 H2).
Qed.
Lemma nth_field_eq {R} (f : fhdr -> ty -> val -> R) d b fs : forall vs n, length vs = length fs ->
  nth_field f d b fs vs n = match nth_error fs n, nth_error vs n with Some (h, t), Some v => f h t v | _, _ => d end.
Proof.
  induction fs as [|[h t] fs IH]; intros [|v vs] [|n] H; try easy. cbn [nth_field nth_error]. apply IH. now injection H.
Qed.
Lemma write_byte_mod z : write_byte (z mod 256) = write_byte z.
Proof. unfold write_byte. now rewrite Z.mod_mod. Qed.

(** Unexported variants. *)
Definition sealed_agrees (t : ty) : Prop :=
  forall v s fuel, fits t v -> (3 * ty_size t <= fuel)%nat -> go_payload fuel (RvRo t v) s = enc_sealed t v s.
Lemma bare_kind t v : go_type t -> match t with TPtr _ => False | _ => True end -> rv_kind (RvRo t v) <> KPtr.
Proof.
  intro Hg. destruct t as [| | | | | | | | | | | | |c u|]; cbn [rv_kind kind_of under]; try easy.
  unfold kind_of. cbn [under]. destruct Hg as [Hu _]. destruct u; cbn [bare under] in *; easy.
Qed.
Lemma goS_sealed fuel rv fs vs s : type_fields (rv_type rv) = fs -> rv_fields rv = vs -> rv_ro rv = true -> fits_fields fits fs vs ->
  (forall t, (ty_size t < ty_size (TStruct fs))%nat -> go_type t -> sealed_agrees t) ->
  Forall (fun ht => go_type (snd ht)) fs -> (3 * ty_size (TStruct fs) <= S fuel)%nat ->
  encodeStructBorsh unknown fuel rv s = enc_sealed (TStruct fs) (VStruct vs) s.
Proof.
  intros Hfs Hvs Hro Hf IH Hg Hn. pose proof (fits_fields_length fs vs Hf) as Hl. rewrite Forall_forall in Hg.
  assert (Hpos : (1 <= ty_size (TStruct fs))%nat) by (cbn [ty_size]; lia).
  destruct fuel as [|fuel]; [lia|]. cbn [enc_sealed encodeStructBorsh]. rewrite Hfs.
  assert (Hloop : forall opt_of enc, struct_loop opt_of enc rv (length fs) 0 [] s = enc_fields Borsh (fun _ _ _ => ret tt) (hide fs) vs [] s).
  { intros. apply (struct_loop_ro Borsh enc _ _ rv fs vs Hfs Hvs Hro Hl) with (fs1 := []) (vs1 := []); reflexivity. }
  destruct (is_enum fs) eqn:He.
  - unfold is_enum in He. destruct fs as [|[h0 t0] fs]; [discriminate|].
    destruct t0 as [|[] []| | | | | | | | | | | | |]; try discriminate. rewrite He.
    destruct fuel as [|fuel]; [lia|]. cbn [encodeComplexEnumBorsh]. rewrite Hvs, Hfs.
    destruct vs as [|v0 vs]; [discriminate|].
    assert (Hv0 : exists z, v0 = VNum z /\ 0 <= z < 256) by (destruct Hf as [(z & Hz & Hr) _]; now exists z).
    destruct Hv0 as (z & -> & Hz). rewrite write_byte_mod. apply then_same; [reflexivity|]. intro s1.
    rewrite nth_field_eq by exact Hl. rewrite Z.mod_small by lia.
    set (FS := _ :: fs) in *. set (VS := VNum z :: vs) in *.
    replace (S (Z.to_nat z)) with (Z.to_nat (z + 1)) by lia.
    destruct (zlen FS <=? z + 1) eqn:Eb.
    + apply Z.leb_le in Eb. unfold zlen in Eb.
      assert (Hnone : nth_error FS (Z.to_nat (z + 1)) = None) by (apply nth_error_None; lia). now rewrite Hnone.
    + apply Z.leb_gt in Eb. unfold zlen in Eb.
      destruct (nth_error FS (Z.to_nat (z + 1))) as [[h t]|] eqn:N1; [|apply nth_error_None in N1; lia].
      destruct (nth_error VS (Z.to_nat (z + 1))) as [v|] eqn:N2; [|apply nth_error_None in N2; lia].
      pose proof (ty_size_field FS h t (nth_error_In _ _ N1)) as Hs.
      pose proof (Hg (h, t) (nth_error_In _ _ N1)) as Hgt. cbn [snd] in Hgt.
      pose proof (fits_fields_nth _ _ _ _ _ _ Hf N1 N2) as Hft.
      replace (if f_exported h then rv_inner rv t v else RvRo t v) with (RvRo t v)
        by (unfold rv_inner; rewrite Hro; now destruct (f_exported h)).
      assert (Hpay : match t with TPtr _ => False | _ => True end -> go_payload fuel (RvRo t v) s1 = enc_sealed t v s1).
      { intro. apply (IH t Hs Hgt); [exact Hft|lia]. }
      assert (Hfield : match t with TPtr _ => False | _ => True end ->
        match rv_kind (RvRo t v) with KPtr => rv_elem (RvRo t v) | _ => RvRo t v end = RvRo t v).
      { intro H. pose proof (bare_kind t v Hgt H). now destruct (rv_kind (RvRo t v)). }
      destruct t as [| | | | | | | |t| | | | |c u|]; try (rewrite (Hfield I); exact (Hpay I)).
      destruct Hft as (p & -> & Hp). destruct p as [x|]; [|reflexivity].
      change (ty_size (TPtr t)) with (S (ty_size t)) in Hs.
      etransitivity; [|apply (IH t); [lia|exact Hgt|now apply Hp|instantiate (1 := fuel); lia]].
      reflexivity.
  - unfold is_enum in He. destruct fs as [|[h0 t0] fs]; [apply Hloop|].
    destruct t0 as [|[] []| | | | | | | | | | | | |]; try apply Hloop. rewrite He. apply Hloop.
Qed.
Lemma sealed_agree t : go_type t -> sealed_agrees t.
Proof.
  induction t as [t IH] using ty_strong_ind. intros Hg v s fuel Hf Hn. unfold go_payload, encodePrimitive.
  destruct t as [|n w|n w|f| |sg| | |t|n t|t|kt vt|fs|c u|]; cbn [rv_kind kind_of under]; unfold kind_of; cbn [under]; try reflexivity.
  - destruct Hf as [b ->]. reflexivity.
  - destruct Hf as (z & -> & _). now destruct w.
  - destruct Hf as (z & -> & _). now destruct w.
  - destruct Hf as (z & -> & _). reflexivity.
  - destruct Hf as (z & -> & _). reflexivity.
  - destruct Hf as (vs & -> & Hvs). apply goS_sealed; auto; try lia; now apply go_type_struct.
  - cbn [ty_size] in *. destruct Hg as [Hb Hg]. pose proof (IH u ltac:(lia) Hg) as IHu.
    cbn [enc_sealed]. rewrite <- (IHu v s fuel Hf) by lia. unfold go_payload. cbn [rv_kind]. unfold kind_of.
    destruct u as [|n w|n w|f| |sg| | |u|n u|u|kt vt|fs|c' u|]; cbn [bare] in Hb; try easy; try (cbn [under]; unfold encodePrimitive; reflexivity).
    cbn [under]. destruct Hf as (vs & -> & Hvs).
    etransitivity; [apply (goS_sealed fuel _ fs vs)|symmetry; apply (goS_sealed fuel _ fs vs)]; auto;
      try (now apply go_type_struct); try (cbn [ty_size] in *; lia).
    all: intros t' Ht'; apply IH; cbn [ty_size] in *; lia.
Qed.

Lemma goS_eq E fuel rv fs vs s : type_fields (rv_type rv) = fs -> rv_fields rv = vs -> rv_ro rv = false -> fits_fields fits fs vs ->
  (forall t, (ty_size t < ty_size (TStruct fs))%nat -> (go_type t -> agrees t /\ agrees_payload t)) ->
  Forall (fun ht => go_type (snd ht)) fs -> (3 * ty_size (TStruct fs) <= S fuel)%nat ->
  goS E fuel rv s = enc_struct E fs vs s.
Proof.
  intros Hfs Hvs Hro Hf IH Hg Hn. pose proof (fits_fields_length fs vs Hf) as Hl. rewrite Forall_forall in Hg.
  assert (Hpos : (1 <= ty_size (TStruct fs))%nat) by (cbn [ty_size]; lia).
  destruct fuel as [|fuel]; [lia|].
  assert (Hloop : forall s,
    struct_loop (fun tg => mkOpt (ft_option tg) (is_borsh E && ft_coption tg) None (ft_order tg))
      (fun rv o => goE E fuel rv (Some o)) rv (length fs) 0 [] s =
    enc_fields E (fun t' o' v' => enc_val E t' (EFull o') v') fs vs [] s).
  { intro s'. apply (struct_loop_eq E (fun rv o => goE E fuel rv (Some o)) rv fs vs Hfs Hvs Hro Hl) with (fs1 := []) (vs1 := []); try reflexivity.
    intros i h t v o s2 H1 H2. pose proof (ty_size_field fs h t (nth_error_In _ _ H1)) as Hs.
    apply (IH t Hs); [apply (Hg (h, t)), (nth_error_In _ _ H1)|exact (fits_fields_nth _ _ _ _ _ _ Hf H1 H2)|lia]. }
  assert (Henum : is_enum fs = true -> E = Borsh -> encodeComplexEnumBorsh unknown fuel rv s = enc_struct E fs vs s).
  { intros He ->. unfold enc_struct. rewrite He. cbn [is_borsh andb].
    destruct fuel as [|fuel]; [lia|]. cbn [encodeComplexEnumBorsh]. rewrite Hvs, Hfs.
    destruct fs as [|[h0 t0] fs]; [discriminate|]. destruct vs as [|v0 vs]; [discriminate|].
    assert (Hv0 : exists z, v0 = VNum z /\ 0 <= z < 256).
    { cbn [is_enum] in He. destruct t0 as [|[] []| | | | | | | | | | | | |]; try discriminate. destruct Hf as [(z & Hz & Hr) _]. now exists z. }
    destruct Hv0 as (z & -> & Hz). rewrite write_byte_mod. apply then_same; [reflexivity|]. intro s1.
    rewrite nth_field_eq by exact Hl. rewrite Z.mod_small by lia.
    set (FS := (h0, t0) :: fs) in *. set (VS := VNum z :: vs) in *.
    replace (S (Z.to_nat z)) with (Z.to_nat (z + 1)) by lia.
    destruct (zlen FS <=? z + 1) eqn:Eb.
    - apply Z.leb_le in Eb. unfold zlen in Eb.
      assert (Hnone : nth_error FS (Z.to_nat (z + 1)) = None) by (apply nth_error_None; lia). now rewrite Hnone.
    - apply Z.leb_gt in Eb. unfold zlen in Eb.
      destruct (nth_error FS (Z.to_nat (z + 1))) as [[h t]|] eqn:N1; [|apply nth_error_None in N1; lia].
      destruct (nth_error VS (Z.to_nat (z + 1))) as [v|] eqn:N2; [|apply nth_error_None in N2; lia].
      pose proof (ty_size_field FS h t (nth_error_In _ _ N1)) as Hs.
      pose proof (Hg (h, t) (nth_error_In _ _ N1)) as Hgt. cbn [snd] in Hgt.
      pose proof (fits_fields_nth _ _ _ _ _ _ Hf N1 N2) as Hft.
      destruct (f_exported h); cbn [negb].
      2: { assert (Hpay : match t with TPtr _ => False | _ => True end -> go_payload fuel (RvRo t v) s1 = enc_sealed t v s1).
           { intro. apply (sealed_agree t Hgt); [exact Hft|lia]. }
           assert (Hfield : match t with TPtr _ => False | _ => True end ->
             match rv_kind (RvRo t v) with KPtr => rv_elem (RvRo t v) | _ => RvRo t v end = RvRo t v).
           { intro H. pose proof (bare_kind t v Hgt H). now destruct (rv_kind (RvRo t v)). }
           destruct t as [| | | | | | | |t| | | | |c u|]; try (rewrite (Hfield I); exact (Hpay I)).
           destruct Hft as (p & -> & Hp). destruct p as [x|]; [|reflexivity].
           change (ty_size (TPtr t)) with (S (ty_size t)) in Hs. cbn [sealed_payload].
           etransitivity; [|apply (sealed_agree t); [exact Hgt|now apply Hp|instantiate (1 := fuel); lia]].
           reflexivity. }
      unfold rv_inner. rewrite Hro.
      assert (Hbare : match t with TPtr _ => False | _ => True end -> rv_kind (Rv t v) <> KPtr).
      { destruct t as [| | | | | | | | | | | | |c u|]; cbn [rv_kind kind_of under]; try easy.
        unfold kind_of. cbn [under]. destruct Hgt as [Hu _]. destruct u; cbn [bare under] in *; easy. }
      assert (Hpay : match t with TPtr _ => False | _ => True end -> go_payload fuel (Rv t v) s1 = enc_val Borsh t EPayload v s1).
      { intro. apply (IH t Hs Hgt); [exact Hft|lia]. }
      assert (Hfield : match t with TPtr _ => False | _ => True end ->
        match rv_kind (Rv t v) with KPtr => rv_elem (Rv t v) | _ => Rv t v end = Rv t v).
      { intro H. specialize (Hbare H). now destruct (rv_kind (Rv t v)). }
      destruct t as [| | | | | | | |t| | | | |c u|]; try (rewrite (Hfield I); exact (Hpay I)).
      destruct Hft as (p & -> & Hp). destruct p as [x|]; [|reflexivity].
      change (ty_size (TPtr t)) with (S (ty_size t)) in Hs.
      etransitivity; [|apply (IH t); [lia|exact Hgt|now apply Hp|instantiate (1 := fuel); lia]].
      reflexivity. }
  destruct (is_enum fs) eqn:He.
  - destruct E.
    + cbn [goSd encodeStructBin]. rewrite Hfs. apply Hloop.
    + cbn [goSd encodeStructCompactU16]. rewrite Hfs. apply Hloop.
    + rewrite <- Henum by reflexivity. cbn [goSd encodeStructBorsh]. rewrite Hfs.
      unfold is_enum in He. destruct fs as [|[h0 t0] fs]; [discriminate|].
      destruct t0 as [|[] []| | | | | | | | | | | | |]; try discriminate. now rewrite He.
  - unfold enc_struct. rewrite He, andb_false_r. rewrite <- Hloop. destruct E; cbn [goSd encodeStructBin encodeStructBorsh encodeStructCompactU16]; rewrite Hfs; try reflexivity.
    unfold is_enum in He. destruct fs as [|[h0 t0] fs]; [reflexivity|].
    destruct t0 as [|[] []| | | | | | | | | | | | |]; try reflexivity. now rewrite He.
Qed.

(** * The switch over the kinds *)
Lemma kind_valid t : kind_of t <> KInvalid.
Proof. unfold kind_of. induction t; cbn [under]; easy. Qed.
Lemma boxed_eq E fuel t v s : agrees t -> fits t v -> (3 * ty_size t <= fuel)%nat ->
  boxed unknown t v (fun x => goE E fuel x None) s = (if negb (iface_elem t v) then stuck else enc_val E t (EFull opt0) v) s.
Proof.
  intros IH Hf Hn. assert (H : goE E fuel (Rv t v) None s = enc_val E t (EFull opt0) v s) by (rewrite goE_none; now apply IH).
  destruct t; try exact H. destruct Hf as [[d|] ->]; [reflexivity|].
  cbn [boxed iface_elem negb]. cbn [ty_size] in Hn. destruct fuel as [|fuel]; [lia|].
  rewrite goE_eq, enc_full_eq. now destruct E.
Qed.

Lemma switch_eq E t t' v o s fuel :
  under t' = t -> fits t v -> (3 * ty_size t <= S fuel)%nat -> go_type t ->
  (forall u, (ty_size u < ty_size t)%nat -> go_type u -> agrees u /\ agrees_payload u) ->
  e_cur s = Some (o_order o) -> match t with TPtr t1 => ptr_codec t1 = None | _ => True end ->
  go_switch E fuel (Rv t' v) o s = enc_core E t o v s.
Proof.
  intros Ht Hf Hn Hg IH Hc Hp. unfold go_switchd. cbn [rv_kind]. unfold kind_of. rewrite Ht. cbn [rv_type].
  destruct t as [|n w|n w|f| |sg| | |t|n t|t|kt vt|fs|c u|]; cbn [enc_core]; cbn [fits] in Hf.
  - destruct Hf as [b ->]. reflexivity.
  - destruct Hf as (z & -> & _). reflexivity.
  - destruct Hf as (z & -> & _). reflexivity.
  - destruct Hf as (z & -> & _). reflexivity.
  - destruct Hf as (z & -> & _). reflexivity.
  - reflexivity.
  - reflexivity.
  - destruct Hf as [d ->]. reflexivity.
  - destruct Hf as (p & -> & Hx). rewrite Hp. cbn [ty_size] in Hn, IH. cbn [go_type] in Hg.
    destruct (IH t ltac:(lia) Hg) as [IHt _].
    assert (Het : elem_type t' = t) by (unfold elem_type; now rewrite Ht).
    unfold go_elemd. cbn [rv_is_zero rv_val rv_elem rv_type is_zero rv_inner rv_ro].
    destruct p as [x|]; rewrite Het.
    + destruct E.
      * change (set_Optional o false) with (next_opt Bin o) in *. rewrite IHt by (auto; lia).
        change (next_opt Bin o) with (set_Optional o false). rewrite <- (enc_copt Bin t (set_Optional o false) false) by discriminate. reflexivity.
      * rewrite IHt by (auto; lia).
        change (next_opt CompactU16 o) with (set_Optional o false). rewrite <- (enc_copt CompactU16 t (set_Optional o false) false) by discriminate. reflexivity.
      * change (encodeBorsh unknown fuel (Rv t x) None s) with (goE Borsh fuel (Rv t x) None s). rewrite goE_none. apply IHt; auto; lia.
    + destruct E.
      * destruct fuel as [|fuel]; [destruct t; cbn [ty_size] in Hn; lia|]. rewrite goE_eq. unfold bind. cbn [or_default next_opt set_Optional o_order].
        rewrite (set_cur_same _ _ Hc). reflexivity.
      * destruct fuel as [|fuel]; [destruct t; cbn [ty_size] in Hn; lia|]. rewrite goE_eq. unfold bind. cbn [or_default next_opt set_Optional o_order].
        rewrite (set_cur_same _ _ Hc). reflexivity.
      * change (encodeBorsh unknown fuel (Rv t (zero_val t)) None s) with (goE Borsh fuel (Rv t (zero_val t)) None s). rewrite goE_none.
        apply IHt; [apply fits_zero|lia].
  - destruct Hf as (l & -> & Hl & Hall). cbn [ty_size] in Hn, IH. cbn [go_type] in Hg.
    assert (Het : elem_type t' = t) by (unfold elem_type; now rewrite Ht).
    unfold type_len. rewrite Ht.
    rewrite (indexed_eq E fuel (Rv t' (VSeq l)) t l _ s (proj1 (IH t ltac:(lia) Hg)) Het eq_refl eq_refl Hall) by lia.
    destruct (uint_kind t); [reflexivity|]. rewrite Nat2Z.id, <- Hl, firstn_all. unfold zlen. rewrite Z.ltb_irrefl.
    unfold bind. now destruct (each _ l s) as [[[]|e| | |] s1].
  - destruct Hf as (ol & -> & Hall). cbn [ty_size] in Hn, IH. cbn [go_type] in Hg.
    assert (Het : elem_type t' = t) by (unfold elem_type; now rewrite Ht).
    set (l := match ol with Some l => l | None => [] end).
    assert (Hal : Forall (fits t) l) by (subst l; destruct ol; [now apply Hall|constructor]).
    change (rv_elems (Rv t' (VSlice ol))) with l.
    assert (Hidx : forall n s1, go_indexed E fuel (Rv t' (VSlice ol)) n s1 =
      match uint_kind t with
      | Some w => write_uints w n l
      | None => each (enc_val E t (EFull opt0)) (firstn (Z.to_nat n) l) ;;; if zlen l <? n then panic else ret tt
      end s1).
    { intros n s1. apply indexed_eq; auto; [apply (IH t ltac:(lia) Hg)|lia]. }
    destruct (o_size o) as [n|].
    + apply Hidx.
    + unfold bind at 1 2. unfold bind at 1. destruct (write_count E (zlen l) s) as [[[]|e| | |] s1]; try reflexivity. apply Hidx.
  - destruct Hf as (om & -> & Hall). cbn [ty_size] in Hn, IH. cbn [go_type] in Hg. destruct Hg as [Hgk Hgv].
    assert (Het : elem_type t' = vt) by (unfold elem_type; now rewrite Ht).
    assert (Hkt : key_type t' = kt) by (unfold key_type; now rewrite Ht).
    set (m := match om with Some m => m | None => [] end).
    assert (Hal : Forall (fun e => fits kt (fst e) /\ fits vt (snd e)) m) by (subst m; destruct om; [now apply Hall|constructor]).
    unfold rv_map_keys. change (rv_entries (Rv t' (VMap om))) with m. rewrite Hkt.
    destruct (sort_keys_unknown E kt (map fst m)) as [-> Hcs].
    destruct (ordered_keys E kt (map fst m)) as [keys|] eqn:Ek; [|rewrite (Hcs eq_refl); reflexivity].
    apply then_same; [reflexivity|]. intro s1. unfold encode_entries, enc_map. cbn [rv_type]. rewrite Hkt, Het.
    change (rv_entries (Rv t' (VMap om))) with m.
    apply each_same. intros k Hk s2.
    assert (Hfk : fits kt k).
    { pose proof (ordered_in _ _ _ _ Ek k Hk) as Hin. apply in_map_iff in Hin as ([k' x] & <- & Hin).
      rewrite Forall_forall in Hal. apply (Hal _ Hin). }
    assert (Hb := fun s => boxed_eq E fuel kt k s (proj1 (IH kt ltac:(lia) Hgk)) Hfk ltac:(lia)).
    unfold bind at 1. rewrite Hb. destruct (iface_elem kt k); cbn [negb]; [|reflexivity].
    apply then_same; [reflexivity|]. intro s3. unfold map_index.
    destruct (find _ m) as [[k' x]|] eqn:Ef; [|reflexivity]. apply find_some in Ef as [Hin _].
    apply boxed_eq; [apply (IH vt ltac:(lia) Hgv)| |lia]. rewrite Forall_forall in Hal. apply (Hal _ Hin).
  - destruct Hf as (vs & -> & Hvs). apply goS_eq; auto.
    + cbn [rv_type]. unfold type_fields. now rewrite Ht.
    + now apply go_type_struct.
  - exfalso. clear -Ht. induction t'; try discriminate. now apply IHt'.
  - reflexivity.
Qed.

Lemma agree t : go_type t -> agrees t /\ agrees_payload t.
Proof.
  induction t as [t IH] using ty_strong_ind. intro Hg. split.
  - intros E v o s fuel Hf Hn.
    assert (Hpos : (1 <= ty_size t)%nat) by (destruct t; cbn [ty_size]; lia).
    destruct fuel as [|fuel]; [lia|]. rewrite goE_eq, enc_full_eq. cbn [or_default rv_val].
    unfold bind at 1. unfold bind at 1. unfold e_set_cur. set (s0 := mkE _ _ _ _ _ _).
    apply flags_same. change (e_cur s0) with (Some (o_order o)). clear s0. intros s1 Hc.
    unfold go_cored. cbn [rv_kind].
    replace (match kind_of t with KInvalid => true | _ => false end) with false
      by (pose proof (kind_valid t); now destruct (kind_of t)).
    destruct (codec_of t) as [c|] eqn:Et.
    + destruct t as [| | | | | | | | | | | | |c' u|]; try discriminate. injection Et as ->.
      cbn [marshaler enc_core]. destruct Hg as [Hb Hg]. cbn [ty_size] in *.
      assert (Hk : (match kind_of (TCodec c u) with KPtr => rv_is_zero (Rv (TCodec c u) v) | _ => false end) = false).
      { unfold kind_of. cbn [under]. destruct u; cbn [bare under] in *; easy. }
      assert (Hu : go_switch E fuel (Rv (TCodec c u) v) o s1 = enc_val E u (EFull (cut_opt o)) v s1).
      { rewrite enc_full_eq. unfold bind. cbn [cut_opt o_order]. rewrite (set_cur_same _ _ Hc). cbn [flags].
        unfold flags. cbn [cut_opt o_opt o_copt]. rewrite andb_false_r.
        rewrite (switch_eq E u); auto; try lia.
        - now destruct u.
        - destruct u; cbn [bare] in Hb; easy. }
      rewrite Hk, andb_false_r. destruct (c_marshal c) as [f|]; [|exact Hu]. destruct (c_byval c); [reflexivity|exact Hu].
    + assert (Hu : under t = t) by (destruct t; easy).
      destruct t as [| | | | | | | |t| | | | | |];
        try (apply (switch_eq E _ _ v o s1 fuel Hu Hf Hn Hg IH Hc I)); [|discriminate].
      destruct (ptr_codec t) as [[c f]|] eqn:Ep.
      * destruct Hf as (p & -> & Hx). cbn [enc_core]. rewrite Ep. unfold ptr_codec in Ep.
        destruct t as [| | | | | | | | | | | | |c' u|]; try discriminate. cbn [codec_of] in Ep.
        destruct (c_marshal c') as [f'|] eqn:Em; [|discriminate]. injection Ep as -> ->.
        cbn [marshaler]. rewrite Em. unfold kind_of. cbn [under rv_is_zero rv_val is_zero].
        destruct p as [x|]; [now rewrite andb_false_r|]. now destruct E.
      * replace (marshaler (Rv (TPtr t) v)) with (@None (EM unit)).
        2:{ unfold ptr_codec in Ep. destruct t; try reflexivity. cbn [codec_of] in Ep. cbn [marshaler]. now destruct (c_marshal c). }
        apply (switch_eq E _ _ v o s1 fuel Hu Hf Hn Hg IH Hc Ep).
  - intros v s fuel Hf Hn. rewrite enc_payload_eq. unfold go_payload, encodePrimitive.
    destruct t as [|n w|n w|f| |sg| | |t|n t|t|kt vt|fs|c u|]; cbn [rv_kind kind_of under]; unfold kind_of; cbn [under]; try reflexivity.
    + destruct Hf as [b ->]. reflexivity.
    + destruct Hf as (z & -> & _). now destruct w.
    + destruct Hf as (z & -> & _). now destruct w.
    + destruct Hf as (z & -> & _). reflexivity.
    + destruct Hf as (z & -> & _). reflexivity.
    + destruct Hf as (vs & -> & Hvs). apply (goS_eq Borsh); auto; try lia; now apply go_type_struct.
    + cbn [ty_size] in *. destruct Hg as [Hb Hg]. destruct (IH u ltac:(lia) Hg) as [_ IHu].
      rewrite <- (IHu v s fuel Hf) by lia. unfold go_payload. cbn [rv_kind]. unfold kind_of.
      destruct u as [|n w|n w|f| |sg| | |u|n u|u|kt vt|fs|c' u|]; cbn [bare] in Hb; try easy; try (cbn [under]; unfold encodePrimitive; reflexivity).
      cbn [under]. destruct Hf as (vs & -> & Hvs).
      etransitivity; [apply (goS_eq Borsh fuel _ fs vs)|symmetry; apply (goS_eq Borsh fuel _ fs vs)]; auto;
        try (now apply go_type_struct); try (cbn [ty_size] in *; lia).
      all: intros t' Ht'; apply IH; cbn [ty_size] in *; lia.
Qed.

Lemma go_encode_eq t v s fuel : go_type t -> fits t v -> (3 * ty_size t <= fuel)%nat -> go_encode unknown fuel (Rv t v) s = encode t v s.
Proof.
  intros Hg Hf Hn. unfold go_encode, encode, bind, e_get_enc. cbn [fst snd].
  destruct (agree t Hg) as [H _]. destruct (e_enc s) eqn:E.
  - rewrite <- (H Bin v opt0 s fuel Hf Hn). apply (goE_none Bin).
  - rewrite <- (H CompactU16 v opt0 s fuel Hf Hn). apply (goE_none CompactU16).
  - rewrite <- (H Borsh v opt0 s fuel Hf Hn). apply (goE_none Borsh).
Qed.
Lemma go_encode_nil s fuel : go_encode unknown (S fuel) Invalid s = (Ok tt, mkE (e_enc s) (e_w s) (Some LE) (e_count s) (e_hist s) (e_acc s)).
Proof. unfold go_encode, bind, e_get_enc. destruct (e_enc s) eqn:E; rewrite <- E; reflexivity. Qed.
Lemma struct_agree E fs vs s fuel : go_type (TStruct fs) -> fits (TStruct fs) (VStruct vs) -> (3 * ty_size (TStruct fs) <= S fuel)%nat ->
  goS E fuel (Rv (TStruct fs) (VStruct vs)) s = enc_struct E fs vs s.
Proof.
  intros Hg (vs' & Hv & Hf) Hn. assert (vs = vs') by congruence. subst vs'.
  apply goS_eq; auto; [intros t _; apply agree|now apply go_type_struct].
Qed.
