(** C79: exactly which values can be encoded. *)
From Verif Require Import Types Tags EncPrim Enc Builtin Spec NumFacts EncFacts EncWire EncProps Check AccSpec PropsCodec WriteSpec WriteFacts.

Local Open Scope string_scope.
Local Open Scope list_scope.

(** [over_library]: the only methods are those of the library's types;
    [plain_maps]: no maps of interfaces, and no pointers in keys; [uncut]: the type
    does not refer to itself.  [writable] says where NaN, the kinds that are not
    encoded, counts, the order of keys and nil pointers stand in the way. *)
Theorem C79_exact : forall E t v, over_library t -> plain_maps t = true -> uncut t = true -> fits t v -> real (2 ^ 63) t v ->
  let r := fst (marshal E t v) in
  (r = Ok tt <-> writable E (own_run E) t plainly v) /\
  (r = Ok tt \/ (exists e, r = Err e) \/ r = Panic) /\
  (smooth E t = true -> real (2 ^ 56) t v -> r <> Panic).
Proof. exact over_library_exact. Qed.
Print Assumptions C79_exact.
(** The same with methods of one's own, of which it is known when they succeed
    (and, if [K], that they do not panic). *)
Theorem C79_exact_methods : forall E K own t v, all_codecs (obeys E K own) t -> plain_maps t = true -> fits t v -> real (2 ^ 63) t v ->
  let r := fst (marshal E t v) in
  (r = Ok tt <-> writable E own t plainly v) /\ r <> Stuck /\ (uncut t = true -> r <> Deep) /\
  (K -> smooth E t = true -> real (2 ^ 56) t v -> r <> Panic).
Proof. exact marshal_wins. Qed.
Print Assumptions C79_exact_methods.
(** When the methods of the library's types succeed. *)
Theorem C79_library : forall E, Forall (fun tP => match fst tP with
    | TCodec c u => forall v, fits u v -> real (2 ^ 63) u v -> (own_run E c (Some v) <-> snd tP v)
    | _ => True end) (library_conditions E).
Proof. exact library_exact. Qed.
Print Assumptions C79_library.
(** Of these types every value can be encoded. *)
Theorem C79_always : forall E t v, over_library t -> plain_maps t = true -> always E t = true -> smooth E t = true ->
  fits t v -> real (2 ^ 56) t v -> fst (marshal E t v) = Ok tt.
Proof. exact over_library_always. Qed.
Print Assumptions C79_always.

(** ** Examples *)
Definition w_tagged (n b : string) : fhdr := mkF n true (mkTag b "" "").
Definition w_fields : list (fhdr * ty) :=
  [ (w_tagged "N" "sizeof=L", TUint UPlain W8);
    (w_tagged "L" "", TSlice (TFloat F32));
    (w_tagged "O" "optional", TPtr (TInt false W32));
    (w_tagged "M" "", TMap (TFloat F64) JSONFloat64);
    (w_tagged "E" "", TStruct [(mkF "K" true (mkTag "" "" "true"), BorshEnum); (w_tagged "A" "", TPtr (TNative true)); (w_tagged "B" "", SafeString)]) ].
Definition w_ty : ty := TStruct w_fields.
Definition w_nan32 : val := VFloat 2143289344.
Definition w_nan64 : val := VFloat 9221120237041090560.
Definition w_val (n : Z) (a b : val) (m : list (val * val)) (k : Z) : val :=
  VStruct [VNum n; VSlice (Some [a; b]); VPtr None; VMap (Some m); VStruct [VNum k; VPtr None; VStr [104; 105]]].
Definition w_one : val * val := (VFloat 0, VFloat 4607182418800017408).

Example C79_type : over_library w_ty /\ plain_maps w_ty = true /\ uncut w_ty = true.
Proof. repeat split; cbn [In library_types]; auto 20. Qed.
Lemma w_exact E v : fitsb w_ty v = true -> real (2 ^ 63) w_ty v ->
  (fst (marshal E w_ty v) = Ok tt <-> writable E (own_run E) w_ty plainly v).
Proof. intros H1 H2. destruct C79_type as (H3 & H4 & H5). exact (proj1 (C79_exact E w_ty v H3 H4 H5 (fitsb_ok _ _ H1) H2)). Qed.

(** One number is counted; the second one, NaN, is not. *)
Example C79_written : writable Borsh (own_run Borsh) w_ty plainly (w_val 1 (VFloat 0) w_nan32 [w_one] 1).
Proof. apply w_exact; [reflexivity| |vm_compute; reflexivity]. cbn. repeat split; auto; repeat constructor; try easy. Qed.
(** From [writable] to the encoder: two numbers. *)
Example C79_by_spec : fst (marshal Borsh w_ty (w_val 2 (VFloat 0) (VFloat 5) [] 0)) = Ok tt.
Proof.
  apply w_exact; [reflexivity|cbn; repeat split; auto; repeat constructor; easy|].
  cbn. repeat split; intros; try lia; try easy; repeat constructor; easy.
Qed.
(** With both counted NaN is an error in Borsh, and none in Bin; three are too
    many. *)
Example C79_nan : fst (marshal Borsh w_ty (w_val 2 (VFloat 0) w_nan32 [w_one] 1)) = Err (EWrap EMsg).
Proof. vm_compute. reflexivity. Qed.
Example C79_nan_bin : writable Bin (own_run Bin) w_ty plainly (w_val 2 (VFloat 0) w_nan32 [w_one] 1).
Proof. apply w_exact; [reflexivity| |vm_compute; reflexivity]. cbn. repeat split; auto; repeat constructor; try easy. Qed.
Example C79_count : fst (marshal Bin w_ty (w_val 3 (VFloat 0) w_nan32 [w_one] 1)) = Panic.
Proof. vm_compute. reflexivity. Qed.
Example C79_count_spec : ~ writable Bin (own_run Bin) w_ty plainly (w_val 3 (VFloat 0) w_nan32 [w_one] 1).
Proof. cbn. intros (_ & H & _). specialize (H eq_refl). now destruct H as [H _]. Qed.
(** There is no third variant; a NaN among the keys is not found again. *)
Example C79_no_variant : fst (marshal Borsh w_ty (w_val 1 (VFloat 0) w_nan32 [w_one] 2)) = Err (EWrap EMsg).
Proof. vm_compute. reflexivity. Qed.
Example C79_nan_key : fst (marshal Bin w_ty (w_val 1 (VFloat 0) (VFloat 0) [(w_nan64, VFloat 0)] 1)) = Panic.
Proof. vm_compute. reflexivity. Qed.
(** Two keys of a type that Borsh has no order for, against one. *)
Example C79_unsortable : fst (marshal Borsh (TMap TBool TBool) (VMap (Some [(VBool true, VBool true); (VBool false, VBool true)]))) = Panic /\
  fst (marshal Borsh (TMap TBool TBool) (VMap (Some [(VBool true, VBool true)]))) = Ok tt.
Proof. vm_compute. split; reflexivity. Qed.
(** A nil pointer to a type with the method on the value. *)
Example C79_nil_method : fst (marshal Bin (TPtr Bool_) (VPtr None)) = Panic /\ fst (marshal Borsh (TPtr Bool_) (VPtr None)) = Ok tt.
Proof. vm_compute. split; reflexivity. Qed.
(** Types all values of which can be encoded, and types that never panic. *)
Definition w_free : ty :=
  TStruct [(w_tagged "A" "", TMap (TStruct [(w_tagged "X" "", TInt false W16); (w_tagged "Y" "", TBool)]) (TSlice HexBytes));
           (w_tagged "B" "optional", TPtr EmptyVariant); (w_tagged "C" "", TArray 3 (TPtr TString)); (w_tagged "D" "", JSONFloat64)].
Example C79_free : over_library w_free /\ plain_maps w_free = true /\ always CompactU16 w_free = true /\ smooth CompactU16 w_free = true.
Proof. repeat split; cbn [In library_types]; auto 20. Qed.
Example C79_free_value : forall b k x, 0 <= b < 256 -> - 2 ^ 15 <= k < 2 ^ 15 -> 0 <= x < 2 ^ 64 ->
  fst (marshal CompactU16 w_free (VStruct
    [VMap (Some [(VStruct [VNum k; VBool true], VSlice (Some [VSlice None; VSlice (Some [VNum b])]))]);
     VPtr None; VSeq [VPtr None; VPtr (Some (VStr [])); VPtr None]; VFloat x])) = Ok tt.
Proof.
  intros b k x Hb Hk Hx. destruct C79_free as (H1 & H2 & H3 & H4). apply C79_always; auto.
  - apply fitsb_ok. cbn. unfold inb; cbn.
    replace (0 <=? b)%Z with true by lia. replace (b <? 256)%Z with true by lia.
    replace (-32768 <=? k)%Z with true by lia. replace (k <? 32768)%Z with true by lia.
    replace (0 <=? x)%Z with true by lia. replace (x <? 18446744073709551616)%Z with true by lia. reflexivity.
  - cbn. repeat split; auto; repeat constructor.
Qed.
(** In Borsh JSONFloat64 spoils it, and in Bin or CompactU16 a pointer to a type
    with the method on the value does. *)
Example C79_not_free : always Borsh w_free = false /\ smooth CompactU16 (TPtr JSONFloat64) = false /\ smooth Borsh (TPtr JSONFloat64) = true.
Proof. repeat split. Qed.
