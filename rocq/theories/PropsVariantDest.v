(** What UnmarshalBinaryVariant leaves in the variant: C38, continued. *)
From Coq Require Import String.
From Verif Require Import Base Types Text Num DecPrim Enc Dec Builtin Sighash Variant Spec DecWithin VariantFacts Dest DestFacts
  VariantDest PropsVariant.
Notation length := Datatypes.length.

(** [variant_into W d a] is UnmarshalBinaryVariant on the variant [a], with the
    variant it leaves; it goes the way C38 describes. *)
Theorem C38_into : forall W d a s, unmarshal_binary_variant d s =
  match variant_into W d a s with
  | (Ok _, x, s') => (Ok x, s')
  | (Err e, _, s') => (Err e, s')
  | (Panic, _, s') => (Panic, s')
  | (Deep, _, s') => (Deep, s')
  | (Stuck, _, s') => (Stuck, s')
  end.
Proof. exact variant_into_agrees. Qed.
Print Assumptions C38_into.
(** A registered type: TypeID is set whatever happens.  Impl is set for pointer
    types whatever happens, to a pointer to what Decode leaves (C62), and for
    other types if there is no error. *)
Theorem C38_left_known : forall W a e types d n t T E pre post c, numbered e = true -> zlen types <= id_limit e ->
  new_variant_definition e types = Ok d -> nth_error types n = Some t -> vt_type t = Some T ->
  let bs := id_wire e (Z.of_nat n) in
  variant_into W d a (mkD (pre ++ bs ++ post) (zlen pre) c E) =
  let '(r, x, s') := dest_val E W (pointed T) (DStart opt0) (zero_val (pointed T))
                       (mkD (pre ++ bs ++ post) (zlen pre + zlen bs) c E) in
  (retold r, mkBV (id_number e (Z.of_nat n))
     (if own_value T then match r with Ok _ => Some (T, x) | _ => bv_impl a end else Some (as_impl T x)), s').
Proof. exact left_known. Qed.
Print Assumptions C38_left_known.
Theorem C38_left_anchor : forall W a types d n t T E pre post c,
  NoDup (map (fun t => sighash global_namespace (vt_name t)) types) ->
  new_variant_definition IdAnchor types = Ok d -> nth_error types n = Some t -> vt_type t = Some T ->
  let bs := sighash global_namespace (vt_name t) in
  variant_into W d a (mkD (pre ++ bs ++ post) (zlen pre) c E) =
  let '(r, x, s') := dest_val E W (pointed T) (DStart opt0) (zero_val (pointed T))
                       (mkD (pre ++ bs ++ post) (zlen pre + zlen bs) c E) in
  (retold r, mkBV bs (if own_value T then match r with Ok _ => Some (T, x) | _ => bv_impl a end else Some (as_impl T x)), s').
Proof. exact left_anchor. Qed.
Print Assumptions C38_left_anchor.
(** An ID that is not registered: TypeID is set, Impl is not touched. *)
Theorem C38_left_unknown : forall W a e types d n E pre post c, numbered e = true -> zlen types <= id_limit e ->
  new_variant_definition e types = Ok d -> zlen types <= n < id_limit e ->
  let bs := id_wire e n in
  variant_into W d a (mkD (pre ++ bs ++ post) (zlen pre) c E) =
  (Err EMsg, mkBV (id_number e n) (bv_impl a), mkD (pre ++ bs ++ post) (zlen pre + zlen bs) c E).
Proof. exact left_unknown. Qed.
Print Assumptions C38_left_unknown.
(** No room for the ID: nothing is touched. *)
Theorem C38_left_short : forall W a e d s k, vd_enc d = e -> inside s -> remaining_of s < k ->
  (e, k) = (IdUint8, 1) \/ (e, k) = (IdUint32, 4) \/ (e, k) = (IdAnchor, 8) ->
  variant_into W d a s = (Err EMsg, a, s).
Proof. exact left_short. Qed.
Print Assumptions C38_left_short.
(** Every input: there was no success and Impl is as it was, or Impl is of the
    type registered for TypeID; after a failure only if that is a pointer type. *)
Theorem C38_left_cases : forall W d a s, exists r x s', variant_into W d a s = (r, x, s') /\
  ((r <> Ok tt /\ bv_impl x = bv_impl a) \/
   exists T v, lookup (bv_id x) (vd_types d) = Some (Some T) /\ bv_impl x = Some (as_impl T v) /\
               (own_value T = true -> r = Ok tt)).
Proof. exact left_cases. Qed.
Print Assumptions C38_left_cases.

(** A left node whose string is cut; the variant held a right node.  And the
    same with an ID that is not known. *)
Definition old_node : base_variant :=
  mkBV [1; 0; 0; 0; 0; 0; 0; 0] (Some (TPtr node_right, VPtr (Some (VStruct [VNum 82; VSeq [VNum 0; VNum 0]; VNum 923])))).
Example C38_left_sample : match new_variant_definition IdUint32 node_types with
  | Ok d =>
      fst (variant_into (fun _ _ v _ => v) d old_node (new_decoder Bin [0; 0; 0; 0; 3; 0; 0; 0; 3; 0; 0; 0; 0; 0; 0; 0; 0x61])) =
      (Err EMsg, mkBV (repeat 0 8) (Some (TPtr node_left, VPtr (Some (VStruct [VNum 3; VStr []]))))) /\
      fst (variant_into (fun _ _ v _ => v) d old_node (new_decoder Bin [3; 0; 0; 0])) =
      (Err EMsg, mkBV [3; 0; 0; 0; 0; 0; 0; 0] (bv_impl old_node)) /\
      fst (variant_into (fun _ _ v _ => v) d old_node (new_decoder Bin [3; 0; 0])) = (Err EMsg, old_node)
  | _ => False
  end.
Proof. repeat split; vm_compute; reflexivity. Qed.
(** So after an error the TypeID (and the name Obtain gives) need not be those
    of Impl: here Impl is still a bool, TypeID is that of the string. *)
Theorem C38_mixed_refuted : exists types d a data x, new_variant_definition IdUint8 types = Ok d /\
  fst (variant_into (fun _ _ v _ => v) d a (new_decoder Bin data)) = (Err EMsg, x) /\
  bv_impl a = Some (TBool, VBool true) /\ lookup (bv_id a) (vd_types d) = Some (Some TBool) /\
  lookup (bv_id x) (vd_types d) = Some (Some TString) /\ bv_impl x = Some (TBool, VBool true).
Proof.
  exists [mkVT (str "flag") (Some TBool); mkVT (str "text") (Some TString)]. eexists.
  exists (mkBV (repeat 0 8) (Some (TBool, VBool true))), [1; 5; 0]. eexists.
  split; [reflexivity|]. split; [vm_compute; reflexivity|]. split; [reflexivity|]. split; [vm_compute; reflexivity|].
  split; vm_compute; reflexivity.
Qed.
Print Assumptions C38_mixed_refuted.
