(** What UnmarshalBinaryVariant leaves in the BaseVariant, also if it fails:
    model and facts (C38). *)
From Verif Require Import Base Types Num NumFacts DecPrim Enc Dec Builtin Sighash Variant Spec DecWithin DecWire DecProps Dest DestFacts VariantFacts.
Notation length := Datatypes.length.

(** The error of Decode is put into a new text, /repo/variant.go:321, 346; the
    text is not modelled. *)
Definition retold (r : outcome unit) : outcome unit := match r with Err _ => Err EMsg | _ => r end.

(** BaseVariant.UnmarshalBinaryVariant on the variant [a], /repo/variant.go:281-353:
    TypeID is set when the ID has been read, Impl is set before Decode for a
    pointer type (then Decode stores through it) and after Decode for other
    types.  [W] is what a failing UnmarshalWithDecoder leaves, as in Dest.v. *)
Definition variant_into (W : codec -> ty -> val -> dst -> val) (d : variant_def) (a : base_variant) : LM base_variant :=
  after (read_variant_id (vd_enc d)) a (fun id =>
    match lookup id (vd_types d) with
    | None | Some None => stop (Err EMsg) (mkBV id (bv_impl a))
    | Some (Some (TPtr t)) => fun s =>
        let '(r, x, s') := dest_val (d_enc s) W t (DStart opt0) (zero_val t) s in
        (retold r, mkBV id (Some (TPtr t, VPtr (Some x))), s')
    | Some (Some t) => fun s =>
        let '(r, x, s') := dest_val (d_enc s) W t (DStart opt0) (zero_val t) s in
        (retold r, mkBV id (match r with Ok _ => Some (t, x) | _ => bv_impl a end), s')
    end).

(** [T] if it is no pointer type. *)
Definition own_value (T : ty) : bool := match T with TPtr _ => false | _ => true end.
Lemma variant_into_eq W d a s : variant_into W d a s =
  match read_variant_id (vd_enc d) s with
  | (Ok id, s1) =>
      match lookup id (vd_types d) with
      | Some (Some T) =>
          let '(r, x, s') := dest_val (d_enc s1) W (pointed T) (DStart opt0) (zero_val (pointed T)) s1 in
          (retold r, mkBV id (if own_value T then match r with Ok _ => Some (T, x) | _ => bv_impl a end
                              else Some (as_impl T x)), s')
      | _ => (Err EMsg, mkBV id (bv_impl a), s1)
      end
  | (r, s1) => (blame r, a, s1)
  end.
Proof.
  unfold variant_into, after. destruct (read_variant_id (vd_enc d) s) as [[id|e| | |] s1]; try reflexivity.
  destruct (lookup id (vd_types d)) as [[T|]|]; try reflexivity.
  destruct T; reflexivity.
Qed.

Theorem variant_into_agrees W d a s : unmarshal_binary_variant d s = view (variant_into W d a s).
Proof.
  rewrite variant_into_eq. unfold unmarshal_binary_variant, bind.
  destruct (read_variant_id (vd_enc d) s) as [[id|e| | |] s1]; try reflexivity.
  destruct (lookup id (vd_types d)) as [[T|]|]; try reflexivity.
  assert (H : forall t, emsg (decode t (zero_val t)) s1 =
    let '(r, x, s') := dest_val (d_enc s1) W t (DStart opt0) (zero_val t) s1 in view (retold r, x, s')).
  { intro t. pose proof (dest_agrees (d_enc s1) W t (DStart opt0) (zero_val t) s1) as H.
    unfold emsg, map_err, decode, decode_target, bind, d_get_enc. cbn. rewrite H.
    destruct (dest_val (d_enc s1) W t (DStart opt0) (zero_val t) s1) as [[[[]|e| | |] x] s']; reflexivity. }
  destruct T; unfold pointed, own_value, as_impl; rewrite H;
    match goal with |- context [dest_val ?a ?b ?c ?d ?e ?f] => destruct (dest_val a b c d e f) as [[[[]|e'| | |] x] s'] end; reflexivity.
Qed.

(** What is left when the bytes of an ID are there. *)
Lemma into_known W a e types d ids n t T id bs : well_defined e types d ids ->
  nth_error types n = Some t -> vt_type t = Some T -> nth_error ids n = Some id ->
  forall E pre post c, DecWire.keeps E (read_variant_id e) bs id ->
  variant_into W d a (mkD (pre ++ bs ++ post) (zlen pre) c E) =
  let '(r, x, s') := dest_val E W (pointed T) (DStart opt0) (zero_val (pointed T))
                       (mkD (pre ++ bs ++ post) (zlen pre + zlen bs) c E) in
  (retold r, mkBV id (if own_value T then match r with Ok _ => Some (T, x) | _ => bv_impl a end else Some (as_impl T x)), s').
Proof.
  intros Wd Ht HT Hid E pre post c K. rewrite variant_into_eq, (wd_enc _ _ _ _ Wd), K.
  rewrite (wd_types _ _ _ _ Wd). rewrite (lookup_rev ids (map vt_type types) n id (Some T)).
  - reflexivity.
  - rewrite map_length. apply (wd_len _ _ _ _ Wd).
  - apply (wd_distinct _ _ _ _ Wd).
  - exact Hid.
  - rewrite <- HT. now apply map_nth_error.
Qed.
Lemma into_unknown W a e types d ids id bs : well_defined e types d ids -> ~ In id ids ->
  forall E pre post c, DecWire.keeps E (read_variant_id e) bs id ->
  variant_into W d a (mkD (pre ++ bs ++ post) (zlen pre) c E) =
  (Err EMsg, mkBV id (bv_impl a), mkD (pre ++ bs ++ post) (zlen pre + zlen bs) c E).
Proof.
  intros Wd Hid E pre post c K. rewrite variant_into_eq, (wd_enc _ _ _ _ Wd), K.
  rewrite (wd_types _ _ _ _ Wd). now rewrite lookup_rev_none.
Qed.

Theorem left_known W a e types d n t T E pre post c : numbered e = true -> zlen types <= id_limit e ->
  new_variant_definition e types = Ok d -> nth_error types n = Some t -> vt_type t = Some T ->
  let bs := id_wire e (Z.of_nat n) in
  variant_into W d a (mkD (pre ++ bs ++ post) (zlen pre) c E) =
  let '(r, x, s') := dest_val E W (pointed T) (DStart opt0) (zero_val (pointed T))
                       (mkD (pre ++ bs ++ post) (zlen pre + zlen bs) c E) in
  (retold r, mkBV (id_number e (Z.of_nat n))
     (if own_value T then match r with Ok _ => Some (T, x) | _ => bv_impl a end else Some (as_impl T x)), s').
Proof.
  intros He Hl Hd Ht HT bs. assert (Hn : (n < length types)%nat) by (apply nth_error_Some; congruence).
  eapply into_known; [apply numbered_defined; eassumption|eassumption..|now apply nth_numbered|].
  unfold zlen in Hl. apply reads_id; [exact He|lia].
Qed.
Theorem left_unknown W a e types d n E pre post c : numbered e = true -> zlen types <= id_limit e ->
  new_variant_definition e types = Ok d -> zlen types <= n < id_limit e ->
  let bs := id_wire e n in
  variant_into W d a (mkD (pre ++ bs ++ post) (zlen pre) c E) =
  (Err EMsg, mkBV (id_number e n) (bv_impl a), mkD (pre ++ bs ++ post) (zlen pre + zlen bs) c E).
Proof.
  intros He Hl Hd Hn bs. pose proof (zlen_nonneg types).
  eapply into_unknown; [apply numbered_defined; eassumption| |apply reads_id; [exact He|lia]].
  intro Hin. apply in_map_iff in Hin as (k & E1 & Hk). apply in_seq in Hk. unfold zlen in *.
  apply id_number_inj in E1; [lia|exact He|lia|lia].
Qed.
Theorem left_anchor W a types d n t T E pre post c : NoDup (map (fun t => sighash global_namespace (vt_name t)) types) ->
  new_variant_definition IdAnchor types = Ok d -> nth_error types n = Some t -> vt_type t = Some T ->
  let bs := sighash global_namespace (vt_name t) in
  variant_into W d a (mkD (pre ++ bs ++ post) (zlen pre) c E) =
  let '(r, x, s') := dest_val E W (pointed T) (DStart opt0) (zero_val (pointed T))
                       (mkD (pre ++ bs ++ post) (zlen pre + zlen bs) c E) in
  (retold r, mkBV bs (if own_value T then match r with Ok _ => Some (T, x) | _ => bv_impl a end else Some (as_impl T x)), s').
Proof.
  intros Hnd Hd Ht HT bs.
  assert (M : map (fun t => anchor_id (vt_name t)) types = map (fun t => sighash global_namespace (vt_name t)) types).
  { apply map_ext. intro x. apply anchor_id_eq. }
  eapply into_known; [apply anchor_defined; [now rewrite M|exact Hd]|eassumption..| |].
  - rewrite M. unfold bs. now apply (map_nth_error (fun t => sighash global_namespace (vt_name t))).
  - apply reads_anchor. unfold bs. rewrite <- anchor_id_eq. apply type_id_length.
Qed.
Theorem left_short W a e d s k : vd_enc d = e -> DecWithin.inside s -> remaining_of s < k ->
  (e, k) = (IdUint8, 1) \/ (e, k) = (IdUint32, 4) \/ (e, k) = (IdAnchor, 8) ->
  variant_into W d a s = (Err EMsg, a, s).
Proof.
  intros He Hi Hr H. rewrite variant_into_eq, He.
  assert (read_variant_id e s = (Err EMsg, s)) as ->; [|reflexivity].
  destruct H as [H|[H|H]]; injection H as -> ->; cbn [read_variant_id]; unfold emsg, map_err, bind.
  - now rewrite take_short_1.
  - pose proof (uintw_short s W32 LE Hr) as K. cbn [read_uintw] in K. now rewrite K.
  - unfold read_type_id, bind. rewrite read_n_short; [reflexivity|now right; left|exact Hi].
Qed.

(** For every input: the variant is as it was, or only its TypeID is new and
    there was an error, or it holds a value of the type registered for the
    TypeID. *)
Theorem left_cases W d a s : exists r x s', variant_into W d a s = (r, x, s') /\
  ((r <> Ok tt /\ bv_impl x = bv_impl a) \/
   exists T v, lookup (bv_id x) (vd_types d) = Some (Some T) /\ bv_impl x = Some (as_impl T v) /\
               (own_value T = true -> r = Ok tt)).
Proof.
  rewrite variant_into_eq. destruct (read_variant_id (vd_enc d) s) as [[id|e| | |] s1];
    try (do 3 eexists; split; [reflexivity|]; left; split; [discriminate|reflexivity]).
  destruct (lookup id (vd_types d)) as [[T|]|] eqn:L;
    try (do 3 eexists; split; [reflexivity|]; left; split; [discriminate|reflexivity]).
  destruct (dest_val (d_enc s1) W (pointed T) (DStart opt0) (zero_val (pointed T)) s1) as [[r x] s'].
  do 3 eexists. split; [reflexivity|]. cbn [bv_id bv_impl]. destruct (own_value T) eqn:O.
  - destruct r as [[]|e| | |]; try (left; split; [discriminate|reflexivity]).
    right. exists T, x. split; [exact L|]. split; [|reflexivity]. unfold as_impl. now destruct T.
  - right. exists T, x. split; [exact L|]. split; [reflexivity|congruence].
Qed.
