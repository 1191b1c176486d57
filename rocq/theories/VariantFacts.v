(** Facts about type IDs and variants (C38, C39). *)
From Verif Require Import Types Num Text DecPrim Enc Dec Builtin Sighash Variant Spec NumFacts EncWire DecWire RoundTrip Sha256 DecWithin DecSafe DecProps.
Notation length := Datatypes.length.

(** * Type IDs *)

Lemma get_uint_fixed o v : 0 <= v < 2 ^ 32 -> get_uint o (fixed o 4 v) = v.
Proof. intro H. rewrite get_fixed. apply Z.mod_small. exact H. Qed.

Lemma type_id_length bs : length (type_id_from_bytes bs) = 8%nat.
Proof. unfold type_id_from_bytes. rewrite firstn_length, app_length, repeat_length. lia. Qed.
Lemma type_id_pad bs : (length bs <= 8)%nat -> type_id_from_bytes bs = bs ++ repeat 0 (8 - length bs).
Proof.
  intro H. unfold type_id_from_bytes. rewrite firstn_app, firstn_all2 by lia. f_equal.
  replace (repeat 0 8) with (repeat 0 (8 - length bs) ++ repeat 0 (length bs)).
  - rewrite firstn_app, repeat_length, Nat.sub_diag. cbn [firstn]. rewrite app_nil_r.
    apply firstn_all2. now rewrite repeat_length.
  - rewrite <- repeat_app. f_equal. lia.
Qed.
Lemma type_id_full bs : length bs = 8%nat -> type_id_from_bytes bs = bs.
Proof. intro H. rewrite type_id_pad by lia. rewrite H. cbn [repeat Nat.sub]. apply app_nil_r. Qed.
Lemma type_id_prefix bs : (length bs <= 8)%nat -> firstn (length bs) (type_id_from_bytes bs) = bs.
Proof. intro H. rewrite type_id_pad by exact H. rewrite firstn_app, Nat.sub_diag, firstn_all. cbn [firstn]. apply app_nil_r. Qed.

Lemma leb_u32 v : 0 <= v < 2 ^ 32 -> (length (leb128 v) <= 5)%nat.
Proof. intro H. apply leb128_len; [lia|lia|]. change (128 ^ Z.of_nat 5) with (2 ^ 35). lia. Qed.
Lemma put_uvarint_leb v : 0 <= v < 2 ^ 32 -> put_uvarint 8 v = Some (leb128 v).
Proof.
  intro H. unfold put_uvarint, uvarint_bytes. rewrite uvarint_loop_leb by (try (change (128 ^ Z.of_nat 10) with (2 ^ 70)); lia).
  cbv zeta. pose proof (leb_u32 v H). unfold zlen. now replace (Z.of_nat (length (leb128 v)) <=? 8) with true by lia.
Qed.
Lemma from_uvarint v : 0 <= v < 2 ^ 32 -> type_id_from_uvarint32 v = Ok (leb128 v ++ repeat 0 (8 - length (leb128 v))).
Proof.
  intro H. unfold type_id_from_uvarint32. rewrite put_uvarint_leb by exact H. f_equal. apply type_id_pad.
  pose proof (leb_u32 v H). lia.
Qed.
Lemma uvarint_round v : 0 <= v < 2 ^ 32 ->
  exists id, type_id_from_uvarint32 v = Ok id /\ length id = 8%nat /\ uvarint32_from_type_id id = v.
Proof.
  intro H. rewrite from_uvarint by exact H. eexists. split; [reflexivity|]. split.
  - rewrite app_length, repeat_length. pose proof (leb_u32 v H). lia.
  - unfold uvarint32_from_type_id. rewrite uvarint_leb by lia. cbn [fst]. unfold uwrap. apply Z.mod_small. lia.
Qed.
Lemma uint32_bytes v o : 0 <= v < 2 ^ 32 -> type_id_from_uint32 v o = fixed o 4 v ++ [0; 0; 0; 0].
Proof.
  intro H. unfold type_id_from_uint32. rewrite put_uint_fixed, type_id_pad by (rewrite fixed_length; lia).
  now rewrite fixed_length.
Qed.
Lemma uint32_round v o : 0 <= v < 2 ^ 32 -> uint32_from_type_id (type_id_from_uint32 v o) o = v.
Proof.
  intro H. unfold uint32_from_type_id. rewrite uint32_bytes by exact H.
  replace (firstn 4 (fixed o 4 v ++ [0; 0; 0; 0])) with (fixed o 4 v).
  - now apply get_uint_fixed.
  - pose proof (fixed_length o 4 v) as L. rewrite firstn_app, L, Nat.sub_diag, firstn_O, app_nil_r.
    now rewrite firstn_all2 by lia.
Qed.
Lemma uint8_round v : 0 <= v < 256 -> uint8_from_type_id (type_id_from_uint8 v) = v.
Proof. reflexivity. Qed.

(** * Maps *)

Lemma same_bytes_refl a : same_bytes a a = true.
Proof. unfold same_bytes. now destruct (list_eq_dec Z.eq_dec a a). Qed.
Lemma same_bytes_neq a b : a <> b -> same_bytes a b = false.
Proof. intro H. unfold same_bytes. now destruct (list_eq_dec Z.eq_dec a b). Qed.
Lemma same_bytes_eq a b : same_bytes a b = true -> a = b.
Proof. unfold same_bytes. now destruct (list_eq_dec Z.eq_dec a b). Qed.

(** The IDs of the types in a definition, in order. *)
Definition ids_from (e : id_encoding) (i : Z) (types : list variant_type) (ids : list (list Z)) : Prop :=
  length ids = length types /\
  forall n t, nth_error types n = Some t ->
    exists id, nth_error ids n = Some id /\ given_id e (i + Z.of_nat n) (vt_name t) = Ok id.
Lemma add_types_ids types : forall e i d d', vd_enc d = e -> add_types i types d = Ok d' ->
  exists ids, ids_from e i types ids /\
    vd_enc d' = e /\
    vd_types d' = rev (combine ids (map vt_type types)) ++ vd_types d /\
    vd_names d' = rev (combine ids (map vt_name types)) ++ vd_names d /\
    vd_ids d' = rev (combine (map vt_name types) ids) ++ vd_ids d.
Proof.
  induction types as [|t types IH]; intros e i d d' He H; cbn [add_types] in H.
  - injection H as <-. exists []. repeat split; try assumption. intros [|n] ? ?; discriminate.
  - rewrite He in H. destruct (given_id e i (vt_name t)) as [id| | | |] eqn:Eid; try discriminate.
    apply (IH e) in H; [|exact He]. destruct H as (ids & (L & Hids) & H1 & H2 & H3 & H4).
    exists (id :: ids). cbn [add_type vd_types vd_names vd_ids] in *. split.
    + split; [cbn [length]; now rewrite L|]. intros [|n] x Hx; cbn [nth_error] in Hx |- *.
      * injection Hx as <-. exists id. rewrite Z.add_0_r. auto.
      * destruct (Hids n x Hx) as (id' & E1 & E2). exists id'. split; [exact E1|]. rewrite <- E2. f_equal. lia.
    + cbn [map combine rev]. rewrite <- !app_assoc. cbn [app]. auto.
Qed.
Lemma lookup_app {A} k (a b : list (list Z * A)) :
  lookup k (a ++ b) = match lookup k a with Some x => Some x | None => lookup k b end.
Proof. induction a as [|[k' x] a IH]; [reflexivity|]. cbn [app lookup]. now destruct (same_bytes k k'). Qed.
Lemma lookup_none {A} k (m : list (list Z * A)) : ~ In k (map fst m) -> lookup k m = None.
Proof.
  induction m as [|[k' x] m IH]; intro H; [reflexivity|]. cbn [lookup]. rewrite same_bytes_neq.
  - apply IH. intro Hin. apply H. now right.
  - intros ->. apply H. now left.
Qed.
Lemma lookup_rev {A} (ks : list (list Z)) : forall (xs : list A) n k x, length ks = length xs -> NoDup ks ->
  nth_error ks n = Some k -> nth_error xs n = Some x -> lookup k (rev (combine ks xs)) = Some x.
Proof.
  induction ks as [|k0 ks IH]; intros [|x0 xs] n k x Hl Hd Hk Hx; try discriminate; [now destruct n|].
  inversion_clear Hd as [|? ? Hn Hd']. injection Hl as Hl. cbn [combine rev]. rewrite lookup_app.
  destruct n as [|n]; cbn [nth_error] in Hk, Hx.
  - injection Hk as <-. injection Hx as <-. rewrite lookup_none.
    + cbn [lookup]. now rewrite same_bytes_refl.
    + rewrite map_rev, <- in_rev. intro Hin. apply Hn. apply in_map_iff in Hin as ((a & b) & <- & Hin).
      now apply in_combine_l in Hin.
  - now rewrite (IH xs n k x) by assumption.
Qed.
Lemma lookup_rev_none {A} (ks : list (list Z)) (xs : list A) k : ~ In k ks -> lookup k (rev (combine ks xs)) = None.
Proof.
  intro H. apply lookup_none. rewrite map_rev, <- in_rev. intro Hin. apply H.
  apply in_map_iff in Hin as ((a & b) & <- & Hin). now apply in_combine_l in Hin.
Qed.

Lemma nth_error_ext {A} : forall a b : list A, (forall n, nth_error a n = nth_error b n) -> a = b.
Proof.
  induction a as [|x a IH]; intros [|y b] H; [reflexivity|specialize (H 0%nat); discriminate..|].
  pose proof (H 0%nat) as H0. injection H0 as ->. f_equal. apply IH. intro n. exact (H (S n)).
Qed.

(** * Definitions *)

Definition numbered (e : id_encoding) : bool :=
  match e with IdUvarint32 | IdUint32 | IdUint8 => true | _ => false end.
(** How many types an encoding has IDs for. *)
Definition id_limit (e : id_encoding) : Z := match e with IdUint8 => 256 | _ => 2 ^ 32 end.
(** The bytes of number [n] on the wire. *)
Definition id_wire (e : id_encoding) (n : Z) : list Z :=
  match e with
  | IdUvarint32 => leb128 n
  | IdUint32 => fixed LE 4 n
  | _ => [n]
  end.
(** The TypeID of number [n]: the same bytes, filled up with zeros. *)
Definition id_number (e : id_encoding) (n : Z) : list Z := type_id_from_bytes (id_wire e n).

Lemma id_wire_length e n : numbered e = true -> 0 <= n < id_limit e -> (length (id_wire e n) <= 8)%nat.
Proof.
  intros He H. destruct e; try discriminate; cbn [id_wire id_limit] in *.
  - pose proof (leb_u32 n H). lia.
  - rewrite fixed_length. lia.
  - cbn. lia.
Qed.
Lemma given_id_number e n name : numbered e = true -> 0 <= n < id_limit e -> given_id e n name = Ok (id_number e n).
Proof.
  intros He H. unfold id_number. destruct e; try discriminate; cbn [given_id id_wire id_limit] in *; unfold uwrap.
  - rewrite Z.mod_small by exact H. unfold type_id_from_uvarint32. now rewrite put_uvarint_leb.
  - rewrite Z.mod_small by exact H. unfold type_id_from_uint32. now rewrite put_uint_fixed.
  - now rewrite Z.mod_small by exact H.
Qed.
Lemma id_number_inj e a b : numbered e = true -> 0 <= a < id_limit e -> 0 <= b < id_limit e ->
  id_number e a = id_number e b -> a = b.
Proof.
  intros He Ha Hb H. destruct e; try discriminate; cbn [id_limit] in *; unfold id_number in H; cbn [id_wire] in H.
  - pose proof (leb_u32 a Ha). pose proof (leb_u32 b Hb). rewrite !type_id_pad in H by lia.
    apply (f_equal uvarint) in H. rewrite !uvarint_leb in H by lia. congruence.
  - pose proof (uint32_round a LE Ha) as Ra. pose proof (uint32_round b LE Hb) as Rb.
    unfold type_id_from_uint32 in Ra, Rb. rewrite put_uint_fixed in Ra, Rb. congruence.
  - unfold type_id_from_bytes in H. cbn in H. congruence.
Qed.
Lemma reads_id E e n : numbered e = true -> 0 <= n < id_limit e ->
  keeps E (read_variant_id e) (id_wire e n) (id_number e n).
Proof.
  intros He H pre post c. destruct e; try discriminate; cbn [id_limit] in *; unfold id_number; cbn [id_wire read_variant_id].
  - pose proof (keeps_uvarint E n ltac:(lia) pre post c) as K. unfold emsg, map_err, read_uvarint32, fmap, bind at 1 2.
    unfold bind in K |- *. rewrite K. unfold ret at 1. unfold uwrap. rewrite Z.mod_small by exact H.
    unfold type_id_from_uvarint32. now rewrite put_uvarint_leb.
  - pose proof (keeps_read_uint E 4 LE (fixed LE 4 n) (fixed_length LE 4 n) pre post c) as K.
    unfold emsg, map_err, bind at 1. rewrite K. rewrite get_uint_fixed by exact H.
    unfold ret, type_id_from_uint32. now rewrite put_uint_fixed.
  - pose proof (keeps_read_byte E n pre post c) as K. unfold emsg, map_err, bind at 1. now rewrite K.
Qed.

(** Distinct IDs: numbers within the limit, or names with different sighashes. *)
Definition anchor_id (name : list Z) : list Z := type_id_from_bytes (sighash global_namespace name).
Lemma anchor_id_eq name : anchor_id name = sighash global_namespace name.
Proof. apply type_id_full. unfold sighash. cbv zeta. rewrite firstn_length, sha256_length. reflexivity. Qed.

Lemma numbered_ids e types ids i : numbered e = true -> 0 <= i -> i + zlen types <= id_limit e ->
  ids_from e i types ids -> ids = map (fun n => id_number e (i + Z.of_nat n)) (seq 0 (length types)).
Proof.
  intros He Hi Hl (L & H). apply nth_error_ext. intro n.
  destruct (nth_error types n) as [t|] eqn:Et.
  - assert (Hn : (n < length types)%nat) by (apply nth_error_Some; congruence).
    destruct (H n t Et) as (id & E1 & E2). unfold zlen in Hl. rewrite given_id_number in E2 by (try assumption; lia).
    injection E2 as <-. rewrite E1. symmetry. erewrite map_nth_error; [reflexivity|].
    rewrite (nth_error_nth' _ 0%nat) by now rewrite seq_length. now rewrite seq_nth.
  - apply nth_error_None in Et. rewrite !(proj2 (nth_error_None _ _)); [reflexivity| |lia].
    rewrite map_length, seq_length. lia.
Qed.
Lemma numbered_distinct e k : numbered e = true -> Z.of_nat k <= id_limit e ->
  NoDup (map (fun n => id_number e (0 + Z.of_nat n)) (seq 0 k)).
Proof.
  intros He Hk. apply NoDup_nth_error. intros i j Hi. rewrite map_length, seq_length in Hi.
  assert (N : forall m, (m < k)%nat -> nth_error (map (fun n => id_number e (0 + Z.of_nat n)) (seq 0 k)) m =
    Some (id_number e (Z.of_nat m))).
  { intros m Hm. erewrite map_nth_error; [reflexivity|].
    rewrite (nth_error_nth' _ 0%nat) by now rewrite seq_length. now rewrite seq_nth. }
  rewrite N by exact Hi. intro E. destruct (Nat.lt_ge_cases j k) as [Hj|Hj].
  - rewrite N in E by exact Hj. injection E as E. apply id_number_inj in E; [lia|exact He|lia|lia].
  - rewrite (proj2 (nth_error_None _ _)) in E; [discriminate|]. rewrite map_length, seq_length. lia.
Qed.

Lemma def_add_types e types d : e <> IdNone -> e <> IdOther -> new_variant_definition e types = Ok d ->
  add_types 0 types (mkVD [] [] [] e) = Ok d.
Proof. intros H1 H2. unfold new_variant_definition. now destruct e. Qed.
Lemma numbered_exists e : forall types i d, numbered e = true -> vd_enc d = e -> 0 <= i -> i + zlen types <= id_limit e ->
  exists d', add_types i types d = Ok d'.
Proof.
  induction types as [|t types IH]; intros i d He Hd Hi Hl; [eexists; reflexivity|]. rewrite zlen_cons in Hl.
  pose proof (zlen_nonneg types). cbn [add_types]. rewrite Hd, given_id_number by (try assumption; lia).
  apply IH; [exact He|exact Hd|lia|lia].
Qed.

Record well_defined (e : id_encoding) (types : list variant_type) (d : variant_def) (ids : list (list Z)) : Prop := {
  wd_len : length ids = length types;
  wd_distinct : NoDup ids;
  wd_enc : vd_enc d = e;
  wd_types : vd_types d = rev (combine ids (map vt_type types));
  wd_names : vd_names d = rev (combine ids (map vt_name types));
  wd_ids : vd_ids d = rev (combine (map vt_name types) ids) }.
Lemma numbered_defined e types d : numbered e = true -> zlen types <= id_limit e ->
  new_variant_definition e types = Ok d ->
  well_defined e types d (map (fun n => id_number e (0 + Z.of_nat n)) (seq 0 (length types))).
Proof.
  intros He Hl H. apply def_add_types in H; [|now destruct e..].
  apply (add_types_ids types e) in H; [|reflexivity]. destruct H as (ids & Hids & H1 & H2 & H3 & H4).
  apply numbered_ids in Hids; [|exact He|lia|lia]. subst ids. cbn [vd_types vd_names vd_ids] in *.
  rewrite app_nil_r in H2, H3, H4. split; try assumption.
  - now rewrite map_length, seq_length.
  - now apply numbered_distinct.
Qed.
Lemma anchor_defined types d : NoDup (map (fun t => anchor_id (vt_name t)) types) ->
  new_variant_definition IdAnchor types = Ok d ->
  well_defined IdAnchor types d (map (fun t => anchor_id (vt_name t)) types).
Proof.
  intros Hd H. apply def_add_types in H; [|easy..].
  apply (add_types_ids types IdAnchor) in H; [|reflexivity]. destruct H as (ids & (L & Hids) & H1 & H2 & H3 & H4).
  assert (ids = map (fun t => anchor_id (vt_name t)) types).
  { apply nth_error_ext. intro n. destruct (nth_error types n) as [t|] eqn:Et.
    - destruct (Hids n t Et) as (id & E1 & E2). injection E2 as <-. rewrite E1. symmetry. now apply (map_nth_error (fun t => anchor_id (vt_name t))).
    - apply nth_error_None in Et. rewrite !(proj2 (nth_error_None _ _)); [reflexivity| |lia]. now rewrite map_length. }
  subst ids. cbn [vd_types vd_names vd_ids] in *. rewrite app_nil_r in H2, H3, H4. split; try assumption.
Qed.

(** * Dispatch *)

Definition pointed (t : ty) : ty := match t with TPtr u => u | _ => t end.
Definition as_impl (t : ty) (v : val) : ty * val := match t with TPtr _ => (t, VPtr (Some v)) | _ => (t, v) end.

Lemma variant_known e types d ids n t T id bs : well_defined e types d ids ->
  nth_error types n = Some t -> vt_type t = Some T -> nth_error ids n = Some id ->
  forall E pre post c, keeps E (read_variant_id e) bs id ->
  unmarshal_binary_variant d (mkD (pre ++ bs ++ post) (zlen pre) c E) =
  (v <- emsg (decode (pointed T) (zero_val (pointed T))) ;; ret (mkBV id (Some (as_impl T v))))
    (mkD (pre ++ bs ++ post) (zlen pre + zlen bs) c E).
Proof.
  intros W Ht HT Hid E pre post c K. unfold unmarshal_binary_variant. unfold bind at 1. rewrite (wd_enc _ _ _ _ W), K.
  rewrite (wd_types _ _ _ _ W). rewrite (lookup_rev ids (map vt_type types) n id (Some T)).
  - now destruct T.
  - rewrite map_length. apply (wd_len _ _ _ _ W).
  - apply (wd_distinct _ _ _ _ W).
  - exact Hid.
  - rewrite <- HT. now apply map_nth_error.
Qed.
Lemma variant_unknown e types d ids id bs : well_defined e types d ids -> ~ In id ids ->
  forall E pre post c, keeps E (read_variant_id e) bs id ->
  unmarshal_binary_variant d (mkD (pre ++ bs ++ post) (zlen pre) c E) =
  (Err EMsg, mkD (pre ++ bs ++ post) (zlen pre + zlen bs) c E).
Proof.
  intros W Hid E pre post c K. unfold unmarshal_binary_variant. unfold bind at 1. rewrite (wd_enc _ _ _ _ W), K.
  rewrite (wd_types _ _ _ _ W). now rewrite lookup_rev_none.
Qed.
Lemma variant_name e types d ids n t id : well_defined e types d ids ->
  nth_error types n = Some t -> nth_error ids n = Some id ->
  forall impl, bv_obtain (mkBV id impl) d = (id, vt_name t, impl).
Proof.
  intros W Ht Hid impl. unfold bv_obtain. cbn [bv_id bv_impl].
  rewrite (wd_names _ _ _ _ W). rewrite (lookup_rev ids (map vt_name types) n id (vt_name t)); [reflexivity|..].
  - rewrite map_length. apply (wd_len _ _ _ _ W).
  - apply (wd_distinct _ _ _ _ W).
  - exact Hid.
  - now apply map_nth_error.
Qed.
Lemma variant_id_of e types d ids n t id : well_defined e types d ids -> NoDup (map vt_name types) ->
  nth_error types n = Some t -> nth_error ids n = Some id -> type_id_of d (vt_name t) = Ok id.
Proof.
  intros W Hd Ht Hid. unfold type_id_of. rewrite (wd_ids _ _ _ _ W).
  rewrite (lookup_rev (map vt_name types) ids n (vt_name t) id); [reflexivity|..].
  - rewrite map_length. symmetry. apply (wd_len _ _ _ _ W).
  - exact Hd.
  - now apply map_nth_error.
  - exact Hid.
Qed.
Lemma variant_id_unknown e types d ids name : well_defined e types d ids -> ~ In name (map vt_name types) ->
  type_id_of d name = Panic.
Proof. intros W H. unfold type_id_of. rewrite (wd_ids _ _ _ _ W). now rewrite lookup_rev_none. Qed.

Lemma nth_numbered e k n : (n < k)%nat ->
  nth_error (map (fun n => id_number e (0 + Z.of_nat n)) (seq 0 k)) n = Some (id_number e (Z.of_nat n)).
Proof.
  intro H. erewrite map_nth_error; [reflexivity|]. rewrite (nth_error_nth' _ 0%nat) by now rewrite seq_length.
  now rewrite seq_nth.
Qed.

(** The statements for numbers. *)
Lemma number_known e types d n t T E pre post c : numbered e = true -> zlen types <= id_limit e ->
  new_variant_definition e types = Ok d -> nth_error types n = Some t -> vt_type t = Some T ->
  let bs := id_wire e (Z.of_nat n) in
  unmarshal_binary_variant d (mkD (pre ++ bs ++ post) (zlen pre) c E) =
  (v <- emsg (decode (pointed T) (zero_val (pointed T))) ;;
   ret (mkBV (id_number e (Z.of_nat n)) (Some (as_impl T v))))
    (mkD (pre ++ bs ++ post) (zlen pre + zlen bs) c E).
Proof.
  intros He Hl Hd Ht HT bs. assert (Hn : (n < length types)%nat) by (apply nth_error_Some; congruence).
  eapply variant_known; [apply numbered_defined; eassumption|eassumption..|now apply nth_numbered|].
  unfold zlen in Hl.
  apply reads_id; [exact He|lia].
Qed.
Lemma number_unknown e types d n E pre post c : numbered e = true -> zlen types <= id_limit e ->
  new_variant_definition e types = Ok d -> zlen types <= n < id_limit e ->
  let bs := id_wire e n in
  unmarshal_binary_variant d (mkD (pre ++ bs ++ post) (zlen pre) c E) =
  (Err EMsg, mkD (pre ++ bs ++ post) (zlen pre + zlen bs) c E).
Proof.
  intros He Hl Hd Hn bs. pose proof (zlen_nonneg types).
  eapply variant_unknown; [apply numbered_defined; eassumption| |apply reads_id; [exact He|lia]].
  intro Hin. apply in_map_iff in Hin as (k & E1 & Hk). apply in_seq in Hk. unfold zlen in *.
  apply id_number_inj in E1; [lia|exact He|lia|lia].
Qed.
Lemma reads_anchor E id : length id = 8%nat -> keeps E (read_variant_id IdAnchor) id id.
Proof.
  intros L pre post c. cbn [read_variant_id]. unfold emsg, map_err, read_type_id.
  pose proof (keeps_read_n_bytes E 8 id ltac:(unfold zlen; now rewrite L) ltac:(lia) pre post c) as K.
  unfold bind. rewrite K. unfold ret. rewrite type_id_full by exact L. unfold zlen. now rewrite L.
Qed.
Lemma anchor_known types d n t T E pre post c : NoDup (map (fun t => sighash global_namespace (vt_name t)) types) ->
  new_variant_definition IdAnchor types = Ok d -> nth_error types n = Some t -> vt_type t = Some T ->
  let bs := sighash global_namespace (vt_name t) in
  unmarshal_binary_variant d (mkD (pre ++ bs ++ post) (zlen pre) c E) =
  (v <- emsg (decode (pointed T) (zero_val (pointed T))) ;; ret (mkBV bs (Some (as_impl T v))))
    (mkD (pre ++ bs ++ post) (zlen pre + zlen bs) c E).
Proof.
  intros Hnd Hd Ht HT bs.
  assert (M : map (fun t => anchor_id (vt_name t)) types = map (fun t => sighash global_namespace (vt_name t)) types).
  { apply map_ext. intro x. apply anchor_id_eq. }
  eapply variant_known; [apply anchor_defined; [now rewrite M|exact Hd]|eassumption..| |].
  - rewrite M. unfold bs. now apply (map_nth_error (fun t => sighash global_namespace (vt_name t))).
  - apply reads_anchor. unfold bs. rewrite <- anchor_id_eq. apply type_id_length.
Qed.
Lemma anchor_unknown types d id E pre post c : NoDup (map (fun t => sighash global_namespace (vt_name t)) types) ->
  new_variant_definition IdAnchor types = Ok d -> zlen id = 8 ->
  ~ In id (map (fun t => sighash global_namespace (vt_name t)) types) ->
  unmarshal_binary_variant d (mkD (pre ++ id ++ post) (zlen pre) c E) =
  (Err EMsg, mkD (pre ++ id ++ post) (zlen pre + zlen id) c E).
Proof.
  intros Hnd Hd Hl Hn.
  assert (M : map (fun t => anchor_id (vt_name t)) types = map (fun t => sighash global_namespace (vt_name t)) types).
  { apply map_ext. intro x. apply anchor_id_eq. }
  eapply (variant_unknown _ _ _ _ id); [apply anchor_defined; [now rewrite M|exact Hd]|now rewrite M|].
  apply reads_anchor. unfold zlen in Hl. lia.
Qed.
Lemma none_known t T : vt_type t = Some T -> exists d, new_variant_definition IdNone [t] = Ok d /\
  forall s, unmarshal_binary_variant d s =
  (v <- emsg (decode (pointed T) (zero_val (pointed T))) ;; ret (mkBV (repeat 0 8) (Some (as_impl T v)))) s.
Proof.
  intro HT. eexists. split; [reflexivity|]. intro s. unfold unmarshal_binary_variant. unfold bind at 1.
  cbn [add_type vd_enc read_variant_id vd_types]. unfold ret at 1. cbn [lookup]. rewrite same_bytes_refl, HT.
  change no_type_id with (repeat 0 8). now destruct T.
Qed.

(** Round trips: the ID, then the value. *)
Lemma number_round e types d n t T v E pre post c : numbered e = true -> zlen types <= id_limit e ->
  new_variant_definition e types = Ok d -> nth_error types n = Some t -> vt_type t = Some T ->
  ok E (pointed T) None LE v ->
  exists b c', marshal E (pointed T) v = (Ok tt, b) /\
  let bs := id_wire e (Z.of_nat n) ++ b in
  unmarshal_binary_variant d (mkD (pre ++ bs ++ post) (zlen pre) c E) =
  (Ok (mkBV (id_number e (Z.of_nat n))
     (Some (as_impl T (back E (pointed T) None LE (zero_val (pointed T)) v)))),
   mkD (pre ++ bs ++ post) (zlen pre + zlen bs) c' E).
Proof.
  intros He Hl Hd Ht HT Hok. set (w := id_wire e (Z.of_nat n)).
  destruct (decode_run E (pointed T) v (zero_val (pointed T)) (pre ++ w) post c Hok (fits_zero _)) as (c' & D).
  exists (wire E (pointed T) None LE v), c'. split; [now apply marshal_wire|]. cbv zeta.
  pose proof (number_known e types d n t T E pre (wire E (pointed T) None LE v ++ post) c He Hl Hd Ht HT) as K.
  cbv zeta in K. fold w in K. rewrite <- !app_assoc in *. rewrite K. unfold bind, emsg, map_err.
  rewrite zlen_app in D. rewrite D. unfold ret. rewrite zlen_app. now rewrite Z.add_assoc.
Qed.

(** Inputs that end inside the ID. *)
Lemma variant_short e d s k : vd_enc d = e -> inside s -> remaining_of s < k ->
  (e, k) = (IdUint8, 1) \/ (e, k) = (IdUint32, 4) \/ (e, k) = (IdAnchor, 8) ->
  unmarshal_binary_variant d s = (Err EMsg, s).
Proof.
  intros He Hi Hr H. unfold unmarshal_binary_variant. rewrite He. unfold bind at 1.
  assert (read_variant_id e s = (Err EMsg, s)) as ->; [|reflexivity].
  destruct H as [H|[H|H]]; injection H as -> ->; cbn [read_variant_id]; unfold emsg, map_err, bind.
  - now rewrite take_short_1.
  - pose proof (uintw_short s W32 LE Hr) as K. cbn [read_uintw] in K. now rewrite K.
  - unfold read_type_id, bind. rewrite read_n_short; [reflexivity|now right; left|exact Hi].
Qed.

(** Untrusted input: a value or an error. *)
Lemma safe_variant_id e : safe false false (fun _ => True) (read_variant_id e).
Proof.
  destruct e; cbn [read_variant_id]; try (now apply safe_ret).
  - apply (safe_bind _ _ (fun v => 0 <= v < 2 ^ 32)).
    + apply safe_map_err. unfold read_uvarint32. apply safe_fmap. eapply safe_weaken; [|apply safe_uvarint].
      intros v _. cbv beta. unfold uwrap. apply Z.mod_pos_bound. lia.
    + intros v Hv. rewrite from_uvarint by exact Hv. now apply safe_ret.
  - apply (safe_bind _ _ (fun _ => True)); [|intros; now apply safe_ret].
    apply safe_map_err. eapply safe_weaken; [|apply safe_uint]. easy.
  - apply (safe_bind _ _ (fun _ => True)); [|intros; now apply safe_ret].
    apply safe_map_err. eapply safe_weaken; [|apply safe_byte]. easy.
  - apply safe_map_err. apply (safe_bind _ _ (fun _ => True)); [|intros; now apply safe_ret].
    eapply safe_weaken; [|apply safe_n_bytes]. easy.
Qed.
Lemma within_variant_id e : within (read_variant_id e).
Proof.
  destruct e; cbn [read_variant_id]; unfold emsg; try apply within_ret.
  - apply within_bind; [apply within_map_err, within_uvarint32|]. intro v.
    destruct (type_id_from_uvarint32 v); auto with within.
  - apply within_bind; [apply within_map_err; auto with within|]. auto with within.
  - apply within_bind; [apply within_map_err; auto with within|]. auto with within.
  - apply within_map_err. apply within_bind; auto with within.
Qed.
Lemma variant_total d E data pos c :
  Forall (fun e => match snd e with Some T => decodable false E (pointed T) | None => True end) (vd_types d) ->
  bytes_ok data -> 0 <= pos <= zlen data ->
  (exists b, fst (unmarshal_binary_variant d (mkD data pos c E)) = Ok b) \/
  (exists e, fst (unmarshal_binary_variant d (mkD data pos c E)) = Err e).
Proof.
  intros Hd Hb Hp.
  enough (match fst (unmarshal_binary_variant d (mkD data pos c E)) with Ok _ | Err _ => True | _ => False end) as K.
  { destruct (fst (unmarshal_binary_variant d (mkD data pos c E))); try easy; eauto. }
  unfold unmarshal_binary_variant. unfold bind at 1.
  pose proof (within_variant_id (vd_enc d) (mkD data pos c E) Hp) as W.
  pose proof (safe_variant_id (vd_enc d) (mkD data pos c E)) as S.
  destruct S as [_ S]; [split; [exact Hp|now split]|].
  destruct (read_variant_id (vd_enc d) (mkD data pos c E)) as [[id|e| | |] s1]; cbn [fst snd] in *; try easy.
  assert (L : match lookup id (vd_types d) with Some (Some T) => decodable false E (pointed T) | _ => True end).
  { clear -Hd. induction (vd_types d) as [|[k x] m IH]; [exact I|]. inversion_clear Hd as [|? ? H1 H2].
    cbn [lookup]. destruct (same_bytes id k); [exact H1|now apply IH]. }
  destruct (lookup id (vd_types d)) as [[T|]|]; [|exact I..].
  assert (G : match fst ((v <- emsg (decode (pointed T) (zero_val (pointed T))) ;; ret (mkBV id (Some (as_impl T v)))) s1)
              with Ok _ | Err _ => True | _ => False end).
  { destruct s1 as [da po cu en]. unfold onward in W. cbn [d_data d_enc d_pos] in W. destruct W as (-> & -> & W1 & W2).
    unfold inside in W2. cbn [d_data d_pos] in W2.
    pose proof (safe_decode false E (pointed T) (zero_val (pointed T)) data po cu L (fits_zero _) Hb W2) as Sd.
    unfold bind, emsg, map_err. destruct (decode (pointed T) (zero_val (pointed T)) (mkD data po cu E)) as [[x|e| | |] s2];
      cbn [fst] in *; easy. }
  destruct T; exact G.
Qed.

Lemma number_defined e types : numbered e = true -> zlen types <= id_limit e ->
  exists d, new_variant_definition e types = Ok d.
Proof.
  intros He Hl. destruct (numbered_exists e types 0 (mkVD [] [] [] e) He eq_refl) as (d & Hd); [lia|lia|].
  exists d. unfold new_variant_definition. now destruct e.
Qed.
Lemma none_panics types : length types <> 1%nat -> new_variant_definition IdNone types = Panic.
Proof. destruct types as [|t [|t' r]]; [reflexivity|easy|reflexivity]. Qed.
Lemma number_type_id e types d n t : numbered e = true -> zlen types <= id_limit e ->
  new_variant_definition e types = Ok d -> NoDup (map vt_name types) -> nth_error types n = Some t ->
  type_id_of d (vt_name t) = Ok (id_number e (Z.of_nat n)).
Proof.
  intros He Hl Hd Hn Ht. assert (K : (n < length types)%nat) by (apply nth_error_Some; congruence).
  eapply variant_id_of; [apply numbered_defined; eassumption|exact Hn|exact Ht|now apply nth_numbered].
Qed.
Lemma number_type_id_unknown e types d name : numbered e = true -> zlen types <= id_limit e ->
  new_variant_definition e types = Ok d -> ~ In name (map vt_name types) -> type_id_of d name = Panic.
Proof. intros He Hl Hd Hn. eapply variant_id_unknown; [apply numbered_defined; eassumption|exact Hn]. Qed.
Lemma number_round_trip e types d n t T v E pre post c : numbered e = true -> zlen types <= id_limit e ->
  new_variant_definition e types = Ok d -> nth_error types n = Some t -> vt_type t = Some T ->
  ok E (pointed T) None LE v -> canon E (pointed T) None LE v ->
  exists b c' r, marshal E (pointed T) v = (Ok tt, b) /\
  let bs := id_wire e (Z.of_nat n) ++ b in
  unmarshal_binary_variant d (mkD (pre ++ bs ++ post) (zlen pre) c E) =
    (Ok r, mkD (pre ++ bs ++ post) (zlen pre + zlen bs) c' E) /\
  bv_obtain r d = (id_number e (Z.of_nat n), vt_name t, Some (as_impl T v)).
Proof.
  intros He Hl Hd Ht HT Hok Hc. assert (K : (n < length types)%nat) by (apply nth_error_Some; congruence).
  destruct (number_round e types d n t T v E pre post c He Hl Hd Ht HT Hok) as (b & c' & H1 & H2).
  rewrite back_canon in H2 by exact Hc. exists b, c'. eexists. split; [exact H1|]. split; [exact H2|].
  eapply variant_name; [apply numbered_defined; eassumption|exact Ht|now apply nth_numbered].
Qed.
Lemma uint32_both v o : 0 <= v < 2 ^ 32 ->
  uint32_from_type_id (type_id_from_uint32 v o) o = v /\ type_id_from_uint32 v o = fixed o 4 v ++ [0; 0; 0; 0].
Proof. intro H. split; [now apply uint32_round|now apply uint32_bytes]. Qed.
Lemma uint32_inj v v' o : 0 <= v < 2 ^ 32 -> 0 <= v' < 2 ^ 32 ->
  type_id_from_uint32 v o = type_id_from_uint32 v' o -> v = v'.
Proof. intros H H' E. rewrite <- (uint32_round v o H), <- (uint32_round v' o H'). now rewrite E. Qed.
Lemma uvarint32_both v : 0 <= v < 2 ^ 32 -> exists id k,
  type_id_from_uvarint32 v = Ok id /\ id = leb128 v ++ repeat 0 k /\ length id = 8%nat /\ uvarint32_from_type_id id = v.
Proof.
  intro H. destruct (uvarint_round v H) as (id & H1 & H2 & H3). exists id, (8 - length (leb128 v))%nat.
  split; [exact H1|]. split; [|auto]. rewrite from_uvarint in H1 by exact H. congruence.
Qed.
Lemma uvarint32_cut v r : 0 <= v < 2 ^ 64 -> uvarint32_from_type_id (leb128 v ++ r) = v mod 2 ^ 32.
Proof. intro H. unfold uvarint32_from_type_id. rewrite uvarint_leb by lia. reflexivity. Qed.
Lemma uvarint32_inj v v' : 0 <= v < 2 ^ 32 -> 0 <= v' < 2 ^ 32 ->
  type_id_from_uvarint32 v = type_id_from_uvarint32 v' -> v = v'.
Proof.
  intros H H' E. destruct (uvarint_round v H) as (id & H1 & _ & H3). destruct (uvarint_round v' H') as (id' & H1' & _ & H3').
  congruence.
Qed.
Lemma uint8_both v : 0 <= v < 256 ->
  uint8_from_type_id (type_id_from_uint8 v) = v /\ type_id_from_uint8 v = v :: repeat 0 7.
Proof. now split. Qed.
Lemma uint8_inj v v' : type_id_from_uint8 v = type_id_from_uint8 v' -> v = v'.
Proof. unfold type_id_from_uint8, type_id_from_bytes. cbn [app firstn]. congruence. Qed.
Lemma type_id_bytes bs : length (type_id_from_bytes bs) = 8%nat /\
  (zlen bs <= 8 -> exists k, type_id_from_bytes bs = bs ++ repeat 0 k) /\
  (zlen bs >= 8 -> exists r, bs = type_id_from_bytes bs ++ r).
Proof.
  split; [apply type_id_length|]. split.
  - intro H. eexists. apply type_id_pad. unfold zlen in H. lia.
  - unfold zlen. intro H. exists (skipn 8 bs). unfold type_id_from_bytes. rewrite firstn_app.
    replace (8 - length bs)%nat with 0%nat by lia. rewrite firstn_O, app_nil_r. now rewrite firstn_skipn.
Qed.
Lemma type_id_equal_iff a b : type_id_equal a b = true <-> a = b.
Proof. unfold type_id_equal. split; [apply same_bytes_eq|intros ->; apply same_bytes_refl]. Qed.
Lemma small_ids v : 0 <= v < 128 ->
  type_id_from_uvarint32 v = Ok (type_id_from_uint8 v) /\ type_id_from_uint32 v LE = type_id_from_uint8 v.
Proof.
  intro H. split.
  - rewrite from_uvarint by lia. now rewrite leb128_small.
  - rewrite uint32_bytes by lia. unfold fixed, fixed_le. cbn [seq map].
    replace (v / 256 ^ Z.of_nat 0 mod 256) with v; [|change (256 ^ Z.of_nat 0) with 1; rewrite Z.div_1_r, Z.mod_small; lia].
    replace (v / 256 ^ Z.of_nat 1 mod 256) with 0; [|change (256 ^ Z.of_nat 1) with 256; rewrite Z.div_small by lia; reflexivity].
    replace (v / 256 ^ Z.of_nat 2 mod 256) with 0; [|change (256 ^ Z.of_nat 2) with 65536; rewrite Z.div_small by lia; reflexivity].
    replace (v / 256 ^ Z.of_nat 3 mod 256) with 0; [|change (256 ^ Z.of_nat 3) with 16777216; rewrite Z.div_small by lia; reflexivity].
    reflexivity.
Qed.
(** Assign and Obtain. *)
Lemma number_assign e types d n t : numbered e = true -> zlen types <= id_limit e ->
  new_variant_definition e types = Ok d -> NoDup (map vt_name types) -> nth_error types n = Some t ->
  exists id, type_id_of d (vt_name t) = Ok id /\ forall impl, bv_obtain (bv_assign id impl) d = (id, vt_name t, impl).
Proof.
  intros He Hl Hd Hn Ht. exists (id_number e (Z.of_nat n)). split; [now apply (number_type_id e types d n t)|].
  assert (K : (n < length types)%nat) by (apply nth_error_Some; congruence).
  intro impl. eapply variant_name; [apply numbered_defined; eassumption|exact Ht|now apply nth_numbered].
Qed.
