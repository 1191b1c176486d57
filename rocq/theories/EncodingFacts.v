(** Decoders with any encoding number. *)
From Coq Require Import String.
From Verif Require Import Base Num Types Text DecPrim Dec Builtin Utf8 Ops Encodings.
Notation length := Datatypes.length.

Definition same_enc (E : encoding) (s : dst) : dst := mkD (d_data s) (d_pos s) (d_cur s) E.
Definition as_raw (s : dst) : raw := mkRaw (d_data s) (d_pos s) (d_cur s) (number (d_enc s)).
(** A program that neither reads nor writes the encoding. *)
Definition blind {A} (m : DM A) : Prop := forall E s,
  m (same_enc E s) = let '(o, s') := m (same_enc Bin s) in (o, same_enc E s').

Lemma blind_ret {A} (a : A) : blind (ret a).
Proof. intros E s. reflexivity. Qed.
Lemma blind_fail {A} e : blind (fail e : DM A).
Proof. intros E s. reflexivity. Qed.
Lemma blind_panic {A} : blind (panic : DM A).
Proof. intros E s. reflexivity. Qed.
Lemma blind_stuck {A} : blind (stuck : DM A).
Proof. intros E s. reflexivity. Qed.
Lemma blind_state {A} (m : DM A) : blind m -> forall s, same_enc Bin (snd (m (same_enc Bin s))) = snd (m (same_enc Bin s)).
Proof.
  intros H s. specialize (H Bin s). destruct (m (same_enc Bin s)) as [o s']. cbn [snd]. congruence.
Qed.
Lemma blind_bind {A B} (m : DM A) (k : A -> DM B) : blind m -> (forall a, blind (k a)) -> blind (bind m k).
Proof.
  intros M K E s. unfold bind. rewrite (M E s). pose proof (blind_state m M s) as B0.
  destruct (m (same_enc Bin s)) as [o s']. cbn [snd] in B0. destruct o as [a|e| | |]; try reflexivity.
  rewrite (K a E s'). rewrite <- B0 at 2. reflexivity.
Qed.
Lemma blind_fmap {A B} (f : A -> B) (m : DM A) : blind m -> blind (fmap f m).
Proof. intro M. apply blind_bind; [exact M|]. intro a. apply blind_ret. Qed.
Lemma blind_map_err {A} f (m : DM A) : blind m -> blind (map_err f m).
Proof.
  intros M E s. unfold map_err. rewrite (M E s). destruct (m (same_enc Bin s)) as [o s']. now destruct o.
Qed.
(** d_get, used for the data and the position only. *)
Lemma blind_get {A} (k : dst -> DM A) :
  (forall E s, k (same_enc E s) = k s) -> (forall s, blind (k s)) -> blind (bind d_get k).
Proof.
  intros K1 K2 E s. unfold bind, d_get. rewrite K1. rewrite (K2 s E s). rewrite K1. reflexivity.
Qed.
Lemma blind_set_pos p : blind (d_set_pos p).
Proof. intros E s. reflexivity. Qed.
Lemma blind_remaining : blind d_remaining.
Proof. intros E s. reflexivity. Qed.

Ltac blind_step :=
  match goal with
  | |- blind (ret _) => apply blind_ret
  | |- blind (fail _) => apply blind_fail
  | |- blind panic => apply blind_panic
  | |- blind stuck => apply blind_stuck
  | |- blind (d_set_pos _) => apply blind_set_pos
  | |- blind d_remaining => apply blind_remaining
  | |- blind (map_err _ _) => apply blind_map_err
  | |- blind (fmap _ _) => apply blind_fmap
  | |- blind (bind d_get _) => apply blind_get; [reflexivity|intros ?]
  | |- blind (bind _ _) => apply blind_bind; [|intros ?]
  | |- blind (if ?b then _ else _) => destruct b
  | |- blind (match ?x with _ => _ end) => destruct x
  end.
Ltac blind := repeat blind_step.

Lemma blind_rest : blind d_rest.
Proof. unfold d_rest. blind. Qed.
Lemma blind_take n : blind (d_take n).
Proof. unfold d_take. blind. Qed.
Lemma blind_read_byte : blind read_byte.
Proof. unfold read_byte. blind; apply blind_take. Qed.
Lemma blind_read_uint n o : blind (read_uint n o).
Proof. unfold read_uint. blind; apply blind_take. Qed.
Lemma blind_read_n_bytes n : blind (read_n_bytes n).
Proof. unfold read_n_bytes. blind; apply blind_take. Qed.
Lemma blind_read_uint64 o : blind (read_uint64 o).
Proof. unfold read_uint64. blind; apply blind_read_n_bytes. Qed.
Lemma blind_read_uintw w o : blind (read_uintw w o).
Proof. destruct w; cbn; [apply blind_read_byte|apply blind_read_uint|apply blind_read_uint|apply blind_read_uint64]. Qed.
Lemma blind_read_uvarint64 : blind read_uvarint64.
Proof. unfold read_uvarint64. blind; apply blind_rest. Qed.
Lemma blind_read_varint64 : blind read_varint64.
Proof. unfold read_varint64. blind; apply blind_rest. Qed.
Lemma blind_read_compact_u16 : blind read_compact_u16.
Proof. unfold read_compact_u16. blind; apply blind_rest. Qed.
Lemma blind_peek n : blind (d_peek n).
Proof. unfold d_peek. blind. Qed.
Lemma blind_skip n : blind (d_skip n).
Proof. unfold d_skip. blind. Qed.

(** The methods that look at or set the encoding. *)
Definition looks (op : dop) : bool :=
  match op with
  | OpReadLength | OpReadByteSlice | OpReadString | OpSafeReadUTF8String | OpReadFloat _ _ | OpDecode _ _
  | OpSetEncoding _ => true
  | _ => false
  end.
Lemma blind_op op : looks op = false -> blind (dop_run op).
Proof.
  destruct op; intro L; try discriminate; cbn [dop_run];
    match goal with |- blind (fmap _ d_get) => idtac | _ => apply blind_fmap end.
  - apply blind_read_byte.
  - apply blind_read_uintw.
  - apply blind_fmap, blind_read_uintw.
  - apply blind_read_uvarint64.
  - apply blind_read_varint64.
  - apply blind_fmap, blind_read_uvarint64.
  - apply blind_fmap, blind_read_varint64.
  - apply blind_fmap, blind_read_uvarint64.
  - apply blind_fmap, blind_read_varint64.
  - apply blind_read_compact_u16.
  - unfold read_rust_string. blind; [apply blind_read_uint64|apply blind_read_n_bytes].
  - unfold read_bool. blind. apply blind_read_byte.
  - unfold read_option. blind. apply blind_read_byte.
  - unfold read_coption. blind. apply blind_read_uint.
  - unfold read_uint128. blind; apply blind_take.
  - apply blind_read_n_bytes.
  - unfold d_read. blind; apply blind_rest.
  - apply blind_peek.
  - unfold read_type_id. blind. apply blind_read_n_bytes.
  - unfold peek_discriminator. blind. apply blind_peek.
  - apply blind_skip.
  - unfold d_discard. blind. apply blind_skip.
  - unfold d_setposition. blind.
  - intros E s. reflexivity.
  - unfold fmap. apply blind_get; [reflexivity|intro; apply blind_ret].
  - unfold fmap. apply blind_get; [reflexivity|intro; apply blind_ret].
  - unfold fmap. apply blind_get; [reflexivity|intro; apply blind_ret].
  - unfold fmap. apply blind_get; [reflexivity|intro; apply blind_ret].
Qed.

Definition runs_as {A} (m : RM A) (n : DM A) : Prop := forall s,
  m (as_raw s) = let '(o, s') := n s in (o, as_raw s').
Lemma runs_lift {A} (m : DM A) : blind m -> runs_as (lift m) m.
Proof.
  intros B s. unfold lift, as_raw. cbn [w_data w_pos w_cur w_enc].
  change (mkD (d_data s) (d_pos s) (d_cur s) Bin) with (same_enc Bin s).
  replace (m s) with (m (same_enc (d_enc s) s)) by (f_equal; now destruct s).
  rewrite (B (d_enc s) s). destruct (m (same_enc Bin s)) as [o s']. reflexivity.
Qed.
Lemma runs_bind {A B} (m : RM A) n (k : A -> RM B) l : runs_as m n -> (forall a, runs_as (k a) (l a)) ->
  runs_as (bind m k) (bind n l).
Proof.
  intros M K s. unfold bind. rewrite M. destruct (n s) as [[a|e| | |] s']; try reflexivity. apply K.
Qed.
Lemma runs_fmap {A B} (f : A -> B) m n : runs_as m n -> runs_as (fmap f m) (fmap f n).
Proof. intro M. apply runs_bind; [exact M|]. intros a s. reflexivity. Qed.
Lemma runs_ext {A} (m : RM A) n n' : (forall s, n s = n' s) -> runs_as m n -> runs_as m n'.
Proof. intros E M s. rewrite <- E. apply M. Qed.

Lemma runs_length : runs_as raw_read_length read_length.
Proof.
  set (kr := fun v => if 0x7FFFFFFF <? v then fail EUnexpectedEOF else ret v : RM Z).
  set (kd := fun v => if 0x7FFFFFFF <? v then fail EUnexpectedEOF else ret v : DM Z).
  assert (K : forall v, runs_as (kr v) (kd v)) by (intros v s; unfold kr, kd; now destruct (0x7FFFFFFF <? v)).
  intros s.
  assert (R : raw_read_length (as_raw s) =
    match d_enc s with
    | Bin => bind (lift read_uvarint64) kr | CompactU16 => lift read_compact_u16
    | Borsh => bind (lift (read_uint 4 LE)) kr
    end (as_raw s)).
  { destruct s as [d p c []]; reflexivity. }
  assert (D : read_length s =
    match d_enc s with
    | Bin => bind read_uvarint64 kd | CompactU16 => read_compact_u16
    | Borsh => bind (read_uint 4 LE) kd
    end s).
  { destruct s as [d p c []]; reflexivity. }
  rewrite R, D. destruct (d_enc s).
  - exact (runs_bind _ _ _ _ (runs_lift _ blind_read_uvarint64) K s).
  - exact (runs_lift _ blind_read_compact_u16 s).
  - exact (runs_bind _ _ _ _ (runs_lift _ (blind_read_uint 4 LE)) K s).
Qed.
Lemma runs_byte_slice : runs_as raw_read_byte_slice read_byte_slice.
Proof.
  apply runs_bind; [exact runs_length|]. intro ln. apply runs_lift. blind; apply blind_take.
Qed.
Lemma runs_float f o : runs_as (raw_read_float f o) (read_float f o).
Proof.
  apply (runs_ext _ (bits <- (r <- d_remaining ;;
                if r <? Z.of_nat (fbytes f) then fail EMsg
                else bs <- d_take (Z.of_nat (fbytes f)) ;; ret (get_uint o bs)) ;;
     e <- d_get_enc ;; if is_borsh e && f_isnan f bits then fail EMsg else ret bits)).
  - intro s. unfold read_float, bind, d_remaining. destruct (remaining_of s <? Z.of_nat (fbytes f)); [reflexivity|].
    destruct (d_take (Z.of_nat (fbytes f)) s) as [[bs|e| | |] s']; reflexivity.
  - apply runs_bind.
    + apply runs_lift. blind; apply blind_take.
    + intros bits s. unfold bind, w_get_enc, d_get_enc. unfold as_raw at 1. cbn [w_enc].
      replace (encoding_is_borsh (number (d_enc s))) with (is_borsh (d_enc s)) by (now destruct (d_enc s)).
      now destruct (is_borsh (d_enc s) && f_isnan f bits).
Qed.
Lemma runs_decode g : runs_as (raw_decode g) (decode_target g).
Proof.
  intro s.
  assert (R : raw_decode g (as_raw s) = lift_in (d_enc s) (decode_target g) (as_raw s)) by (destruct s as [d p c []]; reflexivity).
  rewrite R. unfold lift_in, as_raw at 1 2 3. cbn [w_data w_pos w_cur].
  replace (mkD (d_data s) (d_pos s) (d_cur s) (d_enc s)) with s by (now destruct s).
  destruct (decode_target g s) as [o s']. reflexivity.
Qed.
(** With one of the three encodings the numbers make no difference. *)
Theorem raw_valid op : runs_as (raw_run op) (dop_run op).
Proof.
  destruct (looks op) eqn:L; [|destruct op; try discriminate L; apply runs_lift; apply (blind_op _ L)].
  destruct op; try discriminate L; cbn [raw_run dop_run]; apply runs_fmap.
  - apply runs_length.
  - apply runs_byte_slice.
  - apply runs_byte_slice.
  - apply runs_fmap, runs_byte_slice.
  - apply runs_float.
  - apply (runs_decode (TgtVar t v)).
  - intro s. reflexivity.
Qed.
Theorem raw_valid_runs ops : forall s, raw_runs ops (as_raw s) = let '(os, s') := dops_run ops s in (os, as_raw s').
Proof.
  induction ops as [|op ops IH]; intro s; [reflexivity|]. cbn [raw_runs dops_run]. rewrite raw_valid.
  destruct (dop_run op s) as [o s1]. rewrite IH. now destruct (dops_run ops s1).
Qed.

(** With any other the methods that need a length panic at once; the others do
    what they do with Bin. *)
Definition needs_length (op : dop) : bool :=
  match op with
  | OpReadLength | OpReadByteSlice | OpReadString | OpSafeReadUTF8String | OpDecode _ _ => true
  | _ => false
  end.
Definition no_encoding (e : Z) : Prop := e <> 0 /\ e <> 1 /\ e <> 2.
Lemma raw_length_invalid r : no_encoding (w_enc r) -> raw_read_length r = (Panic, r).
Proof.
  intros (A & B & C). unfold raw_read_length, bind, w_get_enc, encoding_bin, encoding_borsh, encoding_compact_u16.
  destruct (Z.eqb_spec (w_enc r) 0); [contradiction|]. destruct (Z.eqb_spec (w_enc r) 2); [contradiction|].
  destruct (Z.eqb_spec (w_enc r) 1); [contradiction|]. reflexivity.
Qed.
Theorem raw_invalid_panic op r : no_encoding (w_enc r) -> needs_length op = true -> raw_run op r = (Panic, r).
Proof.
  intros N L. pose proof (raw_length_invalid r N) as R. destruct op; try discriminate L; cbn [raw_run];
    unfold raw_read_string, raw_safe_read_utf8_string, raw_read_byte_slice, fmap, bind; rewrite ?R; try reflexivity.
  destruct N as (A & B & C). unfold raw_decode, bind, w_get_enc, encoding_bin, encoding_borsh, encoding_compact_u16.
  destruct (Z.eqb_spec (w_enc r) 0); [contradiction|]. destruct (Z.eqb_spec (w_enc r) 2); [contradiction|].
  destruct (Z.eqb_spec (w_enc r) 1); [contradiction|]. reflexivity.
Qed.
Theorem raw_invalid_bin op r : no_encoding (w_enc r) -> needs_length op = false ->
  (forall E, op <> OpSetEncoding E) ->
  let '(o, s) := dop_run op (mkD (w_data r) (w_pos r) (w_cur r) Bin) in
  raw_run op r = (o, mkRaw (d_data s) (d_pos s) (d_cur s) (w_enc r)).
Proof.
  intros N L S. destruct (looks op) eqn:K.
  - destruct op; try discriminate K; try discriminate L; [|exfalso; now apply (S E)].
    cbn [dop_run raw_run]. unfold fmap, raw_read_float, read_float, lift, bind, d_remaining, w_get_enc, d_get_enc.
    destruct (remaining_of _ <? _); [reflexivity|].
    assert (B : forall s, d_enc s = Bin -> forall n, d_enc (snd (d_take n s)) = Bin).
    { intros s Es n. unfold d_take, bind, d_get. destruct (slice_n _ _ _); [|exact Es]. cbn. exact Es. }
    specialize (B (mkD (w_data r) (w_pos r) (w_cur r) Bin) eq_refl (Z.of_nat (fbytes f))).
    destruct (d_take _ _) as [[bs|e| | |] s']; try reflexivity. cbn [snd] in B. cbn [w_enc].
    rewrite B. cbn [is_borsh andb]. unfold encoding_is_borsh, encoding_borsh. destruct N as (_ & _ & N).
    unfold ret. cbn [w_enc]. replace (w_enc r =? 2) with false by lia. reflexivity.
  - assert (E : raw_run op = lift (dop_run op)) by (destruct op; try discriminate K; reflexivity).
    rewrite E. unfold lift. destruct (dop_run op _) as [o s]. reflexivity.
Qed.

Theorem raw_detour e : no_encoding e -> forall ops,
  Forall (fun op => needs_length op = false /\ forall E, op <> OpSetEncoding E) ops -> forall d p c,
  let '(os, s) := dops_run ops (mkD d p c Bin) in
  raw_runs ops (mkRaw d p c e) = (os, mkRaw (d_data s) (d_pos s) (d_cur s) e) /\ d_enc s = Bin.
Proof.
  intro N. induction 1 as [|op ops [H1 H2] H IH]; intros d p c; [split; reflexivity|].
  cbn [raw_runs dops_run]. pose proof (raw_invalid_bin op (mkRaw d p c e) N H1 H2) as R. cbn [w_data w_pos w_cur w_enc] in R.
  assert (B : d_enc (snd (dop_run op (mkD d p c Bin))) = Bin).
  { destruct (looks op) eqn:K.
    - destruct op; try discriminate K; try discriminate H1; [|exfalso; now apply (H2 E)]. cbn [dop_run].
      unfold fmap, read_float, bind, d_remaining, d_get_enc. destruct (remaining_of _ <? _); [reflexivity|].
      unfold d_take, bind, d_get. destruct (slice_n _ _ _); [|reflexivity]. reflexivity.
    - pose proof (blind_state _ (blind_op op K) (mkD d p c Bin)) as S.
      change (same_enc Bin (mkD d p c Bin)) with (mkD d p c Bin) in S. rewrite <- S. reflexivity. }
  destruct (dop_run op (mkD d p c Bin)) as [o s]. cbn [snd] in B. rewrite R.
  specialize (IH (d_data s) (d_pos s) (d_cur s)).
  assert (Q : mkD (d_data s) (d_pos s) (d_cur s) Bin = s) by (rewrite <- B; now destruct s). rewrite Q in IH.
  destruct (dops_run ops s) as [os s2]. destruct IH as [-> B2]. split; [reflexivity|exact B2].
Qed.

(** * The constructors and the names *)
Theorem constructors e :
  (no_encoding e -> (forall data, new_decoder_with_encoding data e = Panic) /\
                    (forall w, new_encoder_with_encoding w e = Panic) /\ encoding_string e = []) /\
  (forall E, e = number E ->
     (forall data, new_decoder_with_encoding data e = Ok (as_raw (new_decoder E data))) /\
     (forall w, new_encoder_with_encoding w e = Ok (new_encoder E w)) /\ encoding_string e <> []).
Proof.
  split.
  - intros (A & B & C). assert (V : is_valid_encoding e = false).
    { unfold is_valid_encoding, encoding_bin, encoding_compact_u16, encoding_borsh. lia. }
    unfold new_decoder_with_encoding, new_encoder_with_encoding, encoding_string. rewrite V.
    unfold encoding_bin, encoding_compact_u16, encoding_borsh.
    destruct (Z.eqb_spec e 0); [contradiction|]. destruct (Z.eqb_spec e 1); [contradiction|].
    destruct (Z.eqb_spec e 2); [contradiction|]. auto.
  - intros E ->. destruct E; repeat split; discriminate.
Qed.
Theorem names e e' : encoding_string e = encoding_string e' -> e = e' \/ no_encoding e /\ no_encoding e'.
Proof.
  unfold encoding_string, no_encoding, encoding_bin, encoding_compact_u16, encoding_borsh. intro H.
  destruct (Z.eqb_spec e 0), (Z.eqb_spec e' 0); try (left; congruence);
  destruct (Z.eqb_spec e 1), (Z.eqb_spec e' 1); try (left; congruence);
  destruct (Z.eqb_spec e 2), (Z.eqb_spec e' 2); try (left; congruence); try discriminate H; right; auto.
Qed.
