(** Decoder programs keep the data and the encoding, do not move back and stay
    inside the data: a program logic, for all types, inputs and outcomes. *)
From Verif Require Import Types DecPrim Enc Dec Utf8 Builtin Spec NumFacts TyInd EncFacts DecEq.

Definition inside (s : dst) : Prop := 0 <= d_pos s <= zlen (d_data s).

(** [remaining_of] of states whose position is not negative. *)
Ltac rem_side := first [assumption | apply zlen_nonneg | lia
  | unfold inside in *; cbn [d_data d_pos new_decoder] in *; first [assumption | apply zlen_nonneg | lia]].
Ltac open_rem := repeat match goal with
  | |- context [remaining_of ?s] => rewrite (remaining_pos s) by rem_side
  | H : context [remaining_of ?s] |- _ => rewrite (remaining_pos s) in H by rem_side
  end; cbn [d_data d_pos] in *.

(** [s'] is a state that a well behaved read from [s] can end in. *)
Definition onward (s s' : dst) : Prop :=
  d_data s' = d_data s /\ d_enc s' = d_enc s /\ d_pos s <= d_pos s' /\ inside s'.

Definition within {A} (m : DM A) : Prop :=
  forall s, inside s -> onward s (snd (m s)).

Lemma onward_refl s : inside s -> onward s s.
Proof. unfold onward. intuition lia. Qed.
Lemma onward_trans s1 s2 s3 : onward s1 s2 -> onward s2 s3 -> onward s1 s3.
Proof. unfold onward. intuition (congruence || lia). Qed.
Lemma onward_inside s s' : onward s s' -> inside s'.
Proof. unfold onward. tauto. Qed.

Lemma within_ret {A} (a : A) : within (ret a).
Proof. intros s H. now apply onward_refl. Qed.
Lemma within_fail {A} e : within (@fail dst A e).
Proof. intros s H. now apply onward_refl. Qed.
Lemma within_panic {A} : within (@panic dst A).
Proof. intros s H. now apply onward_refl. Qed.
Lemma within_stuck {A} : within (@stuck dst A).
Proof. intros s H. now apply onward_refl. Qed.
Lemma within_deep {A} : within (@deep dst A).
Proof. intros s H. now apply onward_refl. Qed.
Lemma within_get : within d_get.
Proof. intros s H. now apply onward_refl. Qed.
Lemma within_get_enc : within d_get_enc.
Proof. intros s H. now apply onward_refl. Qed.
Lemma within_get_cur : within d_get_cur.
Proof. intros s H. now apply onward_refl. Qed.
Lemma within_remaining : within d_remaining.
Proof. intros s H. now apply onward_refl. Qed.
Lemma within_set_cur o : within (d_set_cur o).
Proof. intros s H. unfold onward, inside in *. cbn. intuition lia. Qed.

Lemma within_bind {A B} (m : DM A) (k : A -> DM B) :
  within m -> (forall a, within (k a)) -> within (bind m k).
Proof.
  intros Hm Hk s Hs. specialize (Hm s Hs). unfold bind.
  destruct (m s) as [[a|e| | |] s1]; cbn [snd] in *; try exact Hm.
  eapply onward_trans; [exact Hm|]. apply Hk. now apply (onward_inside s).
Qed.
Lemma within_fmap {A B} (f : A -> B) m : within m -> within (fmap f m).
Proof. intro H. apply within_bind; [exact H|]. intro. apply within_ret. Qed.
Lemma within_map_err {A} f (m : DM A) : within m -> within (map_err f m).
Proof.
  intros Hm s Hs. specialize (Hm s Hs). unfold map_err.
  destruct (m s) as [[a|e| | |] s1]; exact Hm.
Qed.

Create HintDb within.
#[global] Hint Resolve within_ret within_fail within_panic within_stuck within_deep
  within_get within_get_enc within_get_cur within_remaining within_set_cur : within.

Ltac within :=
  repeat first
    [ solve [auto with within]
    | apply within_bind; [|intro]
    | apply within_fmap
    | apply within_map_err
    | match goal with |- within (match ?x with _ => _ end) => destruct x end
    | match goal with |- within (if ?x then _ else _) => destruct x end ].

Ltac ons := unfold onward, inside, ret, d_set_pos in *; cbn [snd d_data d_pos d_enc d_cur]; repeat split; lia.

Lemma within_take n : within (d_take n).
Proof.
  intros s Hs. unfold d_take, d_get, bind, slice_n.
  destruct ((0 <=? d_pos s) && (0 <=? n) && (d_pos s + n <=? zlen (d_data s))) eqn:E.
  - ons.
  - now apply onward_refl.
Qed.
Lemma within_rest : within d_rest.
Proof. unfold d_rest. within. Qed.
Lemma within_cur_order : within d_cur_order.
Proof. unfold d_cur_order. within. Qed.
#[global] Hint Resolve within_take within_rest within_cur_order : within.
Lemma within_read_byte : within read_byte.
Proof. unfold read_byte. within. Qed.
Lemma within_read_uint n o : within (read_uint n o).
Proof. unfold read_uint. within. Qed.
Lemma within_read_n_bytes n : within (read_n_bytes n).
Proof. unfold read_n_bytes. within. Qed.
#[global] Hint Resolve within_read_byte within_read_uint within_read_n_bytes : within.
Lemma within_read_uint64 o : within (read_uint64 o).
Proof. unfold read_uint64. within. Qed.
#[global] Hint Resolve within_read_uint64 : within.
Lemma within_read_uintw w o : within (read_uintw w o).
Proof. destruct w; cbn [read_uintw]; within. Qed.
#[global] Hint Resolve within_read_uintw : within.
Lemma within_read_intw w o : within (read_intw w o).
Proof. unfold read_intw. within. Qed.
#[global] Hint Resolve within_read_intw : within.

Lemma uvarint_get_len buf : forall i x s, 0 <= i -> snd (uvarint_get buf i x s) <= i + zlen buf.
Proof.
  induction buf as [|b r IH]; intros i x s Hi; cbn [uvarint_get].
  - cbn. lia.
  - rewrite zlen_cons. pose proof (zlen_nonneg r).
    destruct (i =? 10); [cbn [snd]; lia|]. destruct (b <? 128).
    + destruct ((i =? 9) && (1 <? b)); cbn [snd]; lia.
    + etransitivity; [apply IH; lia|lia].
Qed.
Lemma uvarint_len buf v n : uvarint buf = (v, n) -> n <= zlen buf.
Proof.
  intro H. pose proof (uvarint_get_len buf 0 0 0 ltac:(lia)) as L.
  unfold uvarint in H. rewrite H in L. cbn in L. lia.
Qed.
Lemma varint_len buf v n : varint buf = (v, n) -> n <= zlen buf.
Proof.
  unfold varint. destruct (uvarint buf) as [ux k] eqn:E. intros [= _ <-].
  now apply uvarint_len in E.
Qed.
Lemma cu16_get_len fuel : forall nth bs ln size r,
  cu16_get fuel nth bs ln size = inr r -> size <= snd r <= size + zlen bs.
Proof.
  induction fuel as [|f IH]; intros nth bs ln size r; cbn [cu16_get].
  - intros [= <-]. cbn [snd]. pose proof (zlen_nonneg bs). lia.
  - destruct bs as [|e bs]; [discriminate|]. rewrite zlen_cons. pose proof (zlen_nonneg bs).
    destruct ((e =? 0) && negb (nth =? 0)); [discriminate|].
    destruct ((nth =? 2) && negb (Z.land e 128 =? 0)); [discriminate|].
    destruct (Z.land e 128 =? 0).
    + intros [= <-]. cbn [snd]. lia.
    + intro H1. apply IH in H1. lia.
Qed.
Lemma decode_cu16_len bs ln size : decode_compact_u16 bs = inr (ln, size) -> 0 < size <= zlen bs.
Proof.
  unfold decode_compact_u16. destruct (cu16_get 3 0 bs 0 0) as [e|[l n]] eqn:E; [discriminate|].
  apply cu16_get_len in E. cbn [snd] in E.
  destruct ((n =? 0) || (3 <? n)) eqn:E1; [discriminate|].
  destruct ((l <? 0) || (65535 <? l)); [discriminate|]. intros [= <- <-]. lia.
Qed.

(** The rest of the data is as long as Remaining says. *)
Lemma rest_len s r : slice_from (d_data s) (d_pos s) = Some r ->
  zlen r = zlen (d_data s) - d_pos s.
Proof.
  unfold slice_from. destruct ((0 <=? d_pos s) && (d_pos s <=? zlen (d_data s))) eqn:E; [|discriminate].
  intros [= <-]. unfold zlen in *. rewrite skipn_length. lia.
Qed.

Lemma within_pos {A} (f : list Z -> A * Z) :
  (forall buf v n, f buf = (v, n) -> n <= zlen buf) ->
  within (buf <- d_rest ;;
          let '(v, n) := f buf in
          if n <=? 0 then fail EVarint
          else s <- d_get ;; d_set_pos (d_pos s + n) ;;; ret v).
Proof.
  intros Hf s Hs. unfold bind at 1, d_rest, d_get, bind. cbn [d_data d_pos].
  destruct (slice_from (d_data s) (d_pos s)) as [r|] eqn:Er; [|now apply onward_refl].
  cbn [ret]. destruct (f r) as [v n] eqn:Ef. destruct (n <=? 0) eqn:En; [now apply onward_refl|].
  apply Hf in Ef. apply rest_len in Er.
  ons.
Qed.
Lemma within_uvarint : within read_uvarint64.
Proof. apply within_pos. exact uvarint_len. Qed.
Lemma within_varint : within read_varint64.
Proof. apply within_pos. exact varint_len. Qed.
Lemma within_compact : within read_compact_u16.
Proof.
  intros s Hs. unfold read_compact_u16, bind at 1, d_rest, d_get, bind. cbn [d_data d_pos].
  destruct (slice_from (d_data s) (d_pos s)) as [r|] eqn:Er; [|now apply onward_refl].
  cbn [ret]. destruct (decode_compact_u16 r) as [e|[ln n]] eqn:Ef; [now apply onward_refl|].
  apply decode_cu16_len in Ef. apply rest_len in Er.
  ons.
Qed.
#[global] Hint Resolve within_uvarint within_varint within_compact : within.
Lemma within_varint32 : within read_varint32.
Proof. unfold read_varint32. within. Qed.
Lemma within_uvarint32 : within read_uvarint32.
Proof. unfold read_uvarint32. within. Qed.
Lemma within_varint16 : within read_varint16.
Proof. unfold read_varint16. within. Qed.
Lemma within_uvarint16 : within read_uvarint16.
Proof. unfold read_uvarint16. within. Qed.
Lemma within_read_length : within read_length.
Proof. unfold read_length. within. Qed.
#[global] Hint Resolve within_varint32 within_uvarint32 within_varint16 within_uvarint16
  within_read_length : within.
Lemma within_byte_slice : within read_byte_slice.
Proof. unfold read_byte_slice. within. Qed.
#[global] Hint Resolve within_byte_slice : within.
Lemma within_read_string : within read_string.
Proof. unfold read_string. within. Qed.
Lemma within_rust_string : within read_rust_string.
Proof. unfold read_rust_string. within. Qed.
Lemma within_read_bool : within read_bool.
Proof. unfold read_bool. within. Qed.
Lemma within_read_option : within read_option.
Proof. unfold read_option. within. Qed.
Lemma within_read_coption : within read_coption.
Proof. unfold read_coption. within. Qed.
Lemma within_read_float f o : within (read_float f o).
Proof. unfold read_float. within. Qed.
Lemma within_read_uint128 o : within (read_uint128 o).
Proof. unfold read_uint128. within. Qed.
Lemma within_peek n : within (d_peek n).
Proof. unfold d_peek. within. Qed.
Lemma within_type_id : within read_type_id.
Proof. unfold read_type_id. within. Qed.
#[global] Hint Resolve within_read_string within_rust_string within_read_bool
  within_read_option within_read_coption within_read_float within_read_uint128
  within_peek within_type_id : within.
Lemma within_peek_disc : within peek_discriminator.
Proof. unfold peek_discriminator. within. Qed.
Lemma within_read_rep {A} n (m : DM A) : within m -> within (read_rep n m).
Proof. intro H. induction n; cbn [read_rep]; within. Qed.
#[global] Hint Resolve within_peek_disc within_read_rep : within.
Lemma within_read_uints w l : within (read_uints w l).
Proof. unfold read_uints. within. Qed.
Lemma within_read_flag E : within (read_flag E).
Proof. unfold read_flag. within. Qed.
Lemma within_read_cflag : within read_cflag.
Proof. unfold read_cflag. within. Qed.
Lemma within_read_str E : within (read_str E).
Proof. unfold read_str. within. Qed.
Lemma within_read_count E : within (read_count E).
Proof. unfold read_count. within. Qed.
Lemma within_safe_utf8 : within safe_read_utf8_string.
Proof. unfold safe_read_utf8_string. within. Qed.
#[global] Hint Resolve within_read_uints within_read_flag within_read_cflag within_read_str
  within_read_count within_safe_utf8 : within.
Lemma within_each {A B} (f : A -> DM B) l : (forall a, within (f a)) -> within (each_dec f l).
Proof. intro H. induction l; cbn [each_dec]; within. Qed.
Lemma within_dec_map kt n deck decv : within deck -> within decv ->
  forall m, within (dec_map kt n deck decv m).
Proof. intros Hk Hv. induction n; intro m; cbn [dec_map]; within. Qed.
#[global] Hint Resolve within_each within_dec_map : within.

(** Read, SkipBytes, Discard (data shorter than 2^63). *)
Definition small_data (s : dst) : Prop := zlen (d_data s) < 2 ^ 63.

Lemma uwrap_id n z : 0 <= z < 2 ^ n -> uwrap n z = z.
Proof. intro H. unfold uwrap. now apply Z.mod_small. Qed.

Lemma onward_skip n s : 0 <= n < 2 ^ 64 -> inside s -> small_data s -> onward s (snd (d_skip n s)).
Proof.
  intros Hn Hs Hd. unfold d_skip, d_get, bind. (unfold small_data, inside in *; open_rem).
  rewrite uwrap_id by lia. destruct (_ <? n) eqn:E; [now apply onward_refl|].
  rewrite (swrap_small 64 n) by lia.
  rewrite swrap_small by lia. ons.
Qed.
Lemma onward_discard n s : inside s -> small_data s -> onward s (snd (d_discard n s)).
Proof.
  intros Hs Hd. unfold d_discard. destruct (n =? 0); [now apply onward_refl|].
  destruct ((n <? 0) || (0x7FFFFFFF <? n)) eqn:E; [now apply onward_refl|].
  apply onward_skip; auto. lia.
Qed.
Lemma within_read n : 0 <= n -> within (d_read n).
Proof.
  intros Hn s Hs. unfold d_read, d_get, bind at 1.
  destruct (_ <? _) eqn:E; [now apply onward_refl|].
  unfold d_rest, d_get, bind. destruct (slice_from (d_data s) (d_pos s)) as [r|] eqn:Er;
    [|now apply onward_refl].
  apply rest_len in Er. cbn [ret]. unfold d_set_pos.
  assert (L : zlen (firstn (Z.to_nat n) r) = n).
  { unfold zlen in *. rewrite firstn_length. unfold inside, zlen in Hs. lia. }
  rewrite L, Z.eqb_refl. ons.
Qed.
(** SetPosition to an index that is a non-negative int; it may go back. *)
Lemma inside_setposition n s : 0 <= n < 2 ^ 63 -> inside s ->
  let s' := snd (d_setposition n s) in
  d_data s' = d_data s /\ d_enc s' = d_enc s /\ inside s'.
Proof.
  intros Hn Hs. unfold d_setposition, d_get, bind. rewrite swrap_small by lia.
  destruct (n <? zlen (d_data s)) eqn:E; cbn; unfold inside in *; cbn; repeat split; try lia.
Qed.

(** * The reflection decoder *)

Definition codec_within (c : codec) (_ : ty) : Prop :=
  forall f v, c_unmarshal c = Some f -> within (f v).

Lemma within_unmarshaler t m : all_codecs codec_within t ->
  borsh_field_unmarshaler t = Some m -> within m.
Proof.
  intros Hc H. destruct t; try discriminate.
  - destruct t; try discriminate. cbn [borsh_field_unmarshaler] in H.
    destruct (c_unmarshal c) as [f|] eqn:Ef; inversion H; subst.
    destruct Hc as [Hc _]. apply within_fmap. now apply Hc.
  - cbn [borsh_field_unmarshaler] in H.
    destruct (c_unmarshal c) as [f|] eqn:Ef; inversion H; subst.
    destruct Hc as [Hc _]. now apply Hc.
Qed.

Lemma within_dec_fields E rec fs : forall ps sizes seen,
  Forall (fun ht => all_codecs codec_within (snd ht) /\
                    forall o v, within (rec (snd ht) o v)) fs ->
  within (dec_fields E rec fs ps sizes seen).
Proof.
  induction fs as [|[h t] fs IH]; intros ps sizes seen H; cbn [dec_fields].
  - within.
  - destruct ps as [|p ps]; [within|]. inversion_clear H as [|? ? [Hc H1] H2].
    assert (IH' : forall ps sizes seen, within (dec_fields E rec fs ps sizes seen)) by auto.
    cbn [snd] in *.
    destruct (ft_skip _); [within|].
    destruct (negb _ && seen); [within|].
    assert (Hb : within
      (if negb (f_exported h)
       then fmap (cons p) (dec_fields E rec fs ps sizes (seen || ft_ext (parse_field_tag (f_tag h))))
       else match is_borsh E, borsh_field_unmarshaler t with
            | true, Some m =>
                x <- m ;; fmap (cons x) (dec_fields E rec fs ps sizes (seen || ft_ext (parse_field_tag (f_tag h))))
            | _, _ =>
                x <- map_err EWrap (rec t (field_opt E (parse_field_tag (f_tag h)) (f_name h) sizes) p) ;;
                if String.eqb (ft_sizeof (parse_field_tag (f_tag h))) "" then
                  fmap (cons x) (dec_fields E rec fs ps sizes (seen || ft_ext (parse_field_tag (f_tag h))))
                else match sizeof_val t x with
                     | None => panic
                     | Some n =>
                         fmap (cons x)
                           (dec_fields E rec fs ps ((ft_sizeof (parse_field_tag (f_tag h)), n) :: sizes) (seen || ft_ext (parse_field_tag (f_tag h))))
                     end
            end)).
    { destruct (negb (f_exported h)); [within|].
      destruct (is_borsh E); [destruct (borsh_field_unmarshaler t) as [m|] eqn:Em|].
      - pose proof (within_unmarshaler _ _ Hc Em). within.
      - within.
      - within. }
    destruct (ft_ext _); within.
Qed.

(** The fields of a struct reached through an unexported field: nothing is
    read. *)
Lemma rest_inside s : inside s -> exists r, d_rest s = (Ok r, s).
Proof.
  intro H. unfold inside in H. unfold d_rest, d_get, bind, slice_from.
  destruct ((0 <=? d_pos s) && (d_pos s <=? zlen (d_data s))) eqn:E; [eexists; reflexivity|lia].
Qed.
Lemma hidden_fields rec fs : forall ps sizes seen, exists r,
  (r = Ok ps \/ r = Panic \/ r = Stuck) /\
  forall s, inside s -> dec_fields Borsh rec (hide fs) ps sizes seen s = (r, s).
Proof.
  induction fs as [|[h t] fs IH]; intros ps sizes seen; cbn [hide map dec_fields].
  - destruct ps; eexists; (split; [|intros; reflexivity]); auto.
  - destruct ps as [|p ps]; [eexists; split; [|intros; reflexivity]; auto|].
    cbn [fst snd f_name f_tag f_exported negb]. fold (hide fs).
    assert (Hk : forall sn, exists r, (r = Ok (p :: ps) \/ r = Panic \/ r = Stuck) /\
      forall s, inside s -> fmap (cons p) (dec_fields Borsh rec (hide fs) ps sizes sn) s = (r, s)).
    { intro sn. destruct (IH ps sizes sn) as (r & Hr & H).
      destruct Hr as [->|[->| ->]]; eexists; (split; [|intros s Hs; unfold fmap, bind; rewrite (H s Hs); reflexivity]); auto. }
    destruct (ft_skip _); [apply Hk|]. destruct (negb _ && seen); [eexists; split; [|intros; reflexivity]; auto|].
    destruct (ft_ext _); [|apply Hk].
    destruct (Hk (seen || true)) as (r & Hr & H). exists r. split; [exact Hr|]. intros s Hs.
    destruct (rest_inside s Hs) as [x Hx]. unfold bind at 1. rewrite Hx. destruct x; now apply H.
Qed.

Lemma within_then_panic {A} (m : DM A) : within m -> within (then_panic m).
Proof. intro H. unfold then_panic. within. Qed.
Lemma within_hopeless {A} (m : DM A) : within m -> within (hopeless m).
Proof.
  intro H. apply within_then_panic. intros s Hs. specialize (H s Hs). destruct (m s) as [[a|e| | |] s']; exact H.
Qed.
#[global] Hint Resolve within_then_panic within_hopeless : within.
Lemma then_panic_never {A} (m : DM A) s x s' : then_panic m s <> (Ok x, s').
Proof. unfold then_panic, bind. destruct (m s) as [[a|e| | |] s1]; discriminate. Qed.
Lemma hopeless_never {A} (m : DM A) s x s' : hopeless m s <> (Ok x, s').
Proof. apply then_panic_never. Qed.

Lemma within_sealed t : forall v, within (dec_sealed t v).
Proof.
  induction t as [t IH] using ty_strong_ind. intro v.
  destruct t as [|un w|nm w|f| |sg| | |t|n t|t|t1 t2|fs|c t|]; cbn [dec_sealed]; try solve [clear IH; within].
  - destruct v as [| | | |[x|]| | | | | |]; try solve [clear IH; within]. apply IH. cbn. lia.
  - destruct (uint_kind t); [destruct n; within|]. destruct v; try solve [clear IH; within].
    apply within_bind; [|intro; within]. apply within_each. intro a. apply within_bind; [within|]. intros _.
    apply IH. cbn. lia.
  - destruct v; try solve [clear IH; within]. destruct (is_enum fs); [within|].
    apply within_bind; [|intro; within]. intros s Hs.
    destruct (hidden_fields (fun _ _ p => ret p) fs l [] false) as (r & _ & H). rewrite (H s Hs). now apply onward_refl.
  - apply IH. cbn. lia.
Qed.
#[global] Hint Resolve within_sealed : within.

Lemma within_dec_variant rec fs : forall ps n,
  Forall (fun ht => forall o v, within (rec (snd ht) o v)) fs ->
  within (dec_variant rec fs ps n).
Proof.
  induction fs as [|[h t] fs IH]; intros ps n H; cbn [dec_variant].
  - within.
  - destruct ps as [|p ps]; [within|]. inversion_clear H as [|? ? H1 H2].
    cbn [snd] in H1. destruct n; [|specialize (IH ps n H2)]; within.
Qed.

Lemma within_pend p t core : within core -> within (with_pend p t core).
Proof. intro H. unfold with_pend. within. Qed.
#[global] Hint Resolve within_pend : within.

Lemma within_dec_struct E fs ps :
  Forall (fun ht => all_codecs codec_within (snd ht) /\
                    forall o v, within (dec_val E (snd ht) (DStart o) v)) fs ->
  within (dec_struct E fs ps).
Proof.
  intro H. unfold dec_struct. destruct (is_borsh E && is_enum fs).
  - apply within_bind; [within|]. intro n. destruct fs as [|[h t] fs]; [within|].
    destruct ps as [|p ps]; [within|]. destruct (negb (f_exported h)); [within|].
    apply within_bind; [|intro; within]. apply within_dec_variant.
    inversion_clear H as [|? ? _ H']. rewrite Forall_forall in *. intros ht Hin. now apply H'.
  - apply within_fmap. now apply within_dec_fields.
Qed.

Lemma within_dec_val t : all_codecs codec_within t ->
  forall E m v, within (dec_val E t m v).
Proof.
  induction t as [t IH] using ty_strong_ind. intros Hc E.
  assert (Hwalk : forall o pend v, within (dec_val E t (DWalk o pend) v)).
  { intros o pend v. rewrite dec_walk_eq.
    destruct t as [|un w|nm w|f| |sg| | |t|n t|t|t1 t2|fs|c t|];
      try (apply within_pend); try solve [clear IH; within].
    - apply within_fmap. apply IH; [cbn; lia|exact Hc].
    - assert (IHt : forall m v, within (dec_val E t m v)).
      { intros. apply IH; [cbn; lia|exact Hc]. }
      within.
    - assert (IHt : forall m v, within (dec_val E t m v)).
      { intros. apply IH; [cbn; lia|exact Hc]. }
      within.
    - destruct Hc as [Hc1 Hc2].
      assert (IH1 : forall m v, within (dec_val E t1 m v)).
      { intros. apply IH; [cbn; lia|exact Hc1]. }
      assert (IH2 : forall m v, within (dec_val E t2 m v)).
      { intros. apply IH; [cbn; lia|exact Hc2]. }
      within.
    - destruct v; try solve [within]. apply within_dec_struct.
      apply all_codecs_struct in Hc. rewrite Forall_forall in *. intros [h t'] Hin.
      split; [now apply Hc|]. intros. apply IH; [now apply (ty_size_field _ h)|exact (Hc _ Hin)].
    - destruct Hc as [Hf Hc].
      assert (IHt : forall m v, within (dec_val E t m v)).
      { intros. apply IH; [cbn; lia|exact Hc]. }
      destruct (c_unmarshal c) as [f|] eqn:Ef; [pose proof (fun v => Hf f v Ef)|]; within. }
  assert (Hfl : forall o v, within (dec_flagged E t o v)).
  { intros. unfold dec_flagged. within. }
  assert (Hnull : forall o v, within (dec_val E t (DNull o) v)).
  { intros o v. rewrite dec_null_eq. destruct t; try solve [clear IH; within].
    destruct (is_ptr t); [|within]. destruct v; try solve [clear IH; within]. destruct p; [|within].
    apply within_fmap. apply IH; [cbn; lia|exact Hc]. }
  intros [o|o|o pend] v; [rewrite dec_start_eq; within|apply Hnull|apply Hwalk].
Qed.

Lemma within_decode t v : all_codecs codec_within t -> within (decode t v).
Proof. intro H. unfold decode, decode_target. within. now apply within_dec_val. Qed.

Lemma codec_within_simple m u t : within u -> codec_within (simple_codec m u) t.
Proof. intros H f v [= <-]. exact H. Qed.
Lemma codec_within_u128 b t : codec_within (u128_codec b) t.
Proof. intros f v [= <-]. unfold u128_unmarshal, emsg. within. Qed.
