(** The encoder writes the bytes of the specification. *)
From Verif Require Import Types EncPrim Enc Spec NumFacts TyInd EncFacts.

Notation concat := List.concat.

Definition emits (E : encoding) (c : option order) (m : EM unit) (bs : list Z)
  (c' : option order) : Prop :=
  exists cs, script E c m cs (Ok tt) c' /\ concat cs = bs.

Lemma emits_ret E c : emits E c (ret tt) [] c.
Proof. exists []. split; [apply script_ret|reflexivity]. Qed.
Lemma emits_to_writer E c b : emits E c (to_writer b) b c.
Proof. exists [b]. split; [apply script_to_writer|]. cbn. apply app_nil_r. Qed.
Lemma emits_bind E c m1 b1 c1 m2 b2 c2 :
  emits E c m1 b1 c1 -> emits E c1 m2 b2 c2 -> emits E c (m1 ;;; m2) (b1 ++ b2) c2.
Proof.
  intros (cs1 & H1 & <-) (cs2 & H2 & <-). exists (cs1 ++ cs2). split.
  - eapply script_bind; eauto.
  - apply concat_app.
Qed.
Lemma emits_set_cur E c o m b c' :
  emits E (Some o) m b c' -> emits E c (e_set_cur o ;;; m) b c'.
Proof.
  intros (cs & H & <-). exists cs. split; [|reflexivity].
  change cs with ([] ++ cs). eapply script_bind; [apply script_set_cur|exact H].
Qed.
Lemma emits_map_err E c m b c' : emits E c m b c' -> emits E c (map_err EWrap m) b c'.
Proof.
  intros (cs & H & <-). exists cs. split; [|reflexivity].
  exact (script_map_err _ _ _ _ _ _ H).
Qed.
Lemma emits_get_enc E c k b c' : emits E c (k E) b c' -> emits E c (bind e_get_enc k) b c'.
Proof.
  intros (cs & H & <-). exists cs. split; [|reflexivity].
  change cs with ([] ++ cs). eapply script_bind; [apply script_get_enc|exact H].
Qed.
Lemma emits_get_cur E c k b c' : emits E c (k c) b c' -> emits E c (bind e_get_cur k) b c'.
Proof.
  intros (cs & H & <-). exists cs. split; [|reflexivity].
  change cs with ([] ++ cs). eapply script_bind; [apply script_get_cur|exact H].
Qed.
Lemma emits_ext E c m m' b c' :
  (forall s, e_enc s = E -> e_cur s = c -> m s = m' s) ->
  emits E c m b c' -> emits E c m' b c'.
Proof.
  intros Hext (cs & H & <-). exists cs. split; [|reflexivity].
  intros w n hist acc. specialize (H w n hist acc).
  rewrite <- Hext by reflexivity. exact H.
Qed.

(** Consequences for a buffer. *)
Lemma play_buffer cs n hist acc :
  play (fun _ => None) cs n hist acc =
  (None, n + zlen (concat cs), hist ++ cs, acc ++ concat cs).
Proof.
  revert n hist acc. induction cs as [|b cs IH]; intros n hist acc; cbn [play concat].
  - rewrite !app_nil_r, zlen_nil, Z.add_0_r. reflexivity.
  - rewrite IH, zlen_app, <- !app_assoc, <- Z.add_assoc. reflexivity.
Qed.

Lemma emits_buffer E c m b c' :
  emits E c m b c' -> forall n hist acc, exists cs, concat cs = b /\
  m (mkE E (fun _ => None) c n hist acc) =
  (Ok tt, mkE E (fun _ => None) c' (n + zlen b) (hist ++ cs) (acc ++ b)).
Proof.
  intros (cs & H & <-) n hist acc. exists cs. split; [reflexivity|].
  specialize (H (fun _ => None) n hist acc). rewrite play_buffer in H. exact H.
Qed.

(** * Primitives *)
Lemma emits_write_uint E c n z o : emits E c (write_uint n z o) (fixed o n z) c.
Proof. unfold write_uint. rewrite put_uint_fixed. apply emits_to_writer. Qed.
Lemma emits_write_byte E c z : emits E c (write_byte z) [z mod 256] c.
Proof. apply emits_to_writer. Qed.
Lemma leb128_len56 z : 0 <= z < 2 ^ 56 -> zlen (leb128 z) <= 8.
Proof.
  intro H. unfold zlen. enough ((length (leb128 z) <= 8)%nat) by lia.
  apply leb128_len; [lia|lia|]. cbn. lia.
Qed.
Lemma emits_write_uvarint E c z : 0 <= z < 2 ^ 56 ->
  emits E c (write_uvarint z) (leb128 z) c.
Proof.
  intro H. unfold write_uvarint, put_uvarint, uwrap.
  rewrite Z.mod_small by lia. rewrite uvarint_bytes_leb by lia.
  pose proof (leb128_len56 z H). destruct (zlen (leb128 z) <=? 8) eqn:E'; [|lia].
  apply emits_to_writer.
Qed.
Lemma emits_write_varint E c z : - 2 ^ 55 <= z < 2 ^ 55 ->
  emits E c (write_varint z) (leb128 (zz z)) c.
Proof.
  intro H. unfold write_varint, put_varint, put_uvarint.
  rewrite zigzag_zz by lia.
  assert (Hz : 0 <= zz z < 2 ^ 56) by (unfold zz; destruct (z <? 0) eqn:E'; lia).
  rewrite uvarint_bytes_leb by lia.
  pose proof (leb128_len56 _ Hz). destruct (zlen (leb128 (zz z)) <=? 8) eqn:E'; [|lia].
  apply emits_to_writer.
Qed.
Lemma emits_bytes_nolen E c b : emits E c (write_bytes_nolen b) b c.
Proof. destruct b; [apply emits_ret|apply emits_to_writer]. Qed.
Lemma emits_compact_u16 E c z : 0 <= z <= 65535 ->
  emits E c (write_compact_u16 z) (leb128 z) c.
Proof.
  intro H. unfold write_compact_u16. rewrite encode_cu16_leb by lia. apply emits_to_writer.
Qed.

Lemma count_max_bound E : count_max E < 2 ^ 32.
Proof. destruct E; cbn; lia. Qed.

Lemma emits_write_length E c n : 0 <= n <= count_max E ->
  emits E c (write_length n) (count E n) c.
Proof.
  intro H. unfold write_length. apply emits_get_enc. destruct E; cbn [count_max] in H.
  - apply emits_write_uvarint. lia.
  - rewrite encode_cu16_leb by lia. apply emits_bytes_nolen.
  - apply emits_write_uint.
Qed.
Lemma emits_write_count E c n : 0 <= n <= count_max E ->
  emits E c (write_count E n) (count E n) c.
Proof.
  intro H. destruct E; cbn [count_max write_count] in *.
  - apply emits_write_uvarint. lia.
  - apply emits_compact_u16. lia.
  - apply emits_write_uint.
Qed.
Lemma emits_write_bytes E c b : zlen b <= count_max E ->
  emits E c (write_bytes b) (count E (zlen b) ++ b) c.
Proof.
  intro H. unfold write_bytes. eapply emits_bind.
  - apply emits_write_length. pose proof (zlen_nonneg b). lia.
  - apply emits_bytes_nolen.
Qed.
Lemma text_max_count E : text_max E <= count_max E.
Proof. destruct E; cbn; lia. Qed.
Lemma emits_write_str E c s : zlen s <= text_max E -> emits E c (write_str E s) (text E s) c.
Proof.
  intro H. pose proof (text_max_count E). destruct E; unfold write_str, text.
  - unfold write_rust_string. eapply emits_bind; [apply emits_write_uint|apply emits_bytes_nolen].
  - apply emits_write_bytes. lia.
  - apply emits_write_bytes. lia.
Qed.
Lemma emits_write_flag E c b : emits E c (write_flag E b) (flag E b) c.
Proof.
  destruct E; unfold write_flag, flag; [apply emits_write_uint| |];
  destruct b; apply emits_to_writer.
Qed.
Lemma emits_write_coption E c b : emits E c (write_coption b) (cflag b) c.
Proof. apply emits_write_uint. Qed.
Lemma emits_write_bool E c b : emits E c (write_bool b) [if b then 1 else 0] c.
Proof. unfold write_bool. destruct b; apply emits_to_writer. Qed.

Lemma fixed_1 o z : fixed o 1 z = [z mod 256].
Proof. destruct o; unfold fixed, fixed_le; cbn; now rewrite Z.div_1_r. Qed.
Lemma emits_write_int E c w z o :
  emits E c (write_int E w z o) (fixed (num_order E o) (wbytes w) z) c.
Proof.
  destruct w; unfold write_int; try apply emits_write_uint.
  cbn [wbytes]. rewrite fixed_1. apply emits_write_byte.
Qed.

Lemma lor_pow2 b n : 0 <= n -> Z.testbit b n = false -> Z.lor b (2 ^ n) = b + 2 ^ n.
Proof.
  intros Hn Hb. rewrite Z.add_nocarry_lxor, Z.lxor_lor; [reflexivity| |];
  apply Z.bits_inj'; intros i Hi; rewrite Z.land_spec, Z.bits_0, Z.pow2_bits_eqb by lia;
  (destruct (Z.eqb_spec n i); [subst; now rewrite Hb|apply andb_false_r]).
Qed.
Lemma lor_pow2_set b n : 0 <= n -> Z.testbit b n = true -> Z.lor b (2 ^ n) = b.
Proof.
  intros Hn Hb. apply Z.bits_inj'. intros i Hi. rewrite Z.lor_spec, Z.pow2_bits_eqb by lia.
  destruct (Z.eqb_spec n i); [subst; now rewrite Hb|apply orb_false_r].
Qed.

Lemma quiet_spec f b : f32_through64 f b = quiet f b.
Proof.
  destruct f; [|reflexivity]. unfold f32_through64, quiet.
  destruct (f_isnan F32 b); [|reflexivity]. cbn [andb].
  destruct (Z.testbit b 22) eqn:E; cbn [negb].
  - apply lor_pow2_set; [lia|easy].
  - apply lor_pow2; [lia|easy].
Qed.
Lemma quiet_notnan f b : f_isnan f b = false -> quiet f b = b.
Proof. intro H. destruct f; [|reflexivity]. unfold quiet. now rewrite H. Qed.

Lemma emits_write_float E c f b o : (E = Borsh -> f_isnan f b = false) ->
  emits E c (write_float f (f32_through64 f b) o) (fixed o (fbytes f) (quiet f b)) c.
Proof.
  intro H. unfold write_float. apply emits_get_enc. rewrite quiet_spec.
  destruct (is_borsh E && f_isnan f (quiet f b)) eqn:Eb.
  - destruct E; try discriminate. cbn [is_borsh andb] in Eb.
    specialize (H eq_refl). rewrite quiet_notnan in Eb by easy. congruence.
  - rewrite put_uint_fixed. apply emits_to_writer.
Qed.

Lemma emits_write_uints E c w l :
  Forall (fun x => exists z, x = VNum z /\ 0 <= z < 2 ^ wbits w) l ->
  forall (g : val -> list Z), (forall z, g (VNum z) = fixed LE (wbytes w) z) ->
  emits E c (write_uints w (zlen l) l) (flat_map g l) c.
Proof.
  intros H g Hg. unfold write_uints.
  destruct ((zlen l <? 0) || (zlen l <? zlen l)) eqn:E'.
  { pose proof (zlen_nonneg l). lia. }
  assert (Hn : exists zs, nums l = Some zs /\ l = map VNum zs).
  { clear E'. induction H as [|x l (z & -> & Hz) Hl (zs & IH1 & IH2)].
    - exists []. easy.
    - exists (z :: zs). cbn [nums map]. now rewrite IH1, <- IH2. }
  destruct Hn as (zs & Hn & ->). rewrite Hn.
  rewrite zlen_map. unfold zlen. rewrite Nat2Z.id, firstn_all.
  replace (flat_map g (map VNum zs)) with (flat_map (fun z => put_uint LE (wbytes w) z) zs).
  - apply emits_bytes_nolen.
  - clear -Hg. induction zs as [|z zs IH]; [reflexivity|].
    cbn [map flat_map]. now rewrite IH, Hg, put_uint_fixed.
Qed.

(** * Options *)

Lemma enc_val_unflag E t o v s :
  enc_val E t (EFull o) v s =
  (e_set_cur (o_order o) ;;;
   let core := enc_val E t (EFull (cut_opt o)) v in
   let rest :=
     if is_borsh E && o_copt o then
       if is_zero v then write_coption false else write_coption true ;;; core
     else core in
   if o_opt o then
     if is_zero v then write_flag E false else write_flag E true ;;; rest
   else rest) s.
Proof.
  assert (Hpre : forall (core : EM unit) (s : est),
    e_cur s = Some (o_order o) -> core s = (e_set_cur (o_order o) ;;; core) s).
  { intros core [] Hs. cbn in Hs. subst. reflexivity. }
  assert (Hw : forall (w k k' : EM unit) (s : est),
    e_cur s = Some (o_order o) ->
    (exists b, w = to_writer b) ->
    (forall s, e_cur s = Some (o_order o) -> k s = k' s) ->
    (w ;;; k) s = (w ;;; k') s).
  { intros w k k' s0 Hs (b & ->) Hk. unfold bind, to_writer.
    destruct (e_w s0 _) as [[? n]|]; [reflexivity|]. apply Hk. exact Hs. }
  assert (Hf : forall b, exists x, write_flag E b = to_writer x).
  { intro b. destruct E; eexists; reflexivity. }
  assert (Hcf : forall b, exists x, write_coption b = to_writer x).
  { intro b. eexists; reflexivity. }
  assert (Hgen : forall core : EM unit,
    (e_set_cur (o_order o) ;;;
     let rest :=
       if is_borsh E && o_copt o then
         if is_zero v then write_coption false else write_coption true ;;; core
       else core in
     if o_opt o then
       if is_zero v then write_flag E false else write_flag E true ;;; rest
     else rest) s =
    (e_set_cur (o_order o) ;;;
     let rest :=
       if is_borsh E && o_copt o then
         if is_zero v then write_coption false
         else write_coption true ;;; (e_set_cur (o_order o) ;;; core)
       else (e_set_cur (o_order o) ;;; core) in
     if o_opt o then
       if is_zero v then write_flag E false else write_flag E true ;;; rest
     else rest) s).
  { intro core. cbv zeta.
    assert (Hset : forall k k' : EM unit,
      (forall s, e_cur s = Some (o_order o) -> k s = k' s) ->
      (e_set_cur (o_order o) ;;; k) s = (e_set_cur (o_order o) ;;; k') s).
    { intros k k' Hk. apply Hk. reflexivity. }
    apply Hset. intros s1 Hs1.
    destruct (o_opt o); destruct (is_borsh E && o_copt o); destruct (is_zero v);
      try reflexivity; auto. }
  destruct t; cbn [enc_val]; rewrite Hgen; cbn [cut_opt o_opt o_copt o_size o_order];
    try rewrite !andb_false_r; reflexivity.
Qed.

(** * Values *)

Lemma sizeof_int_like t z : int_like t = true -> fits t (VNum z) -> - 2 ^ 63 <= z < 2 ^ 63 ->
  sizeof_val t (VNum z) = Some z.
Proof.
  induction t; cbn [int_like fits sizeof_val]; try discriminate; intros Hi Hf Hz; auto.
  destruct Hf as (z' & Heq & Hr). inversion Heq; subst z'.
  rewrite swrap_small by (cbn; lia). destruct (z <? 0) eqn:E; [lia|reflexivity].
Qed.

Lemma bind_size_none tg v s : ft_sizeof tg = EmptyString -> bind_size tg v s = s.
Proof. intro H. unfold bind_size. now rewrite H. Qed.
Lemma bind_size_num tg z s x : ft_sizeof tg <> EmptyString ->
  bind_size tg (VNum z) s x = if String.eqb (ft_sizeof tg) x then Some z else s x.
Proof.
  intro H. unfold bind_size. destruct (ft_sizeof tg) as [|a r]; [easy|reflexivity].
Qed.

Definition agrees (m : smap) (s : sizes) : Prop := forall n, sm_get m n = s n.

(** Values of one type, without flags. *)
Definition enc_ok (E : encoding) (t : ty) : Prop :=
  forall sz o v c, ok E t sz o v ->
  exists c', emits E c (enc_val E t (EFull (mkOpt false false sz o)) v) (wire E t sz o v) c'.

Lemma enc_field_wire E t tg name sizes s v c :
  enc_ok E t -> ok_field E (ok E) t tg (s name) v ->
  sm_get sizes name = s name ->
  exists c', emits E c (enc_val E t (EFull (field_opt E tg name sizes)) v)
    (with_flags E tg v (wire E t (s name) (ft_order tg) v)) c'.
Proof.
  intros He (_ & _ & Hok & _) Hsz.
  assert (Hcore : ok E t (s name) (ft_order tg) v ->
     forall c, exists c', emits E c (enc_val E t (EFull (cut_opt (field_opt E tg name sizes))) v)
       (wire E t (s name) (ft_order tg) v) c').
  { intros Hv c0. unfold cut_opt, field_opt. cbn [o_size o_order]. rewrite Hsz. now apply He. }
  assert (Hz : forall b, exists c',
     (flagged_field E tg && is_zero v = true -> b = with_flags E tg v (wire E t (s name) (ft_order tg) v)) ->
     b = with_flags E tg v (wire E t (s name) (ft_order tg) v) -> c' = Some (ft_order tg)).
  { intros. now exists (Some (ft_order tg)). }
  clear Hz.
  assert (Hgoal : exists c', emits E (Some (ft_order tg))
    (let core := enc_val E t (EFull (cut_opt (field_opt E tg name sizes))) v in
     let rest :=
       if is_borsh E && ft_coption tg && is_borsh E then
         if is_zero v then write_coption false else write_coption true ;;; core
       else core in
     if ft_option tg then
       if is_zero v then write_flag E false else write_flag E true ;;; rest
     else rest)
    (with_flags E tg v (wire E t (s name) (ft_order tg) v)) c').
  { cbv zeta. unfold with_flags, flagged_field in *.
    set (co := is_borsh E && ft_coption tg) in *.
    replace (co && is_borsh E) with co by (unfold co; destruct (is_borsh E), (ft_coption tg); reflexivity).
    clearbody co.
    destruct (ft_option tg) eqn:Eo; destruct co eqn:Ec; destruct (is_zero v) eqn:Ez;
      cbn [andb orb app] in *.
    - eexists; apply emits_write_flag.
    - destruct Hok as [?|Hok]; [discriminate|]. destruct (Hcore Hok (Some (ft_order tg))) as [c' Hc'].
      exists c'. eapply emits_bind; [apply emits_write_flag|].
      eapply emits_bind; [apply emits_write_coption|exact Hc'].
    - eexists; apply emits_write_flag.
    - destruct Hok as [?|Hok]; [discriminate|]. destruct (Hcore Hok (Some (ft_order tg))) as [c' Hc'].
      exists c'. eapply emits_bind; [apply emits_write_flag|exact Hc'].
    - eexists; apply emits_write_coption.
    - destruct Hok as [?|Hok]; [discriminate|]. destruct (Hcore Hok (Some (ft_order tg))) as [c' Hc'].
      exists c'. eapply emits_bind; [apply emits_write_coption|exact Hc'].
    - destruct Hok as [?|Hok]; [discriminate|]. now apply Hcore.
    - destruct Hok as [?|Hok]; [discriminate|]. now apply Hcore. }
  destruct Hgoal as [c' Hg]. exists c'.
  eapply emits_ext.
  { intros st _ _. symmetry. apply enc_val_unflag. }
  cbn [field_opt o_order o_opt o_copt]. apply emits_set_cur.
  cbv zeta in *. rewrite <- (andb_comm (is_borsh E) (is_borsh E && ft_coption tg)) in Hg.
  exact Hg.
Qed.

Lemma enc_fields_wire E bk fs : forall vs sizes s seen c,
  Forall (fun ht => enc_ok E (snd ht)) fs ->
  agrees sizes s ->
  ok_fields E (ok E) bk (wire E) fs vs s seen ->
  exists c', emits E c
    (enc_fields E (fun t o v => enc_val E t (EFull o) v) fs vs sizes)
    (wire_fields E (wire E) fs vs s) c'.
Proof.
  induction fs as [|[h t] fs IH]; intros vs sizes s seen c Hf Ha Hok.
  - destruct vs; [|destruct Hok]. exists c. apply emits_ret.
  - destruct vs as [|v vs]; [destruct Hok|].
    inversion_clear Hf as [|? ? Ht Hfs]. cbn [snd] in Ht.
    cbn [enc_fields wire_fields ok_fields] in *. unfold live.
    set (tg := parse_field_tag (f_tag h)) in *.
    destruct (ft_skip tg) eqn:Esk; cbn [negb andb].
    { now apply (IH _ _ _ seen). }
    destruct Hok as [_ Hok]. destruct (f_exported h) eqn:Eex; cbn [negb].
    + destruct Hok as (Hfld & Hsz & _ & Hrest).
      assert (Hs' : exists sizes',
        (if String.eqb (ft_sizeof tg) "" then Some sizes
         else match sizeof_val t v with
              | Some n => Some ((ft_sizeof tg, n) :: sizes)
              | None => None
              end) = Some sizes' /\ agrees sizes' (bind_size tg v s) /\
        sm_get sizes' (f_name h) = s (f_name h)).
      { destruct Hsz as [Hsz|(Hint & Hne & _ & z & -> & Hz & _)].
        - exists sizes. rewrite Hsz, bind_size_none by easy. cbn. repeat split; auto.
        - destruct (String.eqb_spec (ft_sizeof tg) "") as [He|He].
          + exists sizes. rewrite bind_size_none by easy. repeat split; auto.
          + destruct Hfld as (_ & _ & _ & Hfit).
            rewrite (sizeof_int_like t z) by easy. eexists. split; [reflexivity|]. split.
            * intro n. rewrite bind_size_num by easy. cbn [sm_get].
              destruct (String.eqb (ft_sizeof tg) n); [reflexivity|apply Ha].
            * cbn [sm_get]. destruct (String.eqb_spec (ft_sizeof tg) (f_name h)); [easy|apply Ha]. }
      destruct Hs' as (sizes' & -> & Ha' & Hn).
      destruct (enc_field_wire E t tg (f_name h) sizes' s v c Ht Hfld Hn) as [c1 H1].
      destruct (IH vs sizes' _ _ c1 Hfs Ha' Hrest) as [c2 H2].
      exists c2. eapply emits_bind; [|exact H2]. apply emits_map_err, H1.
    + destruct Hok as [Hsz Hrest]. rewrite Hsz. cbn [String.eqb].
      now apply (IH _ _ _ (seen || ft_ext tg)).
Qed.

Lemma emits_each E (f : val -> EM unit) (g : val -> list Z) l : forall c,
  Forall (fun x => forall c, exists c', emits E c (f x) (g x) c') l ->
  exists c', emits E c (each f l) (flat_map g l) c'.
Proof.
  induction l as [|x l IH]; intros c H.
  - exists c. apply emits_ret.
  - inversion_clear H as [|? ? H1 H2]. destruct (H1 c) as [c1 Hc1].
    destruct (IH c1 H2) as [c2 Hc2]. exists c2. cbn [each flat_map].
    eapply emits_bind; eauto.
Qed.

(** Sorting. *)
Lemma isort_sort {A} (lt : A -> A -> bool) l : isort lt l = sort lt l.
Proof.
  unfold isort, sort. induction l as [|x l IH]; [reflexivity|]. cbn [fold_right]. rewrite IH.
  generalize (fold_right (put lt) [] l). clear. intro l.
  induction l as [|y r IH]; [reflexivity|]. cbn. destruct (lt x y); [reflexivity|now rewrite IH].
Qed.
Lemma sort_map {A B} (f : A -> B) (lt : B -> B -> bool) l :
  sort lt (map f l) = map f (sort (fun a b => lt (f a) (f b)) l).
Proof.
  induction l as [|x l IH]; [reflexivity|]. cbn [map sort fold_right]. unfold sort in *.
  rewrite IH. generalize (fold_right (put (fun a b => lt (f a) (f b))) [] l). clear.
  intro l. induction l as [|y r IH]; [reflexivity|]. cbn [map put].
  destruct (lt (f x) (f y)); [reflexivity|]. cbn [map]. now rewrite IH.
Qed.
Lemma sort_ext {A} (lt lt' : A -> A -> bool) l :
  (forall a b, In a l -> In b l -> lt a b = lt' a b) -> sort lt l = sort lt' l.
Proof.
  intro H.
  assert (Hin : forall l, (forall x, In x (sort lt' l) -> In x l)).
  { clear. intro l. induction l as [|a l IH]; [easy|]. intro x. cbn [sort fold_right].
    fold (sort lt' l). intro Hx.
    assert (Hp : forall l, In x (put lt' a l) -> x = a \/ In x l).
    { clear. intro l. induction l as [|y r IH]; cbn [put].
      - intros [->|[]]. now left.
      - destruct (lt' a y).
        + intros [->|H]; [now left|now right].
        + intros [->|H]; [right; now left|]. destruct (IH H); [now left|right; now right]. }
    destruct (Hp _ Hx) as [->|H]; [now left|right; now apply IH]. }
  induction l as [|a l IH]; [reflexivity|]. cbn [sort fold_right].
  fold (sort lt l). fold (sort lt' l). rewrite IH by (intros; apply H; now right).
  assert (Hall : forall y, In y (sort lt' l) -> lt a y = lt' a y).
  { intros y Hy. apply H; [now left|right]. now apply Hin. }
  revert Hall. generalize (sort lt' l). clear. intro r.
  induction r as [|y r IH]; intro H; [reflexivity|]. cbn [put].
  rewrite (H y (or_introl eq_refl)). destruct (lt' a y); [reflexivity|].
  f_equal. apply IH. intros; apply H; now right.
Qed.
Lemma sort_in {A} (lt : A -> A -> bool) l x : In x (sort lt l) <-> In x l.
Proof.
  assert (Hp : forall a l, In x (put lt a l) <-> x = a \/ In x l).
  { clear. intros a l. induction l as [|y r IH]; cbn [put In].
    - intuition.
    - destruct (lt a y); cbn [In]; rewrite ?IH; intuition. }
  induction l as [|a l IH]; [easy|]. cbn [sort fold_right]. fold (sort lt l).
  rewrite Hp, IH. cbn [In]. intuition.
Qed.
Lemma sort_length {A} (lt : A -> A -> bool) l : length (sort lt l) = length l.
Proof.
  assert (Hp : forall a l, length (put lt a l) = S (length l)).
  { clear. intros a l. induction l as [|y r IH]; cbn [put length]; [reflexivity|].
    destruct (lt a y); cbn [length]; [reflexivity|now rewrite IH]. }
  induction l as [|a l IH]; [reflexivity|]. cbn [sort fold_right]. fold (sort lt l).
  rewrite Hp, IH. reflexivity.
Qed.

Lemma bytes_ltb_lex a : forall b, bytes_ltb a b = lex_lt a b.
Proof.
  induction a as [|x a IH]; intros [|y b]; reflexivity.
Qed.

(** Keys of a sortable type are compared as in the specification, provided
    that they are equal to themselves. *)
Lemma key_ltb_before t d : key_sortable d t = true ->
  exists lt, key_ltb_k (negb d) t = Some lt /\
  forall a b, key_eqb t a a = true -> key_eqb t b b = true -> lt a b = key_before t a b.
Proof.
  revert d. induction t; intros d H; cbn [key_sortable] in H; try discriminate.
  - cbn [key_ltb_k].
    assert (Hn : forall a b, num_ltb a b = key_before (TUint n w) a b).
    { intros [] []; reflexivity. }
    destruct w; [| | |destruct n; cbn [andb] in H; rewrite ?andb_false_r in H; try discriminate;
      rewrite andb_true_r in H; rewrite H ];
    (eexists; split; [reflexivity|]; intros; apply Hn).
  - cbn [key_ltb_k].
    assert (Hn : forall a b, num_ltb a b = key_before (TInt named w) a b).
    { intros [] []; reflexivity. }
    destruct w; [| | |destruct d, named; try discriminate; cbn [negb orb] ];
    (eexists; split; [reflexivity|]; intros; apply Hn).
  - cbn [key_ltb_k]. eexists. split; [reflexivity|]. intros a b Ha Hb.
    destruct a; try discriminate. destruct b; try discriminate. cbn [key_eqb key_before] in *.
    apply andb_true_iff in Ha. apply andb_true_iff in Hb.
    destruct Ha as [Ha _], Hb as [Hb _]. apply andb_true_iff in Ha. apply andb_true_iff in Hb.
    destruct Ha as [-> _], Hb as [-> _]. reflexivity.
  - cbn [key_ltb_k]. eexists. split; [reflexivity|]. intros a b _ _.
    destruct a, b; reflexivity.
  - cbn [key_ltb_k]. eexists. split; [reflexivity|]. intros a b Ha Hb.
    destruct a, b; reflexivity.
  - cbn [key_ltb_k]. destruct (IHt true H) as (lt & H1 & H2). exists lt. split; [exact H1|].
    intros a b Ha Hb. cbn [key_eqb key_before] in *. rewrite <- H2 by easy.
    now destruct a, b.
Qed.

Lemma ordered_keys_entries E kt m :
  Forall (fun e : val * val => key_eqb kt (fst e) (fst e) = true) m ->
  (E = Borsh -> (2 <= length m)%nat -> key_sortable false kt = true) ->
  ordered_keys E kt (map fst m) = Some (map fst (entries E kt m)).
Proof.
  intros Hself Hs. destruct E; try reflexivity. specialize (Hs eq_refl).
  unfold entries, ordered_keys.
  destruct m as [|e1 [|e2 m]]; [reflexivity|reflexivity|].
  set (l := e1 :: e2 :: m) in *.
  change (match map fst l with [] | [_] => Some (map fst l) | _ =>
    match key_ltb kt with Some lt => Some (isort lt (map fst l)) | None => None end end)
    with (match key_ltb kt with Some lt => Some (isort lt (map fst l)) | None => None end).
  destruct (key_ltb_before kt false) as (lt & H1 & H2).
  { apply Hs. cbn [length]. unfold l. cbn. lia. }
  unfold key_ltb. cbn [negb] in H1. rewrite H1. f_equal.
  rewrite isort_sort, sort_map. f_equal. apply sort_ext. intros a b Ha Hb.
  rewrite Forall_forall in Hself. apply H2; now apply Hself.
Qed.

Lemma find_distinct kt m e :
  distinct kt (map fst m) -> In e m -> key_eqb kt (fst e) (fst e) = true ->
  map_index kt m (fst e) = Some (snd e).
Proof.
  intros Hd Hin He. unfold map_index.
  induction m as [|x m IH]; [destruct Hin|]. cbn [find].
  inversion_clear Hd as [|? ? Hx Hm].
  destruct Hin as [->|Hin]; [now rewrite He|].
  rewrite Forall_forall in Hx. specialize (Hx (fst e) (in_map fst _ _ Hin)).
  destruct Hx as [-> _]. now apply IH.
Qed.

Lemma iface_elem_true t v : (t = TIface -> v = VIface None) -> iface_elem t v = true.
Proof. intro H. destruct t; try reflexivity. now rewrite H. Qed.

Lemma emits_enc_map E kt vt m l : forall c,
  enc_ok E kt -> enc_ok E vt ->
  Forall (fun e => ok E kt None LE (fst e) /\ ok E vt None LE (snd e) /\
                   key_eqb kt (fst e) (fst e) = true /\
                   (kt = TIface -> fst e = VIface None) /\
                   (vt = TIface -> snd e = VIface None)) l ->
  (forall e, In e l -> map_index kt m (fst e) = Some (snd e)) ->
  exists c', emits E c
    (enc_map kt vt (enc_val E kt (EFull opt0)) (enc_val E vt (EFull opt0)) m (map fst l))
    (flat_map (fun e => wire E kt None LE (fst e) ++ wire E vt None LE (snd e)) l) c'.
Proof.
  intros c Hk Hv. unfold enc_map. revert c.
  induction l as [|e l IH]; intros c Hl Hm.
  - exists c. apply emits_ret.
  - inversion_clear Hl as [|? ? He Hl']. destruct He as (Hke & Hve & _ & Hki & Hvi).
    cbn [map each flat_map]. rewrite (iface_elem_true _ _ Hki). cbn [negb].
    rewrite (Hm e (or_introl eq_refl)). rewrite (iface_elem_true _ _ Hvi). cbn [negb].
    destruct (Hk None LE (fst e) c Hke) as [c1 H1].
    destruct (Hv None LE (snd e) c1 Hve) as [c2 H2].
    destruct (IH c2 Hl') as [c3 H3]. { intros; apply Hm; now right. }
    exists c3. eapply emits_bind; [|exact H3]. eapply emits_bind; [exact H1|exact H2].
Qed.

Lemma is_enum_spec E fs : is_borsh E && is_enum fs = enum_struct E fs.
Proof. destruct E; reflexivity. Qed.

Lemma codec_emits f E o v :
  codec_writes f E o v -> exists c', emits E (Some o) (f v) (codec_bytes f E o v) c'.
Proof.
  intros (cs & c' & H). exists c', cs. split; [exact H|].
  specialize (H (fun _ => None) 0 [] []). rewrite play_buffer in H.
  unfold codec_bytes. rewrite H. reflexivity.
Qed.

Lemma enc_nth_wire E (bkf : ty -> val -> Prop) fs : forall vs n c,
  E = Borsh ->
  (forall h t v, In (h, t) fs -> bkf t v -> forall c, exists c',
     emits E c
       (match t with
        | TPtr t'' => match v with
                      | VPtr (Some x) => enc_val E t'' EPayload x
                      | VPtr None => ret tt
                      | _ => stuck
                      end
        | _ => enc_val E t EPayload v
        end)
       (match t, v with
        | TPtr (TCodec _ u), VPtr (Some x) => wire E u None LE x
        | TCodec _ u, _ => wire E u None LE v
        | _, _ => wire E t None LE v
        end) c') ->
  ok_nth (fun t _ _ v => bkf t v) fs vs n ->
  exists c', emits E c
    (nth_field
       (fun h t' v' =>
          if negb (f_exported h) then sealed_payload t' v' else
          match t' with
          | TPtr t'' =>
              match v' with
              | VPtr (Some x) => enc_val E t'' EPayload x
              | VPtr None => ret tt
              | _ => stuck
              end
          | _ => enc_val E t' EPayload v'
          end) (fail EMsg) stuck fs vs n)
    (wire_nth (fun t' _ _ v' =>
        match t', v' with
        | TPtr (TCodec _ u), VPtr (Some x) => wire E u None LE x
        | TCodec _ u, _ => wire E u None LE v'
        | _, _ => wire E t' None LE v'
        end) fs vs n) c'.
Proof.
  induction fs as [|[h t] fs IH]; intros vs n c HE Hall Hok; [destruct Hok|].
  destruct vs as [|v vs]; [destruct Hok|]. destruct n as [|n]; cbn [ok_nth nth_field wire_nth] in *.
  - destruct Hok as (Hex & Hok & _). rewrite Hex. cbn [negb].
    apply (Hall h t v (or_introl eq_refl) Hok).
  - apply IH; auto. intros h' t' v' Hin. apply (Hall h'). now right.
Qed.

(** Main result of this file. *)
Definition enc_payload_ok (E : encoding) (t : ty) : Prop :=
  payload t = true -> forall v c, ok E t None LE v ->
  exists c', emits E c (enc_val E t EPayload v) (wire E t None LE v) c'.

Lemma enc_struct_wire E fs :
  (forall u, (ty_size u < ty_size (TStruct fs))%nat -> enc_ok E u /\ enc_payload_ok E u) ->
  forall v o sz c, ok E (TStruct fs) sz o v ->
  exists c', emits E c (enc_val E (TStruct fs) EPayload v) (wire E (TStruct fs) sz o v) c'.
Proof.
  intros IH v o sz c Hok. cbn [ok] in Hok.
  destruct Hok as (vs & -> & Hok). cbn [wire enc_val]. rewrite is_enum_spec.
  assert (IHf : Forall (fun ht => enc_ok E (snd ht)) fs).
  { apply Forall_forall. intros [h t] Hin. apply IH. now apply (ty_size_field _ h). }
  destruct (enum_struct E fs) eqn:Een.
  - assert (HE : E = Borsh) by (destruct E; try discriminate; reflexivity).
    destruct Hok as (z & vs' & -> & Hz & _ & Hok).
    match type of Hok with ok_nth ?f _ _ _ =>
      destruct (enc_nth_wire E (fun t v => f t None LE v) fs (VNum z :: vs') (S (Z.to_nat z)) c HE)
        as [c' Hc']
    end; [|exact Hok|].
    + cbn beta. intros h t v Hin Hv c0.
      pose proof (ty_size_field _ _ _ Hin) as Hlt.
      assert (Hpay : forall u x, (ty_size u <= ty_size t)%nat -> payload u = true ->
         ok E u None LE x -> exists c', emits E c0 (enc_val E u EPayload x) (wire E u None LE x) c').
      { intros u x Hle Hp Hx. apply IH; [lia|easy|easy]. }
      assert (Hdir : payload t = true -> ok E t None LE v ->
         exists c', emits E c0 (enc_val E t EPayload v) (wire E t None LE v) c').
      { intros Hp Hx. now apply Hpay. }
      destruct t; try (destruct Hv as [Hp Hv]; try discriminate; exact (Hdir Hp Hv)).
      * (* pointer *)
        destruct t.
        all: destruct Hv as (x & -> & Hp & Hv).
        all: try discriminate.
        all: try (subst E; cbn [ok] in Hv; destruct Hv as (q & Hq & _ & Hv);
             inversion Hq; subst q; cbn [ptr_marshal wire];
             apply Hpay; [cbn; lia|reflexivity|exact Hv]).
        destruct Hv as [Hv _]. cbn [enc_val]. apply Hpay; [cbn; lia|exact Hp|exact Hv].
      * (* codec *)
        destruct Hv as (Hp & Hv & _). cbn [enc_val]. apply Hpay; [cbn; lia|exact Hp|exact Hv].
    + exists c'. rewrite Z.mod_small by lia. change (z :: ?x) with ([z] ++ x).
      eapply emits_bind; [|exact Hc'].
      replace [z] with [z mod 256] by (f_equal; lia). apply emits_write_byte.
  - apply (enc_fields_wire E (back E) fs vs [] no_sizes false); auto. intro; reflexivity.
Qed.

Theorem enc_wire_both E t : enc_ok E t /\ enc_payload_ok E t.
Proof.
  induction t as [t IH] using ty_strong_ind.
  assert (Hflag : is_borsh E && false = false) by apply andb_false_r.
  destruct t.
  all: match goal with
       | |- enc_ok _ (TStruct ?fs) /\ _ =>
           split; [|intros _ v cu Hok; now apply enc_struct_wire];
           intros sz o v cu Hok
       | |- enc_ok _ ?t /\ _ =>
           assert (Hfull : enc_ok E t); [intros sz o v cu Hok|split; [exact Hfull|]]
       end.
  all: try (match goal with |- enc_payload_ok _ _ => intro Hp; try discriminate Hp end;
            intros v cu Hok; clear Hfull).
  all: cbn [ok] in Hok; try contradiction;
       cbn [enc_val o_opt o_copt o_size o_order]; rewrite ?Hflag.
  all: try match goal with |- exists c', emits _ _ (e_set_cur _ ;;; ?m) ?b c' =>
         enough (Hgoal : exists c', emits E (Some o) m b c');
         [destruct Hgoal as [c' Hc']; exists c'; now apply emits_set_cur|] end.
  1,2: destruct Hok as (b & ->); eexists; apply emits_write_bool.
  1,2,3,4: destruct Hok as (z & -> & Hz); eexists; apply emits_write_int.
  1,2: destruct Hok as (b & -> & Hb & Hn); eexists; now apply emits_write_float.
  1,2: destruct Hok as (s & -> & Hs & Hl); eexists; now apply emits_write_str.
  - destruct Hok as (d & ->). eexists. apply emits_ret.
  - (* pointer *)
    destruct Hok as (q & -> & Hok).
    assert (IHt : enc_ok E t) by (apply IH; cbn; lia).
    assert (Hcase : match codec_of t with
                    | Some c0 => match c_marshal c0 with Some f => Some (c0, f) | None => None end
                    | None => None
                    end = match ptr_marshal t with
                          | Some f => match codec_of t with Some c0 => Some (c0, f) | None => None end
                          | None => None
                          end).
    { destruct t; reflexivity. }
    rewrite Hcase. cbn [wire].
    destruct (ptr_marshal t) as [f|] eqn:Ef.
    + destruct Hok as (x & u & fu & -> & _ & (c0 & ->) & Hw & _). cbn [codec_of].
      now apply codec_emits.
    + destruct E; destruct q as [x|]; try (destruct Hok as (x' & Heq & Hok); try discriminate);
        try (inversion Heq; subst); apply IHt; tauto.
  - (* array *)
    destruct Hok as (l & -> & Hl & Hall & _). cbn [wire].
    destruct (uint_kind t) as [w|] eqn:Ek.
    + eexists. subst n. fold (zlen l). apply emits_write_uints; [exact Hall|reflexivity].
    + apply emits_each. eapply Forall_impl; [|exact Hall]. cbn beta. intros x Hx c0.
      apply IH; [cbn; lia|exact Hx].
  - (* slice *)
    destruct Hok as (ol & -> & Hsz & Hall & _). cbn [wire].
    set (l := match ol with Some l => l | None => [] end) in *. clearbody l.
    assert (Hbody : forall c0, exists c', emits E c0
      (let n := match sz with Some n => n | None => zlen l end in
       match uint_kind t with
       | Some w => write_uints w n l
       | None => each (enc_val E t (EFull opt0)) (firstn (Z.to_nat n) l) ;;;
                 (if zlen l <? n then panic else ret tt)
       end)
      (flat_map (fun x => match uint_kind t, x with
         | Some w, VNum z => fixed LE (wbytes w) z
         | _, _ => wire E t None LE x end) l) c').
    { intro c0. cbv zeta.
      replace (match sz with Some n => n | None => zlen l end) with (zlen l)
        by (destruct sz; [now symmetry|reflexivity]).
      destruct (uint_kind t) as [w|] eqn:Ek.
      - eexists. apply emits_write_uints; [exact Hall|reflexivity].
      - unfold zlen at 1. rewrite Nat2Z.id, firstn_all.
        destruct (zlen l <? zlen l) eqn:E'; [lia|].
        destruct (emits_each E (enc_val E t (EFull opt0)) (wire E t None LE) l c0) as [c' Hc'].
        { eapply Forall_impl; [|exact Hall]. cbn beta. intros x Hx c1.
          apply IH; [cbn; lia|exact Hx]. }
        exists c'. rewrite <- (app_nil_r (flat_map _ l)).
        eapply emits_bind; [exact Hc'|apply emits_ret]. }
    destruct sz as [n|].
    + destruct (Hbody (Some o)) as [c' Hc']. exists c'.
      eapply emits_bind; [apply emits_ret|]. exact Hc'.
    + destruct (Hbody (Some o)) as [c' Hc']. exists c'.
      eapply emits_bind; [|exact Hc']. apply emits_write_count.
      pose proof (zlen_nonneg l). lia.
  - (* map *)
    destruct Hok as (om & -> & Hlen & Hall & Hd & _ & Hs). cbn [wire].
    set (m := match om with Some m => m | None => [] end) in *. clearbody m.
    rewrite ordered_keys_entries; [|eapply Forall_impl; [|exact Hall]; cbn beta; tauto|exact Hs].
    assert (Hin : forall e, In e (entries E t1 m) <-> In e m).
    { intro e. destruct E; try reflexivity. cbn [entries]. apply sort_in. }
    destruct (emits_enc_map E t1 t2 m (entries E t1 m) (Some o)) as [c' Hc'].
    + apply IH. cbn; lia.
    + apply IH. cbn; lia.
    + rewrite Forall_forall in *. intros e He. apply Hall, Hin, He.
    + intros e He. rewrite Forall_forall in Hall. apply Hin in He.
      apply find_distinct; [exact Hd|exact He|]. apply Hall, He.
    + exists c'. eapply emits_bind; [|exact Hc']. apply emits_write_count.
      pose proof (zlen_nonneg m). lia.
  - (* struct *)
    exact (enc_struct_wire E fs IH v o sz (Some o) Hok).
  - (* codec *)
    cbn [wire]. unfold val_marshal in *.
    assert (IHt : enc_ok E t) by (apply IH; cbn; lia).
    destruct (c_marshal c) as [f|] eqn:Ef; destruct (c_byval c) eqn:Eb;
      destruct (c_unmarshal c) as [fu|] eqn:Eu; try contradiction;
      try (apply codec_emits; tauto); apply IHt; tauto.
Qed.

Theorem enc_wire E t : enc_ok E t.
Proof. apply enc_wire_both. Qed.
