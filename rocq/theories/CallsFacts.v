(** The encoder makes the Write calls of the specification (C82).  The proof
    follows that of [EncWire]. *)
From Verif Require Import Types EncPrim Enc Spec NumFacts TyInd EncFacts EncWire CallsSpec.

Notation concat := List.concat.

Definition makes (E : encoding) (c : option order) (m : EM unit) (cs : list (list Z))
  (c' : option order) : Prop := script E c m cs (Ok tt) c'.

Lemma makes_ret E c : makes E c (ret tt) [] c.
Proof. apply script_ret. Qed.
Lemma makes_to_writer E c b : makes E c (to_writer b) [b] c.
Proof. apply script_to_writer. Qed.
Lemma makes_bind E c m1 b1 c1 m2 b2 c2 :
  makes E c m1 b1 c1 -> makes E c1 m2 b2 c2 -> makes E c (m1 ;;; m2) (b1 ++ b2) c2.
Proof. intros H1 H2. eapply script_bind; eauto. Qed.
Lemma makes_set_cur E c o m b c' :
  makes E (Some o) m b c' -> makes E c (e_set_cur o ;;; m) b c'.
Proof.
  intro H. change b with ([] ++ b). eapply script_bind; [apply script_set_cur|exact H].
Qed.
Lemma makes_map_err E c m b c' : makes E c m b c' -> makes E c (map_err EWrap m) b c'.
Proof. intro H. exact (script_map_err _ _ _ _ _ _ H). Qed.
Lemma makes_get_enc E c k b c' : makes E c (k E) b c' -> makes E c (bind e_get_enc k) b c'.
Proof.
  intro H. change b with ([] ++ b). eapply script_bind; [apply script_get_enc|exact H].
Qed.
Lemma makes_ext E c m m' b c' :
  (forall s, e_enc s = E -> e_cur s = c -> m s = m' s) ->
  makes E c m b c' -> makes E c m' b c'.
Proof.
  intros Hext H w n hist acc. specialize (H w n hist acc).
  rewrite <- Hext by reflexivity. exact H.
Qed.

(** * Primitives *)
Lemma makes_write_uint E c n z o : makes E c (write_uint n z o) [fixed o n z] c.
Proof. unfold write_uint. rewrite put_uint_fixed. apply makes_to_writer. Qed.
Lemma makes_write_byte E c z : makes E c (write_byte z) [[z mod 256]] c.
Proof. apply makes_to_writer. Qed.
Lemma makes_write_uvarint E c z : 0 <= z < 2 ^ 56 ->
  makes E c (write_uvarint z) [leb128 z] c.
Proof.
  intro H. unfold write_uvarint, put_uvarint, uwrap.
  rewrite Z.mod_small by lia. rewrite uvarint_bytes_leb by lia.
  pose proof (leb128_len56 z H). destruct (zlen (leb128 z) <=? 8) eqn:E'; [|lia].
  apply makes_to_writer.
Qed.
Lemma makes_bytes_nolen E c b : makes E c (write_bytes_nolen b) (one_call b) c.
Proof. destruct b; [apply makes_ret|apply makes_to_writer]. Qed.
Lemma makes_compact_u16 E c z : 0 <= z <= 65535 ->
  makes E c (write_compact_u16 z) [leb128 z] c.
Proof.
  intro H. unfold write_compact_u16. rewrite encode_cu16_leb by lia. apply makes_to_writer.
Qed.

Lemma makes_write_count E c n : 0 <= n <= count_max E ->
  makes E c (write_count E n) [count E n] c.
Proof.
  intro H. destruct E; cbn [count_max write_count] in *.
  - apply makes_write_uvarint. lia.
  - apply makes_compact_u16. lia.
  - apply makes_write_uint.
Qed.
Lemma one_call_some b : b <> [] -> one_call b = [b].
Proof. now destruct b. Qed.
Lemma makes_write_length E c n : 0 <= n <= count_max E ->
  makes E c (write_length n) [count E n] c.
Proof.
  intro H. unfold write_length. apply makes_get_enc. destruct E; cbn [count_max] in H.
  - apply makes_write_uvarint. lia.
  - rewrite encode_cu16_leb by lia. cbn [count fst].
    rewrite <- (one_call_some (leb128 n)) by (apply leb128_nonempty; lia). apply makes_bytes_nolen.
  - apply makes_write_uint.
Qed.
Lemma makes_write_bytes E c b : zlen b <= count_max E ->
  makes E c (write_bytes b) ([count E (zlen b)] ++ one_call b) c.
Proof.
  intro H. unfold write_bytes. eapply makes_bind.
  - apply makes_write_length. pose proof (zlen_nonneg b). lia.
  - apply makes_bytes_nolen.
Qed.
Lemma makes_write_str E c s : zlen s <= text_max E -> makes E c (write_str E s) (text_calls E s) c.
Proof.
  intro H. pose proof (text_max_count E). destruct E; unfold write_str, text_calls.
  - unfold write_rust_string. eapply makes_bind; [apply makes_write_uint|apply makes_bytes_nolen].
  - apply makes_write_bytes. lia.
  - apply makes_write_bytes. lia.
Qed.
Lemma makes_write_flag E c b : makes E c (write_flag E b) [flag E b] c.
Proof.
  destruct E; unfold write_flag, flag; [apply makes_write_uint| |];
  destruct b; apply makes_to_writer.
Qed.
Lemma makes_write_coption E c b : makes E c (write_coption b) [cflag b] c.
Proof. apply makes_write_uint. Qed.
Lemma makes_write_bool E c b : makes E c (write_bool b) [[if b then 1 else 0]] c.
Proof. unfold write_bool. destruct b; apply makes_to_writer. Qed.

Lemma makes_write_int E c w z o :
  makes E c (write_int E w z o) [fixed (num_order E o) (wbytes w) z] c.
Proof.
  destruct w; unfold write_int; try apply makes_write_uint.
  cbn [wbytes]. rewrite fixed_1. apply makes_write_byte.
Qed.

Lemma makes_write_float E c f b o : (E = Borsh -> f_isnan f b = false) ->
  makes E c (write_float f (f32_through64 f b) o) [fixed o (fbytes f) (quiet f b)] c.
Proof.
  intro H. unfold write_float. apply makes_get_enc. rewrite quiet_spec.
  destruct (is_borsh E && f_isnan f (quiet f b)) eqn:Eb.
  - destruct E; try discriminate. cbn [is_borsh andb] in Eb.
    specialize (H eq_refl). rewrite quiet_notnan in Eb by easy. congruence.
  - rewrite put_uint_fixed. apply makes_to_writer.
Qed.

Lemma makes_write_uints E c w l :
  Forall (fun x => exists z, x = VNum z /\ 0 <= z < 2 ^ wbits w) l ->
  makes E c (write_uints w (zlen l) l) (one_call (flat_map (number_bytes w) l)) c.
Proof.
  intros H. unfold write_uints.
  destruct ((zlen l <? 0) || (zlen l <? zlen l)) eqn:E'.
  { pose proof (zlen_nonneg l). lia. }
  assert (Hn : exists zs, nums l = Some zs /\ l = map VNum zs).
  { clear E'. induction H as [|x l (z & -> & Hz) Hl (zs & IH1 & IH2)].
    - exists []. easy.
    - exists (z :: zs). cbn [nums map]. now rewrite IH1, <- IH2. }
  destruct Hn as (zs & Hn & ->). rewrite Hn.
  rewrite zlen_map. unfold zlen. rewrite Nat2Z.id, firstn_all.
  replace (flat_map (number_bytes w) (map VNum zs)) with (flat_map (fun z => put_uint LE (wbytes w) z) zs).
  - apply makes_bytes_nolen.
  - clear. induction zs as [|z zs IH]; [reflexivity|].
    cbn [map flat_map]. now rewrite IH, put_uint_fixed.
Qed.

(** Values of one type, without flags. *)
Definition calls_ok (E : encoding) (t : ty) : Prop :=
  forall sz o v c, ok E t sz o v ->
  exists c', makes E c (enc_val E t (EFull (mkOpt false false sz o)) v) (calls E t sz o v) c'.

Lemma field_calls E t tg name sizes s v c :
  calls_ok E t -> ok_field E (ok E) t tg (s name) v ->
  sm_get sizes name = s name ->
  exists c', makes E c (enc_val E t (EFull (field_opt E tg name sizes)) v)
    (flag_calls E tg v (calls E t (s name) (ft_order tg) v)) c'.
Proof.
  intros He (_ & _ & Hok & _) Hsz.
  assert (Hcore : ok E t (s name) (ft_order tg) v ->
     forall c, exists c', makes E c (enc_val E t (EFull (cut_opt (field_opt E tg name sizes))) v)
       (calls E t (s name) (ft_order tg) v) c').
  { intros Hv c0. unfold cut_opt, field_opt. cbn [o_size o_order]. rewrite Hsz. now apply He. }
  assert (Hz : forall b, exists c',
     (flagged_field E tg && is_zero v = true -> b = flag_calls E tg v (calls E t (s name) (ft_order tg) v)) ->
     b = flag_calls E tg v (calls E t (s name) (ft_order tg) v) -> c' = Some (ft_order tg)).
  { intros. now exists (Some (ft_order tg)). }
  clear Hz.
  assert (Hgoal : exists c', makes E (Some (ft_order tg))
    (let core := enc_val E t (EFull (cut_opt (field_opt E tg name sizes))) v in
     let rest :=
       if is_borsh E && ft_coption tg && is_borsh E then
         if is_zero v then write_coption false else write_coption true ;;; core
       else core in
     if ft_option tg then
       if is_zero v then write_flag E false else write_flag E true ;;; rest
     else rest)
    (flag_calls E tg v (calls E t (s name) (ft_order tg) v)) c').
  { cbv zeta. unfold flag_calls, flagged_field in *.
    set (co := is_borsh E && ft_coption tg) in *.
    replace (co && is_borsh E) with co by (unfold co; destruct (is_borsh E), (ft_coption tg); reflexivity).
    clearbody co.
    destruct (ft_option tg) eqn:Eo; destruct co eqn:Ec; destruct (is_zero v) eqn:Ez;
      cbn [andb orb] in *; rewrite ?app_nil_l.
    - eexists; apply makes_write_flag.
    - destruct Hok as [?|Hok]; [discriminate|]. destruct (Hcore Hok (Some (ft_order tg))) as [c' Hc'].
      exists c'. eapply makes_bind; [apply makes_write_flag|].
      eapply makes_bind; [apply makes_write_coption|exact Hc'].
    - eexists; apply makes_write_flag.
    - destruct Hok as [?|Hok]; [discriminate|]. destruct (Hcore Hok (Some (ft_order tg))) as [c' Hc'].
      exists c'. eapply makes_bind; [apply makes_write_flag|exact Hc'].
    - eexists; apply makes_write_coption.
    - destruct Hok as [?|Hok]; [discriminate|]. destruct (Hcore Hok (Some (ft_order tg))) as [c' Hc'].
      exists c'. eapply makes_bind; [apply makes_write_coption|exact Hc'].
    - destruct Hok as [?|Hok]; [discriminate|]. now apply Hcore.
    - destruct Hok as [?|Hok]; [discriminate|]. now apply Hcore. }
  destruct Hgoal as [c' Hg]. exists c'.
  eapply makes_ext.
  { intros st _ _. symmetry. apply enc_val_unflag. }
  cbn [field_opt o_order o_opt o_copt]. apply makes_set_cur.
  cbv zeta in *. rewrite <- (andb_comm (is_borsh E) (is_borsh E && ft_coption tg)) in Hg.
  exact Hg.
Qed.

Lemma fields_calls E bk fs : forall vs sizes s seen c,
  Forall (fun ht => calls_ok E (snd ht)) fs ->
  agrees sizes s ->
  ok_fields E (ok E) bk (wire E) fs vs s seen ->
  exists c', makes E c
    (enc_fields E (fun t o v => enc_val E t (EFull o) v) fs vs sizes)
    (calls_fields E (calls E) fs vs s) c'.
Proof.
  induction fs as [|[h t] fs IH]; intros vs sizes s seen c Hf Ha Hok.
  - destruct vs; [|destruct Hok]. exists c. apply makes_ret.
  - destruct vs as [|v vs]; [destruct Hok|].
    inversion_clear Hf as [|? ? Ht Hfs]. cbn [snd] in Ht.
    cbn [enc_fields calls_fields ok_fields] in *. unfold live.
    set (tg := parse_field_tag (f_tag h)) in *.
    destruct (ft_skip tg) eqn:Esk; cbn [negb andb].
    { now apply (IH _ _ _ seen). }
    destruct Hok as [_ Hok]. destruct (f_exported h) eqn:Eex; cbn [negb].
    + destruct Hok as (Hfld & Hsz & _ & Hrest).
      assert (Hs' : exists sizes',
        (if String.eqb (ft_sizeof tg) "" then Some sizes
         else match sizeof_val t v with
              | Some n => Some ((ft_sizeof tg, n) :: sizes)
              | None => None
              end) = Some sizes' /\ agrees sizes' (bind_size tg v s) /\
        sm_get sizes' (f_name h) = s (f_name h)).
      { destruct Hsz as [Hsz|(Hint & Hne & _ & z & -> & Hz & _)].
        - exists sizes. rewrite Hsz, bind_size_none by easy. cbn. repeat split; auto.
        - destruct (String.eqb_spec (ft_sizeof tg) "") as [He|He].
          + exists sizes. rewrite bind_size_none by easy. repeat split; auto.
          + destruct Hfld as (_ & _ & _ & Hfit).
            rewrite (sizeof_int_like t z) by easy. eexists. split; [reflexivity|]. split.
            * intro n. rewrite bind_size_num by easy. cbn [sm_get].
              destruct (String.eqb (ft_sizeof tg) n); [reflexivity|apply Ha].
            * cbn [sm_get]. destruct (String.eqb_spec (ft_sizeof tg) (f_name h)); [easy|apply Ha]. }
      destruct Hs' as (sizes' & -> & Ha' & Hn).
      destruct (field_calls E t tg (f_name h) sizes' s v c Ht Hfld Hn) as [c1 H1].
      destruct (IH vs sizes' _ _ c1 Hfs Ha' Hrest) as [c2 H2].
      exists c2. eapply makes_bind; [|exact H2]. apply makes_map_err, H1.
    + destruct Hok as [Hsz Hrest]. rewrite Hsz. cbn [String.eqb].
      now apply (IH _ _ _ (seen || ft_ext tg)).
Qed.

Lemma makes_each E (f : val -> EM unit) (g : val -> list (list Z)) l : forall c,
  Forall (fun x => forall c, exists c', makes E c (f x) (g x) c') l ->
  exists c', makes E c (each f l) (flat_map g l) c'.
Proof.
  induction l as [|x l IH]; intros c H.
  - exists c. apply makes_ret.
  - inversion_clear H as [|? ? H1 H2]. destruct (H1 c) as [c1 Hc1].
    destruct (IH c1 H2) as [c2 Hc2]. exists c2. cbn [each flat_map].
    eapply makes_bind; eauto.
Qed.

Lemma makes_enc_map E kt vt m l : forall c,
  calls_ok E kt -> calls_ok E vt ->
  Forall (fun e => ok E kt None LE (fst e) /\ ok E vt None LE (snd e) /\
                   key_eqb kt (fst e) (fst e) = true /\
                   (kt = TIface -> fst e = VIface None) /\
                   (vt = TIface -> snd e = VIface None)) l ->
  (forall e, In e l -> map_index kt m (fst e) = Some (snd e)) ->
  exists c', makes E c
    (enc_map kt vt (enc_val E kt (EFull opt0)) (enc_val E vt (EFull opt0)) m (map fst l))
    (flat_map (fun e => calls E kt None LE (fst e) ++ calls E vt None LE (snd e)) l) c'.
Proof.
  intros c Hk Hv. unfold enc_map. revert c.
  induction l as [|e l IH]; intros c Hl Hm.
  - exists c. apply makes_ret.
  - inversion_clear Hl as [|? ? He Hl']. destruct He as (Hke & Hve & _ & Hki & Hvi).
    cbn [map each flat_map]. rewrite (iface_elem_true _ _ Hki). cbn [negb].
    rewrite (Hm e (or_introl eq_refl)). rewrite (iface_elem_true _ _ Hvi). cbn [negb].
    destruct (Hk None LE (fst e) c Hke) as [c1 H1].
    destruct (Hv None LE (snd e) c1 Hve) as [c2 H2].
    destruct (IH c2 Hl') as [c3 H3]. { intros; apply Hm; now right. }
    exists c3. eapply makes_bind; [|exact H3]. eapply makes_bind; [exact H1|exact H2].
Qed.

Lemma codec_makes f E o v :
  codec_writes f E o v -> exists c', makes E (Some o) (f v) (codec_calls f E o v) c'.
Proof.
  intros (cs & c' & H). exists c'.
  pose proof (H (fun _ => None) 0 [] []) as Hb. rewrite play_buffer in Hb.
  unfold codec_calls. rewrite Hb. exact H.
Qed.

Lemma nth_calls E (bkf : ty -> val -> Prop) fs : forall vs n c,
  E = Borsh ->
  (forall h t v, In (h, t) fs -> bkf t v -> forall c, exists c',
     makes E c
       (match t with
        | TPtr t'' => match v with
                      | VPtr (Some x) => enc_val E t'' EPayload x
                      | VPtr None => ret tt
                      | _ => stuck
                      end
        | _ => enc_val E t EPayload v
        end)
       (match t, v with
        | TPtr (TCodec _ u), VPtr (Some x) => calls E u None LE x
        | TCodec _ u, _ => calls E u None LE v
        | _, _ => calls E t None LE v
        end) c') ->
  ok_nth (fun t _ _ v => bkf t v) fs vs n ->
  exists c', makes E c
    (nth_field
       (fun h t' v' =>
          if negb (f_exported h) then sealed_payload t' v' else
          match t' with
          | TPtr t'' =>
              match v' with
              | VPtr (Some x) => enc_val E t'' EPayload x
              | VPtr None => ret tt
              | _ => stuck
              end
          | _ => enc_val E t' EPayload v'
          end) (fail EMsg) stuck fs vs n)
    (calls_nth (fun t' _ _ v' =>
        match t', v' with
        | TPtr (TCodec _ u), VPtr (Some x) => calls E u None LE x
        | TCodec _ u, _ => calls E u None LE v'
        | _, _ => calls E t' None LE v'
        end) fs vs n) c'.
Proof.
  induction fs as [|[h t] fs IH]; intros vs n c HE Hall Hok; [destruct Hok|].
  destruct vs as [|v vs]; [destruct Hok|]. destruct n as [|n]; cbn [ok_nth nth_field calls_nth] in *.
  - destruct Hok as (Hex & Hok & _). rewrite Hex. cbn [negb].
    apply (Hall h t v (or_introl eq_refl) Hok).
  - apply IH; auto. intros h' t' v' Hin. apply (Hall h'). now right.
Qed.

(** Main result of this file. *)
Definition payload_calls_ok (E : encoding) (t : ty) : Prop :=
  payload t = true -> forall v c, ok E t None LE v ->
  exists c', makes E c (enc_val E t EPayload v) (calls E t None LE v) c'.

Lemma struct_calls E fs :
  (forall u, (ty_size u < ty_size (TStruct fs))%nat -> calls_ok E u /\ payload_calls_ok E u) ->
  forall v o sz c, ok E (TStruct fs) sz o v ->
  exists c', makes E c (enc_val E (TStruct fs) EPayload v) (calls E (TStruct fs) sz o v) c'.
Proof.
  intros IH v o sz c Hok. cbn [ok] in Hok.
  destruct Hok as (vs & -> & Hok). cbn [calls enc_val]. rewrite is_enum_spec.
  assert (IHf : Forall (fun ht => calls_ok E (snd ht)) fs).
  { apply Forall_forall. intros [h t] Hin. apply IH. now apply (ty_size_field _ h). }
  destruct (enum_struct E fs) eqn:Een.
  - assert (HE : E = Borsh) by (destruct E; try discriminate; reflexivity).
    destruct Hok as (z & vs' & -> & Hz & _ & Hok).
    match type of Hok with ok_nth ?f _ _ _ =>
      destruct (nth_calls E (fun t v => f t None LE v) fs (VNum z :: vs') (S (Z.to_nat z)) c HE)
        as [c' Hc']
    end; [|exact Hok|].
    + cbn beta. intros h t v Hin Hv c0.
      pose proof (ty_size_field _ _ _ Hin) as Hlt.
      assert (Hpay : forall u x, (ty_size u <= ty_size t)%nat -> payload u = true ->
         ok E u None LE x -> exists c', makes E c0 (enc_val E u EPayload x) (calls E u None LE x) c').
      { intros u x Hle Hp Hx. apply IH; [lia|easy|easy]. }
      assert (Hdir : payload t = true -> ok E t None LE v ->
         exists c', makes E c0 (enc_val E t EPayload v) (calls E t None LE v) c').
      { intros Hp Hx. now apply Hpay. }
      destruct t; try (destruct Hv as [Hp Hv]; try discriminate; exact (Hdir Hp Hv)).
      * (* pointer *)
        destruct t.
        all: destruct Hv as (x & -> & Hp & Hv).
        all: try discriminate.
        all: try (subst E; cbn [ok] in Hv; destruct Hv as (q & Hq & _ & Hv);
             inversion Hq; subst q; cbn [ptr_marshal calls];
             apply Hpay; [cbn; lia|reflexivity|exact Hv]).
        destruct Hv as [Hv _]. cbn [enc_val]. apply Hpay; [cbn; lia|exact Hp|exact Hv].
      * (* codec *)
        destruct Hv as (Hp & Hv & _). cbn [enc_val]. apply Hpay; [cbn; lia|exact Hp|exact Hv].
    + exists c'. rewrite Z.mod_small by lia. change ([z] :: ?x) with ([[z]] ++ x).
      eapply makes_bind; [|exact Hc'].
      replace [[z]] with [[z mod 256]] by (do 2 f_equal; lia). apply makes_write_byte.
  - apply (fields_calls E (back E) fs vs [] no_sizes false); auto. intro; reflexivity.
Qed.

Theorem calls_both E t : calls_ok E t /\ payload_calls_ok E t.
Proof.
  induction t as [t IH] using ty_strong_ind.
  assert (Hflag : is_borsh E && false = false) by apply andb_false_r.
  destruct t.
  all: match goal with
       | |- calls_ok _ (TStruct ?fs) /\ _ =>
           split; [|intros _ v cu Hok; now apply struct_calls];
           intros sz o v cu Hok
       | |- calls_ok _ ?t /\ _ =>
           assert (Hfull : calls_ok E t); [intros sz o v cu Hok|split; [exact Hfull|]]
       end.
  all: try (match goal with |- payload_calls_ok _ _ => intro Hp; try discriminate Hp end;
            intros v cu Hok; clear Hfull).
  all: cbn [ok] in Hok; try contradiction;
       cbn [enc_val o_opt o_copt o_size o_order]; rewrite ?Hflag.
  all: try match goal with |- exists c', makes _ _ (e_set_cur _ ;;; ?m) ?b c' =>
         enough (Hgoal : exists c', makes E (Some o) m b c');
         [destruct Hgoal as [c' Hc']; exists c'; now apply makes_set_cur|] end.
  1,2: destruct Hok as (b & ->); eexists; apply makes_write_bool.
  1,2,3,4: destruct Hok as (z & -> & Hz); eexists; apply makes_write_int.
  1,2: destruct Hok as (b & -> & Hb & Hn); eexists; now apply makes_write_float.
  1,2: destruct Hok as (s & -> & Hs & Hl); eexists; now apply makes_write_str.
  - destruct Hok as (d & ->). eexists. apply makes_ret.
  - (* pointer *)
    destruct Hok as (q & -> & Hok).
    assert (IHt : calls_ok E t) by (apply IH; cbn; lia).
    assert (Hcase : match codec_of t with
                    | Some c0 => match c_marshal c0 with Some f => Some (c0, f) | None => None end
                    | None => None
                    end = match ptr_marshal t with
                          | Some f => match codec_of t with Some c0 => Some (c0, f) | None => None end
                          | None => None
                          end).
    { destruct t; reflexivity. }
    rewrite Hcase. cbn [calls].
    destruct (ptr_marshal t) as [f|] eqn:Ef.
    + destruct Hok as (x & u & fu & -> & _ & (c0 & ->) & Hw & _). cbn [codec_of].
      now apply codec_makes.
    + destruct E; destruct q as [x|]; try (destruct Hok as (x' & Heq & Hok); try discriminate);
        try (inversion Heq; subst); apply IHt; tauto.
  - (* array *)
    destruct Hok as (l & -> & Hl & Hall & _). cbn [calls].
    destruct (uint_kind t) as [w|] eqn:Ek.
    + eexists. subst n. fold (zlen l). apply makes_write_uints; exact Hall.
    + apply makes_each. eapply Forall_impl; [|exact Hall]. cbn beta. intros x Hx c0.
      apply IH; [cbn; lia|exact Hx].
  - (* slice *)
    destruct Hok as (ol & -> & Hsz & Hall & _). cbn [calls].
    set (l := match ol with Some l => l | None => [] end) in *. clearbody l.
    assert (Hbody : forall c0, exists c', makes E c0
      (let n := match sz with Some n => n | None => zlen l end in
       match uint_kind t with
       | Some w => write_uints w n l
       | None => each (enc_val E t (EFull opt0)) (firstn (Z.to_nat n) l) ;;;
                 (if zlen l <? n then panic else ret tt)
       end)
      (match uint_kind t with
       | Some w => one_call (flat_map (number_bytes w) l)
       | None => flat_map (calls E t None LE) l
       end) c').
    { intro c0. cbv zeta.
      replace (match sz with Some n => n | None => zlen l end) with (zlen l)
        by (destruct sz; [now symmetry|reflexivity]).
      destruct (uint_kind t) as [w|] eqn:Ek.
      - eexists. apply makes_write_uints; exact Hall.
      - unfold zlen at 1. rewrite Nat2Z.id, firstn_all.
        destruct (zlen l <? zlen l) eqn:E'; [lia|].
        destruct (makes_each E (enc_val E t (EFull opt0)) (calls E t None LE) l c0) as [c' Hc'].
        { eapply Forall_impl; [|exact Hall]. cbn beta. intros x Hx c1.
          apply IH; [cbn; lia|exact Hx]. }
        exists c'. rewrite <- (app_nil_r (flat_map _ l)).
        eapply makes_bind; [exact Hc'|apply makes_ret]. }
    destruct sz as [n|].
    + destruct (Hbody (Some o)) as [c' Hc']. exists c'.
      eapply makes_bind; [apply makes_ret|]. exact Hc'.
    + destruct (Hbody (Some o)) as [c' Hc']. exists c'.
      eapply makes_bind; [|exact Hc']. apply makes_write_count.
      pose proof (zlen_nonneg l). lia.
  - (* map *)
    destruct Hok as (om & -> & Hlen & Hall & Hd & _ & Hs). cbn [calls].
    set (m := match om with Some m => m | None => [] end) in *. clearbody m.
    rewrite ordered_keys_entries; [|eapply Forall_impl; [|exact Hall]; cbn beta; tauto|exact Hs].
    assert (Hin : forall e, In e (entries E t1 m) <-> In e m).
    { intro e. destruct E; try reflexivity. cbn [entries]. apply sort_in. }
    destruct (makes_enc_map E t1 t2 m (entries E t1 m) (Some o)) as [c' Hc'].
    + apply IH. cbn; lia.
    + apply IH. cbn; lia.
    + rewrite Forall_forall in *. intros e He. apply Hall, Hin, He.
    + intros e He. rewrite Forall_forall in Hall. apply Hin in He.
      apply find_distinct; [exact Hd|exact He|]. apply Hall, He.
    + exists c'. eapply makes_bind; [|exact Hc']. apply makes_write_count.
      pose proof (zlen_nonneg m). lia.
  - (* struct *)
    exact (struct_calls E fs IH v o sz (Some o) Hok).
  - (* codec *)
    cbn [calls]. unfold val_marshal in *.
    assert (IHt : calls_ok E t) by (apply IH; cbn; lia).
    destruct (c_marshal c) as [f|] eqn:Ef; destruct (c_byval c) eqn:Eb;
      destruct (c_unmarshal c) as [fu|] eqn:Eu; try contradiction;
      try (apply codec_makes; tauto); apply IHt; tauto.
Qed.

Theorem encode_calls_full E t : calls_ok E t.
Proof. apply calls_both. Qed.

(** * Consequences *)

Lemma calls_wire E t sz o v : ok E t sz o v -> concat (calls E t sz o v) = wire E t sz o v.
Proof.
  intro H. destruct (encode_calls_full E t sz o v None H) as [c1 H1].
  destruct (enc_wire E t sz o v None H) as (c2 & cs & H2 & Hcs).
  specialize (H1 (fun _ => None) 0 [] []). specialize (H2 (fun _ => None) 0 [] []).
  rewrite play_buffer in H1, H2. rewrite H1 in H2. inversion H2. congruence.
Qed.

Lemma makes_encode E t v c : ok E t None LE v ->
  exists c', makes E c (encode t v) (calls E t None LE v) c'.
Proof.
  intro H. destruct (encode_calls_full E t None LE v c H) as [c' Hc'].
  exists c'. unfold encode. apply makes_get_enc. exact Hc'.
Qed.

(** ** No call without bytes *)
Definition some_bytes (b : list Z) : Prop := b <> [].

Definition codec_some (c : codec) (_ : ty) : Prop :=
  forall f, c_marshal c = Some f -> forall E o v, Forall some_bytes (codec_calls f E o v).

Lemma fixed_some o n z : (0 < n)%nat -> some_bytes (fixed o n z).
Proof.
  intros Hn H. apply (f_equal (@length Z)) in H. rewrite fixed_length in H. cbn in H. lia.
Qed.
Lemma wbytes_pos w : (0 < wbytes w)%nat.
Proof. destruct w; cbn; lia. Qed.
Lemma count_some E n : 0 <= n -> some_bytes (count E n).
Proof.
  intro H. destruct E; cbn [count]; try (now apply leb128_nonempty).
  apply fixed_some. lia.
Qed.
Lemma one_call_ok b : Forall some_bytes (one_call b).
Proof. destruct b; constructor; [discriminate|constructor]. Qed.
Lemma flag_some E b : some_bytes (flag E b).
Proof. unfold flag. apply fixed_some. destruct E; lia. Qed.
Lemma cflag_some b : some_bytes (cflag b).
Proof. unfold cflag. apply fixed_some. lia. Qed.
Lemma one_ok (b : list Z) : some_bytes b -> Forall some_bytes [b].
Proof. intro H. constructor; [exact H|constructor]. Qed.
Lemma flag_calls_some E tg v cs : Forall some_bytes cs -> Forall some_bytes (flag_calls E tg v cs).
Proof.
  intro H. unfold flag_calls.
  destruct (ft_option tg && is_zero v); [apply one_ok, flag_some|].
  apply Forall_app. split; [destruct (ft_option tg); [apply one_ok, flag_some|constructor]|].
  destruct (is_borsh E && ft_coption tg && is_zero v); [apply one_ok, cflag_some|].
  apply Forall_app. split; [destruct (is_borsh E && ft_coption tg); [apply one_ok, cflag_some|constructor]|].
  exact H.
Qed.
Lemma flat_map_some {A} (g : A -> list (list Z)) l :
  (forall x, Forall some_bytes (g x)) -> Forall some_bytes (flat_map g l).
Proof.
  intro H. induction l as [|x l IH]; [constructor|]. cbn [flat_map]. apply Forall_app. auto.
Qed.

Lemma calls_some E t : all_codecs codec_some t ->
  forall sz o v, Forall some_bytes (calls E t sz o v).
Proof.
  induction t as [t IH] using ty_strong_ind. intros Hc sz o v.
  assert (Hcod : forall f u E o v, all_codecs codec_some u -> ptr_marshal u = Some f ->
            Forall some_bytes (codec_calls f E o v)).
  { intros f u E' o' v' Hu Hf. destruct u; try discriminate. cbn in Hf, Hu. now apply Hu. }
  assert (Hel : forall t' l, (ty_size t' < ty_size t)%nat -> all_codecs codec_some t' ->
            Forall some_bytes (match uint_kind t' with
                               | Some w => one_call (flat_map (number_bytes w) l)
                               | None => flat_map (calls E t' None LE) l
                               end)).
  { intros t' l Hlt Hc'. destruct (uint_kind t'); [apply one_call_ok|].
    apply flat_map_some. intro x. now apply IH. }
  destruct t; try match goal with |- context [TCodec ?c ?u] =>
    destruct Hc as [Hc Hu]; cbn [calls]; unfold val_marshal; destruct (c_byval c);
    [destruct (c_marshal c) eqn:Em; [now apply Hc|]|]; (apply IH; [cbn; lia|exact Hu]) end.
  all: destruct v; try (constructor; fail); cbn [calls];
    try (apply one_ok; first [discriminate | apply fixed_some, wbytes_pos]).
  - apply one_ok, fixed_some. destruct f; cbn; lia.
  - unfold text_calls. apply Forall_app. split; [|apply one_call_ok]. apply one_ok.
    pose proof (zlen_nonneg s). destruct E; try (now apply count_some). apply fixed_some. lia.
  - cbn [all_codecs] in Hc. destruct (ptr_marshal t) eqn:Ep; destruct p as [x|];
      try (constructor; fail); try (now apply (Hcod _ t)).
    all: destruct E; try (constructor; fail); (apply IH; [cbn; lia|exact Hc]).
  - apply Hel; [cbn; lia|exact Hc].
  - apply Forall_app. split; [|apply Hel; [cbn; lia|exact Hc]].
    destruct sz; [constructor|]. apply one_ok, count_some, zlen_nonneg.
  - destruct Hc as [Hk Hv]. apply Forall_app. split; [apply one_ok, count_some, zlen_nonneg|].
    apply flat_map_some. intro e. apply Forall_app. split; (apply IH; [cbn; lia|easy]).
  - rewrite all_codecs_struct in Hc. rewrite Forall_forall in Hc.
    destruct (enum_struct E fs).
    + destruct l as [|[] l]; try (constructor; fail). constructor; [discriminate|].
      generalize (VNum z :: l) as vs, (S (Z.to_nat z)) as n.
      assert (Hall : forall h t v, In (h, t) fs -> Forall some_bytes
         (match t, v with
          | TPtr (TCodec _ u), VPtr (Some x) => calls E u None LE x
          | TCodec _ u, _ => calls E u None LE v
          | _, _ => calls E t None LE v
          end)).
      { intros h t v Hin. pose proof (ty_size_field _ _ _ Hin) as Hlt.
        pose proof (Hc _ Hin) as Ht. cbn [snd] in Ht.
        assert (Hd : Forall some_bytes (calls E t None LE v)) by (now apply IH).
        destruct t; try exact Hd.
        - destruct t; try exact Hd. destruct v; try exact Hd. destruct p; try exact Hd.
          apply IH; [cbn in *; lia|]. cbn in Ht. apply Ht.
        - apply IH; [cbn in *; lia|]. cbn in Ht. apply Ht. }
      revert Hall. clear. induction fs as [|[h t] fs IH]; intros Hall vs n; [constructor|].
      destruct vs as [|v vs]; [destruct n; constructor|].
      destruct n as [|n]; cbn [calls_nth].
      * apply (Hall h). now left.
      * apply IH. intros h' t' v' Hin. apply (Hall h'). now right.
    + generalize no_sizes as s. revert l.
      assert (Hall : forall h t sz o v, In (h, t) fs -> Forall some_bytes (calls E t sz o v)).
      { intros h t sz' o' v Hin. apply IH; [now apply (ty_size_field _ h)|]. exact (Hc _ Hin). }
      revert Hall. clear. induction fs as [|[h t] fs IH]; intros Hall vs s; [constructor|].
      destruct vs as [|v vs]; [constructor|]. cbn [calls_fields].
      assert (IH' : forall vs s, Forall some_bytes (calls_fields E (calls E) fs vs s)).
      { intros; apply IH. intros h' t' sz' o' v' Hin. apply (Hall h'). now right. }
      destruct (live h); [|apply IH']. apply Forall_app. split; [|apply IH'].
      apply flag_calls_some, (Hall h). now left.
Qed.
