(** The decoder does not panic on untrusted bytes: a program logic with
    postconditions on the values. *)
From Verif Require Import Types DecPrim Enc Dec Utf8 Builtin Spec NumFacts TyInd EncFacts DecWire
  DecEq DecWithin.
From Verif Require EncWire.

(** States that reads start from: position inside, bytes, a current order (if
    [nc]). *)
Definition calm (nc : bool) (s : dst) : Prop :=
  inside s /\ bytes_ok (d_data s) /\ (nc = true -> d_cur s <> None).

(** From a calm state: a value satisfying [Q] or an error, and calm again.
    [dp]: the end of a partly unfolded recursive type may be reached. *)
Definition fine {A} (dp nc : bool) (Q : A -> Prop) (r : outcome A * dst) : Prop :=
  calm nc (snd r) /\
  match fst r with
  | Ok a => Q a
  | Err _ => True
  | Deep => dp = true
  | Panic | Stuck => False
  end.
Definition safe {A} (dp nc : bool) (Q : A -> Prop) (m : DM A) : Prop :=
  forall s, calm nc s -> fine dp nc Q (m s).

Section Logic.
  Variables dp nc : bool.
  Notation safe := (safe dp nc).
  Notation calm := (calm nc).

  Lemma safe_ret {A} (Q : A -> Prop) a : Q a -> safe Q (ret a).
  Proof. intros H s Hs. now split. Qed.
  Lemma safe_fail {A} (Q : A -> Prop) e : safe Q (fail e).
  Proof. intros s Hs. now split. Qed.
  Lemma safe_weaken {A} (P Q : A -> Prop) m : (forall a, P a -> Q a) -> safe P m -> safe Q m.
  Proof.
    intros H Hm s Hs. destruct (Hm s Hs) as [H1 H2]. split; [exact H1|].
    destruct (fst (m s)); auto.
  Qed.
  Lemma safe_bind {A B} (P : A -> Prop) (Q : B -> Prop) m k :
    safe P m -> (forall a, P a -> safe Q (k a)) -> safe Q (bind m k).
  Proof.
    intros Hm Hk s Hs. destruct (Hm s Hs) as [H1 H2]. unfold bind.
    destruct (m s) as [[a|e| | |] s1]; cbn [fst snd] in *; try (split; assumption).
    now apply Hk.
  Qed.
  Lemma safe_fmap {A B} (Q : B -> Prop) (f : A -> B) m :
    safe (fun a => Q (f a)) m -> safe Q (fmap f m).
  Proof. intro H. eapply safe_bind; [exact H|]. intros a Ha. now apply safe_ret. Qed.
  Lemma safe_map_err {A} (Q : A -> Prop) f (m : DM A) : safe Q m -> safe Q (map_err f m).
  Proof.
    intros Hm s Hs. destruct (Hm s Hs) as [H1 H2]. unfold map_err.
    destruct (m s) as [[a|e| | |] s1]; now split.
  Qed.
  Lemma safe_get_enc {A} (Q : A -> Prop) k : (forall e, safe Q (k e)) -> safe Q (bind d_get_enc k).
  Proof. intro H. apply (safe_bind (fun _ => True)); [|auto]. intros s Hs. now split. Qed.

  (** After a bounds check. *)
  Lemma calm_move s n : calm s -> 0 <= n <= remaining_of s ->
    calm (mkD (d_data s) (d_pos s + n) (d_cur s) (d_enc s)).
  Proof.
    unfold DecSafe.calm, inside. intros (H1 & H2 & H3) Hn. open_rem. cbn [d_data d_pos d_cur]. intuition lia.
  Qed.
  Lemma take_calm s n : calm s -> 0 <= n <= remaining_of s ->
    exists bs, d_take n s = (Ok bs, mkD (d_data s) (d_pos s + n) (d_cur s) (d_enc s)) /\
      zlen bs = n /\ bytes_ok bs.
  Proof.
    intros (Hi & Hb & Hc) Hn. (unfold inside in *; open_rem). unfold d_take, d_get, bind, slice_n.
    replace ((0 <=? d_pos s) && (0 <=? n) && (d_pos s + n <=? zlen (d_data s))) with true by lia.
    eexists. split; [reflexivity|]. split.
    - unfold zlen in *. rewrite firstn_length, skipn_length. lia.
    - apply Forall_forall. intros x Hx. unfold bytes_ok in Hb. rewrite Forall_forall in Hb. apply Hb.
      rewrite <- (firstn_skipn (Z.to_nat (d_pos s)) (d_data s)). apply in_or_app. right.
      rewrite <- (firstn_skipn (Z.to_nat n) (skipn (Z.to_nat (d_pos s)) (d_data s))).
      apply in_or_app. now left.
  Qed.
  Lemma rest_calm s : calm s -> exists r, d_rest s = (Ok r, s) /\ zlen r = remaining_of s /\ bytes_ok r.
  Proof.
    intros (Hi & Hb & Hc). (unfold inside in *; open_rem). unfold d_rest, d_get, bind, slice_from.
    replace ((0 <=? d_pos s) && (d_pos s <=? zlen (d_data s))) with true by lia.
    eexists. split; [reflexivity|]. split.
    - unfold zlen in *. rewrite skipn_length. lia.
    - apply Forall_forall. intros x Hx. unfold bytes_ok in Hb. rewrite Forall_forall in Hb. apply Hb.
      rewrite <- (firstn_skipn (Z.to_nat (d_pos s)) (d_data s)). apply in_or_app. now right.
  Qed.
  Lemma safe_rest : safe bytes_ok d_rest.
  Proof. intros s Hs. destruct (rest_calm s Hs) as (r & -> & _ & Hr). now split. Qed.

  Lemma safe_take_guard {A} (Q : A -> Prop) n e k : 0 <= n ->
    (forall bs, zlen bs = n -> bytes_ok bs -> safe Q (k bs)) ->
    safe Q (r <- d_remaining ;; if r <? n then fail e else bs <- d_take n ;; k bs).
  Proof.
    intros Hn Hk s Hs. unfold bind at 1, d_remaining; cbv beta iota.
    destruct (remaining_of s <? n) eqn:E; [now split|].
    destruct (take_calm s n Hs ltac:(lia)) as (bs & Ht & Hl & Hb). unfold bind. rewrite Ht.
    apply Hk; auto. apply calm_move; [exact Hs|lia].
  Qed.

  Lemma safe_byte : safe (fun b => 0 <= b < 256) read_byte.
  Proof.
    apply safe_take_guard; [lia|]. intros bs Hl Hb.
    destruct bs as [|b [|b' l]]; rewrite ?zlen_cons in Hl; change (zlen (@nil Z)) with 0 in Hl;
      try (pose proof (zlen_nonneg l)); try lia.
    inversion_clear Hb. now apply safe_ret.
  Qed.
  Lemma safe_uint n o : safe (fun z => 0 <= z < 256 ^ Z.of_nat n) (read_uint n o).
  Proof.
    apply safe_take_guard; [lia|]. intros bs Hl Hb. apply safe_ret. rewrite <- Hl.
    now apply get_uint_range.
  Qed.
  Lemma safe_n_bytes n : safe (fun l => zlen l = n /\ bytes_ok l) (read_n_bytes n).
  Proof.
    unfold read_n_bytes. destruct (n =? 0) eqn:E.
    { apply safe_ret. split; [change (zlen (@nil Z)) with 0; lia|constructor]. }
    destruct ((n <? 0) || (0x7FFFFFFF <? n)) eqn:E1; [apply safe_fail|].
    intros s Hs. unfold bind, d_get; cbv beta iota. destruct (zlen (d_data s) <? d_pos s + n) eqn:E2; [now split|].
    destruct (take_calm s n Hs) as (bs & Ht & Hl & Hb); [destruct Hs as [Hi0 _]; unfold inside in Hi0; open_rem; lia|]. rewrite Ht.
    split; [|now split]. apply calm_move; [exact Hs|destruct Hs as [Hi0 _]; unfold inside in Hi0; open_rem; lia].
  Qed.
  Lemma safe_uint64 o : safe (fun z => 0 <= z < 2 ^ 64) (read_uint64 o).
  Proof.
    unfold read_uint64. intros s Hs. unfold bind at 1, d_remaining; cbv beta iota.
    destruct (remaining_of s <? 8); [now split|].
    revert s Hs. eapply safe_bind; [apply safe_n_bytes|]. intros bs [Hl Hb]. apply safe_ret.
    pose proof (get_uint_range o bs Hb) as H. rewrite Hl in H. exact H.
  Qed.
  Lemma safe_uintw w o : safe (fun z => 0 <= z < 2 ^ wbits w) (read_uintw w o).
  Proof.
    destruct w; cbn [read_uintw wbits]; [apply safe_byte|apply (safe_uint 2)|apply (safe_uint 4)|apply safe_uint64].
  Qed.
  Lemma safe_intw w o :
    safe (fun z => - 2 ^ (wbits w - 1) <= z < 2 ^ (wbits w - 1)) (read_intw w o).
  Proof.
    apply safe_fmap. eapply safe_weaken; [|apply safe_uintw]. intros z _.
    apply swrap_range, wbits_pos.
  Qed.

  Lemma safe_pos {A} (Q : A -> Prop) (f : list Z -> A * Z) :
    (forall buf v n, f buf = (v, n) -> n <= zlen buf /\ Q v) ->
    safe Q (buf <- d_rest ;;
            let '(v, n) := f buf in
            if n <=? 0 then fail EVarint
            else s <- d_get ;; d_set_pos (d_pos s + n) ;;; ret v).
  Proof.
    intros Hf s Hs. destruct (rest_calm s Hs) as (r & Hr & Hl & _). unfold bind at 1. rewrite Hr.
    destruct (f r) as [v n] eqn:E. destruct (n <=? 0) eqn:En; [now split|].
    apply Hf in E. destruct E as [E Hq]. unfold d_get, d_set_pos, bind. cbn [ret fst snd]. split; [|exact Hq].
    apply calm_move; [exact Hs|lia].
  Qed.
  Lemma uvarint_get_range buf : forall i x s, 0 <= fst (uvarint_get buf i x s) < 2 ^ 64.
  Proof.
    induction buf as [|b r IH]; intros i x s; cbn [uvarint_get]; [cbn; lia|].
    destruct (i =? 10); [cbn; lia|]. destruct (b <? 128); [|apply IH].
    destruct ((i =? 9) && (1 <? b)); [cbn; lia|]. cbn [fst]. unfold uwrap. apply Z.mod_pos_bound. lia.
  Qed.
  Lemma uvarint_range buf v n : uvarint buf = (v, n) -> 0 <= v < 2 ^ 64.
  Proof.
    intro H. pose proof (uvarint_get_range buf 0 0 0) as R. unfold uvarint in H.
    now rewrite H in R.
  Qed.
  Lemma varint_range buf v n : varint buf = (v, n) -> - 2 ^ 63 <= v < 2 ^ 63.
  Proof.
    unfold varint. destruct (uvarint buf) as [ux k] eqn:E. apply uvarint_range in E.
    intros [= <- _]. rewrite Z.shiftr_div_pow2 by lia. change (2 ^ 1) with 2.
    destruct (Z.odd ux); lia.
  Qed.
  Lemma safe_uvarint : safe (fun z => 0 <= z < 2 ^ 64) read_uvarint64.
  Proof.
    apply safe_pos. intros buf v n H. split; [now apply uvarint_len in H|now apply uvarint_range in H].
  Qed.
  Lemma safe_varint : safe (fun z => - 2 ^ 63 <= z < 2 ^ 63) read_varint64.
  Proof.
    apply safe_pos. intros buf v n H. split; [now apply varint_len in H|now apply varint_range in H].
  Qed.
  Lemma safe_compact : safe (fun z => 0 <= z <= 65535) read_compact_u16.
  Proof.
    intros s Hs. unfold read_compact_u16. destruct (rest_calm s Hs) as (r & Hr & Hl & _).
    unfold bind at 1. rewrite Hr.
    destruct (decode_compact_u16 r) as [e|[v n]] eqn:E; [now split|].
    pose proof (decode_cu16_len _ _ _ E). unfold d_get, d_set_pos, bind. cbn [ret fst snd].
    split; [apply calm_move; [exact Hs|lia]|].
    unfold decode_compact_u16 in E. destruct (cu16_get 3 0 r 0 0) as [e|[ln sz]]; [discriminate|].
    destruct ((sz =? 0) || (3 <? sz)); [discriminate|].
    destruct ((ln <? 0) || (65535 <? ln)) eqn:Er; [discriminate|]. injection E as <- _. cbn. lia.
  Qed.
  Lemma uwrap_range b z : 0 <= b -> 0 <= uwrap b z < 2 ^ b.
  Proof. intro. unfold uwrap. apply Z.mod_pos_bound. lia. Qed.
  Lemma safe_length : safe (fun z => 0 <= z) read_length.
  Proof.
    apply safe_get_enc. intros [| |].
    - eapply safe_bind; [apply safe_uvarint|]. intros v Hv; cbv beta in Hv.
      destruct (_ <? _); [apply safe_fail|]. apply safe_ret. cbv beta in *. lia.
    - eapply safe_weaken; [|apply safe_compact]. cbn beta. lia.
    - eapply safe_bind; [apply (safe_uint 4)|]. intros v Hv; cbv beta in Hv.
      destruct (_ <? _); [apply safe_fail|]. apply safe_ret. cbv beta in *. lia.
  Qed.
  Lemma safe_byte_slice : safe bytes_ok read_byte_slice.
  Proof.
    eapply safe_bind; [apply safe_length|]. intros n Hn s Hs; cbv beta in Hn. unfold bind, d_get; cbv beta iota.
    destruct (zlen (d_data s) <? d_pos s + n) eqn:E; [now split|].
    destruct (take_calm s n Hs) as (bs & Ht & _ & Hb); [destruct Hs as [Hi0 _]; unfold inside in Hi0; open_rem; lia|]. rewrite Ht.
    split; [|exact Hb]. apply calm_move; [exact Hs|destruct Hs as [Hi0 _]; unfold inside in Hi0; open_rem; lia].
  Qed.
  Lemma safe_rust_string : safe bytes_ok read_rust_string.
  Proof.
    eapply safe_bind; [apply safe_uint64|]. intros n Hn; cbv beta in Hn. destruct (_ <? _); [apply safe_fail|].
    eapply safe_weaken; [|apply safe_n_bytes]. cbn beta. tauto.
  Qed.
  Lemma safe_bool : safe (fun _ => True) read_bool.
  Proof.
    intros s Hs; cbv beta in Hs. unfold read_bool, bind at 1, d_remaining; cbv beta iota. destruct (_ <? _); [now split|].
    revert s Hs. eapply safe_bind; [apply safe_map_err, safe_byte|]. intros b _. now apply safe_ret.
  Qed.
  Lemma safe_option : safe (fun _ => True) read_option.
  Proof. eapply safe_bind; [apply safe_map_err, safe_byte|]. intros b _. now apply safe_ret. Qed.
  Lemma safe_coption : safe (fun _ => True) read_coption.
  Proof.
    eapply safe_bind; [apply safe_map_err, safe_uint|]. intros b _.
    destruct (_ <? _); [apply safe_fail|now apply safe_ret].
  Qed.
  Lemma safe_flag E : safe (fun _ => True) (read_flag E).
  Proof.
    unfold read_flag. apply safe_map_err. destruct E.
    - apply safe_fmap. eapply safe_weaken; [|apply safe_uint]. auto.
    - apply safe_fmap. eapply safe_weaken; [|apply safe_byte]. auto.
    - apply safe_option.
  Qed.
  Lemma safe_cflag : safe (fun _ => True) read_cflag.
  Proof. apply safe_map_err, safe_coption. Qed.
  Lemma safe_float f o : safe (fun b => 0 <= b < 2 ^ fbits f) (read_float f o).
  Proof.
    apply safe_take_guard; [lia|]. intros bs Hl Hb. cbv zeta. apply safe_get_enc. intro e.
    destruct (_ && _); [apply safe_fail|]. apply safe_ret. rewrite <- fbytes_pow, <- Hl.
    now apply get_uint_range.
  Qed.
  Lemma bytes_sub n bs : bytes_ok bs -> bytes_ok (firstn n bs) /\ bytes_ok (skipn n bs).
  Proof. intro H. rewrite <- (firstn_skipn n bs) in H. now apply bytes_ok_app. Qed.
  Lemma safe_uint128 o :
    safe (fun p => 0 <= fst p < 2 ^ 64 /\ 0 <= snd p < 2 ^ 64) (read_uint128 o).
  Proof.
    apply safe_take_guard; [lia|]. intros bs Hl Hb. destruct (bytes_sub 8 bs Hb) as [H1 H2].
    assert (L1 : zlen (firstn 8 bs) = 8) by (unfold zlen in *; rewrite firstn_length; lia).
    assert (L2 : zlen (skipn 8 bs) = 8) by (unfold zlen in *; rewrite skipn_length; lia).
    pose proof (get_uint_range o _ H1) as R1. pose proof (get_uint_range o _ H2) as R2.
    rewrite L1 in R1. rewrite L2 in R2. destruct o; apply safe_ret; split; assumption.
  Qed.
  Lemma safe_str E : safe bytes_ok (read_str E).
  Proof. destruct E; [apply safe_rust_string| |]; apply safe_byte_slice. Qed.
  Lemma safe_count E : safe (fun z => 0 <= z) (read_count E).
  Proof.
    destruct E; [apply safe_length| |].
    - eapply safe_weaken; [|apply safe_compact]. cbn beta. lia.
    - eapply safe_weaken; [|apply (safe_uint 4)]. cbn beta. lia.
  Qed.
  Lemma safe_rep {A} (Q : A -> Prop) k m : safe Q m ->
    safe (fun l => length l = k /\ Forall Q l) (read_rep k m).
  Proof.
    intro Hm. induction k as [|k IH]; cbn [read_rep]; [now apply safe_ret|].
    eapply safe_bind; [exact Hm|]. intros a Ha; cbv beta in Ha. eapply safe_bind; [exact IH|]. intros l [Hl Hf].
    apply safe_ret. cbn [length]. split; [lia|now constructor].
  Qed.
  Lemma safe_uints w l : 0 <= l ->
    safe (fun zs => zlen zs = l /\ Forall (fun z => 0 <= z < 2 ^ wbits w) zs) (read_uints w l).
  Proof.
    intros Hn s Hs. unfold read_uints. unfold bind at 1, d_remaining; cbv beta iota. destruct (_ <? _); [now split|].
    revert s Hs. destruct (l <? 0) eqn:E; [lia|].
    destruct w; [|eapply safe_weaken; [|apply safe_rep, safe_uintw]; cbn beta; unfold zlen;
                  intros zs [H1 H2]; split; [lia|exact H2]..].
    eapply safe_weaken; [|apply safe_n_bytes]. auto.
  Qed.
  Lemma safe_each {A B} (P : A -> Prop) (Q : B -> Prop) (f : A -> DM B) l :
    (forall a, P a -> safe Q (f a)) -> Forall P l ->
    safe (fun r => length r = length l /\ Forall Q r) (each_dec f l).
  Proof.
    intros Hf Hl; cbv beta in Hl. induction Hl as [|a l Ha _ IH]; cbn [each_dec]; [now apply safe_ret|].
    eapply safe_bind; [now apply Hf|]. intros b Hb; cbv beta in Hb. eapply safe_bind; [exact IH|]. intros r [H1 H2].
    apply safe_ret. cbn [length]. split; [lia|now constructor].
  Qed.
  Lemma safe_map kt (K V : val -> Prop) deck decv n : safe K deck -> safe V decv ->
    forall m, Forall (fun e => K (fst e) /\ V (snd e)) m ->
    safe (Forall (fun e => K (fst e) /\ V (snd e))) (dec_map kt n deck decv m).
  Proof.
    intros Hk Hv; cbv beta in Hv. induction n as [|n IH]; intros m Hm; cbn [dec_map]; [now apply safe_ret|].
    eapply safe_bind; [exact Hk|]. intros k K1; cbv beta in K1. eapply safe_bind; [exact Hv|]. intros v V1; cbv beta in V1.
    apply IH. clear IH. induction Hm as [|[k' v'] m Ha Hm IH]; cbn [map_set];
      [constructor; [now split|constructor]|].
    cbn [fst snd] in Ha. destruct (key_eqb kt k' k); constructor; cbn [fst snd]; tauto.
  Qed.
End Logic.

(** * Types that can be decoded without panics *)

(** Unsigned counts. *)
Fixpoint count_like (t : ty) : bool :=
  match t with TUint _ _ => true | TCodec _ u => count_like u | _ => false end.

(** A field type with its own UnmarshalWithDecoder, directly or behind one
    pointer. *)
Definition own_codec (t : ty) : bool :=
  match t with
  | TCodec c _ | TPtr (TCodec c _) =>
      match c_unmarshal c with Some _ => true | None => false end
  | _ => false
  end.

(** The field's tag does not make the decoder panic. *)
Definition tame_field (E : encoding) (tg : field_tag) (t : ty) : Prop :=
  is_borsh E && own_codec t = true \/
  (* flags: not on a type with its own codec, and not both kinds of flags with
     a codec behind pointers *)
  (flagged_field E tg = true -> has_unmarshal t = None /\
     (is_borsh E && ft_option tg && ft_coption tg = true -> bare t = true)) /\
  (ft_sizeof tg = EmptyString \/ count_like t = true).

(** [seen]: a binary_extension field came before; the others must be, too. *)
Fixpoint tame_fields (E : encoding) (fs : list (fhdr * ty)) (seen : bool) : Prop :=
  match fs with
  | [] => True
  | (h, t) :: fs' =>
      let tg := parse_field_tag (f_tag h) in
      if ft_skip tg then tame_fields E fs' seen
      else (seen = true -> ft_ext tg = true) /\
           (f_exported h = true -> tame_field E tg t) /\
           tame_fields E fs' (seen || ft_ext tg)
  end.

Section Decodable.
  Variables (dp : bool) (E : encoding).
  Fixpoint decodable (t : ty) : Prop :=
    match t with
    | TDeep => dp = true
    | TPtr t' | TArray _ t' | TSlice t' => decodable t'
    | TMap k v => decodable k /\ decodable v
    | TCodec c u =>
        match c_unmarshal c with
        | Some f => forall v, fits u v -> safe dp true (fits u) (f v)
        | None => decodable u
        end
    | TStruct fs =>
        (if enum_struct E fs then Forall (fun ht => f_exported (fst ht) = true) fs
         else tame_fields E fs false) /\
        (fix go fs :=
           match fs with
           | [] => True
           | ht :: fs' => decodable (snd ht) /\ go fs'
           end) fs
    | _ => True
    end.
  Lemma decodable_struct fs : decodable (TStruct fs) <->
    (if enum_struct E fs then Forall (fun ht => f_exported (fst ht) = true) fs
     else tame_fields E fs false) /\
    Forall (fun ht => decodable (snd ht)) fs.
  Proof.
    cbn [decodable]. apply and_iff_compat_l. induction fs as [|ht fs IH]; split; intro H.
    - constructor.
    - exact I.
    - destruct H as [H1 H2]. constructor; [exact H1|]. apply IH, H2.
    - inversion_clear H as [|? ? H1 H2]. split; [exact H1|]. apply IH, H2.
  Qed.
  Notation safe := (safe dp true).

  Lemma uint_fits t w z : uint_kind t = Some w -> 0 <= z < 2 ^ wbits w -> fits t (VNum z).
  Proof.
    intros H Hz. induction t using ty_strong_ind.
    destruct t; try discriminate; cbn [uint_kind fits] in *.
    - injection H as ->. eauto.
    - apply H0; auto. 
  Qed.
  Lemma uints_fit t w zs : uint_kind t = Some w -> Forall (fun z => 0 <= z < 2 ^ wbits w) zs ->
    Forall (fits t) (map VNum zs).
  Proof.
    intros H Hz. apply Forall_forall. intros x Hx. apply in_map_iff in Hx. destruct Hx as (z & <- & Hin).
    rewrite Forall_forall in Hz. eapply uint_fits; eauto.
  Qed.

  Definition size_ok (o : fopt) : Prop := forall n, o_size o = Some n -> 0 <= n.
  Definition flag_ok (t : ty) (o : fopt) : Prop :=
    has_unmarshal t = None /\ (is_borsh E && o_opt o && o_copt o = true -> bare t = true).
  Definition mode_ok (t : ty) (m : dmode) : Prop :=
    match m with
    | DStart o => size_ok o /\ (o_opt o || (is_borsh E && o_copt o) = true -> flag_ok t o)
    | DNull o => size_ok o /\ flag_ok t o
    | DWalk o pend => size_ok o /\ (pend = true -> bare t = true)
    end.

  Lemma mode_opt0 t : mode_ok t (DStart opt0).
  Proof. split; [easy|]. cbn [opt0 o_opt o_copt]. now rewrite andb_false_r. Qed.

  Lemma safe_pend pend t core : safe (fits t) core -> safe (fits t) (with_pend pend t core).
  Proof.
    intro H. unfold with_pend. destruct pend; [|exact H].
    eapply safe_bind; [apply safe_cflag|]. intros [|] _; [exact H|]. apply safe_ret, fits_zero.
  Qed.

  Lemma safe_unmarshaler t m : decodable t -> borsh_field_unmarshaler t = Some m -> safe (fits t) m.
  Proof.
    intros Hc H. destruct t; try discriminate.
    - destruct t; try discriminate. cbn [borsh_field_unmarshaler decodable] in *.
      destruct (c_unmarshal c) as [f|] eqn:Ef; inversion H; subst.
      apply safe_fmap. eapply safe_weaken; [|apply Hc, fits_zero].
      intros x Hx. cbv beta. cbn [fits]. eexists. split; [reflexivity|]. now intros y [= <-].
    - cbn [borsh_field_unmarshaler decodable] in *.
      destruct (c_unmarshal c) as [f|] eqn:Ef; inversion H; subst.
      apply Hc, fits_zero.
  Qed.
  Lemma own_codec_unmarshaler t : own_codec t = true <-> borsh_field_unmarshaler t <> None.
  Proof.
    destruct t; try (split; easy).
    - destruct t; try (split; easy). cbn. destruct (c_unmarshal c); split; easy.
    - cbn. destruct (c_unmarshal c); split; easy.
  Qed.

  Lemma sizeof_count t x : count_like t = true -> fits t x -> exists n, sizeof_val t x = Some n /\ 0 <= n.
  Proof.
    induction t using ty_strong_ind. destruct t; try discriminate; intros Hc Hf; cbn [sizeof_val fits count_like] in *.
    - destruct Hf as (z & -> & Hz). cbv zeta. destruct (swrap 64 z <? 0) eqn:Ez; eexists; (split; [reflexivity|lia]).
    - apply H; auto.
  Qed.

  Lemma safe_dec_fields rec fs : forall ps sizes seen,
    Forall (fun ht => decodable (snd ht) /\
      forall o v, mode_ok (snd ht) (DStart o) -> fits (snd ht) v ->
        safe (fits (snd ht)) (rec (snd ht) o v)) fs ->
    tame_fields E fs seen -> fits_fields fits fs ps -> Forall (fun e => 0 <= snd e) sizes ->
    safe (fits_fields fits fs) (dec_fields E rec fs ps sizes seen).
  Proof.
    induction fs as [|[h t] fs IH]; intros ps sizes seen H Ht Hf Hz; destruct ps as [|p ps]; try easy.
    cbn [dec_fields fits_fields snd tame_fields] in *. cbv zeta in *.
    set (tg := parse_field_tag (f_tag h)) in *.
    inversion_clear H as [|? ? [Hd Hr] Hrest]. destruct Hf as [Hp Hps]. cbn [snd] in *.
    assert (Hkeep : forall sn, tame_fields E fs sn ->
      safe (fits_fields fits ((h, t) :: fs)) (fmap (cons p) (dec_fields E rec fs ps sizes sn))).
    { intros sn Hsn. apply safe_fmap. eapply safe_weaken; [|apply IH; eauto]. intros vs Hvs.
      now split. }
    destruct (ft_skip tg); [now apply Hkeep|].
    destruct Ht as (Hseen & Htm & Ht).
    destruct (negb (ft_ext tg) && seen) eqn:Es.
    { destruct seen; [rewrite Hseen in Es by reflexivity; discriminate|].
      destruct (ft_ext tg); discriminate. }
    assert (Hb : safe (fits_fields fits ((h, t) :: fs))
      (if negb (f_exported h) then fmap (cons p) (dec_fields E rec fs ps sizes (seen || ft_ext tg))
       else match is_borsh E, borsh_field_unmarshaler t with
            | true, Some m =>
                x <- m ;; fmap (cons x) (dec_fields E rec fs ps sizes (seen || ft_ext tg))
            | _, _ =>
                x <- map_err EWrap (rec t (field_opt E tg (f_name h) sizes) p) ;;
                if String.eqb (ft_sizeof tg) "" then
                  fmap (cons x) (dec_fields E rec fs ps sizes (seen || ft_ext tg))
                else match sizeof_val t x with
                     | None => panic
                     | Some n =>
                         fmap (cons x)
                           (dec_fields E rec fs ps ((ft_sizeof tg, n) :: sizes) (seen || ft_ext tg))
                     end
            end)).
    { destruct (f_exported h); cbn [negb]; [|now apply Hkeep]. specialize (Htm eq_refl).
      assert (Hgo : forall sizes x, Forall (fun e => 0 <= snd e) sizes -> fits t x ->
        safe (fits_fields fits ((h, t) :: fs))
          (fmap (cons x) (dec_fields E rec fs ps sizes (seen || ft_ext tg)))).
      { intros sz y Hsz Hx. apply safe_fmap. eapply safe_weaken; [|apply IH; eauto]. intros vs Hvs.
        now split. }
      assert (Hrec : is_borsh E && own_codec t = false -> safe (fits_fields fits ((h, t) :: fs))
        (x <- map_err EWrap (rec t (field_opt E tg (f_name h) sizes) p) ;;
         if String.eqb (ft_sizeof tg) "" then
           fmap (cons x) (dec_fields E rec fs ps sizes (seen || ft_ext tg))
         else match sizeof_val t x with
              | None => panic
              | Some n =>
                  fmap (cons x)
                    (dec_fields E rec fs ps ((ft_sizeof tg, n) :: sizes) (seen || ft_ext tg))
              end)).
      { intro Ho. destruct Htm as [Htm|[Hfl Hsz]]; [congruence|].
        eapply safe_bind; [apply safe_map_err, Hr|].
        - split.
          + intros n Hn. cbn [field_opt o_size] in Hn. clear -Hz Hn.
            induction Hz as [|[k z] m Hk _ IHm]; [discriminate|]. cbn [sm_get] in Hn.
            destruct (String.eqb k (f_name h)); [injection Hn as <-; exact Hk|auto].
          + unfold flag_ok. cbn [field_opt o_opt o_copt]. intro Hfo.
            destruct Hfl as [H1 H2].
            { unfold flagged_field. destruct (ft_option tg), (is_borsh E), (ft_coption tg); auto. }
            split; [exact H1|]. intro Hb. apply H2.
            destruct (ft_option tg), (is_borsh E), (ft_coption tg); auto.
        - exact Hp.
        - intros y Hx. destruct (String.eqb_spec (ft_sizeof tg) ""); [now apply Hgo|].
          destruct Hsz as [Hsz|Hsz]; [congruence|].
          destruct (sizeof_count t y Hsz Hx) as (n' & -> & Hn'). apply Hgo; [|exact Hx].
          constructor; [exact Hn'|exact Hz]. }
      destruct (is_borsh E) eqn:Eb; [|now apply Hrec].
      destruct (borsh_field_unmarshaler t) as [m|] eqn:Em.
      - eapply safe_bind; [eapply safe_unmarshaler; eauto|]. intros y Hx. now apply Hgo.
      - apply Hrec. destruct (own_codec t) eqn:Eo; [|reflexivity].
        apply own_codec_unmarshaler in Eo. congruence. }
    destruct (ft_ext tg); [|exact Hb].
    eapply safe_bind; [apply safe_rest|]. intros rest _. destruct rest; [now apply Hkeep|exact Hb].
  Qed.

  Lemma safe_dec_variant rec fs : forall ps n,
    Forall (fun ht => forall v, fits (snd ht) v -> safe (fits (snd ht)) (rec (snd ht) opt0 v)) fs ->
    Forall (fun ht => f_exported (fst ht) = true) fs -> fits_fields fits fs ps ->
    safe (fits_fields fits fs) (dec_variant rec fs ps n).
  Proof.
    induction fs as [|[h t] fs IH]; intros ps n H Hx Hf; destruct ps as [|p ps]; try easy; cbn [dec_variant].
    inversion_clear H as [|? ? H1 H2]. inversion_clear Hx as [|? ? X1 X2]. destruct Hf as [Hp Hps].
    cbn [fst snd] in *. destruct n.
    - rewrite X1. cbn [negb]. eapply safe_bind; [now apply H1|]. intros x Hx'. apply safe_ret. now split.
    - apply safe_fmap. eapply safe_weaken; [|apply IH; eauto]. intros vs Hvs. now split.
  Qed.

  Lemma is_enum_spec fs : is_borsh E && is_enum fs = enum_struct E fs.
  Proof. destruct E; try reflexivity. Qed.

  Lemma safe_dec_struct fs ps :
    (forall h t, In (h, t) fs -> forall m v, mode_ok t m -> fits t v ->
       safe (fits t) (dec_val E t m v)) ->
    decodable (TStruct fs) -> fits_fields fits fs ps -> safe (fits (TStruct fs)) (dec_struct E fs ps).
  Proof.
    intros IH Hd Hf. apply decodable_struct in Hd. destruct Hd as [Hs Hd]. unfold dec_struct.
    rewrite is_enum_spec. destruct (enum_struct E fs) eqn:Ee.
    - eapply safe_bind; [apply safe_byte|]. intros n Hn; cbv beta in Hn. destruct fs as [|[h t] fs]; [destruct E; discriminate|].
      destruct ps as [|p ps]; [easy|]. inversion_clear Hs as [|? ? X1 X2]. cbn [fst] in X1. rewrite X1. cbn [negb].
      destruct Hf as [_ Hf].
      eapply safe_bind.
      + apply safe_dec_variant; [|exact X2|exact Hf]. apply Forall_forall. intros [h' t'] Hin v Hv.
        cbn [snd] in *. apply (IH h'); [now right|apply mode_opt0|exact Hv].
      + intros rest Hrest. apply safe_ret. cbn [fits]. eexists. split; [reflexivity|]. split; [|exact Hrest].
        cbn [snd]. unfold enum_struct in Ee. destruct E; try discriminate.
        destruct t as [|un w| | | | | | | | | | | | |]; try discriminate.
        destruct un; try discriminate. destruct w; try discriminate. cbn [fits]. eexists. split; [reflexivity|].
        exact Hn.
    - apply safe_fmap. eapply safe_weaken; [|apply safe_dec_fields; eauto].
      + intros vs Hvs. cbv beta. cbn [fits]. eauto.
      + apply Forall_forall. intros [h t] Hin. cbn [snd] in *. rewrite Forall_forall in Hd.
        split; [exact (Hd _ Hin)|]. intros o v Hm Hv. now apply (IH h).
  Qed.

  Lemma safe_dec_val t : decodable t ->
    forall m v, mode_ok t m -> fits t v -> safe (fits t) (dec_val E t m v).
  Proof.
    induction t as [t IH] using ty_strong_ind. intros Hd.
    assert (Hwalk : forall o pend v, mode_ok t (DWalk o pend) -> fits t v ->
                      safe (fits t) (dec_val E t (DWalk o pend) v)).
    { intros o pend v [Hsz Hpend] Hv. rewrite dec_walk_eq.
      destruct t as [|un w|nm w|f| |sg| | |t|n t|t|t1 t2|fs|c t|]; try (apply safe_pend).
      - apply safe_fmap. eapply safe_weaken; [|apply safe_bool]. intros b _. cbn. eauto.
      - apply safe_fmap. eapply safe_weaken; [|apply safe_uintw]. intros z Hz. cbn. eauto.
      - apply safe_fmap. eapply safe_weaken; [|apply safe_intw]. intros z Hz. cbn. eauto.
      - apply safe_fmap. eapply safe_weaken; [|apply safe_float]. intros b Hb. cbn [fits].
        eexists. split; [reflexivity|]. rewrite EncWire.quiet_spec. now apply quiet_range.
      - apply safe_fmap. eapply safe_weaken; [|apply safe_str]. intros s Hs. cbn. eauto.
      - apply safe_fail.
      - apply safe_fail.
      - now apply safe_ret.
      - apply safe_fmap. eapply safe_weaken; [|apply IH; [cbn; lia|exact Hd|now split|]].
        + intros x Hx. cbv beta. cbn [fits]. eexists. split; [reflexivity|]. now intros y [= <-].
        + destruct Hv as (q & -> & Hq). destruct q; cbn [pointee]; [now apply Hq|apply fits_zero].
      - destruct (uint_kind t) as [w|] eqn:Ew.
        + apply safe_fmap. eapply safe_weaken; [|apply safe_uints; lia]. intros zs [Hl Hz]. cbn [fits].
          eexists. split; [reflexivity|]. rewrite map_length. split; [unfold zlen in Hl; lia|].
          eapply uints_fit; eauto.
        + destruct Hv as (l & -> & Hl & Hf). apply safe_fmap.
          eapply safe_weaken; [|apply (safe_each dp true (fits t) (fits t)); [|exact Hf]].
          * intros r [H1 H2]. cbn [fits]. eexists. split; [reflexivity|]. split; [congruence|exact H2].
          * intros a Ha. apply IH; auto using mode_opt0.
      - assert (Hc : safe (fun z => 0 <= z)
                       (match o_size o with Some n => ret n | None => read_count E end)).
        { destruct (o_size o) as [z|] eqn:Eo; [apply safe_ret; now apply Hsz|apply safe_count]. }
        eapply safe_bind; [exact Hc|]. intros l Hl; cbv beta in Hl.
        destruct (is_borsh E && (l =? 0)); [now apply safe_ret|].
        apply (safe_bind dp true (fun _ => True)); [intros s Hs; now split|]. intros r _.
        destruct (r <? l); [apply safe_fail|].
        destruct (uint_kind t) as [w|] eqn:Ew.
        + apply safe_fmap. eapply safe_weaken; [|apply safe_uints; lia]. intros zs [Hz1 Hz2]. cbn [fits].
          eexists. split; [reflexivity|]. intros l' [= <-]. eapply uints_fit; eauto.
        + apply safe_fmap. eapply safe_weaken; [|apply safe_rep, IH]; auto using fits_zero, mode_opt0.
          intros r' [H1 H2]. cbn [fits]. eexists. split; [reflexivity|]. now intros l' [= <-].
      - eapply safe_bind; [apply safe_count|]. intros l Hl. destruct (l =? 0); [now apply safe_ret|].
        destruct Hd as [Hd1 Hd2].
        apply safe_fmap. eapply safe_weaken; [|apply (safe_map dp true t1 (fits t1) (fits t2));
          [apply IH; [cbn; lia|exact Hd1|apply mode_opt0|apply fits_zero]
          |apply IH; [cbn; lia|exact Hd2|apply mode_opt0|apply fits_zero]|constructor]].
        intros m Hm. cbn [fits]. eexists. split; [reflexivity|]. now intros es [= <-].
      - destruct Hv as (vs & -> & Hvs). apply safe_dec_struct; auto.
        intros h t' Hin. apply (IH t'); [now apply (ty_size_field _ h)|].
        apply decodable_struct in Hd. destruct Hd as [_ Hd]. rewrite Forall_forall in Hd.
        exact (Hd _ Hin).
      - cbn [decodable] in Hd. cbn [bare] in Hpend. destruct (c_unmarshal c) as [f|] eqn:Ef.
        + destruct pend; [specialize (Hpend eq_refl); discriminate|]. now apply Hd.
        + apply (IH t); auto. now split.
      - intros s Hs. split; [exact Hs|exact Hd]. }
    assert (Hfl : forall o v, size_ok o -> flag_ok t o -> fits t v -> safe (fits t) (dec_flagged E t o v)).
    { intros o v Hsz [Hu Hb] Hv. unfold dec_flagged. destruct (o_opt o) eqn:Eo.
      - eapply safe_bind; [apply safe_flag|]. intros [|] _; [|apply safe_ret, fits_zero].
        apply Hwalk; [|exact Hv]. split; [exact Hsz|]. intro Hp. apply Hb.
        destruct (is_borsh E), (o_copt o); auto.
      - eapply safe_bind; [apply safe_cflag|]. intros [|] _; [|apply safe_ret, fits_zero].
        apply Hwalk; [|exact Hv]. now split. }
    assert (Hnull : forall o v, size_ok o -> flag_ok t o -> fits t v -> safe (fits t) (dec_val E t (DNull o) v)).
    { intros o v Hsz Hfo Hv. rewrite dec_null_eq. destruct t; try solve [now apply Hfl].
      - destruct (is_ptr t) eqn:Ep; [|now apply Hfl].
        destruct Hv as (q & -> & Hq). destruct q as [x|]; [|apply Hfl; auto; now exists None].
        apply safe_fmap. eapply safe_weaken; [|apply IH; [cbn; lia|exact Hd| |now apply Hq]].
        + intros y Hy. cbv beta. cbn [fits]. eexists. split; [reflexivity|]. now intros z [= <-].
        + split; [exact Hsz|]. destruct Hfo as [_ Hfo]. split; [|exact Hfo].
          destruct t; try discriminate. reflexivity.
      - destruct (c_unmarshal c) as [f|] eqn:Ef; [|now apply Hfl].
        destruct Hfo as [Hfo _]. cbn [has_unmarshal] in Hfo. congruence.
      - intros s Hs. split; [exact Hs|exact Hd]. }
    intros [o|o|o pend] v Hm Hv.
    - rewrite dec_start_eq. apply (safe_bind dp true (fun _ => True)).
      + intros s (H1 & H2 & H3). unfold d_set_cur. split; [|exact I]. split; [exact H1|]. now split.
      + intros _ _. destruct Hm as [Hsz Hm]. destruct (o_opt o || (is_borsh E && o_copt o)) eqn:Ef.
        * apply Hnull; auto.
        * apply Hwalk; auto. now split.
    - destruct Hm. now apply Hnull.
    - now apply Hwalk.
  Qed.
End Decodable.

(** Decode from any state of a decoder (the current order is set first). *)
Lemma safe_decode dp E t v data pos c : decodable dp E t -> fits t v ->
  bytes_ok data -> 0 <= pos <= zlen data ->
  match fst (decode t v (mkD data pos c E)) with
  | Ok x => fits t x
  | Err _ => True
  | Deep => dp = true
  | Panic | Stuck => False
  end.
Proof.
  intros Hd Hv Hb Hp. unfold decode, decode_target, bind, d_get_enc. cbn [d_enc].
  rewrite dec_start_eq. unfold bind, d_set_cur. cbn [o_order opt0 o_opt o_copt].
  rewrite andb_false_r. cbn [orb d_data d_pos d_enc].
  refine (proj2 (safe_dec_val dp E t Hd (DWalk opt0 false) v _ Hv (mkD data pos (Some LE) E) _)).
  - split; easy.
  - split; [exact Hp|]. now split.
Qed.
