(** The codec methods of the library's own types do not panic either; what
    C09 says, with decidable conditions for examples. *)
From Verif Require Import Types EncPrim DecPrim Enc Dec Utf8 Builtin Spec NumFacts TyInd EncFacts
  EncProps DecWire DecEq DecWithin Utf8Facts Ops DecProps DecSafe.

Lemma safe_cur dp {A} (Q : A -> Prop) (k : order -> DM A) : (forall o, safe dp true Q (k o)) ->
  safe dp true Q (o <- d_cur_order ;; k o).
Proof.
  intro H. apply (safe_bind dp true (fun _ => True)); [|auto].
  intros s Hs. unfold d_cur_order, bind, d_get_cur. destruct (d_cur s) as [o|] eqn:E.
  - now split.
  - destruct Hs as (_ & _ & H3). exfalso. now apply H3.
Qed.

Lemma safe_u128 dp b v : fits (TStruct u128_fields) v ->
  safe dp true (fits (TStruct u128_fields)) (u128_unmarshal b v).
Proof.
  intros (vs & -> & Hv). unfold u128_fields in Hv.
  destruct vs as [|x [|y [|z [|? ?]]]]; cbn [fits_fields] in Hv; try easy; try tauto.
  cbn [snd] in Hv. destruct Hv as (_ & _ & Hz & _). cbn [fits] in Hz. destruct Hz as (d & ->).
  cbn [u128_unmarshal].
  assert (Hr : forall o, safe dp true (fun p : Z * Z => 0 <= fst p < 2 ^ 64 /\ 0 <= snd p < 2 ^ 64)
                 (if b then emsg (read_uint128 o) else read_uint128 o)).
  { intro o. destruct b; [apply safe_map_err|]; apply safe_uint128. }
  intros s Hs. unfold bind at 1, d_get_cur.
  destruct (d_cur s) as [o|] eqn:Ec; [|destruct Hs as (_ & _ & H3); exfalso; now apply H3].
  revert s Hs Ec. intros s Hs _. revert s Hs.
  eapply safe_bind; [apply Hr|]. intros p [H1 H2]. apply safe_ret.
  cbn [fits]. eexists. split; [reflexivity|]. unfold u128_fields. cbn [fits_fields snd fits].
  repeat split; eauto.
Qed.

Lemma fits_bytes bs : bytes_ok bs -> fits (TSlice (TUint UPlain W8)) (VSlice (Some (map VNum bs))).
Proof.
  intro H. cbn [fits]. eexists. split; [reflexivity|]. intros l [= <-].
  apply (uints_fit (TUint UPlain W8) W8); [reflexivity|]. exact H.
Qed.

Lemma library_decodable E : Forall (decodable false E) library_types.
Proof.
  unfold library_types. repeat first [apply Forall_nil | apply Forall_cons]; try exact I;
  lazymatch goal with
  | |- decodable _ _ ?t => let t' := eval hnf in t in change t with t'
  end; cbn [decodable]; cbv [c_unmarshal simple_codec u128_codec]; try exact I; intros v Hv;
  try (apply safe_u128; exact Hv);
  try (apply safe_cur; intro o); try apply safe_fmap; try apply safe_map_err.
  - unfold safe_read_utf8_string. apply safe_fmap. eapply safe_weaken; [|apply safe_byte_slice].
    intros s Hs. cbn [fits]. eexists. split; [reflexivity|]. apply utf8_bytes, safe_valid, Hs.
  - eapply safe_weaken; [|apply safe_bool]. cbn [fits]. eauto.
  - eapply safe_weaken; [|apply safe_byte_slice]. intros s Hs. now apply fits_bytes.
  - apply safe_fmap. eapply safe_weaken; [|apply safe_varint]. intros z _. cbn [fits].
    eexists. split; [reflexivity|]. now apply swrap_range.
  - apply safe_fmap. eapply safe_weaken; [|apply safe_uvarint]. intros z _. cbn [fits].
    eexists. split; [reflexivity|]. now apply uwrap_range.
  - eapply safe_weaken; [|apply safe_uvarint]. intros z _. cbn [fits].
    eexists. split; [reflexivity|]. now apply uwrap_range.
  - apply safe_fmap. eapply safe_weaken; [|apply safe_varint]. intros z _. cbn [fits].
    eexists. split; [reflexivity|]. now apply swrap_range.
  - eapply safe_weaken; [|apply safe_float]. intros z Hz. cbn [fits]. eauto.
  - eapply safe_weaken; [|apply safe_intw]. intros z Hz. cbn [fits]. eauto.
  - eapply safe_weaken; [|apply safe_uintw]. intros z Hz. cbn [fits]. eauto.
  - apply safe_ret. exact Hv.
Qed.

(** Boolean version of [decodable] for types without codec methods. *)
Section Decb.
  Variable E : encoding.
  Definition tame_fieldb (tg : field_tag) (t : ty) : bool :=
    (negb (flagged_field E tg) ||
       (match has_unmarshal t with None => true | Some _ => false end &&
        (negb (is_borsh E && ft_option tg && ft_coption tg) || bare t))) &&
    (String.eqb (ft_sizeof tg) "" || count_like t).
  Fixpoint tame_fieldsb (fs : list (fhdr * ty)) (seen : bool) : bool :=
    match fs with
    | [] => true
    | (h, t) :: fs' =>
        let tg := parse_field_tag (f_tag h) in
        if ft_skip tg then tame_fieldsb fs' seen
        else (negb seen || ft_ext tg) && (negb (f_exported h) || tame_fieldb tg t) &&
             tame_fieldsb fs' (seen || ft_ext tg)
    end.
  Fixpoint decodableb (t : ty) : bool :=
    match t with
    | TDeep => false
    | TPtr t' | TArray _ t' | TSlice t' => decodableb t'
    | TMap k v => decodableb k && decodableb v
    | TCodec c u => match c_unmarshal c with Some _ => false | None => decodableb u end
    | TStruct fs =>
        (if enum_struct E fs then forallb (fun ht => f_exported (fst ht)) fs
         else tame_fieldsb fs false) &&
        (fix go fs :=
           match fs with
           | [] => true
           | ht :: fs' => decodableb (snd ht) && go fs'
           end) fs
    | _ => true
    end.
  Lemma tame_fieldb_ok tg t : tame_fieldb tg t = true -> tame_field E tg t.
  Proof.
    unfold tame_fieldb, tame_field. rewrite andb_true_iff, !orb_true_iff. intros [H1 H2]. right. split.
    - intro Hf. rewrite Hf in H1. destruct H1 as [H1|H1]; [discriminate|].
      apply andb_true_iff in H1. destruct H1 as [H1 H3]. split; [destruct (has_unmarshal t); easy|].
      intro Hb. rewrite Hb in H3. exact H3.
    - destruct H2 as [H2|H2]; [left; now apply String.eqb_eq|now right].
  Qed.
  Lemma tame_fieldsb_ok fs : forall seen, tame_fieldsb fs seen = true -> tame_fields E fs seen.
  Proof.
    induction fs as [|[h t] fs IH]; intros seen H; [exact I|]. cbn [tame_fieldsb tame_fields] in *. cbv zeta in *.
    destruct (ft_skip (parse_field_tag (f_tag h))); [now apply IH|].
    apply andb_true_iff in H. destruct H as [H H3]. apply andb_true_iff in H. destruct H as [H1 H2].
    split; [|split].
    - intros ->. exact H1.
    - intro Hx. rewrite Hx in H2. now apply tame_fieldb_ok.
    - now apply IH.
  Qed.
  Lemma decodableb_ok t : decodableb t = true -> decodable false E t.
  Proof.
    induction t as [t IH] using ty_strong_ind. destruct t; try easy; cbn [decodableb]; intro H.
    - apply (IH t); [cbn; lia|exact H].
    - apply (IH t); [cbn; lia|exact H].
    - apply (IH t); [cbn; lia|exact H].
    - apply andb_true_iff in H. destruct H. split; apply IH; auto; cbn; lia.
    - apply andb_true_iff in H. destruct H as [H1 H2]. apply decodable_struct. split.
      + destruct (enum_struct E fs); [|now apply tame_fieldsb_ok].
        apply Forall_forall. now apply forallb_forall.
      + clear H1. assert (IH' : forall h t, In (h, t) fs -> decodableb t = true -> decodable false E t).
        { intros h t Hin. apply IH. now apply (ty_size_field _ h). }
        clear IH. induction fs as [|[h t] fs IHl]; constructor.
        * apply andb_true_iff in H2. apply (IH' h); [now left|apply H2].
        * apply andb_true_iff in H2. apply IHl; [apply H2|]. intros h' t' Hin. apply (IH' h'). now right.
    - cbn [decodable]. destruct (c_unmarshal c); [discriminate|]. apply (IH t); [cbn; lia|exact H].
  Qed.
End Decb.

(** The statement of C09. *)
Lemma decode_total E t v data : decodable false E t -> fits t v -> bytes_ok data ->
  (exists x, unmarshal E t v data = Ok x /\ fits t x) \/ (exists e, unmarshal E t v data = Err e).
Proof.
  intros Hd Hv Hb. pose proof (zlen_nonneg data).
  pose proof (safe_decode false E t v data 0 None Hd Hv Hb ltac:(lia)) as Hs.
  unfold unmarshal, new_decoder.
  destruct (fst (decode t v (mkD data 0 None E))); eauto; try easy.
Qed.
Lemma decode_no_panic E t v data pos c : decodable true E t -> fits t v ->
  bytes_ok data -> 0 <= pos <= zlen data ->
  fst (decode t v (mkD data pos c E)) <> Panic.
Proof.
  intros Hd Hv Hb Hp He. pose proof (safe_decode true E t v data pos c Hd Hv Hb Hp) as Hs.
  now rewrite He in Hs.
Qed.
Lemma decode_fresh E t data : decodable false E t -> bytes_ok data ->
  (exists x, unmarshal E t (zero_val t) data = Ok x /\ fits t x) \/
  (exists e, unmarshal E t (zero_val t) data = Err e).
Proof. intros. apply decode_total; auto using fits_zero. Qed.
(** * Operation sequences *)

(** Arguments of the right Go types; SetPosition below 2^63 (see C36); Decode
    of decodable types, whatever the encoding. *)
Definition harmless (op : dop) : Prop :=
  match op with
  | OpRead n => 0 <= n
  | OpSkipBytes n => 0 <= n < 2 ^ 64
  | OpSetPosition n => 0 <= n < 2 ^ 63
  | OpDecode t v => (forall E, decodable false E t) /\ fits t v /\ all_codecs codec_within t
  | OpReset d => zlen d < 2 ^ 63 /\ bytes_ok d
  | _ => True
  end.

Definition tidy (s : dst) : Prop := steady s /\ bytes_ok (d_data s).

Definition returns {A} (r : outcome A) : Prop :=
  match r with Ok _ | Err _ => True | Panic | Deep | Stuck => False end.

Lemma safe_returns {A} (Q : A -> Prop) (m : DM A) s : safe false false Q m -> calm false s ->
  returns (fst (m s)) /\ calm false (snd (m s)).
Proof.
  intros H Hs. destruct (H s Hs) as [H1 H2]. split; [|exact H1].
  destruct (fst (m s)); easy.
Qed.
Lemma decode_returns t v s : (forall E, decodable false E t) -> fits t v -> calm false s ->
  returns (fst (decode t v s)) /\ calm false (snd (decode t v s)).
Proof.
  intros Hd Hv (Hi & Hb & _). destruct s as [data pos c E]. unfold inside in Hi. cbn [d_data d_pos] in *.
  unfold decode, decode_target, bind, d_get_enc. cbn [d_enc].
  rewrite dec_start_eq. unfold bind, d_set_cur. cbn [o_order opt0 o_opt o_copt].
  rewrite andb_false_r. cbn [orb d_data d_pos d_enc].
  assert (H : fine false true (fits t) (dec_val E t (DWalk opt0 false) v (mkD data pos (Some LE) E))).
  { apply (safe_dec_val false E t (Hd E) (DWalk opt0 false) v); [split; easy|exact Hv|].
    split; [exact Hi|]. now split. }
  destruct H as [(H1 & H2 & _) H3]. split; [|split; [exact H1|now split]].
  destruct (fst (dec_val E t (DWalk opt0 false) v (mkD data pos (Some LE) E))); easy.
Qed.

Lemma fmap_fst {A B} (f : A -> B) (m : DM A) s : returns (fst (m s)) -> returns (fst (fmap f m s)).
Proof. unfold fmap, bind, ret. destruct (m s) as [[]]; easy. Qed.
Lemma fmap_snd {A B} (f : A -> B) (m : DM A) s : snd (fmap f m s) = snd (m s).
Proof. unfold fmap, bind, ret. destruct (m s) as [[]]; easy. Qed.
Lemma onward_bytes s s' : onward s s' -> bytes_ok (d_data s) -> bytes_ok (d_data s').
Proof. intros (-> & _) H. exact H. Qed.

Lemma harmless_sane op : harmless op -> sane op.
Proof. destruct op; cbn; try tauto; lia. Qed.
Lemma tidy_calm s : tidy s -> calm false s.
Proof. intros [[H1 _] H2]. split; [exact H1|now split]. Qed.

Lemma safe_peek dp nc n : safe dp nc bytes_ok (d_peek n).
Proof.
  unfold d_peek. destruct (n <? 0) eqn:E; [apply safe_fail|]. intros s Hs. unfold bind at 1, d_get.
  destruct (remaining_of s <? n) eqn:E2; [now split|].
  destruct (take_calm nc s n Hs ltac:(lia)) as (bs & Ht & _ & Hb).
  unfold d_take, d_get, bind in Ht. destruct (slice_n (d_data s) (d_pos s) n); [|discriminate].
  cbn in Ht. injection Ht as ->. split; [exact Hs|exact Hb].
Qed.
Lemma safe_true {A} dp nc (Q : A -> Prop) m : safe dp nc Q m -> safe dp nc (fun _ => True) m.
Proof. apply safe_weaken. easy. Qed.

Lemma harmless_returns op s : harmless op -> tidy s ->
  returns (fst (dop_run op s)) /\ tidy (snd (dop_run op s)).
Proof.
  intros Ho Hs. pose proof (tidy_calm s Hs) as Hc. destruct Hs as [Hst Hb].
  assert (Hgo : forall A (m : DM A), safe false false (fun _ => True) m -> returns (fst (m s))).
  { intros A m Hm. now apply (safe_returns (fun _ => True) m s). }
  split.
  - destruct op; cbn [dop_run]; apply fmap_fst; try exact I; try
      (apply Hgo; solve
        [ eapply safe_true; first
          [apply safe_byte | apply safe_uintw | apply safe_intw | apply safe_uvarint | apply safe_varint
          |apply safe_compact | apply safe_length | apply safe_byte_slice | apply safe_rust_string
          |apply safe_bool | apply safe_option | apply safe_coption | apply safe_float
          |apply safe_uint128 | apply safe_n_bytes | apply safe_peek ]
        | apply safe_fmap; eapply safe_true; first
          [apply safe_uvarint | apply safe_varint | apply safe_byte_slice ]
        | eapply safe_bind; [first [apply safe_n_bytes|apply safe_peek]|]; intros; now apply safe_ret ]).
    + destruct Hst as [Hi _]. pose proof (within_read n Ho s Hi) as Hw. unfold d_read, d_get, bind.
      destruct (zlen (d_data s) <? d_pos s + n); [exact I|].
      destruct (rest_calm false s Hc) as (r & -> & _ & _). unfold d_set_pos.
      destruct (_ =? _); exact I.
    + unfold d_skip, d_get, bind, d_set_pos. destruct (_ <? _); exact I.
    + unfold d_discard, d_skip, d_get, bind, d_set_pos. destruct (n =? 0); [exact I|].
      destruct (_ || _); [exact I|]. destruct (_ <? _); exact I.
    + unfold d_setposition, d_get, bind, d_set_pos. destruct (_ <? _); exact I.
    + destruct Ho as (Hd & Hv & _). now apply decode_returns.
  - split; [apply sane_steady; [now apply harmless_sane|exact Hst]|].
    assert (Hon : forall A (m : DM A), within m -> bytes_ok (d_data (snd (m s)))).
    { intros A m Hm. destruct Hst as [Hi _]. apply (onward_bytes s); [now apply Hm|exact Hb]. }
    destruct op; cbn [dop_run]; rewrite fmap_snd; try (apply Hon; solve [within]); try exact Hb.
    + apply Hon. now apply within_read.
    + destruct Hst as [Hi Hm]. destruct (onward_skip n s Ho Hi Hm) as (-> & _). exact Hb.
    + destruct Hst as [Hi Hm]. destruct (onward_discard n s Hi Hm) as (-> & _). exact Hb.
    + destruct Hst as [Hi Hm]. destruct (inside_setposition n s Ho Hi) as (-> & _). exact Hb.
    + apply Hon. apply within_decode, Ho.
    + apply Ho.
Qed.

Lemma programs_return ops : forall s, Forall harmless ops -> tidy s ->
  Forall returns (fst (dops_run ops s)).
Proof.
  induction ops as [|op ops IH]; intros s Ho Hs; cbn [dops_run]; [constructor|].
  inversion_clear Ho as [|? ? H1 H2]. destruct (harmless_returns op s H1 Hs) as [H3 H4].
  destruct (dop_run op s) as [r s1]. cbn [fst snd] in *. specialize (IH s1 H2 H4).
  destruct (dops_run ops s1) as [rs s2]. now constructor.
Qed.
Lemma fresh_programs E data ops : bytes_ok data -> zlen data < 2 ^ 63 -> Forall harmless ops ->
  Forall returns (fst (dops_run ops (new_decoder E data))).
Proof.
  intros Hb Hl Ho. apply programs_return; [exact Ho|]. split; [|exact Hb]. split; [|exact Hl].
  unfold inside. cbn. pose proof (zlen_nonneg data). lia.
Qed.
