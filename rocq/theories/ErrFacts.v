(** Proofs for C89. *)
From Verif Require Import Types DecPrim Enc Dec Utf8 Builtin Spec NumFacts TyInd EncFacts EncWire DecEq ErrSpec.

Definition says {A} (E : encoding) (Q : err -> Prop) (m : DM A) : Prop :=
  forall s, d_enc s = E -> d_enc (snd (m s)) = E /\ forall e x, fst (m s) = Err e -> err_is e x -> sentinel x -> Q x.

Lemma says_mono {A} E (Q Q' : err -> Prop) (m : DM A) : (forall x, Q x -> Q' x) -> says E Q m -> says E Q' m.
Proof. intros H Hm s Hs. destruct (Hm s Hs) as [H1 H2]. split; [exact H1|]. eauto. Qed.
Section Logic.
  Variables (E : encoding) (Q : err -> Prop).
  Lemma says_ret {A} (a : A) : says E Q (ret a).
  Proof. intros s H. split; [exact H|discriminate]. Qed.
  Lemma says_panic {A} : says E Q (@panic dst A).
  Proof. intros s H. split; [exact H|discriminate]. Qed.
  Lemma says_stuck {A} : says E Q (@stuck dst A).
  Proof. intros s H. split; [exact H|discriminate]. Qed.
  Lemma says_deep {A} : says E Q (@deep dst A).
  Proof. intros s H. split; [exact H|discriminate]. Qed.
  Lemma says_fail {A} e : (forall x, err_is e x -> sentinel x -> Q x) -> says E Q (@fail dst A e).
  Proof. intros He s H. split; [exact H|]. intros e' x [= <-]. apply He. Qed.
  Lemma says_msg {A} : says E Q (@fail dst A EMsg).
  Proof. apply says_fail. intros x [<-|[]] []. Qed.
  Lemma says_eof {A} : Q EUnexpectedEOF -> says E Q (@fail dst A EUnexpectedEOF).
  Proof. intro H. apply says_fail. intros x [<-|[]] _. exact H. Qed.
  Lemma says_get : says E Q d_get.
  Proof. intros s H. split; [exact H|discriminate]. Qed.
  Lemma says_get_cur : says E Q d_get_cur.
  Proof. intros s H. split; [exact H|discriminate]. Qed.
  Lemma says_get_enc : says E Q d_get_enc.
  Proof. intros s H. split; [exact H|discriminate]. Qed.
  Lemma says_remaining : says E Q d_remaining.
  Proof. intros s H. split; [exact H|discriminate]. Qed.
  Lemma says_set_cur o : says E Q (d_set_cur o).
  Proof. intros s H. split; [exact H|discriminate]. Qed.
  Lemma says_set_pos p : says E Q (d_set_pos p).
  Proof. intros s H. split; [exact H|discriminate]. Qed.
  Lemma says_bind {A B} (m : DM A) (k : A -> DM B) : says E Q m -> (forall a, says E Q (k a)) -> says E Q (bind m k).
  Proof.
    intros Hm Hk s Hs. destruct (Hm s Hs) as [H1 H2]. unfold bind.
    destruct (m s) as [[a|e| | |] s1]; cbn [fst snd] in *; [now apply Hk| | | |]; (split; [exact H1|]); try discriminate.
    intros e' x [= <-]. now apply H2.
  Qed.
  (** The encoding is known after it was asked for. *)
  Lemma says_enc {B} (k : encoding -> DM B) : says E Q (k E) -> says E Q (bind d_get_enc k).
  Proof. intros Hk s Hs. unfold bind, d_get_enc. rewrite Hs. now apply Hk. Qed.
  Lemma says_fmap {A B} (f : A -> B) m : says E Q m -> says E Q (fmap f m).
  Proof. intro H. apply says_bind; [exact H|]. intro. apply says_ret. Qed.
  Lemma says_wrap {A} (m : DM A) : says E Q m -> says E Q (map_err EWrap m).
  Proof.
    intros Hm s Hs. destruct (Hm s Hs) as [H1 H2]. unfold map_err.
    destruct (m s) as [[a|e| | |] s1]; cbn [fst snd] in *; split; auto; try discriminate.
    intros e' x [= <-] Hx Hsx. destruct Hx as [<-|Hx]; [destruct Hsx|]. eauto.
  Qed.
End Logic.
Lemma says_hide {A} E Q Q' (m : DM A) : says E Q' m -> says E Q (map_err (fun _ => EMsg) m).
Proof.
  intros Hm s Hs. destruct (Hm s Hs) as [H1 H2]. unfold map_err.
  destruct (m s) as [[a|e| | |] s1]; cbn [fst snd] in *; split; auto; try discriminate.
  intros e' x [= <-] [<-|[]] [].
Qed.
Lemma says_true {A} E Q (m : DM A) : says E Q m -> says E (fun _ => True) m.
Proof. apply says_mono. auto. Qed.

Create HintDb says.
#[global] Hint Resolve says_ret says_panic says_stuck says_deep says_msg says_get says_get_cur says_get_enc
  says_remaining says_set_cur says_set_pos : says.
Ltac says :=
  repeat first
    [ solve [auto with says]
    | apply says_eof; solve [auto]
    | apply says_bind; [|intro]
    | apply says_fmap
    | apply says_wrap
    | eapply (says_hide _ _ (fun _ => True))
    | match goal with |- says _ _ (match ?x with _ => _ end) => destruct x end
    | match goal with |- says _ _ (if ?x then _ else _) => destruct x end ].

Section Prims.
  Variables (E : encoding) (Q : err -> Prop).
  Lemma says_take n : says E Q (d_take n).
  Proof. unfold d_take. says. Qed.
  Lemma says_rest : says E Q d_rest.
  Proof. unfold d_rest. says. Qed.
  Lemma says_cur_order : says E Q d_cur_order.
  Proof. unfold d_cur_order. says. Qed.
End Prims.
#[global] Hint Resolve says_take says_rest says_cur_order : says.
Section Reads.
  Variables (E : encoding) (Q : err -> Prop).
  Lemma says_read_byte : says E Q read_byte.
  Proof. unfold read_byte. says. Qed.
  Lemma says_read_uint n o : says E Q (read_uint n o).
  Proof. unfold read_uint. says. Qed.
  Lemma says_read_n_bytes n : says E Q (read_n_bytes n).
  Proof. unfold read_n_bytes. says. Qed.
  Lemma says_read_float f o : says E Q (read_float f o).
  Proof. unfold read_float. says. Qed.
  Lemma says_read_uint128 o : says E Q (read_uint128 o).
  Proof. unfold read_uint128. says. Qed.
End Reads.
#[global] Hint Resolve says_read_byte says_read_uint says_read_n_bytes says_read_float says_read_uint128 : says.
Section Reads2.
  Variables (E : encoding) (Q : err -> Prop).
  Lemma says_read_uintw w o : says E Q (read_uintw w o).
  Proof. destruct w; cbn [read_uintw]; unfold read_uint64; says. Qed.
  Lemma says_read_intw w o : says E Q (read_intw w o).
  Proof. unfold read_intw. apply says_fmap, says_read_uintw. Qed.
  Lemma says_read_bool : says E Q read_bool.
  Proof. unfold read_bool. says. Qed.
  Lemma says_read_option : says E Q read_option.
  Proof. unfold read_option. says. Qed.
  Lemma says_read_coption : says E Q read_coption.
  Proof. unfold read_coption. says. Qed.
End Reads2.
#[global] Hint Resolve says_read_uintw says_read_intw says_read_bool says_read_option says_read_coption : says.
Section Reads3.
  Variables (E : encoding) (Q : err -> Prop).
  Lemma says_read_flag E' : says E Q (read_flag E').
  Proof. unfold read_flag. says. Qed.
  Lemma says_read_cflag : says E Q read_cflag.
  Proof. unfold read_cflag. says. Qed.
  Lemma says_uvarint : Q EVarint -> says E Q read_uvarint64.
  Proof.
    intro H. unfold read_uvarint64. apply says_bind; [says|]. intro b. destruct (uvarint b) as [v n].
    destruct (n <=? 0); [|says]. apply says_fail. intros x [<-|[]] _. exact H.
  Qed.
  Lemma says_varint : Q EVarint -> says E Q read_varint64.
  Proof.
    intro H. unfold read_varint64. apply says_bind; [says|]. intro b. destruct (varint b) as [v n].
    destruct (n <=? 0); [|says]. apply says_fail. intros x [<-|[]] _. exact H.
  Qed.
  Lemma cu16_err fuel : forall nth bs ln size e, cu16_get fuel nth bs ln size = inl e -> e = EMsg \/ e = EUnexpectedEOF.
  Proof.
    induction fuel as [|f IH]; intros nth bs ln size e; cbn [cu16_get]; [discriminate|].
    destruct bs as [|b bs]; [intros [= <-]; auto|].
    destruct ((b =? 0) && negb (nth =? 0)); [intros [= <-]; auto|].
    destruct ((nth =? 2) && negb (Z.land b 128 =? 0)); [intros [= <-]; auto|].
    destruct (Z.land b 128 =? 0); [discriminate|]. apply IH.
  Qed.
  Lemma says_compact : Q EUnexpectedEOF -> says E Q read_compact_u16.
  Proof.
    intro H. unfold read_compact_u16. apply says_bind; [says|]. intro b. destruct (decode_compact_u16 b) as [e|[ln n]] eqn:D; [|says].
    assert (He : e = EMsg \/ e = EUnexpectedEOF).
    { unfold decode_compact_u16 in D. destruct (cu16_get 3 0 b 0 0) as [e'|[l n]] eqn:G; [injection D as <-; now apply cu16_err in G|].
      destruct ((n =? 0) || (3 <? n)); [injection D as <-; auto|]. destruct ((l <? 0) || (65535 <? l)); [injection D as <-; auto|discriminate]. }
    destruct He as [->| ->]; says.
  Qed.
  Lemma says_rep {A} n (m : DM A) : says E Q m -> says E Q (read_rep n m).
  Proof. intro H. induction n; cbn [read_rep]; says. Qed.
  Lemma says_each {A B} (f : A -> DM B) l : (forall a, says E Q (f a)) -> says E Q (each_dec f l).
  Proof. intro H. induction l; cbn [each_dec]; says. Qed.
  Lemma says_dec_map kt n deck decv : says E Q deck -> says E Q decv -> forall m, says E Q (dec_map kt n deck decv m).
  Proof. intros Hk Hv. induction n; intro m; cbn [dec_map]; says. Qed.
End Reads3.
#[global] Hint Resolve says_read_flag says_read_cflag says_rep says_each says_dec_map : says.
Lemma says_length E (Q : err -> Prop) : Q EUnexpectedEOF -> (E = Bin -> Q EVarint) -> says E Q read_length.
Proof.
  intros H1 H2. unfold read_length. apply says_enc. destruct E.
  - apply says_bind; [now apply says_uvarint, H2|]. intro. says.
  - now apply says_compact.
  - says.
Qed.
Lemma says_byte_slice E (Q : err -> Prop) : Q EUnexpectedEOF -> (E = Bin -> Q EVarint) -> says E Q read_byte_slice.
Proof. intros H1 H2. unfold read_byte_slice. apply says_bind; [now apply says_length|]. intro. says. Qed.
Lemma says_str E (Q : err -> Prop) : Q EUnexpectedEOF -> says E Q (read_str E).
Proof.
  intro H. destruct E; cbn [read_str].
  - unfold read_rust_string. apply says_bind; [apply (says_read_uintw _ _ W64)|]. intro. says.
  - apply says_byte_slice; [exact H|discriminate].
  - apply says_byte_slice; [exact H|discriminate].
Qed.
Lemma says_count E (Q : err -> Prop) : (forall x, count_reports E x -> Q x) -> says E Q (read_count E).
Proof.
  intro H. destruct E; cbn [read_count count_reports] in *.
  - apply says_length; auto.
  - apply says_compact; auto.
  - says.
Qed.
Lemma says_uints E (Q : err -> Prop) w l : Q EUnexpectedEOF -> says E Q (read_uints w l).
Proof. intro H. unfold read_uints. apply says_bind; [says|]. intro. cbv zeta. destruct (_ <? _); says. Qed.

Lemma any_field_in (P : bool -> ty -> Prop) (enum : bool) fs h t : In (h, t) fs -> (if enum then P (f_exported h) t else live h = true /\ P true t) -> any_field P enum fs.
Proof.
  induction fs as [|[h' t'] fs IH]; cbn [any_field]; [intros []|]. intros [Heq|Hin] H; [|right; auto].
  left. now injection Heq as -> ->.
Qed.

Lemma says_then_panic {A} E Q (m : DM A) : says E Q m -> says E Q (then_panic m).
Proof. intro H. unfold then_panic. says. Qed.
Lemma says_hopeless {A} E Q Q' (m : DM A) : says E Q' m -> says E Q (hopeless m).
Proof.
  intro H. apply says_then_panic. intros s Hs. destruct (H s Hs) as [H1 H2].
  destruct (m s) as [[a|e| | |] s1]; cbn [fst snd] in *; split; auto; discriminate.
Qed.
Lemma says_dec_fields E Q rec fs : forall ps sizes seen,
  Forall (fun ht => live (fst ht) = true ->
     (forall o v, says E Q (rec (snd ht) o v)) /\ (forall m, borsh_field_unmarshaler (snd ht) = Some m -> says E Q m)) fs ->
  says E Q (dec_fields E rec fs ps sizes seen).
Proof.
  induction fs as [|[h t] fs IH]; intros ps sizes seen H; cbn [dec_fields].
  - says.
  - destruct ps as [|p ps]; [says|]. inversion_clear H as [|? ? H1 H2].
    assert (IH' : forall ps sizes seen, says E Q (dec_fields E rec fs ps sizes seen)) by auto. clear IH H2.
    cbn [snd fst] in *. unfold live in H1.
    destruct (ft_skip _); [says|].
    destruct (negb _ && seen); [says|].
    assert (Hb : says E Q
      (if negb (f_exported h)
       then fmap (cons p) (dec_fields E rec fs ps sizes (seen || ft_ext (parse_field_tag (f_tag h))))
       else match is_borsh E, borsh_field_unmarshaler t with
            | true, Some m =>
                x <- m ;; fmap (cons x) (dec_fields E rec fs ps sizes (seen || ft_ext (parse_field_tag (f_tag h))))
            | _, _ =>
                x <- map_err EWrap (rec t (field_opt E (parse_field_tag (f_tag h)) (f_name h) sizes) p) ;;
                if String.eqb (ft_sizeof (parse_field_tag (f_tag h))) "" then
                  fmap (cons x) (dec_fields E rec fs ps sizes (seen || ft_ext (parse_field_tag (f_tag h))))
                else match sizeof_val t x with
                     | None => panic
                     | Some n =>
                         fmap (cons x)
                           (dec_fields E rec fs ps ((ft_sizeof (parse_field_tag (f_tag h)), n) :: sizes) (seen || ft_ext (parse_field_tag (f_tag h))))
                     end
            end)).
    { destruct (f_exported h); cbn [negb]; [|says]. destruct (H1 eq_refl) as [Hr Hm].
      destruct (is_borsh E); [destruct (borsh_field_unmarshaler t) as [m|] eqn:Em|].
      - specialize (Hm m eq_refl). says.
      - says.
      - says. }
    destruct (ft_ext _); says.
Qed.
Lemma says_sealed t : forall v, says Borsh (fun x => reports false Borsh t x) (dec_sealed t v).
Proof.
  induction t as [t IH] using ty_strong_ind. intro v.
  destruct t as [|un w|nm w|f| |sg| | |t|n t|t|t1 t2|fs|c t|]; cbn [dec_sealed reports];
    try solve [clear IH; says]; try solve [eapply (says_hopeless _ _ (fun _ => True)); says].
  - apply says_then_panic. apply says_byte_slice; [reflexivity|discriminate].
  - destruct v as [| | | |[y|]| | | | | |]; try solve [clear IH; says]. apply IH. cbn. lia.
  - destruct (uint_kind t) eqn:Eu.
    + apply says_bind; [apply says_uints; reflexivity|]. intro. destruct n; says.
    + destruct v; try solve [clear IH; says].
      apply says_bind; [|intro; says]. apply says_each. intro a. apply says_bind; [says|]. intros _. apply IH. cbn. lia.
  - apply says_bind; [apply (says_count Borsh); intros ? []|]. intro l. destruct (l =? 0); [says|].
    apply says_bind; [says|]. intro r. destruct (r <? l); [apply says_eof; auto|].
    destruct (uint_kind t); [|says]. apply says_then_panic. apply says_uints. auto.
  - destruct v; try solve [clear IH; says]. destruct (is_enum fs); [apply says_then_panic; says|].
    apply says_bind; [|intro; says]. apply says_dec_fields. unfold hide. rewrite Forall_map, Forall_forall.
    intros [h t] _ Hl. unfold live in Hl. cbn [fst snd f_exported f_tag] in Hl. rewrite andb_false_r in Hl. discriminate.
  - apply IH. cbn. lia.
Qed.
Lemma says_dec_variant Q rec fs : forall ps n,
  Forall (fun ht => if f_exported (fst ht) then forall o v, says Borsh Q (rec (snd ht) o v) else forall v, says Borsh Q (dec_sealed (snd ht) v)) fs ->
  says Borsh Q (dec_variant rec fs ps n).
Proof.
  induction fs as [|[h t] fs IH]; intros ps n H; cbn [dec_variant].
  - says.
  - destruct ps as [|p ps]; [says|]. inversion_clear H as [|? ? H1 H2].
    cbn [snd fst] in H1. destruct n as [|n]; [|specialize (IH ps n H2); says].
    destruct (f_exported h); cbn [negb]; says.
Qed.
Lemma says_pend E Q p t core : says E Q core -> says E Q (with_pend p t core).
Proof. intro H. unfold with_pend. says. Qed.
Lemma says_method E f v : (forall v s, d_enc (snd (f v s)) = d_enc s) -> says E (fun x => method_reports f E x) (f v).
Proof.
  intros H s Hs. split; [now rewrite H|]. intros e x He Hx _. exists v, s, e, (snd (f v s)). split; [exact Hs|]. split; [|exact Hx].
  now rewrite <- He, <- surjective_pairing.
Qed.
Lemma says_unmarshaler E t m : all_codecs codec_keeps_enc t -> borsh_field_unmarshaler t = Some m ->
  says E (fun x => reports true E t x) m.
Proof.
  intros Hc H. destruct t; try discriminate.
  - destruct t; try discriminate. cbn [borsh_field_unmarshaler reports] in *.
    destruct (c_unmarshal c) as [f|] eqn:Ef; inversion H; subst.
    destruct Hc as [Hc _]. apply says_fmap. apply says_method. intros. now apply Hc.
  - cbn [borsh_field_unmarshaler reports] in *.
    destruct (c_unmarshal c) as [f|] eqn:Ef; inversion H; subst.
    destruct Hc as [Hc _]. apply says_method. intros. now apply Hc.
Qed.

Lemma says_dec_val t : all_codecs codec_keeps_enc t -> forall E m v, says E (fun x => reports true E t x) (dec_val E t m v).
Proof.
  induction t as [t IH] using ty_strong_ind. intros Hc E.
  assert (Hwalk : forall o pend v, says E (fun x => reports true E t x) (dec_val E t (DWalk o pend) v)).
  { intros o pend v. rewrite dec_walk_eq.
    destruct t as [|un w|nm w|f| |sg| | |t|n t|t|t1 t2|fs|c t|]; cbn [reports andb];
      try (apply says_pend); try solve [clear IH; says].
    - apply says_fmap. now apply says_str.
    - apply says_fmap. apply IH; [cbn; lia|exact Hc].
    - destruct (uint_kind t) eqn:Eu; [apply says_fmap; now apply says_uints|].
      destruct v; try solve [clear IH; says]. apply says_fmap. apply says_each. intro. apply IH; [cbn; lia|exact Hc].
    - apply says_bind; [destruct (o_size o); [says|apply says_count; auto]|]. intro l.
      destruct (is_borsh E && (l =? 0)); [says|]. apply says_bind; [says|]. intro r. destruct (r <? l); [apply says_eof; auto|].
      destruct (uint_kind t) eqn:Eu; [apply says_fmap; apply says_uints; auto|]. apply says_fmap. apply says_rep.
      eapply says_mono; [|apply IH; [cbn; lia|exact Hc]]. auto.
    - destruct Hc as [Hc1 Hc2]. apply says_bind; [apply says_count; auto|]. intro l. destruct (l =? 0); [says|]. apply says_fmap. apply says_dec_map.
      + eapply says_mono; [|apply IH; [cbn; lia|exact Hc1]]. auto.
      + eapply says_mono; [|apply IH; [cbn; lia|exact Hc2]]. auto.
    - destruct v; try solve [clear IH; says]. apply all_codecs_struct in Hc.
      unfold dec_struct. rewrite EncWire.is_enum_spec. destruct (enum_struct E fs) eqn:En.
      + assert (E = Borsh) as -> by (destruct E; [discriminate En|discriminate En|reflexivity]).
        apply says_bind; [says|]. intro n. destruct fs as [|[h t] fs]; [says|]. destruct l as [|p ps]; [says|].
        destruct (negb (f_exported h)); [says|]. apply says_bind; [|intro; says]. apply says_dec_variant.
        rewrite Forall_forall in *. intros [h' t'] Hin. cbn [fst snd].
        destruct (f_exported h') eqn:Ex; intros.
        * eapply says_mono; [|apply IH; [apply (ty_size_field _ h'); now right|exact (Hc _ (or_intror Hin))]].
          intros x Hx. cbn beta in *. apply (any_field_in _ true _ h' t'); [now right|]. cbn beta. now rewrite Ex.
        * eapply says_mono; [|apply says_sealed].
          intros x Hx. cbn beta in *. apply (any_field_in _ true _ h' t'); [now right|]. cbn beta. now rewrite Ex.
      + apply says_fmap. apply says_dec_fields. rewrite Forall_forall in *. intros [h t] Hin Hl. cbn [fst snd] in *. split.
        * intros o' v'. eapply says_mono; [|apply IH; [apply (ty_size_field _ h); exact Hin|exact (Hc _ Hin)]].
          intros x Hx. cbn beta in *. apply (any_field_in _ false _ h t); auto.
        * intros m Hm. eapply says_mono; [|exact (says_unmarshaler E _ m (Hc _ Hin) Hm)].
          intros x Hx. cbn beta in *. apply (any_field_in _ false _ h t); auto.
    - destruct Hc as [Hf Hc]. destruct (c_unmarshal c) as [f|] eqn:Ef.
      + destruct pend; [says|]. apply says_method. intros. now apply Hf.
      + apply IH; [cbn; lia|exact Hc]. }
  assert (Hfl : forall o v, says E (fun x => reports true E t x) (dec_flagged E t o v)).
  { intros. unfold dec_flagged. clear IH. says. }
  assert (Hnull : forall o v, says E (fun x => reports true E t x) (dec_val E t (DNull o) v)).
  { intros o v. rewrite dec_null_eq. destruct t; try solve [clear IH; says].
    destruct (is_ptr t); [|clear IH; says]. destruct v; try solve [clear IH; says]. destruct p; [|clear IH; says].
    apply says_fmap. cbn [reports]. apply IH; [cbn; lia|exact Hc]. }
  intros [o|o|o pend] v; [rewrite dec_start_eq; clear IH; says|apply Hnull|apply Hwalk].
Qed.

Lemma decode_reports t old s e s' x : all_codecs codec_keeps_enc t ->
  decode t old s = (Err e, s') -> err_is e x -> sentinel x -> reports true (d_enc s) t x.
Proof.
  intros Hc H Hx Hs. unfold decode, decode_target, bind, d_get_enc in H.
  destruct (says_dec_val t Hc (d_enc s) (DStart opt0) old s eq_refl) as [_ H2]. rewrite H in H2. cbn [fst] in H2. exact (H2 e x eq_refl Hx Hs).
Qed.

Lemma countless_silent t : forall b E x, countless t = true -> ~ reports b E t x.
Proof.
  induction t as [t IH] using ty_strong_ind. intros b E x H.
  destruct t as [|un w|nm w|f| |sg| | |t|n t|t|t1 t2|fs|c t|]; cbn [countless reports] in *; try (intros []); try discriminate.
  - apply IH; [cbn; lia|exact H].
  - destruct (uint_kind t); [discriminate|]. apply IH; [cbn; lia|exact H].
  - assert (Hf : forall h t, In (h, t) fs -> forall b E x, ~ reports b E t x).
    { intros h t Hin b' E' x'. apply IH; [now apply (ty_size_field _ h)|]. rewrite forallb_forall in H. exact (H _ Hin). }
    clear IH H. generalize (enum_struct E fs) as en. intro en. revert Hf.
    induction fs as [|[h t] fs IHf]; intros Hf; cbn [any_field]; [tauto|]. intros [H|H].
    + destruct en; [exact (Hf h t (or_introl eq_refl) _ _ _ H)|exact (Hf h t (or_introl eq_refl) _ _ _ (proj2 H))].
    + refine (IHf _ H). intros. eapply Hf. right. eassumption.
  - destruct b; destruct (c_unmarshal c); try discriminate; apply IH; try exact H; cbn; lia.
Qed.
