(** Struct fields one by one: concatenation of structs, skipped and unexported
    fields, optional fields, sizeof counts, extension fields (C28, C30-C32,
    C53). *)
From Verif Require Import Types EncPrim DecPrim Enc Dec Builtin Spec NumFacts TyInd EncFacts EncWire
  DecWire RoundTrip DecEq EncProps DecProps.

Definition enc_flds (E : encoding) :=
  enc_fields E (fun t o v => enc_val E t (EFull o) v).
Definition dec_flds (E : encoding) :=
  dec_fields E (fun t o p => dec_val E t (DStart o) p).

(** * Running a struct *)

Definition at_le (s : est) : est :=
  mkE (e_enc s) (e_w s) (Some LE) (e_count s) (e_hist s) (e_acc s).
Definition dat_le (s : dst) : dst := mkD (d_data s) (d_pos s) (Some LE) (d_enc s).

Lemma encode_struct fs vs s : enum_struct (e_enc s) fs = false ->
  encode (TStruct fs) (VStruct vs) s = enc_flds (e_enc s) fs vs [] (at_le s).
Proof.
  intro H. unfold encode, bind. cbn [e_get_enc]. unfold e_get_enc. cbn [enc_val].
  rewrite is_enum_spec, H. cbv zeta. cbn [opt0 o_order o_opt o_copt]. rewrite andb_false_r.
  reflexivity.
Qed.

Lemma decode_struct fs ps s : enum_struct (d_enc s) fs = false ->
  decode (TStruct fs) (VStruct ps) s = fmap VStruct (dec_flds (d_enc s) fs ps [] false) (dat_le s).
Proof.
  intro H. unfold decode, decode_target, bind at 1, d_get_enc. rewrite dec_start_eq.
  cbn [opt0 o_opt o_copt o_order]. rewrite andb_false_r, dec_walk_eq. cbn [orb with_pend].
  unfold dec_struct. rewrite is_enum_spec, H. reflexivity.
Qed.

(** * Dead fields in the encoder *)

(** Equal values in the fields that take part. *)
Fixpoint same_live (fs : list (fhdr * ty)) (vs vs' : list val) : Prop :=
  match fs, vs, vs' with
  | [], [], [] => True
  | (h, t) :: fs', v :: r, v' :: r' => (live h = true -> v = v') /\ same_live fs' r r'
  | _, _, _ => False
  end.
(** No field outside the encoding is named as the length of another one. *)
Definition dead_sizeless (fs : list (fhdr * ty)) : Prop :=
  Forall (fun ht => let tg := parse_field_tag (f_tag (fst ht)) in
    f_exported (fst ht) = true \/ ft_skip tg = true \/ ft_sizeof tg = EmptyString) fs.

Lemma same_live_flds E fs : forall vs vs' sz s, dead_sizeless fs -> same_live fs vs vs' ->
  enc_flds E fs vs sz s = enc_flds E fs vs' sz s.
Proof.
  unfold enc_flds. induction fs as [|[h t] fs IH]; intros [|v vs] [|v' vs'] sz s Hd Hs; try easy.
  destruct Hs as [Hv Hs]. inversion_clear Hd as [|? ? Hh Hfs]. cbn [fst] in Hh.
  cbn [enc_fields]. cbv zeta in *. unfold live in Hv.
  destruct (ft_skip (parse_field_tag (f_tag h))) eqn:Esk; [now apply IH|].
  destruct (f_exported h) eqn:Eex; cbn [negb andb] in *.
  - rewrite <- (Hv eq_refl).
    destruct (if String.eqb _ _ then _ else _) as [sz'|]; [|reflexivity].
    unfold bind. destruct (map_err _ _ s) as [[] s']; try reflexivity. now apply IH.
  - destruct Hh as [Hh|[Hh|Hh]]; [discriminate..|]. rewrite Hh. cbn [String.eqb]. now apply IH.
Qed.

Lemma same_live_encode fs vs vs' s : enum_struct (e_enc s) fs = false -> dead_sizeless fs ->
  same_live fs vs vs' ->
  encode (TStruct fs) (VStruct vs) s = encode (TStruct fs) (VStruct vs') s.
Proof. intros He Hd Hs. rewrite !encode_struct by easy. now apply same_live_flds. Qed.

(** The struct without the dead fields. *)
Fixpoint live_vals (fs : list (fhdr * ty)) (vs : list val) : list val :=
  match fs, vs with
  | (h, _) :: fs', v :: vs' => if live h then v :: live_vals fs' vs' else live_vals fs' vs'
  | _, _ => []
  end.
Definition live_fields (fs : list (fhdr * ty)) : list (fhdr * ty) :=
  filter (fun ht => live (fst ht)) fs.

Lemma drop_dead_flds E fs : forall vs sz s, dead_sizeless fs -> length vs = length fs ->
  enc_flds E fs vs sz s = enc_flds E (live_fields fs) (live_vals fs vs) sz s.
Proof.
  unfold enc_flds. induction fs as [|[h t] fs IH]; intros [|v vs] sz s Hd Hl; try easy.
  inversion_clear Hd as [|? ? Hh Hfs]. cbn [fst] in Hh. injection Hl as Hl.
  cbn [live_fields filter fst live_vals]. unfold live. cbv zeta in *.
  destruct (ft_skip (parse_field_tag (f_tag h))) eqn:Esk; cbn [negb andb].
  { cbn [enc_fields]. cbv zeta. rewrite Esk. now apply IH. }
  destruct (f_exported h) eqn:Eex.
  - cbn [enc_fields]. cbv zeta. rewrite Esk, Eex. cbn [negb].
    destruct (if String.eqb _ _ then _ else _) as [sz'|]; [|reflexivity].
    unfold bind. destruct (map_err _ _ s) as [[] s']; try reflexivity. now apply IH.
  - destruct Hh as [Hh|[Hh|Hh]]; [discriminate..|].
    cbn [enc_fields]. cbv zeta. rewrite Esk, Eex, Hh. cbn [String.eqb negb]. now apply IH.
Qed.

Lemma drop_dead_encode fs vs s :
  enum_struct (e_enc s) fs = false -> enum_struct (e_enc s) (live_fields fs) = false ->
  dead_sizeless fs -> length vs = length fs ->
  encode (TStruct fs) (VStruct vs) s = encode (TStruct (live_fields fs)) (VStruct (live_vals fs vs)) s.
Proof. intros He He' Hd Hs. rewrite !encode_struct by easy. now apply drop_dead_flds. Qed.

(** * Dead fields in the decoder *)

Section Untouched.
  Variable untouched : ty -> val -> val -> Prop.
  Variable E : encoding.
  Fixpoint untouched_fields (fs : list (fhdr * ty)) (ps xs : list val) : Prop :=
    match fs, ps, xs with
    | [], [], [] => True
    | (h, t) :: fs', p :: ps', x :: xs' =>
        (if live h then
           flagged_field E (parse_field_tag (f_tag h)) = true \/ x = p \/ untouched t p x
         else x = p) /\
        untouched_fields fs' ps' xs'
    | _, _, _ => False
    end.
End Untouched.

(** [untouched E t p x]: the dead fields of [x] are those of [p], in the struct
    itself and in the structs, arrays and pointers inside it (below an optional
    field or a type with its own decoder, anything goes). *)
Fixpoint untouched (E : encoding) (t : ty) (p x : val) {struct t} : Prop :=
  match t with
  | TPtr t' => exists y, x = VPtr (Some y) /\ untouched E t' (deref t' p) y
  | TArray _ t' =>
      uint_kind t' = None ->
      exists ps xs, p = VSeq ps /\ x = VSeq xs /\ Forall2 (untouched E t') ps xs
  | TStruct fs =>
      enum_struct E fs = false ->
      exists ps xs, p = VStruct ps /\ x = VStruct xs /\
        untouched_fields (untouched E) E fs ps xs
  | TCodec c u => c_unmarshal c = None -> untouched E u p x
  | _ => True
  end.

Lemma bind_ok {S A B} (m : SM S A) (k : A -> SM S B) s y s' :
  bind m k s = (Ok y, s') -> exists a s1, m s = (Ok a, s1) /\ k a s1 = (Ok y, s').
Proof. unfold bind. destruct (m s) as [[a|e| | |] s1]; try discriminate. eauto. Qed.
Lemma fmap_ok {S A B} (f : A -> B) (m : SM S A) s y s' :
  fmap f m s = (Ok y, s') -> exists a, m s = (Ok a, s') /\ y = f a.
Proof.
  intro H. apply bind_ok in H as (a & s1 & H & H'). injection H' as <- <-. eauto.
Qed.
Lemma map_err_ok {S A} f (m : SM S A) s y s' :
  map_err f m s = (Ok y, s') -> m s = (Ok y, s').
Proof. unfold map_err. destruct (m s) as [[]]; now try discriminate. Qed.

Lemma each_dec_untouched E t (IH : forall p s x s', dec_val E t (DStart opt0) p s = (Ok x, s') -> untouched E t p x) l :
  forall s xs s', each_dec (dec_val E t (DStart opt0)) l s = (Ok xs, s') -> Forall2 (untouched E t) l xs.
Proof.
  induction l as [|p l IHl]; intros s xs s' H; cbn [each_dec] in H.
  - injection H as <- <-. constructor.
  - apply bind_ok in H as (x & s1 & Hx & H). apply bind_ok in H as (ys & s2 & Hy & H).
    injection H as <- <-. constructor; eauto.
Qed.

(** What one successful round of the loop over the fields has done. *)
Definition field_done (E : encoding) (h : fhdr) (t : ty) (p : val) (sz : smap) (s : dst)
  (x : val) (sz' : smap) (s1 : dst) : Prop :=
  let tg := parse_field_tag (f_tag h) in
  (x = p /\ s1 = s /\ sz' = sz /\ (live h = false \/ (ft_ext tg = true /\ d_rest s = (Ok [], s)))) \/
  (live h = true /\
   ((is_borsh E = true /\ sz' = sz /\
     exists m, borsh_field_unmarshaler t = Some m /\ m s = (Ok x, s1)) \/
    ((is_borsh E = true -> borsh_field_unmarshaler t = None) /\
     dec_val E t (DStart (field_opt E tg (f_name h) sz)) p s = (Ok x, s1) /\
     ((ft_sizeof tg = EmptyString /\ sz' = sz) \/
      exists n, ft_sizeof tg <> EmptyString /\ sizeof_val t x = Some n /\ sz' = (ft_sizeof tg, n) :: sz)))).

Lemma dec_flds_step E h t fs p ps sz seen s xs s' :
  dec_flds E ((h, t) :: fs) (p :: ps) sz seen s = (Ok xs, s') ->
  exists x ys sz' seen' s1, xs = x :: ys /\ dec_flds E fs ps sz' seen' s1 = (Ok ys, s') /\
    field_done E h t p sz s x sz' s1.
Proof.
  unfold dec_flds, field_done. cbn [dec_fields]. cbv zeta.
  set (tg := parse_field_tag (f_tag h)). set (R := fun t' o' p' => dec_val E t' (DStart o') p').
  unfold live. fold tg. intro H.
  destruct (ft_skip tg) eqn:Esk.
  { apply fmap_ok in H as (ys & H & ->). do 5 eexists. do 2 (split; [eauto|]). left. auto. }
  destruct (negb (ft_ext tg) && seen); [discriminate|]. cbn [negb andb].
  assert (Hbody : forall s,
    (if negb (f_exported h) then fmap (cons p) (dec_fields E R fs ps sz (seen || ft_ext tg))
     else
       match is_borsh E, borsh_field_unmarshaler t with
       | true, Some m => x <- m ;; fmap (cons x) (dec_fields E R fs ps sz (seen || ft_ext tg))
       | _, _ =>
           x <- map_err EWrap (R t (field_opt E tg (f_name h) sz) p) ;;
           if String.eqb (ft_sizeof tg) "" then fmap (cons x) (dec_fields E R fs ps sz (seen || ft_ext tg))
           else match sizeof_val t x with
                | None => panic
                | Some n => fmap (cons x) (dec_fields E R fs ps ((ft_sizeof tg, n) :: sz) (seen || ft_ext tg))
                end
       end) s = (Ok xs, s') ->
    exists x ys sz' seen' s1, xs = x :: ys /\ dec_fields E R fs ps sz' seen' s1 = (Ok ys, s') /\
    ((x = p /\ s1 = s /\ sz' = sz /\ (f_exported h = false)) \/
     (f_exported h = true /\
      ((is_borsh E = true /\ sz' = sz /\
       exists m, borsh_field_unmarshaler t = Some m /\ m s = (Ok x, s1)) \/
      ((is_borsh E = true -> borsh_field_unmarshaler t = None) /\
       dec_val E t (DStart (field_opt E tg (f_name h) sz)) p s = (Ok x, s1) /\
       ((ft_sizeof tg = EmptyString /\ sz' = sz) \/
        exists n, ft_sizeof tg <> EmptyString /\ sizeof_val t x = Some n /\ sz' = (ft_sizeof tg, n) :: sz)))))).
  { clear H. intros s0 H. destruct (f_exported h); cbn [negb] in H.
    2: { apply fmap_ok in H as (ys & H & ->). do 5 eexists. do 2 (split; [eauto|]). left. auto. }
    assert (Hgen : (is_borsh E = true -> borsh_field_unmarshaler t = None) -> 
      (x <- map_err EWrap (R t (field_opt E tg (f_name h) sz) p) ;;
           if String.eqb (ft_sizeof tg) "" then fmap (cons x) (dec_fields E R fs ps sz (seen || ft_ext tg))
           else match sizeof_val t x with
                | None => panic
                | Some n => fmap (cons x) (dec_fields E R fs ps ((ft_sizeof tg, n) :: sz) (seen || ft_ext tg))
                end) s0 = (Ok xs, s') ->
       exists x ys sz' seen' s1, xs = x :: ys /\ dec_fields E R fs ps sz' seen' s1 = (Ok ys, s') /\
         ((is_borsh E = true -> borsh_field_unmarshaler t = None) /\
       dec_val E t (DStart (field_opt E tg (f_name h) sz)) p s0 = (Ok x, s1) /\
       ((ft_sizeof tg = EmptyString /\ sz' = sz) \/
        exists n, ft_sizeof tg <> EmptyString /\ sizeof_val t x = Some n /\ sz' = (ft_sizeof tg, n) :: sz))).
    { clear H. intros Hb H. apply bind_ok in H as (x & s1 & Hx & H). apply map_err_ok in Hx.
      destruct (String.eqb (ft_sizeof tg) "") eqn:Es.
      - apply String.eqb_eq in Es. apply fmap_ok in H as (ys & H & ->).
        do 5 eexists. do 2 (split; [eauto|]). split; [easy|]. split; [exact Hx|]. left. auto.
      - apply String.eqb_neq in Es. destruct (sizeof_val t x) as [n|] eqn:En; [|discriminate].
        apply fmap_ok in H as (ys & H & ->).
        do 5 eexists. do 2 (split; [eauto|]). split; [easy|]. split; [exact Hx|]. right. eauto. }
    destruct (is_borsh E) eqn:EB.
    - destruct (borsh_field_unmarshaler t) as [m|] eqn:Em.
      + apply bind_ok in H as (x & s1 & Hx & H). apply fmap_ok in H as (ys & H & ->).
        do 5 eexists. do 2 (split; [eauto|]). right. split; [reflexivity|]. left. eauto.
      + apply Hgen in H as (x & ys & sz' & sn & s1 & -> & Hr & Hd); [|easy].
        do 5 eexists. do 2 (split; [eauto|]). right. auto.
    - apply Hgen in H as (x & ys & sz' & sn & s1 & -> & Hr & Hd); [|easy].
      do 5 eexists. do 2 (split; [eauto|]). right. auto. }
  destruct (ft_ext tg) eqn:Eext.
  - apply bind_ok in H as (rest & s1 & Hr & H).
    assert (Hs1 : s1 = s).
    { revert Hr. unfold d_rest, bind, d_get. destruct (slice_from (d_data s) (d_pos s)); cbv [ret panic]; [|discriminate]. now injection 1. }
    subst s1. destruct rest as [|z rest].
    + apply fmap_ok in H as (ys & H & ->). do 5 eexists. do 2 (split; [eauto|]). left. repeat (split; [reflexivity|]). right. auto.
    + apply Hbody in H as (x & ys & sz' & sn & s1 & -> & Hrun & H).
      do 5 eexists. do 2 (split; [eauto|]). destruct H as [(-> & -> & -> & Hl)|[Hl H]]; rewrite Hl; [left|right]; auto.
  - apply Hbody in H as (x & ys & sz' & sn & s1 & -> & Hrun & H).
    do 5 eexists. do 2 (split; [eauto|]). destruct H as [(-> & -> & -> & Hl)|[Hl H]]; rewrite Hl; [left|right]; auto.
Qed.

Lemma dec_flds_nil E ps sz seen s xs s' :
  dec_flds E [] ps sz seen s = (Ok xs, s') -> ps = [] /\ xs = [] /\ s' = s.
Proof. unfold dec_flds. destruct ps; cbn [dec_fields]; [|discriminate]. injection 1 as <- <-. auto. Qed.
Lemma dec_flds_cons E ht fs ps sz seen s xs s' :
  dec_flds E (ht :: fs) ps sz seen s = (Ok xs, s') -> exists p ps', ps = p :: ps'.
Proof. unfold dec_flds. destruct ps, ht; cbn [dec_fields]; [discriminate|eauto]. Qed.

Definition decs_untouched (E : encoding) (t : ty) : Prop := forall o p s x s',
  dec_val E t (DWalk o false) p s = (Ok x, s') -> untouched E t p x.

Lemma dec_start_unflagged E t o p s x s' : o_opt o = false -> is_borsh E && o_copt o = false ->
  dec_val E t (DStart o) p s = (Ok x, s') ->
  exists s0, dec_val E t (DWalk o false) p s0 = (Ok x, s').
Proof.
  intros H1 H2. rewrite dec_start_eq, H1, H2. cbn [orb]. unfold bind, d_set_cur. eauto.
Qed.

Lemma dec_flds_untouched E fs : forall ps sz seen s xs s',
  Forall (fun ht => decs_untouched E (snd ht)) fs ->
  dec_flds E fs ps sz seen s = (Ok xs, s') -> untouched_fields (untouched E) E fs ps xs.
Proof.
  induction fs as [|[h t] fs IH]; intros ps sz seen s xs s' Hf H.
  - apply dec_flds_nil in H as (-> & -> & ->). exact I.
  - destruct (dec_flds_cons _ _ _ _ _ _ _ _ _ H) as (p & ps' & ->).
    apply dec_flds_step in H as (x & ys & sz' & sn & s1 & -> & Hr & Hd).
    inversion_clear Hf as [|? ? Ht Hfs]. cbn [untouched_fields]. split; [|eauto].
    destruct Hd as [(-> & _ & _ & Hl)|[Hl Hd]].
    { destruct (live h); auto. }
    rewrite Hl. destruct Hd as [(HB & _ & m & Hm & Hx)|(_ & Hx & _)].
    + right; right. unfold borsh_field_unmarshaler in Hm. destruct t as [| | | | | | | |t0| | | | |c t0|]; try discriminate.
      * destruct t0; try discriminate. destruct (c_unmarshal c) as [f|] eqn:Ec; [|discriminate].
        injection Hm as <-. apply fmap_ok in Hx as (y & Hx & ->). cbn [untouched]. exists y.
        split; [reflexivity|]. now rewrite Ec.
      * cbn [untouched]. intro Hn. rewrite Hn in Hm. discriminate.
    + destruct (flagged_field E (parse_field_tag (f_tag h))) eqn:Ef; [now left|]. right; right.
      unfold flagged_field in Ef. apply orb_false_elim in Ef as [E1 E2].
      apply dec_start_unflagged in Hx as (s0 & Hx); [eapply Ht; exact Hx|exact E1|].
      cbn [field_opt o_copt]. now rewrite andb_assoc, andb_diag.
Qed.

Lemma dec_untouched E t : decs_untouched E t.
Proof.
  induction t as [t IH] using ty_strong_ind. intros o p s x s' H. rewrite dec_walk_eq in H.
  destruct t as [|un w|nm w|f| |sg| | |t|n t|t|t1 t2|fs|c t|]; cbn [untouched]; auto.
  - apply fmap_ok in H as (y & H & ->). exists y. split; [reflexivity|].
    apply (IH t) in H; [|cbn; lia]. exact H.
  - intro Hu. cbn [with_pend] in H. rewrite Hu in H. destruct p; try discriminate.
    apply fmap_ok in H as (xs & H & ->). do 2 eexists. do 2 (split; [reflexivity|]).
    eapply each_dec_untouched; [|exact H]. intros p0 s0 x0 s0' H0.
    apply dec_start_unflagged in H0 as (s2 & H0); [|reflexivity|apply andb_false_r].
    apply (IH t) in H0; [exact H0|cbn; lia].
  - intro He. cbn [with_pend] in H. destruct p; try discriminate. unfold dec_struct in H.
    rewrite is_enum_spec, He in H. apply fmap_ok in H as (xs & H & ->).
    do 2 eexists. do 2 (split; [reflexivity|]).
    eapply dec_flds_untouched; [|exact H]. apply Forall_forall. intros [h t] Hin.
    apply (IH t). exact (ty_size_field _ _ _ Hin).
  - intro Hc. rewrite Hc in H. apply (IH t) in H; [exact H|cbn; lia].
Qed.

Lemma decode_untouched t p s x s' : decode t p s = (Ok x, s') -> untouched (d_enc s) t p x.
Proof.
  unfold decode, decode_target, bind at 1, d_get_enc. intro H.
  apply dec_start_unflagged in H as (s0 & H); [|reflexivity|apply andb_false_r].
  eapply dec_untouched, H.
Qed.

(** * Concatenation of structs, encoder *)

(** The state without the current byte order. *)
Definition forget (s : est) : est :=
  mkE (e_enc s) (e_w s) None (e_count s) (e_hist s) (e_acc s).
Definition visible {A} (r : outcome A * est) : outcome A * est := (fst r, forget (snd r)).

Lemma enc_full_cur E t o v s s' : forget s = forget s' ->
  enc_val E t (EFull o) v s = enc_val E t (EFull o) v s'.
Proof.
  destruct s, s'. unfold forget. cbn. injection 1 as -> -> -> -> ->. reflexivity || idtac.
  destruct t; cbn [enc_val]; cbv zeta; unfold bind at 1, e_set_cur;
    symmetry; unfold bind at 1, e_set_cur; reflexivity.
Qed.

Lemma enc_flds_cur E fs : forall vs sz s s', forget s = forget s' ->
  visible (enc_flds E fs vs sz s) = visible (enc_flds E fs vs sz s').
Proof.
  unfold enc_flds. induction fs as [|[h t] fs IH]; intros [|v vs] sz s s' Hs; cbn [enc_fields];
    try (unfold visible; cbn; now rewrite Hs).
  cbv zeta. destruct (ft_skip _); [now apply IH|].
  destruct (if String.eqb _ _ then _ else _) as [sz'|]; [|unfold visible; cbn; now rewrite Hs].
  destruct (negb (f_exported h)); [now apply IH|].
  unfold bind, map_err. now rewrite (enc_full_cur E t _ v s s' Hs).
Qed.

(** Fields without sizeof. *)
Definition sizeless (fs : list (fhdr * ty)) : Prop :=
  Forall (fun ht => ft_sizeof (parse_field_tag (f_tag (fst ht))) = EmptyString) fs.

Lemma enc_flds_app E fs2 vs2 fs1 : forall vs1 sz s, sizeless fs1 -> length vs1 = length fs1 ->
  enc_flds E (fs1 ++ fs2) (vs1 ++ vs2) sz s =
  (enc_flds E fs1 vs1 sz ;;; enc_flds E fs2 vs2 sz) s.
Proof.
  unfold enc_flds. induction fs1 as [|[h t] fs1 IH]; intros [|v vs1] sz s Hz Hl; try easy.
  injection Hl as Hl. inversion_clear Hz as [|? ? Hh Hfs]. cbn [fst] in Hh.
  cbn [app enc_fields]. cbv zeta. rewrite Hh. cbn [String.eqb].
  destruct (ft_skip _); [now apply IH|]. destruct (negb (f_exported h)); [now apply IH|].
  unfold bind. destruct (map_err _ _ s) as [[] s1]; try reflexivity. now apply IH.
Qed.

(** The first struct's codecs do not switch the encoding. *)
Lemma visible_bind {A B} (m : EM A) (k k' : A -> EM B) s :
  (forall a s1, m s = (Ok a, s1) -> visible (k a s1) = visible (k' a s1)) ->
  visible ((x <- m ;; k x) s) = visible ((x <- m ;; k' x) s).
Proof. intro H. unfold bind. destruct (m s) as [[a|e| | |] s1] eqn:E; auto. Qed.

Lemma scripted_keeps_enc {A} (m : EM A) s : scripted m -> e_enc (snd (m s)) = e_enc s.
Proof.
  intro H. destruct s as [E w c n hist acc]. destruct (H E c) as (cs & r & c' & Hs).
  specialize (Hs w n hist acc). destruct (play w cs n hist acc) as [[[[x|] n'] h'] a'].
  - destruct Hs as (e & c'' & _ & ->). reflexivity.
  - rewrite Hs. reflexivity.
Qed.

Lemma encode_app fs1 fs2 vs1 vs2 s :
  enum_struct (e_enc s) fs1 = false -> enum_struct (e_enc s) fs2 = false ->
  sizeless fs1 -> length vs1 = length fs1 -> all_codecs codec_scripted (TStruct fs1) ->
  visible (encode (TStruct (fs1 ++ fs2)) (VStruct (vs1 ++ vs2)) s) =
  visible ((encode (TStruct fs1) (VStruct vs1) ;;; encode (TStruct fs2) (VStruct vs2)) s).
Proof.
  intros H1 H2 Hz Hl Hc.
  assert (H12 : enum_struct (e_enc s) (fs1 ++ fs2) = false).
  { destruct fs1 as [|[h t] fs1]; [exact H2|]. exact H1. }
  rewrite encode_struct by exact H12. rewrite enc_flds_app by assumption.
  pose proof (scripted_keeps_enc _ s (scripted_encode (TStruct fs1) (VStruct vs1) Hc)) as He.
  unfold bind. rewrite encode_struct in * by exact H1.
  destruct (enc_flds (e_enc s) fs1 vs1 [] (at_le s)) as [[a|e| | |] s1]; try reflexivity.
  cbn [snd] in He. rewrite encode_struct; rewrite He; [|exact H2].
  apply enc_flds_cur. reflexivity.
Qed.

(** ... and therefore the bytes are. *)
Lemma marshal_anywhere E t v : all_codecs codec_scripted t ->
  exists cs r c', marshal E t v = (r, List.concat cs) /\
    forall c n hist acc, encode t v (mkE E buffer c n hist acc) =
      (r, mkE E buffer c' (n + total cs) (hist ++ cs) (acc ++ List.concat cs)).
Proof.
  intro Hc. destruct (scripted_encode t v Hc E None) as (cs & r & c' & Hs).
  pose proof (script_buffer _ _ _ _ _ _ Hs) as Hb. exists cs, r, c'. split.
  - unfold marshal, new_encoder. now rewrite Hb.
  - intros c n hist acc. rewrite <- Hb. unfold encode, bind, e_get_enc. cbn [e_enc].
    apply enc_full_cur. reflexivity.
Qed.

Lemma marshal_app E fs1 fs2 vs1 vs2 :
  enum_struct E fs1 = false -> enum_struct E fs2 = false ->
  sizeless fs1 -> length vs1 = length fs1 ->
  all_codecs codec_scripted (TStruct fs1) -> all_codecs codec_scripted (TStruct fs2) ->
  marshal E (TStruct (fs1 ++ fs2)) (VStruct (vs1 ++ vs2)) =
  let (r1, b1) := marshal E (TStruct fs1) (VStruct vs1) in
  match r1 with
  | Ok _ => let (r2, b2) := marshal E (TStruct fs2) (VStruct vs2) in (r2, b1 ++ b2)
  | _ => (r1, b1)
  end.
Proof.
  intros H1 H2 Hz Hl Hc1 Hc2.
  pose proof (encode_app fs1 fs2 vs1 vs2 (new_encoder E buffer) H1 H2 Hz Hl Hc1) as H.
  destruct (marshal_anywhere E _ (VStruct vs1) Hc1) as (cs1 & r1 & c1 & Hm1 & He1).
  destruct (marshal_anywhere E _ (VStruct vs2) Hc2) as (cs2 & r2 & c2 & Hm2 & He2).
  rewrite Hm1, Hm2. unfold marshal.
  destruct (encode (TStruct (fs1 ++ fs2)) (VStruct (vs1 ++ vs2)) (new_encoder E buffer)) as [r s].
  unfold bind, new_encoder in H. rewrite He1 in H. destruct r1 as [[]|e| | |].
  - rewrite He2 in H. injection H as -> _ _ _ _ ->. reflexivity.
  - injection H as -> _ _ _ _ ->. reflexivity.
  - injection H as -> _ _ _ _ ->. reflexivity.
  - injection H as -> _ _ _ _ ->. reflexivity.
  - injection H as -> _ _ _ _ ->. reflexivity.
Qed.

(** * Concatenation of structs, decoder *)

(** No extension fields. *)
Definition no_exts (fs : list (fhdr * ty)) : Prop :=
  Forall (fun ht => ft_ext (parse_field_tag (f_tag (fst ht))) = false) fs.
(** Extension fields only. *)
Definition all_exts (fs : list (fhdr * ty)) : Prop :=
  Forall (fun ht => ft_ext (parse_field_tag (f_tag (fst ht))) = true \/
                    ft_skip (parse_field_tag (f_tag (fst ht))) = true) fs.

Lemma fmap_fmap {S A B C} (f : A -> B) (g : B -> C) (m : SM S A) s :
  fmap g (fmap f m) s = fmap (fun a => g (f a)) m s.
Proof. unfold fmap, bind. destruct (m s) as [[]]; reflexivity. Qed.
Lemma fmap_eq {S A B} (f : A -> B) (m m' : SM S A) s s' : m s = m' s' -> fmap f m s = fmap f m' s'.
Proof. unfold fmap, bind. now intros ->. Qed.
Lemma bind_assoc {S A B C} (m : SM S A) (k : A -> SM S B) (l : B -> SM S C) s :
  bind (bind m k) l s = bind m (fun a => bind (k a) l) s.
Proof. unfold bind. destruct (m s) as [[]]; reflexivity. Qed.
Lemma bind_eq {S A B} (m : SM S A) (k k' : A -> SM S B) s :
  (forall a s1, k a s1 = k' a s1) -> bind m k s = bind m k' s.
Proof. intro H. unfold bind. destruct (m s) as [[]]; auto. Qed.

Lemma dec_flds_app E fs2 ps2 fs1 : forall ps1 sz s, sizeless fs1 -> no_exts fs1 ->
  length ps1 = length fs1 ->
  dec_flds E (fs1 ++ fs2) (ps1 ++ ps2) sz false s =
  (xs <- dec_flds E fs1 ps1 sz false ;; ys <- dec_flds E fs2 ps2 sz false ;; ret (xs ++ ys)) s.
Proof.
  unfold dec_flds. set (R := fun t' o' p' => dec_val E t' (DStart o') p').
  induction fs1 as [|[h t] fs1 IH]; intros [|p ps1] sz s Hz Hx Hl; try easy.
  { cbn [app dec_fields]. unfold bind at 1. cbn [ret]. unfold bind, ret.
    destruct (dec_fields E R fs2 ps2 sz false s) as [[]]; reflexivity. }
  injection Hl as Hl. inversion_clear Hz as [|? ? Hh Hfs]. inversion_clear Hx as [|? ? He Hes].
  cbn [fst] in *. cbn [app dec_fields]. cbv zeta. rewrite Hh, He. cbn [String.eqb negb andb orb].
  assert (Hc : forall x s, fmap (cons x) (dec_fields E R (fs1 ++ fs2) (ps1 ++ ps2) sz false) s =
    (xs <- fmap (cons x) (dec_fields E R fs1 ps1 sz false) ;;
     ys <- dec_fields E R fs2 ps2 sz false ;; ret (xs ++ ys)) s).
  { intros x s0. unfold fmap at 1. unfold bind at 1. rewrite (IH _ _ _ Hfs Hes Hl).
    unfold fmap, bind, ret. destruct (dec_fields E R fs1 ps1 sz false s0) as [[xs|e| | |] s1]; try reflexivity.
    destruct (dec_fields E R fs2 ps2 sz false s1) as [[ys|e| | |] s2]; reflexivity. }
  destruct (ft_skip _); [apply Hc|]. destruct (negb (f_exported h)); [apply Hc|].
  assert (Hb : forall (m : DM val),
    (x <- m ;; fmap (cons x) (dec_fields E R (fs1 ++ fs2) (ps1 ++ ps2) sz false)) s =
    (xs <- (x <- m ;; fmap (cons x) (dec_fields E R fs1 ps1 sz false)) ;;
     ys <- dec_fields E R fs2 ps2 sz false ;; ret (xs ++ ys)) s).
  { intro m. rewrite bind_assoc. unfold bind at 1. symmetry. unfold bind at 1. symmetry.
    destruct (m s) as [[x|e| | |] s1]; try reflexivity. apply Hc. }
  destruct (is_borsh E); [destruct (borsh_field_unmarshaler t)|]; apply Hb.
Qed.

Definition dforget (s : dst) : dst := mkD (d_data s) (d_pos s) None (d_enc s).
Definition dvisible {A} (r : outcome A * dst) : outcome A * dst := (fst r, dforget (snd r)).

Lemma dec_start_cur E t o v s s' : dforget s = dforget s' ->
  dec_val E t (DStart o) v s = dec_val E t (DStart o) v s'.
Proof.
  destruct s, s'. unfold dforget. cbn. injection 1 as -> -> ->.
  rewrite dec_start_eq. reflexivity.
Qed.

(** No field has its own UnmarshalWithDecoder. *)
Definition no_own_decoder (E : encoding) (fs : list (fhdr * ty)) : Prop :=
  E = Borsh -> Forall (fun ht => borsh_field_unmarshaler (snd ht) = None) fs.

Lemma dvisible_fmap {A B} (f : A -> B) (m : DM A) s s' :
  dvisible (m s) = dvisible (m s') -> dvisible (fmap f m s) = dvisible (fmap f m s').
Proof.
  unfold dvisible, fmap, bind. destruct (m s) as [[] ?], (m s') as [[] ?]; cbn; injection 1; intros; subst;
    unfold dforget; congruence.
Qed.

Lemma dec_flds_cur E fs : forall ps sz sn s s', no_own_decoder E fs -> dforget s = dforget s' ->
  dvisible (dec_flds E fs ps sz sn s) = dvisible (dec_flds E fs ps sz sn s').
Proof.
  unfold dec_flds. set (R := fun t' o' p' => dec_val E t' (DStart o') p').
  induction fs as [|[h t] fs IH]; intros [|p ps] sz sn s s' Hn Hs; cbn [dec_fields];
    try (unfold dvisible; cbn; now rewrite Hs).
  assert (Hn' : no_own_decoder E fs).
  { intro HE. specialize (Hn HE). now inversion_clear Hn. }
  cbv zeta. destruct (ft_skip _); [now apply dvisible_fmap, IH|].
  destruct (_ && sn); [unfold dvisible; cbn; now rewrite Hs|].
  set (tg := parse_field_tag (f_tag h)).
  set (body := if negb (f_exported h) then _ else _).
  assert (Hbody : dvisible (body s) = dvisible (body s')).
  { unfold body. destruct (negb (f_exported h)); [now apply dvisible_fmap, IH|].
    assert (Hg : forall k : val -> DM (list val),
      dvisible ((x <- map_err EWrap (R t (field_opt E tg (f_name h) sz) p) ;; k x) s) =
      dvisible ((x <- map_err EWrap (R t (field_opt E tg (f_name h) sz) p) ;; k x) s')).
    { intro k. unfold bind, map_err, R. now rewrite (dec_start_cur E t _ p s s' Hs). }
    destruct (is_borsh E) eqn:EB; [|apply Hg].
    assert (HE : E = Borsh) by (destruct E; easy). specialize (Hn HE). inversion_clear Hn as [|? ? H0 _].
    cbn [snd] in H0. rewrite H0. apply Hg. }
  destruct (ft_ext tg); [|exact Hbody].
  unfold bind at 1 2, d_rest, d_get. unfold bind.
  assert (Hd : d_data s = d_data s' /\ d_pos s = d_pos s') by (destruct s, s'; injection Hs; auto).
  destruct Hd as [-> ->].
  destruct (slice_from (d_data s') (d_pos s')) as [[|z r]|]; cbv [ret panic].
  - now apply dvisible_fmap, IH.
  - exact Hbody.
  - unfold dvisible. cbn. now rewrite Hs.
Qed.

Lemma decode_app fs1 fs2 ps1 ps2 s :
  enum_struct (d_enc s) fs1 = false -> enum_struct (d_enc s) fs2 = false ->
  sizeless fs1 -> no_exts fs1 -> no_own_decoder (d_enc s) fs2 -> length ps1 = length fs1 ->
  (forall xs s1, decode (TStruct fs1) (VStruct ps1) s = (Ok xs, s1) -> d_enc s1 = d_enc s) ->
  dvisible (decode (TStruct (fs1 ++ fs2)) (VStruct (ps1 ++ ps2)) s) =
  dvisible ((x <- decode (TStruct fs1) (VStruct ps1) ;;
             y <- decode (TStruct fs2) (VStruct ps2) ;;
             match x, y with
             | VStruct xs, VStruct ys => ret (VStruct (xs ++ ys))
             | _, _ => stuck
             end) s).
Proof.
  intros H1 H2 Hz Hx Hn Hl He.
  assert (H12 : enum_struct (d_enc s) (fs1 ++ fs2) = false).
  { destruct fs1 as [|[h t] fs1]; [exact H2|]. exact H1. }
  rewrite decode_struct by exact H12. unfold fmap at 1. unfold bind at 1.
  rewrite dec_flds_app by assumption.
  pose proof (decode_struct fs1 ps1 s H1) as Hd1.
  unfold bind at 1. symmetry. unfold bind at 1. symmetry. rewrite Hd1. 
  assert (He' : forall xs s1, dec_flds (d_enc s) fs1 ps1 [] false (dat_le s) = (Ok xs, s1) -> d_enc s1 = d_enc s).
  { intros xs s1 Hr. apply (He (VStruct xs)). rewrite Hd1. unfold fmap, bind. now rewrite Hr. }
  clear He Hd1. unfold fmap, bind, ret.
  destruct (dec_flds (d_enc s) fs1 ps1 [] false (dat_le s)) as [[xs|e| | |] s1]; try reflexivity.
  specialize (He' _ _ eq_refl). rewrite decode_struct; rewrite He'; [|exact H2].
  pose proof (dec_flds_cur (d_enc s) fs2 ps2 [] false s1 (dat_le s1) Hn) as Hv.
  unfold fmap, bind, ret.
  destruct (dec_flds (d_enc s) fs2 ps2 [] false s1) as [[] ?], (dec_flds (d_enc s) fs2 ps2 [] false (dat_le s1)) as [[] ?];
    specialize (Hv eq_refl); injection Hv; intros; subst; unfold dvisible, dforget; cbn; congruence.
Qed.

(** * Extension fields *)

Lemma dec_flds_exts E es : forall qs sz sn s, all_exts es -> length qs = length es ->
  d_rest s = (Ok [], s) -> dec_flds E es qs sz sn s = (Ok qs, s).
Proof.
  unfold dec_flds. induction es as [|[h t] es IH]; intros [|q qs] sz sn s Ha Hl Hr; try easy.
  injection Hl as Hl. inversion_clear Ha as [|? ? Hh Hes]. cbn [fst] in Hh.
  cbn [dec_fields]. cbv zeta. set (tg := parse_field_tag (f_tag h)) in *.
  destruct (ft_skip tg).
  { unfold fmap, bind. now rewrite IH. }
  destruct Hh as [Hh|Hh]; [|discriminate]. rewrite Hh. cbn [negb andb].
  unfold bind at 1. rewrite Hr. unfold fmap, bind. now rewrite IH.
Qed.

Lemma dec_flds_missing E es qs fs : forall ps sz sn s xs s',
  all_exts es -> length qs = length es ->
  dec_flds E fs ps sz sn s = (Ok xs, s') -> d_rest s' = (Ok [], s') ->
  dec_flds E (fs ++ es) (ps ++ qs) sz sn s = (Ok (xs ++ qs), s').
Proof.
  unfold dec_flds. set (R := fun t' o' p' => dec_val E t' (DStart o') p').
  induction fs as [|[h t] fs IH]; intros ps sz sn s xs s' Ha Hl H Hr.
  { destruct (dec_flds_nil E ps sz sn s xs s' H) as (-> & -> & ->). now apply dec_flds_exts. }
  destruct ps as [|p ps]; [discriminate|]. cbn [app dec_fields] in *. cbv zeta in *.
  set (tg := parse_field_tag (f_tag h)) in *.
  assert (Hc : forall x sz sn s, fmap (cons x) (dec_fields E R fs ps sz sn) s = (Ok xs, s') ->
    fmap (cons x) (dec_fields E R (fs ++ es) (ps ++ qs) sz sn) s = (Ok (xs ++ qs), s')).
  { intros x sz0 sn0 s0 H0. apply fmap_ok in H0 as (ys & H0 & ->).
    apply IH in H0; try assumption. unfold fmap, bind. now rewrite H0. }
  destruct (ft_skip tg); [now apply Hc|].
  destruct (negb (ft_ext tg) && sn); [discriminate|].
  assert (Hb : forall (m : DM val) (k k' : val -> DM (list val)) s,
    (forall x s1, k x s1 = (Ok xs, s') -> k' x s1 = (Ok (xs ++ qs), s')) ->
    (x <- m ;; k x) s = (Ok xs, s') -> (x <- m ;; k' x) s = (Ok (xs ++ qs), s')).
  { intros m k k' s0 Hk H0. apply bind_ok in H0 as (x & s1 & Hm & H0).
    unfold bind. rewrite Hm. now apply Hk. }
  match type of H with
  | (if ft_ext tg then _ else ?b) s = _ => set (body := b) in H
  end.
  match goal with
  | |- (if ft_ext tg then _ else ?b) s = _ => set (body' := b)
  end.
  assert (Hbody : forall s1, body s1 = (Ok xs, s') -> body' s1 = (Ok (xs ++ qs), s')).
  { intros s1. unfold body, body'. destruct (negb (f_exported h)); [apply Hc|].
    assert (Hg : (x <- map_err EWrap (R t (field_opt E tg (f_name h) sz) p) ;;
       (if String.eqb (ft_sizeof tg) "" then fmap (cons x) (dec_fields E R fs ps sz (sn || ft_ext tg))
        else match sizeof_val t x with
             | None => panic
             | Some n => fmap (cons x) (dec_fields E R fs ps ((ft_sizeof tg, n) :: sz) (sn || ft_ext tg))
             end)) s1 = (Ok xs, s') ->
      (x <- map_err EWrap (R t (field_opt E tg (f_name h) sz) p) ;;
       (if String.eqb (ft_sizeof tg) "" then fmap (cons x) (dec_fields E R (fs ++ es) (ps ++ qs) sz (sn || ft_ext tg))
        else match sizeof_val t x with
             | None => panic
             | Some n => fmap (cons x) (dec_fields E R (fs ++ es) (ps ++ qs) ((ft_sizeof tg, n) :: sz) (sn || ft_ext tg))
             end)) s1 = (Ok (xs ++ qs), s')).
    { apply Hb. intros x s2. destruct (String.eqb _ _); [apply Hc|].
      destruct (sizeof_val t x); [apply Hc|discriminate]. }
    destruct (is_borsh E); [|exact Hg]. destruct (borsh_field_unmarshaler t) as [m|]; [|exact Hg].
    apply Hb. intros x s2. apply Hc. }
  destruct (ft_ext tg); [|now apply Hbody].
  apply bind_ok in H as (rest & s1 & Hrest & H). unfold bind at 1. rewrite Hrest.
  destruct rest; [now apply Hc|now apply Hbody].
Qed.

(** All data read: nothing is left for the extension fields. *)
Definition at_end (s : dst) : Prop := d_pos s = zlen (d_data s).
Lemma at_end_rest s : at_end s -> d_rest s = (Ok [], s).
Proof.
  intro H. unfold at_end in H. unfold d_rest, bind, d_get. rewrite H. unfold slice_from.
  pose proof (zlen_nonneg (d_data s)).
  replace ((0 <=? zlen (d_data s)) && (zlen (d_data s) <=? zlen (d_data s))) with true
    by (symmetry; apply andb_true_intro; split; apply Z.leb_le; lia).
  rewrite skipn_all2; [reflexivity|]. unfold zlen. lia.
Qed.

Lemma enum_app E fs es : enum_struct E fs = false -> enum_struct E es = false ->
  enum_struct E (fs ++ es) = false.
Proof. now destruct fs as [|[h t] fs]. Qed.

Lemma decode_missing fs es ps qs s xs s' :
  enum_struct (d_enc s) fs = false -> enum_struct (d_enc s) es = false ->
  all_exts es -> length qs = length es ->
  decode (TStruct fs) (VStruct ps) s = (Ok (VStruct xs), s') -> at_end s' ->
  decode (TStruct (fs ++ es)) (VStruct (ps ++ qs)) s = (Ok (VStruct (xs ++ qs)), s').
Proof.
  intros He He' Ha Hl H Hend. rewrite decode_struct in * by auto using enum_app.
  apply fmap_ok in H as (ys & H & [= ->]). unfold fmap, bind.
  rewrite (dec_flds_missing _ es qs fs ps [] false _ ys s'); auto using at_end_rest.
Qed.

(** Written by a version of the struct with the fields [fs] (some of which may
    be extensions), read by one with further extensions [es]. *)
Lemma older_data E fs es vs ps qs :
  enum_struct E fs = false -> enum_struct E es = false -> all_exts es -> length qs = length es ->
  ok E (TStruct fs) None LE (VStruct vs) -> fits (TStruct fs) (VStruct ps) ->
  exists b xs,
    marshal E (TStruct fs) (VStruct vs) = (Ok tt, b) /\
    unmarshal E (TStruct fs) (VStruct ps) b = Ok (VStruct xs) /\
    unmarshal E (TStruct (fs ++ es)) (VStruct (ps ++ qs)) b = Ok (VStruct (xs ++ qs)).
Proof.
  intros He He' Ha Hl Hok Hf.
  exists (wire E (TStruct fs) None LE (VStruct vs)), (back_fields E (back E) fs ps vs no_sizes).
  split; [now apply marshal_wire|].
  destruct (decode_run E (TStruct fs) (VStruct vs) (VStruct ps) [] [] None Hok Hf) as (c' & H).
  cbn [back] in H. rewrite He in H.
  assert (H' : decode (TStruct fs) (VStruct ps) (new_decoder E (wire E (TStruct fs) None LE (VStruct vs))) =
    (Ok (VStruct (back_fields E (back E) fs ps vs no_sizes)),
     mkD (wire E (TStruct fs) None LE (VStruct vs)) (zlen (wire E (TStruct fs) None LE (VStruct vs))) c' E)).
  { change (zlen []) with 0 in H. cbn [app] in H. rewrite app_nil_r in H. rewrite Z.add_0_l in H. exact H. }
  split; unfold unmarshal.
  - now rewrite H'.
  - rewrite (decode_missing fs es ps qs (new_decoder E (wire E (TStruct fs) None LE (VStruct vs))) _ _ He He' Ha Hl H' eq_refl). reflexivity.
Qed.

Lemma wire_fields_app E W es ws fs : forall vs s, length vs = length fs -> exists post,
  wire_fields E W (fs ++ es) (vs ++ ws) s = wire_fields E W fs vs s ++ post.
Proof.
  induction fs as [|[h t] fs IH]; intros [|v vs] s Hl; try easy.
  { eexists. reflexivity. }
  injection Hl as Hl. cbn [app wire_fields]. cbv zeta. destruct (live h).
  - destruct (IH vs (bind_size (parse_field_tag (f_tag h)) v s) Hl) as (post & ->). exists post.
    now rewrite <- app_assoc.
  - exact (IH vs s Hl).
Qed.

(** ... and the other way round: a reader that does not know the extensions
    gets the fields it knows and leaves the rest of the bytes. *)
Lemma newer_data E fs es vs ws ps :
  enum_struct E fs = false -> enum_struct E es = false -> length vs = length fs ->
  ok E (TStruct fs) None LE (VStruct vs) -> ok E (TStruct (fs ++ es)) None LE (VStruct (vs ++ ws)) ->
  fits (TStruct fs) (VStruct ps) ->
  exists b b', marshal E (TStruct fs) (VStruct vs) = (Ok tt, b) /\
    marshal E (TStruct (fs ++ es)) (VStruct (vs ++ ws)) = (Ok tt, b ++ b') /\
    unmarshal E (TStruct fs) (VStruct ps) (b ++ b') = unmarshal E (TStruct fs) (VStruct ps) b.
Proof.
  intros He He' Hl Hok Hok' Hf.
  destruct (wire_fields_app E (wire E) es ws fs vs no_sizes Hl) as (post & Hw).
  exists (wire E (TStruct fs) None LE (VStruct vs)), post.
  split; [now apply marshal_wire|]. split.
  - rewrite marshal_wire by exact Hok'. cbn [wire]. rewrite He, (enum_app _ _ _ He He'), Hw. reflexivity.
  - unfold unmarshal, new_decoder.
    destruct (decode_run E (TStruct fs) (VStruct vs) (VStruct ps) [] post None Hok Hf) as (c1 & H1).
    destruct (decode_run E (TStruct fs) (VStruct vs) (VStruct ps) [] [] None Hok Hf) as (c2 & H2).
    change (zlen []) with 0 in *. cbn [app] in H1, H2. rewrite app_nil_r in H2. now rewrite H1, H2.
Qed.

(** * Optional fields *)

Lemma write_flag_eq E b : write_flag E b = to_writer (flag E b).
Proof. destruct E, b; reflexivity. Qed.
Lemma write_coption_eq b : write_coption b = to_writer (cflag b).
Proof. destruct b; reflexivity. Qed.

Lemma encode_one h t v s : enum_struct (e_enc s) [(h, t)] = false -> live h = true ->
  ft_sizeof (parse_field_tag (f_tag h)) = EmptyString ->
  encode (TStruct [(h, t)]) (VStruct [v]) s =
  (map_err EWrap (enc_val (e_enc s) t
     (EFull (field_opt (e_enc s) (parse_field_tag (f_tag h)) (f_name h) [])) v) ;;; ret tt) s.
Proof.
  intros He Hl Hs. rewrite encode_struct by exact He. unfold enc_flds. cbn [enc_fields]. cbv zeta.
  unfold live in Hl. apply andb_prop in Hl as [Hsk Hex]. apply negb_true_iff in Hsk.
  rewrite Hsk, Hs, Hex. cbn [String.eqb negb]. unfold bind, map_err.
  rewrite (enc_full_cur _ _ _ _ (at_le s) s eq_refl). reflexivity.
Qed.

Lemma enc_absent E t o v s : o_opt o = true -> is_zero v = true ->
  enc_val E t (EFull o) v s = (e_set_cur (o_order o) ;;; to_writer (flag E false)) s.
Proof.
  intros Ho Hz. rewrite enc_val_unflag, Ho, Hz, write_flag_eq. reflexivity.
Qed.
Lemma enc_present E t o v s : o_opt o = true -> is_zero v = false ->
  enc_val E t (EFull o) v s =
  (e_set_cur (o_order o) ;;; to_writer (flag E true) ;;;
   enc_val E t (EFull (mkOpt false (o_copt o) (o_size o) (o_order o))) v) s.
Proof.
  intros Ho Hz. rewrite enc_val_unflag, Ho, Hz, write_flag_eq. cbv zeta.
  unfold bind at 1. symmetry. unfold bind at 1. symmetry. unfold e_set_cur at 1 2.
  unfold bind at 1. symmetry. unfold bind at 1. symmetry.
  destruct (to_writer _ _) as [[] s1] eqn:Ew; try reflexivity.
  rewrite (enc_val_unflag E t (mkOpt false (o_copt o) (o_size o) (o_order o))).
  cbn [o_order o_opt o_copt]. unfold cut_opt. cbn [o_size o_order]. cbv zeta.
  assert (Hs1 : e_set_cur (o_order o) s1 = (Ok tt, s1)).
  { unfold to_writer in Ew. cbn in Ew. destruct (e_w s _) as [[k n]|]; [discriminate|].
    injection Ew as Ew. subst s1. reflexivity. }
  symmetry. unfold bind at 1. rewrite Hs1, ?Hz. reflexivity.
Qed.

Definition opt_tag (o : order) (opt copt ext en : bool) : field_tag :=
  mkFT EmptyString false o opt copt ext en.

(** [h] is [h'] with the word optional (coption) added to its tag. *)
Definition made_optional (h h' : fhdr) : Prop := exists o copt ext en,
  f_exported h = true /\ f_exported h' = true /\ f_name h = f_name h' /\
  parse_field_tag (f_tag h) = opt_tag o true copt ext en /\
  parse_field_tag (f_tag h') = opt_tag o false copt ext en.
Definition made_coptional (h h' : fhdr) : Prop := exists o ext en,
  f_exported h = true /\ f_exported h' = true /\ f_name h = f_name h' /\
  parse_field_tag (f_tag h) = opt_tag o false true ext en /\
  parse_field_tag (f_tag h') = opt_tag o false false ext en.

(** The state after the writer has accepted [b]. *)
Definition wrote (b : list Z) (s : est) : est :=
  mkE (e_enc s) (e_w s) (e_cur s) (e_count s + zlen b) (e_hist s ++ [b]) (e_acc s ++ b).
Definition accepts (b : list Z) (s : est) : Prop := e_w s (e_hist s ++ [b]) = None.
Lemma to_writer_ok b s : accepts b s -> to_writer b s = (Ok tt, wrote b s).
Proof. unfold accepts, to_writer, wrote. now intros ->. Qed.

Lemma optional_absent h h' t v s : made_optional h h' ->
  enum_struct (e_enc s) [(h, t)] = false -> is_zero v = true -> accepts (flag (e_enc s) false) s ->
  visible (encode (TStruct [(h, t)]) (VStruct [v]) s) =
  (Ok tt, forget (wrote (flag (e_enc s) false) s)).
Proof.
  intros (o & cp & ext & en & Hex & _ & _ & Ht & _) He Hz Ha.
  rewrite encode_one; [|exact He|unfold live; now rewrite Ht, Hex|now rewrite Ht].
  unfold bind at 1, map_err. rewrite enc_absent; [|now rewrite Ht|exact Hz].
  unfold bind, e_set_cur. rewrite to_writer_ok by exact Ha. reflexivity.
Qed.

Lemma optional_present h h' t v s : made_optional h h' ->
  enum_struct (e_enc s) [(h, t)] = false -> is_zero v = false -> accepts (flag (e_enc s) true) s ->
  encode (TStruct [(h, t)]) (VStruct [v]) s =
  encode (TStruct [(h', t)]) (VStruct [v]) (wrote (flag (e_enc s) true) s).
Proof.
  intros (o & cp & ext & en & Hex & Hex' & Hn & Ht & Ht') He Hz Ha.
  assert (He' : enum_struct (e_enc s) [(h', t)] = false).
  { unfold enum_struct in *. rewrite Ht in He. rewrite Ht'. exact He. }
  rewrite (encode_one h), (encode_one h');
    [|exact He'|unfold live; now rewrite Ht', Hex'|now rewrite Ht'
     |exact He|unfold live; now rewrite Ht, Hex|now rewrite Ht].
  unfold bind at 1 2, map_err. rewrite enc_present; [|now rewrite Ht|exact Hz].
  unfold bind at 1. unfold e_set_cur at 1. unfold bind at 1. rewrite to_writer_ok by exact Ha.
  rewrite Ht, Ht'. cbn [wrote e_enc]. unfold field_opt. cbn [opt_tag ft_option ft_coption ft_order sm_get o_copt o_size o_order].
  assert (Hc : forall E0 m c, enc_val E0 t (EFull m) v
      (wrote (flag (e_enc s) true) (mkE (e_enc s) (e_w s) c (e_count s) (e_hist s) (e_acc s))) =
    enc_val E0 t (EFull m) v (wrote (flag (e_enc s) true) s)) by (intros; apply enc_full_cur; reflexivity).
  rewrite Hc. reflexivity.
Qed.

Lemma coptional_absent h h' t v s : made_coptional h h' -> e_enc s = Borsh ->
  enum_struct Borsh [(h, t)] = false -> is_zero v = true -> accepts (cflag false) s ->
  visible (encode (TStruct [(h, t)]) (VStruct [v]) s) = (Ok tt, forget (wrote (cflag false) s)).
Proof.
  intros (o & ext & en & Hex & _ & _ & Ht & _) HE He Hz Ha.
  rewrite encode_one; rewrite ?HE; [|exact He|unfold live; now rewrite Ht, Hex|now rewrite Ht].
  unfold bind at 1, map_err. rewrite enc_val_unflag, Ht, Hz, write_coption_eq.
  cbn [field_opt opt_tag ft_option ft_coption o_opt o_copt is_borsh andb o_order]. cbv zeta.
  unfold bind, e_set_cur. rewrite to_writer_ok by exact Ha. reflexivity.
Qed.

Lemma coptional_present h h' t v s : made_coptional h h' -> e_enc s = Borsh ->
  enum_struct Borsh [(h, t)] = false -> is_zero v = false -> accepts (cflag true) s ->
  encode (TStruct [(h, t)]) (VStruct [v]) s =
  encode (TStruct [(h', t)]) (VStruct [v]) (wrote (cflag true) s).
Proof.
  intros (o & ext & en & Hex & Hex' & Hn & Ht & Ht') HE He Hz Ha.
  assert (He' : enum_struct Borsh [(h', t)] = false).
  { unfold enum_struct in *. rewrite Ht in He. rewrite Ht'. exact He. }
  rewrite (encode_one h), (encode_one h'); cbn [wrote e_enc]; rewrite ?HE;
    [|exact He'|unfold live; now rewrite Ht', Hex'|now rewrite Ht'
     |exact He|unfold live; now rewrite Ht, Hex|now rewrite Ht].
  unfold bind at 1 2, map_err. rewrite enc_val_unflag, Ht, Ht', Hz, write_coption_eq.
  cbn [field_opt opt_tag ft_option ft_coption ft_order o_opt o_copt o_size is_borsh andb o_order sm_get]. cbv zeta.
  unfold bind at 1. unfold e_set_cur at 1. unfold bind at 1. rewrite to_writer_ok by exact Ha.
  assert (Hc : forall E0 m c, enc_val E0 t (EFull m) v
      (wrote (cflag true) (mkE (e_enc s) (e_w s) c (e_count s) (e_hist s) (e_acc s))) =
    enc_val E0 t (EFull m) v (wrote (cflag true) s)) by (intros; apply enc_full_cur; reflexivity).
  rewrite Hc. reflexivity.
Qed.

Lemma dec_walk_opt E t : forall o o' b v, o_size o = o_size o' -> o_order o = o_order o' ->
  dec_val E t (DWalk o b) v = dec_val E t (DWalk o' b) v.
Proof.
  induction t as [t IH] using ty_strong_ind. intros o o' b v Hs Ho. rewrite !dec_walk_eq.
  rewrite Hs, Ho. destruct t as [|un w|nm w|f| |sg| | |t|n t|t|t1 t2|fs|c t|]; try reflexivity.
  - rewrite (IH t) with (o' := o'); auto; cbn; lia.
  - destruct (c_unmarshal c); [reflexivity|]. apply (IH t); auto; cbn; lia.
Qed.

Lemma decode_one h t p s : enum_struct (d_enc s) [(h, t)] = false -> live h = true ->
  ft_sizeof (parse_field_tag (f_tag h)) = EmptyString -> ft_ext (parse_field_tag (f_tag h)) = false ->
  (d_enc s = Borsh -> borsh_field_unmarshaler t = None) ->
  decode (TStruct [(h, t)]) (VStruct [p]) s =
  fmap (fun x => VStruct [x]) (map_err EWrap (dec_val (d_enc s) t
     (DStart (field_opt (d_enc s) (parse_field_tag (f_tag h)) (f_name h) [])) p)) s.
Proof.
  intros He Hl Hs Hx Hb. rewrite decode_struct by exact He. unfold dec_flds. cbn [dec_fields]. cbv zeta.
  unfold live in Hl. apply andb_prop in Hl as [Hsk Hex]. apply negb_true_iff in Hsk.
  rewrite Hsk, Hs, Hex, Hx. cbn [String.eqb negb andb].
  assert (Hg : forall m : DM val, fmap VStruct (x <- map_err EWrap m ;; fmap (cons x) (ret [])) (dat_le s) =
    fmap (fun x => VStruct [x]) (map_err EWrap m) (dat_le s)).
  { intro m. unfold fmap, bind. destruct (map_err EWrap m (dat_le s)) as [[]]; reflexivity. }
  assert (Hc : forall o, fmap (fun x => VStruct [x]) (map_err EWrap (dec_val (d_enc s) t (DStart o) p)) (dat_le s) =
    fmap (fun x => VStruct [x]) (map_err EWrap (dec_val (d_enc s) t (DStart o) p)) s).
  { intro o. unfold fmap, bind, map_err. now rewrite (dec_start_cur _ t o p (dat_le s) s eq_refl). }
  destruct (d_enc s) eqn:EE; cbn [is_borsh]; try rewrite (Hb eq_refl); rewrite Hg; apply Hc.
Qed.

(** The decoder behind the bytes [b]. *)
Definition at_bytes (E : encoding) (c : option order) (pre b post : list Z) : dst :=
  mkD (pre ++ b ++ post) (zlen pre) c E.
Definition past_bytes (E : encoding) (c : option order) (pre b post : list Z) : dst :=
  mkD (pre ++ b ++ post) (zlen pre + zlen b) c E.

(** A type behind which the absent flag resets the variable itself. *)
Definition resettable (t : ty) : Prop :=
  has_unmarshal t = None /\ match t with TPtr (TPtr _) | TDeep => False | _ => True end.

Lemma dec_null_flagged E t o v : resettable t -> dec_val E t (DNull o) v = dec_flagged E t o v.
Proof.
  intros [Hu Ht]. rewrite dec_null_eq.
  destruct t as [|un w|nm w|f| |sg| | |t|n t|t|t1 t2|fs|c t|]; try reflexivity; try easy.
  - destruct t; easy.
  - cbn [has_unmarshal] in Hu. now rewrite Hu.
Qed.

Lemma dec_absent h h' t p E c pre post :
  made_optional h h' \/ (E = Borsh /\ made_coptional h h') ->
  enum_struct E [(h, t)] = false -> ft_ext (parse_field_tag (f_tag h)) = false ->
  resettable t -> (E = Borsh -> borsh_field_unmarshaler t = None) ->
  let b := if ft_option (parse_field_tag (f_tag h)) then flag E false else cflag false in
  dvisible (decode (TStruct [(h, t)]) (VStruct [p]) (at_bytes E c pre b post)) =
  (Ok (VStruct [zero_val t]), past_bytes E None pre b post).
Proof.
  intros Hm He Hx Ht Hb.
  assert (HT : exists o op cp ext en, parse_field_tag (f_tag h) = opt_tag o op cp ext en /\ f_exported h = true /\
    ((op = true) \/ (op = false /\ cp = true /\ E = Borsh))).
  { destruct Hm as [(o & cp & ext & en & Hex & _ & _ & HT & _)|(HE & o & ext & en & Hex & _ & _ & HT & _)];
      do 5 eexists; split; [exact HT|auto|exact HT|auto]. }
  destruct HT as (o & op & cp & ext & en & HT & Hex & Hop). intro b.
  assert (Hb' : b = if op then flag E false else cflag false) by (unfold b; now rewrite HT).
  clearbody b. subst b. set (b := if op then flag E false else cflag false).
  rewrite decode_one; [|exact He|unfold live; now rewrite HT, Hex|now rewrite HT|exact Hx|exact Hb].
  cbn [at_bytes d_enc]. rewrite HT in *. unfold fmap, bind at 1, map_err.
  rewrite dec_start_eq. cbn [field_opt opt_tag ft_option ft_coption o_opt o_copt].
  replace (op || is_borsh E && (is_borsh E && cp)) with true
    by (destruct Hop as [->|(-> & -> & ->)]; reflexivity).
  rewrite dec_null_flagged by exact Ht. unfold bind at 1, d_set_cur, dec_flagged.
  cbn [field_opt opt_tag ft_option ft_coption o_opt o_copt o_order ft_order].
  unfold at_bytes. cbn [d_data d_pos d_enc].
  unfold b in *. destruct Hop as [->|(-> & -> & ->)].
  - unfold bind at 1. rewrite (keeps_flag E false pre post (Some o)). reflexivity.
  - unfold bind at 1. rewrite (keeps_cflag Borsh false pre post (Some o)). reflexivity.
Qed.

Lemma dec_null_present E t : forall o v s s1, has_unmarshal t = None -> t <> TDeep ->
  o_opt o = true -> is_borsh E && o_copt o = false -> read_flag E s = (Ok true, s1) ->
  dec_val E t (DNull o) v s = dec_val E t (DWalk o false) v s1.
Proof.
  induction t as [t IH] using ty_strong_ind. intros o v s s1 Hu Hd Ho Hc Hr.
  assert (Hf : dec_flagged E t o v s = dec_val E t (DWalk o false) v s1).
  { unfold dec_flagged. rewrite Ho, Hc. unfold bind. now rewrite Hr. }
  rewrite dec_null_eq.
  destruct t as [|un w|nm w|f| |sg| | |t|n t|t|t1 t2|fs|c t|]; try exact Hf; try easy.
  - destruct (is_ptr t) eqn:Ep; [|exact Hf]. destruct v; try exact Hf. destruct p; try exact Hf.
    rewrite dec_walk_eq. apply fmap_eq. cbn [pointee].
    destruct t; try discriminate. apply IH; try easy. cbn. lia.
  - cbn [has_unmarshal] in Hu. rewrite Hu. exact Hf.
Qed.
Lemma dec_null_cpresent E t : forall o v s s1, has_unmarshal t = None -> t <> TDeep ->
  o_opt o = false -> read_cflag s = (Ok true, s1) ->
  dec_val E t (DNull o) v s = dec_val E t (DWalk o false) v s1.
Proof.
  induction t as [t IH] using ty_strong_ind. intros o v s s1 Hu Hd Ho Hr.
  assert (Hf : dec_flagged E t o v s = dec_val E t (DWalk o false) v s1).
  { unfold dec_flagged. rewrite Ho. unfold bind. now rewrite Hr. }
  rewrite dec_null_eq.
  destruct t as [|un w|nm w|f| |sg| | |t|n t|t|t1 t2|fs|c t|]; try exact Hf; try easy.
  - destruct (is_ptr t) eqn:Ep; [|exact Hf]. destruct v; try exact Hf. destruct p; try exact Hf.
    rewrite dec_walk_eq. apply fmap_eq. cbn [pointee].
    destruct t; try discriminate. apply IH; try easy. cbn. lia.
  - cbn [has_unmarshal] in Hu. rewrite Hu. exact Hf.
Qed.

Lemma dec_present h h' t p E c c' pre post :
  (made_optional h h' /\ ft_coption (parse_field_tag (f_tag h)) = false) \/
  (E = Borsh /\ made_coptional h h') ->
  enum_struct E [(h, t)] = false -> ft_ext (parse_field_tag (f_tag h)) = false ->
  has_unmarshal t = None -> t <> TDeep -> (E = Borsh -> borsh_field_unmarshaler t = None) ->
  let b := if ft_option (parse_field_tag (f_tag h)) then flag E true else cflag true in
  decode (TStruct [(h, t)]) (VStruct [p]) (at_bytes E c pre b post) =
  decode (TStruct [(h', t)]) (VStruct [p]) (past_bytes E c' pre b post).
Proof.
  intros Hm He Hx Ht Hd Hb.
  assert (HT : exists o op cp ext en, parse_field_tag (f_tag h) = opt_tag o op cp ext en /\ f_exported h = true /\
    parse_field_tag (f_tag h') = opt_tag o false false ext en /\ f_exported h' = true /\
    ((op = true /\ cp = false) \/ (op = false /\ cp = true /\ E = Borsh))).
  { destruct Hm as [((o & cp & ext & en & Hex & Hex' & _ & HT & HT') & Hcp)
                   |(HE & o & ext & en & Hex & Hex' & _ & HT & HT')].
    - rewrite HT in Hcp. cbn in Hcp. subst cp. exists o, true, false, ext, en. repeat (split; [assumption|]). auto.
    - exists o, false, true, ext, en. repeat (split; [assumption|]). auto. }
  destruct HT as (o & op & cp & ext & en & HT & Hex & HT' & Hex' & Hop). intro b.
  assert (Hb' : b = if op then flag E true else cflag true) by (unfold b; now rewrite HT).
  clearbody b. subst b. set (b := if op then flag E true else cflag true).
  assert (He' : enum_struct E [(h', t)] = false).
  { unfold enum_struct in *. rewrite HT in He. rewrite HT'. exact He. }
  rewrite HT in Hx. cbn in Hx. subst ext.
  rewrite (decode_one h), (decode_one h');
    [|exact He'|unfold live; now rewrite HT', Hex'|now rewrite HT'|now rewrite HT'|exact Hb
     |exact He|unfold live; now rewrite HT, Hex|now rewrite HT|now rewrite HT|exact Hb].
  cbn [at_bytes past_bytes d_enc]. rewrite HT, HT'.
  set (o1 := field_opt _ _ _ _). set (o2 := field_opt _ _ _ _).
  assert (H12 : dec_val E t (DStart o1) p (at_bytes E c pre b post) = dec_val E t (DStart o2) p (past_bytes E c' pre b post)).
  { rewrite !dec_start_eq. unfold o1, o2. cbn [field_opt opt_tag ft_option ft_coption o_opt o_copt ft_order o_order sm_get].
    rewrite !andb_false_r. cbn [orb].
    replace (op || is_borsh E && (is_borsh E && cp)) with true
      by (destruct Hop as [(-> & _)|(-> & -> & ->)]; reflexivity).
    unfold bind, d_set_cur. cbn [at_bytes past_bytes d_data d_pos d_enc].
    rewrite (dec_walk_opt E t _ (mkOpt op (is_borsh E && cp) None o)) by reflexivity.
    unfold b. destruct Hop as [(-> & ->)|(-> & -> & ->)].
    - apply dec_null_present; cbn [o_opt o_copt]; try easy; [now rewrite !andb_false_r|].
      apply (keeps_flag E true pre post (Some o)).
    - apply dec_null_cpresent; cbn [o_opt o_copt]; try easy.
      apply (keeps_cflag Borsh true pre post (Some o)). }
  unfold fmap, bind, map_err. rewrite H12. reflexivity.
Qed.

(** * sizeof counts *)

(** The number in the last field tagged sizeof=[name]. *)
Fixpoint length_of (fs : list (fhdr * ty)) (vs : list val) (name : string) : option Z :=
  match fs, vs with
  | (h, _) :: fs', v :: vs' =>
      match length_of fs' vs' name with
      | Some n => Some n
      | None =>
          let tg := parse_field_tag (f_tag h) in
          if negb (ft_skip tg) && negb (String.eqb (ft_sizeof tg) "") && String.eqb (ft_sizeof tg) name
          then match v with VNum z => Some z | _ => None end
          else None
      end
  | _, _ => None
  end.

Lemma sizeof_num t : forall z n, sizeof_val t (VNum z) = Some n -> z < 2 ^ 63 -> Z.max 0 n = Z.max 0 z \/ z < - 2 ^ 63.
Proof.
  induction t; intros z m H Hz; cbn [sizeof_val] in H; try discriminate.
  - injection H as <-. unfold swrap. destruct (Z.lt_ge_cases z (- 2 ^ 63)) as [?|Hz']; [now right|left].
    destruct (Z.lt_ge_cases z 0) as [Hn|Hn].
    + replace (z mod 2 ^ 64) with (z + 2 ^ 64).
      2: { rewrite <- (Z.mod_small (z + 2 ^ 64) (2 ^ 64)) by lia. rewrite <- Z.add_mod_idemp_r by lia.
           rewrite Z.mod_same, Z.add_0_r by lia. reflexivity. }
      replace (z + 2 ^ 64 <? 2 ^ (64 - 1)) with false by lia.
      replace (z + 2 ^ 64 - 2 ^ 64 <? 0) with true by lia. lia.
    + rewrite Z.mod_small by lia. replace (z <? 2 ^ (64 - 1)) with true by lia.
      replace (z <? 0) with false by lia. reflexivity.
  - injection H as <-. auto.
  - destruct signed; injection H as <-; auto.
    unfold swrap. destruct (Z.lt_ge_cases z (- 2 ^ 63)) as [?|Hz']; [now right|left].
    destruct (Z.lt_ge_cases z 0) as [Hn|Hn].
    + replace (z mod 2 ^ 64) with (z + 2 ^ 64).
      2: { rewrite <- (Z.mod_small (z + 2 ^ 64) (2 ^ 64)) by lia. rewrite <- Z.add_mod_idemp_r by lia.
           rewrite Z.mod_same, Z.add_0_r by lia. reflexivity. }
      replace (z + 2 ^ 64 <? 2 ^ (64 - 1)) with false by lia.
      replace (z + 2 ^ 64 - 2 ^ 64 <? 0) with true by lia. lia.
    + rewrite Z.mod_small by lia. replace (z <? 2 ^ (64 - 1)) with true by lia.
      replace (z <? 0) with false by lia. reflexivity.
  - eauto.
Qed.

Lemma sizeof_val_num t : forall v n, sizeof_val t v = Some n -> exists z, v = VNum z.
Proof.
  induction t; intros v m H; cbn [sizeof_val] in H; try discriminate; eauto.
  - destruct v; try discriminate. eauto.
  - destruct v; try discriminate. eauto.
  - destruct signed, v; try discriminate; eauto.
Qed.

(** A slice field and an array field in its place. *)
Definition slice_items (v : val) : list val :=
  match v with VSlice (Some l) => l | _ => [] end.

Lemma enc_sized_slice E t o o' ol l s : o_opt o = false -> is_borsh E && o_copt o = false ->
  o_opt o' = false -> is_borsh E && o_copt o' = false -> o_order o = o_order o' ->
  o_size o = Some (zlen l) -> slice_items (VSlice ol) = l ->
  enc_val E (TSlice t) (EFull o) (VSlice ol) s = enc_val E (TArray (length l) t) (EFull o') (VSeq l) s.
Proof.
  intros H1 H2 H3 H4 H5 H6 H7. cbn [enc_val]. cbv zeta. rewrite H1, H2, H3, H4, H5, H6.
  assert (Hl : match ol with Some l0 => l0 | None => [] end = l) by (destruct ol; exact H7).
  rewrite Hl. unfold bind at 1. symmetry. unfold bind at 1. symmetry. unfold e_set_cur.
  unfold bind at 1. cbn [ret]. unfold ret at 1.
  destruct (uint_kind t) as [w|]; [reflexivity|].
  unfold zlen at 1. rewrite Nat2Z.id, firstn_all.
  replace (zlen l <? zlen l) with false by lia. unfold bind.
  destruct (each _ l _) as [[[]|e| | |] s1]; reflexivity.
Qed.

Definition sized_field (h : fhdr) (E : encoding) : Prop :=
  let tg := parse_field_tag (f_tag h) in
  live h = true /\ flagged_field E tg = false /\ ft_sizeof tg = EmptyString.

Lemma flagged_opts E tg name sz : flagged_field E tg = false ->
  o_opt (field_opt E tg name sz) = false /\ is_borsh E && o_copt (field_opt E tg name sz) = false.
Proof.
  unfold flagged_field, field_opt. cbn [o_opt o_copt]. intro H. apply orb_false_elim in H as [-> H].
  split; [reflexivity|]. now rewrite andb_assoc, andb_diag.
Qed.

Lemma enc_flds_sized E hs t ol l fs3 vs3 fs1 : forall vs1 sz s,
  sized_field hs E -> slice_items (VSlice ol) = l -> zlen l < 2 ^ 63 -> length vs1 = length fs1 ->
  match length_of fs1 vs1 (f_name hs) with Some n => Some n | None => sm_get sz (f_name hs) end = Some (zlen l) ->
  enc_flds E (fs1 ++ (hs, TSlice t) :: fs3) (vs1 ++ VSlice ol :: vs3) sz s =
  enc_flds E (fs1 ++ (hs, TArray (length l) t) :: fs3) (vs1 ++ VSeq l :: vs3) sz s.
Proof.
  unfold enc_flds. intros vs1 sz s (Hlv & Hfl & Hsz) Hol Hlen.
  revert vs1 sz s. induction fs1 as [|[h t0] fs1 IH]; intros [|v vs1] sz s Hl Hlo; try discriminate.
  - cbn [app length_of] in *. cbn [enc_fields]. cbv zeta. rewrite Hsz. cbn [String.eqb].
    unfold live in Hlv. apply andb_prop in Hlv as [Hsk Hex]. apply negb_true_iff in Hsk.
    rewrite Hsk, Hex. cbn [negb].
    destruct (flagged_opts E _ (f_name hs) sz Hfl) as [H1 H2].
    unfold bind, map_err. now rewrite (enc_sized_slice E t _ (field_opt E (parse_field_tag (f_tag hs)) (f_name hs) sz) ol l).
  - injection Hl as Hl. cbn [app length_of] in *. cbn [enc_fields]. cbv zeta in *.
    set (tg := parse_field_tag (f_tag h)) in *.
    destruct (ft_skip tg) eqn:Esk; cbn [negb andb] in Hlo.
    { apply IH; [exact Hl|]. destruct (length_of fs1 vs1 (f_name hs)); exact Hlo. }
    destruct (String.eqb (ft_sizeof tg) "") eqn:Es; cbn [negb andb] in Hlo.
    { assert (Hlo' : match length_of fs1 vs1 (f_name hs) with Some n => Some n | None => sm_get sz (f_name hs) end = Some (zlen l))
        by (destruct (length_of fs1 vs1 (f_name hs)); exact Hlo).
      destruct (negb (f_exported h)); [now apply IH|]. apply bind_eq. intros _ s1. now apply IH. }
    destruct (sizeof_val t0 v) as [n|] eqn:En; [|reflexivity].
    assert (Hlo' : match length_of fs1 vs1 (f_name hs) with Some m => Some m | None => sm_get ((ft_sizeof tg, n) :: sz) (f_name hs) end = Some (zlen l)).
    { destruct (length_of fs1 vs1 (f_name hs)); [exact Hlo|]. cbn [sm_get].
      destruct (String.eqb (ft_sizeof tg) (f_name hs)); [|exact Hlo].
      destruct (sizeof_val_num _ _ _ En) as (z & ->). injection Hlo as ->.
      pose proof (zlen_nonneg l).
      assert (Hn : n = zlen l \/ n < 0).
      { destruct (sizeof_num _ _ _ En Hlen) as [Hm|Hm]; [|lia]. lia. }
      destruct Hn as [->|Hn]; [reflexivity|].
      exfalso. destruct (sizeof_num _ _ _ En Hlen) as [Hm|Hm]; [|lia].
      assert (Hz : zlen l = 0) by lia. rewrite Hz in En. clear - En Hn.
      revert n En Hn. induction t0; intros m En Hn; cbn [sizeof_val] in En; try discriminate;
        try (injection En as <-; revert Hn; cbv; discriminate); eauto.
      destruct signed; injection En as <-; revert Hn; cbv; discriminate. }
    destruct (negb (f_exported h)); [now apply IH|]. apply bind_eq. intros _ s1. now apply IH.
Qed.

Lemma encode_sized hs t ol l fs1 vs1 fs3 vs3 s :
  enum_struct (e_enc s) (fs1 ++ (hs, TSlice t) :: fs3) = false ->
  sized_field hs (e_enc s) -> slice_items (VSlice ol) = l -> zlen l < 2 ^ 63 -> length vs1 = length fs1 ->
  length_of fs1 vs1 (f_name hs) = Some (zlen l) ->
  encode (TStruct (fs1 ++ (hs, TSlice t) :: fs3)) (VStruct (vs1 ++ VSlice ol :: vs3)) s =
  encode (TStruct (fs1 ++ (hs, TArray (length l) t) :: fs3)) (VStruct (vs1 ++ VSeq l :: vs3)) s.
Proof.
  intros He Hh Hol Hlen Hl Hlo.
  assert (He' : enum_struct (e_enc s) (fs1 ++ (hs, TArray (length l) t) :: fs3) = false).
  { destruct fs1 as [|[h t0] fs1]; [now destruct (e_enc s)|exact He]. }
  rewrite !encode_struct by assumption. apply enc_flds_sized; auto. now rewrite Hlo.
Qed.

(** Count fields that the decoder takes notice of. *)
Definition counts_decoded (E : encoding) (fs : list (fhdr * ty)) : Prop :=
  Forall (fun ht => let tg := parse_field_tag (f_tag (fst ht)) in
    ft_sizeof tg = EmptyString \/ ft_skip tg = true \/
    (f_exported (fst ht) = true /\ ft_ext tg = false /\
     (E = Borsh -> borsh_field_unmarshaler (snd ht) = None))) fs.

Lemma dec_flds_length E fs : forall ps sz sn s xs s',
  dec_flds E fs ps sz sn s = (Ok xs, s') -> length xs = length fs /\ length ps = length fs.
Proof.
  induction fs as [|[h t] fs IH]; intros ps sz sn s xs s' H.
  - apply dec_flds_nil in H as (-> & -> & ->). auto.
  - destruct (dec_flds_cons _ _ _ _ _ _ _ _ _ H) as (p & ps' & ->).
    apply dec_flds_step in H as (x & ys & sz' & sn' & s1 & -> & Hr & _). apply IH in Hr. cbn. lia.
Qed.

Lemma dec_flds_sized E hs t p fs3 ps3 fs1 : forall ps1 sz sn s xs s' n,
  sized_field hs E -> ft_ext (parse_field_tag (f_tag hs)) = false ->
  counts_decoded E fs1 -> length ps1 = length fs1 ->
  dec_flds E (fs1 ++ (hs, TSlice t) :: fs3) (ps1 ++ p :: ps3) sz sn s = (Ok xs, s') ->
  n < 2 ^ 63 -> - 2 ^ 63 <= n ->
  (match length_of fs1 (firstn (length fs1) xs) (f_name hs) with
   | Some n => Some (Z.max 0 n) | None => option_map (Z.max 0) (sm_get sz (f_name hs)) end = Some (Z.max 0 n)) ->
  (length_of fs1 (firstn (length fs1) xs) (f_name hs) = None \/
   length_of fs1 (firstn (length fs1) xs) (f_name hs) = Some n) ->
  exists xs1 x xs3, xs = xs1 ++ x :: xs3 /\ length xs1 = length fs1 /\
    ((exists vs, x = VSlice (Some vs) /\ zlen vs = Z.max 0 n) \/
     (E = Borsh /\ n <= 0 /\ x = p)).
Proof.
  intros ps1 sz sn s xs s' n Hh Hx. revert ps1 sz sn s xs.
  induction fs1 as [|[h t0] fs1 IH]; intros [|p1 ps1] sz sn s xs Hc Hl H Hn1 Hn2 Hlo Hcase; try discriminate.
  - cbn [app length firstn length_of] in *.
    apply dec_flds_step in H as (x & ys & sz' & sn' & s1 & -> & Hr & Hd).
    exists [], x, ys. split; [reflexivity|]. split; [reflexivity|].
    destruct Hh as (Hlv & Hfl & Hsz).
    destruct Hd as [(_ & _ & _ & [Hl0|[Hl0 _]])|[_ [(_ & _ & m & Hm & _)|(_ & Hd & _)]]];
      [congruence|congruence|discriminate|].
    destruct (flagged_opts E _ (f_name hs) sz Hfl) as [H1 H2].
    apply dec_start_unflagged in Hd as (s0 & Hd); [|exact H1|exact H2].
    apply slice_len in Hd as (k & s2 & Hk & Hd). cbn [field_opt o_size] in Hk.
    destruct (sm_get sz (f_name hs)) as [k'|]; [|discriminate]. injection Hk as -> _.
    cbn [option_map] in Hlo. injection Hlo as Hlo.
    destruct Hd as [(HE & Hk0 & ->)|(vs & -> & Hv & _)].
    + right. split; [exact HE|]. split; [lia|reflexivity].
    + left. exists vs. split; [reflexivity|]. lia.
  - injection Hl as Hl. cbn [app] in H.
    apply dec_flds_step in H as (x & ys & sz' & sn' & s1 & -> & Hr & Hd).
    inversion_clear Hc as [|? ? Hc1 Hc2]. cbn [fst snd] in Hc1. cbv zeta in Hc1.
    cbn [length firstn length_of] in Hlo, Hcase. cbv zeta in *.
    set (tg := parse_field_tag (f_tag h)) in *.
    assert (Hgo : exists xs1 x0 xs3, ys = xs1 ++ x0 :: xs3 /\ length xs1 = length fs1 /\
      ((exists vs, x0 = VSlice (Some vs) /\ zlen vs = Z.max 0 n) \/ (E = Borsh /\ n <= 0 /\ x0 = p))).
    2: { destruct Hgo as (xs1 & x0 & xs3 & -> & Hl1 & Hx0). exists (x :: xs1), x0, xs3.
         split; [reflexivity|]. cbn [length]. auto. }
    eapply IH with (sz := sz'); try eassumption; destruct (length_of fs1 (firstn (length fs1) ys) (f_name hs)) as [m|] eqn:Elo; try exact Hlo; auto.
    destruct (ft_skip tg) eqn:Esk; cbn [negb andb] in *.
    { destruct Hd as [(_ & _ & -> & _)|[Hlv _]]; [exact Hlo|].
      unfold live in Hlv. fold tg in Hlv. rewrite Esk in Hlv. discriminate. }
    destruct (String.eqb (ft_sizeof tg) "") eqn:Es; cbn [negb andb] in *.
    { apply String.eqb_eq in Es.
      destruct Hd as [(_ & _ & -> & _)|[_ [(_ & -> & _)|(_ & _ & [(_ & ->)|(k & Hne & _)])]]]; try exact Hlo.
      now destruct (Hne Es). }
    destruct Hc1 as [Hc1|[Hc1|(Hc1 & Hc3 & Hc4)]]; [now rewrite Hc1 in Es|discriminate|].
    assert (Hlv : live h = true) by (unfold live; fold tg; now rewrite Esk, Hc1).
    destruct Hd as [(_ & _ & _ & [Hd|[Hd _]])|[_ [(HB & _ & m & Hm & _)|(_ & Hd & [(Hd' & _)|(k & Hne & Hk & ->)])]]].
    + congruence.
    + fold tg in Hd. congruence.
    + assert (HE : E = Borsh) by now destruct E. rewrite (Hc4 HE) in Hm. discriminate.
    + fold tg in Hd'. rewrite Hd' in Es. discriminate.
    + fold tg in Hne, Hk |- *. cbn [sm_get].
      destruct (String.eqb (ft_sizeof tg) (f_name hs)) eqn:Ename; [|exact Hlo].
      destruct (sizeof_val_num _ _ _ Hk) as (z & ->). destruct Hcase as [Hcase|Hcase]; [discriminate|].
      injection Hcase as ->. cbn [option_map].
      destruct (sizeof_num _ _ _ Hk Hn1) as [->|Hm]; [reflexivity|lia].
Qed.

Lemma app_inj_len {A} (a a' b b' : list A) : length a = length a' -> a ++ b = a' ++ b' -> a = a' /\ b = b'.
Proof.
  revert a'. induction a as [|x a IH]; intros [|x' a'] Hl H; try discriminate; [auto|].
  injection H as -> H. injection Hl as Hl. destruct (IH _ Hl H) as [-> ->]. auto.
Qed.

Lemma decode_sized hs t fs1 fs3 ps1 p ps3 s x s' :
  enum_struct (d_enc s) (fs1 ++ (hs, TSlice t) :: fs3) = false ->
  sized_field hs (d_enc s) -> ft_ext (parse_field_tag (f_tag hs)) = false ->
  counts_decoded (d_enc s) fs1 -> length ps1 = length fs1 ->
  decode (TStruct (fs1 ++ (hs, TSlice t) :: fs3)) (VStruct (ps1 ++ p :: ps3)) s = (Ok x, s') ->
  exists xs1 y xs3, x = VStruct (xs1 ++ y :: xs3) /\ length xs1 = length fs1 /\
    forall n, length_of fs1 xs1 (f_name hs) = Some n -> - 2 ^ 63 <= n < 2 ^ 63 ->
      (exists vs, y = VSlice (Some vs) /\ zlen vs = Z.max 0 n) \/
      (d_enc s = Borsh /\ n <= 0 /\ y = p).
Proof.
  intros He Hh Hx Hc Hl H. rewrite decode_struct in H by exact He. apply fmap_ok in H as (xs & H & ->).
  assert (Hxs : length xs = length (fs1 ++ (hs, TSlice t) :: fs3)) by (apply dec_flds_length in H; apply H).
  rewrite app_length in Hxs. cbn [length] in Hxs.
  assert (Hsplit : exists xs1 y xs3, xs = xs1 ++ y :: xs3 /\ length xs1 = length fs1).
  { exists (firstn (length fs1) xs). destruct (skipn (length fs1) xs) as [|y xs3] eqn:Es.
    - apply (f_equal (@List.length val)) in Es. rewrite skipn_length in Es. cbn in Es. lia.
    - exists y, xs3. rewrite <- Es, firstn_skipn. split; [reflexivity|]. rewrite firstn_length. lia. }
  destruct Hsplit as (xs1 & y & xs3 & -> & Hl1). exists xs1, y, xs3. split; [reflexivity|]. split; [exact Hl1|].
  intros n Hlo Hn.
  assert (Hfirst : firstn (length fs1) (xs1 ++ y :: xs3) = xs1).
  { rewrite <- Hl1, firstn_app, Nat.sub_diag, firstn_all. cbn [firstn]. apply app_nil_r. }
  destruct (dec_flds_sized (d_enc s) hs t p fs3 ps3 fs1 ps1 [] false (dat_le s) (xs1 ++ y :: xs3) s' n)
    as (xs1' & y' & xs3' & Heq & Hl' & Hres); try assumption; try lia.
  - rewrite Hfirst, Hlo. reflexivity.
  - rewrite Hfirst. now right.
  - apply app_inj_len in Heq as [_ Heq]; [|congruence]. injection Heq as -> _. exact Hres.
Qed.

(** * Zero values *)

Lemma zero_is_zero t : is_zero (zero_val t) = true.
Proof.
  induction t as [t IH] using ty_strong_ind.
  destruct t as [|un w|nm w|f| |sg| | |t|n t|t|t1 t2|fs|c t|]; try reflexivity; cbn [zero_val is_zero].
  - apply forallb_forall. intros x Hx. apply repeat_spec in Hx as ->. apply (IH t). cbn. lia.
  - apply forallb_forall. intros x Hx. apply in_map_iff in Hx as ([h t] & <- & Hin).
    cbn [snd]. apply (IH t). now apply ty_size_field with (h := h).
  - apply (IH t). cbn. lia.
Qed.

Lemma zero_or_not t v : no_deep t = true -> fits t v -> v <> zero_val t -> is_zero v = false.
Proof.
  intros Hd Hf Hv. destruct (is_zero v) eqn:Ez; [|reflexivity]. now destruct Hv; apply is_zero_zero.
Qed.

Lemma optional_zero h h' t s : made_optional h h' ->
  enum_struct (e_enc s) [(h, t)] = false -> accepts (flag (e_enc s) false) s ->
  visible (encode (TStruct [(h, t)]) (VStruct [zero_val t]) s) =
  (Ok tt, forget (wrote (flag (e_enc s) false) s)).
Proof. intros. eapply optional_absent; eauto using zero_is_zero. Qed.
Lemma coptional_zero h h' t s : made_coptional h h' -> e_enc s = Borsh ->
  enum_struct Borsh [(h, t)] = false -> accepts (cflag false) s ->
  visible (encode (TStruct [(h, t)]) (VStruct [zero_val t]) s) =
  (Ok tt, forget (wrote (cflag false) s)).
Proof. intros. eapply coptional_absent; eauto using zero_is_zero. Qed.
Lemma optional_nonzero h h' t v s : made_optional h h' ->
  enum_struct (e_enc s) [(h, t)] = false -> no_deep t = true -> fits t v -> v <> zero_val t ->
  accepts (flag (e_enc s) true) s ->
  encode (TStruct [(h, t)]) (VStruct [v]) s =
  encode (TStruct [(h', t)]) (VStruct [v]) (wrote (flag (e_enc s) true) s).
Proof. intros. eapply optional_present; eauto using zero_or_not. Qed.
Lemma coptional_nonzero h h' t v s : made_coptional h h' -> e_enc s = Borsh ->
  enum_struct Borsh [(h, t)] = false -> no_deep t = true -> fits t v -> v <> zero_val t ->
  accepts (cflag true) s ->
  encode (TStruct [(h, t)]) (VStruct [v]) s =
  encode (TStruct [(h', t)]) (VStruct [v]) (wrote (cflag true) s).
Proof. intros. eapply coptional_present; eauto using zero_or_not. Qed.
