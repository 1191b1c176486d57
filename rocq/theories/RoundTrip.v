(** Encode and decode of whole values and streams, from [enc_wire] and
    [dec_wire]. *)
From Verif Require Import Types EncPrim DecPrim Enc Dec Builtin Spec NumFacts TyInd EncFacts EncWire DecWire.

(** A writer that never fails. *)
Definition reliable (w : writer) : Prop := forall h, w h = None.

Lemma play_reliable w cs : reliable w -> forall n hist acc,
  play w cs n hist acc = (None, n + zlen (concat cs), hist ++ cs, acc ++ concat cs).
Proof.
  intro Hw. induction cs as [|b cs IH]; intros n hist acc; cbn [play concat].
  - rewrite !app_nil_r, zlen_nil, Z.add_0_r. reflexivity.
  - rewrite Hw, IH, zlen_app, <- !app_assoc, <- Z.add_assoc. reflexivity.
Qed.

Lemma emits_run E c m b c' w n hist acc :
  emits E c m b c' -> reliable w -> exists cs, concat cs = b /\
  m (mkE E w c n hist acc) = (Ok tt, mkE E w c' (n + zlen b) (hist ++ cs) (acc ++ b)).
Proof.
  intros (cs & H & <-) Hw. exists cs. split; [reflexivity|].
  specialize (H w n hist acc). rewrite play_reliable in H by exact Hw. exact H.
Qed.

Lemma emits_encode E t v c : ok E t None LE v ->
  exists c', emits E c (encode t v) (wire E t None LE v) c'.
Proof.
  intro H. destruct (enc_wire E t None LE v c H) as [c' Hc'].
  exists c'. apply emits_get_enc. exact Hc'.
Qed.

Lemma encode_run E t v c w n hist acc : ok E t None LE v -> reliable w ->
  exists cs c', concat cs = wire E t None LE v /\
  encode t v (mkE E w c n hist acc) =
  (Ok tt, mkE E w c' (n + zlen (wire E t None LE v)) (hist ++ cs) (acc ++ wire E t None LE v)).
Proof.
  intros H Hw. destruct (emits_encode E t v c H) as [c' Hc'].
  destruct (emits_run E c _ _ c' w n hist acc Hc' Hw) as (cs & Hcs & E1).
  exists cs, c'. auto.
Qed.

Lemma marshal_wire E t v : ok E t None LE v -> marshal E t v = (Ok tt, wire E t None LE v).
Proof.
  intro H. unfold marshal, new_encoder.
  destruct (encode_run E t v None buffer 0 [] [] H (fun _ => eq_refl)) as (cs & c' & _ & ->).
  reflexivity.
Qed.

Lemma reads_decode E t v p : ok E t None LE v -> fits t p ->
  reads E (fun _ => True) (decode t p) (wire E t None LE v) (back E t None LE p v).
Proof.
  intros H Hp. unfold decode, decode_target. apply reads_get_enc.
  apply dec_ok_start; auto. apply dec_wire.
Qed.

Lemma decode_run E t v p pre post c : ok E t None LE v -> fits t p ->
  exists c',
  decode t p (mkD (pre ++ wire E t None LE v ++ post) (zlen pre) c E) =
  (Ok (back E t None LE p v),
   mkD (pre ++ wire E t None LE v ++ post) (zlen pre + zlen (wire E t None LE v)) c' E).
Proof.
  intros H Hp. destruct (reads_decode E t v p H Hp pre post c I) as (c' & E1 & _). eauto.
Qed.

Lemma unmarshal_wire E t v p post : ok E t None LE v -> fits t p ->
  unmarshal E t p (wire E t None LE v ++ post) = Ok (back E t None LE p v).
Proof.
  intros H Hp. unfold unmarshal, new_decoder.
  destruct (decode_run E t v p [] post None H Hp) as (c' & E1). cbn [app] in E1.
  change (zlen []) with 0 in E1. rewrite E1. reflexivity.
Qed.

(** Client programs: one value after the other. *)
Fixpoint encode_all (l : list (ty * val)) : EM unit :=
  match l with
  | [] => ret tt
  | (t, v) :: r => encode t v ;;; encode_all r
  end.
(** The pairs are types and old contents of the variables. *)
Fixpoint decode_all (l : list (ty * val)) : DM (list val) :=
  match l with
  | [] => ret []
  | (t, p) :: r => x <- decode t p ;; xs <- decode_all r ;; ret (x :: xs)
  end.

Definition wire_all (E : encoding) (l : list (ty * val)) : list Z :=
  flat_map (fun tv => wire E (fst tv) None LE (snd tv)) l.

Lemma emits_all E l : forall c, Forall (fun tv => ok E (fst tv) None LE (snd tv)) l ->
  exists c', emits E c (encode_all l) (wire_all E l) c'.
Proof.
  induction l as [|[t v] l IH]; intros c H.
  - exists c. apply emits_ret.
  - inversion_clear H as [|? ? H1 H2]. destruct (emits_encode E t v c H1) as [c1 Hc1].
    destruct (IH c1 H2) as [c2 Hc2]. exists c2. eapply emits_bind; eauto.
Qed.

Lemma reads_decode_all E l : Forall (fun tv => ok E (fst tv) None LE (snd tv)) l ->
  forall ps, Forall2 (fun tv p => fits (fst tv) p) l ps ->
  forall pre post c, exists c',
  decode_all (combine (map fst l) ps) (mkD (pre ++ wire_all E l ++ post) (zlen pre) c E) =
  (Ok (zip_with (fun tv p => back E (fst tv) None LE p (snd tv)) l ps),
   mkD (pre ++ wire_all E l ++ post) (zlen pre + zlen (wire_all E l)) c' E).
Proof.
  induction l as [|[t v] l IH]; intros H ps Hps pre post c.
  - inversion_clear Hps. exists c. cbn. unfold ret. now rewrite Z.add_0_r.
  - inversion_clear H as [|? ? H1 H2]. inversion_clear Hps as [|? p ? ps' Hp Hps'].
    cbn [map fst combine decode_all wire_all flat_map snd zip_with] in *.
    fold (wire_all E l).
    destruct (decode_run E t v p pre (wire_all E l ++ post) c H1 Hp) as (c1 & E1).
    destruct (IH H2 ps' Hps' (pre ++ wire E t None LE v) post c1) as (c2 & E2).
    exists c2. unfold bind. rewrite <- (app_assoc _ _ post), E1.
    rewrite zlen_app, <- (app_assoc pre) in E2. rewrite E2. cbn [ret].
    rewrite zlen_app, Z.add_assoc. reflexivity.
Qed.

(** Injectivity. *)
Lemma wire_prefix E t v1 v2 r1 r2 p : ok E t None LE v1 -> ok E t None LE v2 -> fits t p ->
  wire E t None LE v1 ++ r1 = wire E t None LE v2 ++ r2 ->
  wire E t None LE v1 = wire E t None LE v2 /\
  back E t None LE p v1 = back E t None LE p v2.
Proof.
  intros H1 H2 Hp Heq.
  destruct (decode_run E t v1 p [] r1 None H1 Hp) as (c1 & E1).
  destruct (decode_run E t v2 p [] r2 None H2 Hp) as (c2 & E2).
  cbn [app] in E1, E2. rewrite Heq in E1. rewrite E1 in E2. inversion E2 as [[Hb Hl Hc]].
  split; [|reflexivity].
  assert (Hlen : length (wire E t None LE v1) = length (wire E t None LE v2)).
  { unfold zlen in Hl. lia. }
  apply (f_equal (firstn (length (wire E t None LE v1)))) in Heq.
  rewrite firstn_app, Nat.sub_diag, firstn_all, app_nil_r in Heq.
  rewrite Hlen, firstn_app, Nat.sub_diag, firstn_all, app_nil_r in Heq. exact Heq.
Qed.

(** * Canonical values: those that come back unchanged in a fresh variable. *)

Section CanonFields.
  Variable E : encoding.
  Variable canon : ty -> option Z -> order -> val -> Prop.
  Fixpoint canon_fields (fs : list (fhdr * ty)) (vs : list val) (s : sizes) : Prop :=
    match fs, vs with
    | [], [] => True
    | (h, t) :: fs', v :: vs' =>
        let tg := parse_field_tag (f_tag h) in
        if live h then
          (if flagged_field E tg && is_zero v then v = zero_val t
           else canon t (s (f_name h)) (ft_order tg) v) /\
          canon_fields fs' vs' (bind_size tg v s)
        else v = zero_val t /\ canon_fields fs' vs' s
    | _, _ => False
    end.
  (** Field [n] is canonical, the others are zero. *)
  Fixpoint canon_nth (fs : list (fhdr * ty)) (vs : list val) (n : nat) : Prop :=
    match fs, vs, n with
    | (_, t) :: fs', v :: vs', O =>
        canon t None LE v /\ vs' = map (fun ht => zero_val (snd ht)) fs'
    | (_, t) :: fs', v :: vs', S n' => v = zero_val t /\ canon_nth fs' vs' n'
    | _, _, _ => False
    end.
End CanonFields.

Fixpoint canon (E : encoding) (t : ty) (sz : option Z) (o : order) (v : val)
  {struct t} : Prop :=
  let elem t' x := match uint_kind t' with Some _ => True | None => canon E t' None LE x end in
  match t with
  | TFloat f => exists b, v = VFloat b /\ quiet f b = b
  | TIface => v = VIface None
  | TPtr t' =>
      exists x, v = VPtr (Some x) /\
      match ptr_marshal t', has_unmarshal t' with
      | Some fm, Some fu =>
          codec_back fu E o (zero_val t') (codec_bytes fm E o x) = x
      | _, _ => match E with
                | Borsh => canon E t' None LE x
                | _ => canon E t' sz o x
                end
      end
  | TArray n t' => exists l, v = VSeq l /\ length l = n /\ Forall (elem t') l
  | TSlice t' =>
      match E with
      | Borsh => v = VSlice None \/
                 exists l, v = VSlice (Some l) /\ l <> [] /\ Forall (elem t') l
      | _ => exists l, v = VSlice (Some l) /\ Forall (elem t') l
      end
  | TMap kt vt =>
      v = VMap None \/
      exists m, v = VMap (Some m) /\ m <> [] /\ entries E kt m = m /\
        Forall (fun e => canon E kt None LE (fst e) /\ canon E vt None LE (snd e)) m
  | TStruct fs =>
      exists vs, v = VStruct vs /\
      if enum_struct E fs then
        exists z vs', vs = VNum z :: vs' /\
        canon_nth
          (fun t' _ _ v' =>
             match t', v' with
             | TPtr (TCodec c u), VPtr (Some x) =>
                 match c_unmarshal c with
                 | Some f => codec_back f E LE (zero_val u) (wire E u None LE x) = x
                 | None => canon E u None LE x
                 end
             | TCodec c u, _ =>
                 match c_unmarshal c with
                 | Some f => codec_back f E LE (zero_val u) (wire E u None LE v') = v'
                 | None => canon E u None LE v'
                 end
             | _, _ => canon E t' None LE v'
             end) fs (VNum 0 :: vs') (S (Z.to_nat z))
      else canon_fields E (canon E) fs vs no_sizes
  | TCodec c u =>
      match c_unmarshal c with
      | Some f => codec_back f E o (zero_val u) (wire E t sz o v) = v
      | None => canon E u sz o v
      end
  | _ => True
  end.

Lemma back_fields_canon E fs : forall vs s,
  (forall h t, In (h, t) fs -> forall sz o v, canon E t sz o v -> back E t sz o (zero_val t) v = v) ->
  canon_fields E (canon E) fs vs s ->
  back_fields E (back E) fs (map (fun ht => zero_val (snd ht)) fs) vs s = vs.
Proof.
  induction fs as [|[h t] fs IH]; intros [|v vs] s Hall H; try destruct H; [reflexivity|].
  cbn [canon_fields map snd back_fields] in *.
  assert (IH' := fun vs s => IH vs s (fun h t Hin => Hall h t (or_intror Hin))).
  specialize (Hall h t (or_introl eq_refl)).
  destruct (live h); destruct H as [H1 H2]; f_equal; auto.
  unfold back_field. destruct (flagged_field E (parse_field_tag (f_tag h)) && is_zero v); [easy|].
  rewrite <- (Hall _ _ _ H1) at 2. f_equal.
  destruct E; try reflexivity. destruct t; try reflexivity.
  - destruct t; try reflexivity. now destruct (c_unmarshal c).
  - now destruct (c_unmarshal c).
Qed.

Lemma back_nth_canon (cn : ty -> option Z -> order -> val -> Prop)
  (bk : ty -> option Z -> order -> val -> val -> val) fs : forall vs n,
  (forall h t, In (h, t) fs -> forall v, cn t None LE v -> bk t None LE (zero_val t) v = v) ->
  canon_nth cn fs vs n ->
  back_nth bk fs (map (fun ht => zero_val (snd ht)) fs) vs n = vs.
Proof.
  induction fs as [|[h t] fs IH]; intros [|v vs] n Hall H; try destruct H.
  destruct n; cbn [canon_nth back_nth map snd] in *; destruct H as [H1 H2].
  - rewrite (Hall h t) by (auto; now left). now rewrite H2.
  - f_equal; [now symmetry|]. apply IH; auto. intros. apply (Hall h0); auto. now right.
Qed.

Lemma map_fix {A} (f : A -> A) l : Forall (fun x => f x = x) l -> map f l = l.
Proof. induction 1 as [|x l H _ IH]; [reflexivity|]. cbn. now rewrite H, IH. Qed.

Lemma zip_with_repeat {A B C} (f : A -> B -> C) a l :
  zip_with f (repeat a (length l)) l = map (f a) l.
Proof. induction l as [|x l IH]; [reflexivity|]. cbn. now rewrite IH. Qed.

Lemma back_canon E t : forall sz o v, canon E t sz o v -> back E t sz o (zero_val t) v = v.
Proof.
  induction t as [t IH] using ty_strong_ind. intros sz o v H.
  destruct t; cbn [canon] in H; cbn [zero_val]; try (destruct v; reflexivity).
  - destruct H as (b & -> & Hb). cbn [back]. now rewrite Hb.
  - subst v. reflexivity.
  - destruct H as (x & -> & H). cbn [back]. do 2 f_equal.
    destruct (ptr_marshal t) as [fm|]; [destruct (has_unmarshal t) as [fu|]|].
    + exact H.
    + destruct E; apply IH; auto.
    + destruct E; apply IH; auto.
  - destruct H as (l & -> & Hl & Hall). cbn [back]. destruct (uint_kind t); [reflexivity|].
    f_equal. subst n. rewrite zip_with_repeat. apply map_fix.
    eapply Forall_impl; [|exact Hall]. intros x Hx. apply IH; [cbn; lia|exact Hx].
  - assert (Hm : forall l, Forall (fun x => match uint_kind t with Some _ => True | None => canon E t None LE x end) l ->
      match uint_kind t with Some _ => l | None => map (back E t None LE (zero_val t)) l end = l).
    { intros l Hl. destruct (uint_kind t); [reflexivity|]. apply map_fix.
      eapply Forall_impl; [|exact Hl]. intros x Hx. apply IH; [cbn; lia|exact Hx]. }
    destruct E.
    + destruct H as (l & -> & Hl). cbn [back]. now rewrite Hm.
    + destruct H as (l & -> & Hl). cbn [back]. now rewrite Hm.
    + destruct H as [->|(l & -> & Hne & Hl)]; [reflexivity|]. cbn [back].
      destruct l as [|x l]; [easy|]. now rewrite Hm.
  - destruct H as [->|(m & -> & Hne & He & Hall)]; [reflexivity|]. cbn [back].
    destruct m as [|e m]; [easy|]. rewrite He. do 2 f_equal. apply map_fix.
    eapply Forall_impl; [|exact Hall]. intros [k x] [Hk Hx]. cbn [fst snd] in *.
    rewrite !IH; auto; cbn; lia.
  - destruct H as (vs & -> & H). cbn [back]. destruct (enum_struct E fs).
    + destruct H as (z & vs' & -> & H). destruct fs as [|[h t0] fs]; [destruct H|].
      cbn [canon_nth] in H. destruct H as [_ H]. cbn [map].
      cbn [back_nth tl]. do 2 f_equal.
      eapply back_nth_canon; [|exact H]. intros h' t Hin v Hv.
      pose proof (ty_size_field ((h, t0) :: fs) h' t (or_intror Hin)) as Hlt.
      cbn beta in Hv. assert (Hd : canon E t None LE v -> back E t None LE (zero_val t) v = v).
      { intro Hc. apply IH; [exact Hlt|exact Hc]. }
      destruct t; auto.
      * destruct t; auto. destruct v; auto. destruct p as [x|]; auto.
        cbn [zero_val deref]. destruct (c_unmarshal c); do 2 f_equal; auto.
        apply IH; [cbn in *; lia|exact Hv].
      * cbn [zero_val]. destruct (c_unmarshal c); auto. apply IH; [cbn in *; lia|exact Hv].
    + f_equal. apply back_fields_canon; auto. intros h t Hin. apply IH.
      exact (ty_size_field _ _ _ Hin).
  - destruct (c_unmarshal c) eqn:Ec.
    + cbn [back]. rewrite Ec. exact H.
    + cbn [back]. rewrite Ec. apply IH; auto.
Qed.

(** A typed value that reflect calls zero is the zero value. *)
Fixpoint no_deep (t : ty) : bool :=
  match t with
  | TDeep => false
  | TArray _ t' => no_deep t'
  | TStruct fs => forallb (fun ht => no_deep (snd ht)) fs
  | TCodec _ u => no_deep u
  | _ => true
  end.
Lemma is_zero_zero t : no_deep t = true -> forall v, fits t v -> is_zero v = true -> v = zero_val t.
Proof.
  induction t as [t IH] using ty_strong_ind. intros Hd v Hf Hz.
  destruct t; cbn [fits no_deep zero_val] in *; try discriminate.
  - destruct Hf as (b & ->). destruct b; [discriminate|reflexivity].
  - destruct Hf as (z & -> & _). cbn in Hz. f_equal. lia.
  - destruct Hf as (z & -> & _). cbn in Hz. f_equal. lia.
  - destruct Hf as (z & -> & _). cbn in Hz. f_equal. lia.
  - destruct Hf as (s & -> & _). destruct s; [reflexivity|discriminate].
  - destruct Hf as (z & -> & _). cbn in Hz. f_equal. lia.
  - exact Hf.
  - destruct Hf as (d & ->). destruct d; [discriminate|reflexivity].
  - destruct Hf as (q & -> & _). destruct q; [discriminate|reflexivity].
  - destruct Hf as (l & -> & Hl & Hall). cbn [is_zero] in Hz. f_equal.
    assert (Ht : forall v, fits t v -> is_zero v = true -> v = zero_val t) by (apply IH; auto).
    subst n. clear -Hz Hall Ht. induction l as [|x l IHl]; [reflexivity|].
    cbn [forallb] in Hz. apply andb_true_iff in Hz. inversion_clear Hall.
    cbn [length repeat]. f_equal; [apply Ht; tauto|apply IHl; tauto].
  - destruct Hf as (l & -> & _). destruct l; [discriminate|reflexivity].
  - destruct Hf as (l & -> & _). destruct l; [discriminate|reflexivity].
  - destruct Hf as (vs & -> & Hf). cbn [is_zero] in Hz. f_equal.
    assert (Ht : forall h t, In (h, t) fs -> forall v, fits t v -> is_zero v = true -> v = zero_val t).
    { intros h t Hin. apply IH; [exact (ty_size_field _ _ _ Hin)|].
      rewrite forallb_forall in Hd. exact (Hd _ Hin). }
    clear IH Hd. revert vs Hf Hz. induction fs as [|[h t] fs IHf]; intros [|v vs] Hf Hz; try destruct Hf; [reflexivity|].
    cbn [forallb map snd] in *. apply andb_true_iff in Hz. f_equal.
    + apply (Ht h); [now left|assumption|tauto].
    + apply IHf; [intros; apply (Ht h0); auto; now right|assumption|tauto].
  - apply IH; auto.
Qed.

(** * Values that overwrite all of the destination. *)

Section FillsFields.
  Variable E : encoding.
  Variable fills : ty -> option Z -> order -> val -> Prop.
  Fixpoint fills_fields (fs : list (fhdr * ty)) (vs : list val) (s : sizes) : Prop :=
    match fs, vs with
    | [], _ => True
    | (h, t) :: fs', v :: vs' =>
        let tg := parse_field_tag (f_tag h) in
        live h = true /\
        (flagged_field E tg && is_zero v = true \/ fills t (s (f_name h)) (ft_order tg) v) /\
        fills_fields fs' vs' (bind_size tg v s)
    | _, _ => False
    end.
End FillsFields.

(** Not: interfaces, empty maps, empty Borsh slices, structs with skipped or
    unexported fields, Borsh enums (the other variants are left alone). *)
Fixpoint fills (E : encoding) (t : ty) (sz : option Z) (o : order) (v : val)
  {struct t} : Prop :=
  match t, v with
  | TIface, _ => False
  | TPtr t', VPtr q =>
      match ptr_marshal t', has_unmarshal t', q with
      | Some fm, Some fu, Some x =>
          forall p p', codec_back fu E o p (codec_bytes fm E o x) =
                       codec_back fu E o p' (codec_bytes fm E o x)
      | _, _, _ =>
          let x := match q with Some x => x | None => zero_val t' end in
          match E with
          | Borsh => fills E t' None LE x
          | _ => fills E t' sz o x
          end
      end
  | TArray _ t', VSeq l =>
      match uint_kind t' with Some _ => True | None => Forall (fills E t' None LE) l end
  | TSlice _, VSlice ol =>
      match E, ol with Borsh, None | Borsh, Some [] => False | _, _ => True end
  | TMap _ _, VMap om => match om with None | Some [] => False | _ => True end
  | TStruct fs, VStruct vs =>
      enum_struct E fs = false /\ fills_fields E (fills E) fs vs no_sizes
  | TCodec c u, _ =>
      match c_unmarshal c with
      | Some f => forall p p', codec_back f E o p (wire E t sz o v) =
                               codec_back f E o p' (wire E t sz o v)
      | None => fills E u sz o v
      end
  | TDeep, _ => False
  | _, _ => True
  end.

Lemma zip_with_ext {A B C} (f : A -> B -> C) (P : A -> Prop) l : forall ps ps',
  Forall (fun b => forall a a', P a -> P a' -> f a b = f a' b) l ->
  length ps = length l -> length ps' = length l -> Forall P ps -> Forall P ps' ->
  zip_with f ps l = zip_with f ps' l.
Proof.
  induction l as [|b l IH]; intros [|a ps] [|a' ps'] H L L' HP HP'; try discriminate; [reflexivity|].
  inversion_clear H. inversion_clear HP. inversion_clear HP'. cbn [zip_with]. f_equal; auto.
Qed.

Lemma back_fields_fills E fs :
  (forall h t, In (h, t) fs -> forall sz o v p p', fills E t sz o v -> fits t v ->
     fits t p -> fits t p' -> back E t sz o p v = back E t sz o p' v) ->
  forall vs ps ps' s, fills_fields E (fills E) fs vs s -> fits_fields fits fs vs ->
    fits_fields fits fs ps -> fits_fields fits fs ps' ->
    back_fields E (back E) fs ps vs s = back_fields E (back E) fs ps' vs s.
Proof.
  induction fs as [|[h t] fs IH]; intros Hall vs ps ps' s H Hv Hp Hp'; [reflexivity|].
  destruct vs as [|v vs]; [destruct Hv|]. destruct ps as [|p ps]; [destruct Hp|].
  destruct ps' as [|p' ps']; [destruct Hp'|].
  cbn [fills_fields fits_fields snd back_fields] in *.
  destruct H as (Hl & Hf & Hr). destruct Hv as [Hv Hvs]. destruct Hp as [Hp Hps]. destruct Hp' as [Hp' Hps'].
  rewrite Hl. f_equal.
  - unfold back_field. destruct (flagged_field E (parse_field_tag (f_tag h)) && is_zero v); [reflexivity|].
    destruct Hf as [Hf|Hf]; [discriminate|].
    destruct E; try (apply (Hall h); auto; now left).
    destruct t; try (apply (Hall h); auto; now left).
    + destruct t; try (apply (Hall h); auto; now left).
      destruct (c_unmarshal c); [reflexivity|]. apply (Hall h); auto; now left.
    + destruct (c_unmarshal c); [reflexivity|]. apply (Hall h); auto; now left.
  - apply IH; auto. intros. apply (Hall h0); auto. now right.
Qed.

Lemma back_fills E t : forall sz o v p p', fills E t sz o v -> fits t v ->
  fits t p -> fits t p' -> back E t sz o p v = back E t sz o p' v.
Proof.
  induction t as [t IH] using ty_strong_ind. intros sz o v p p' H Hv Hp Hp'.
  destruct t; try (destruct Hv as (x & -> & Hv)); try reflexivity; try (destruct H; fail).
  - cbn [back]. do 2 f_equal.
    assert (Hd : fits t (deref t p)) by (apply fits_deref; exact Hp).
    assert (Hd' : fits t (deref t p')) by (apply fits_deref; exact Hp').
    cbn [fills] in H.
    assert (Hx : fits t (match x with Some x => x | None => zero_val t end)).
    { destruct x as [x|]; [auto|apply fits_zero]. }
    destruct (ptr_marshal t) as [fm|]; [destruct (has_unmarshal t) as [fu|]; [destruct x as [x|]|]|].
    + apply H.
    + destruct E; apply IH; auto.
    + destruct E; apply IH; auto.
    + destruct E; apply IH; auto.
  - destruct Hp as (ps & -> & Lp & Hps). destruct Hp' as (ps' & -> & Lp' & Hps').
    destruct Hv as [Hl Hv]. cbn [back fills] in *. destruct (uint_kind t); [reflexivity|]. f_equal.
    apply (zip_with_ext _ (fits t)); auto; try congruence.
    rewrite Forall_forall in *. intros b Hb a a' Ha Ha'. apply IH; auto.
  - cbn [back fills] in *. destruct E; try reflexivity.
    destruct x as [[|y l]|]; try destruct H. reflexivity.
  - cbn [back fills] in *. destruct x as [[|y l]|]; try destruct H. reflexivity.
  - destruct Hp as (ps & -> & Hps). destruct Hp' as (ps' & -> & Hps').
    cbn [back fills] in *. destruct H as [He H]. rewrite He. f_equal.
    apply back_fields_fills; auto. intros h t Hin. apply IH. exact (ty_size_field _ _ _ Hin).
  - cbn [back fills] in *. destruct (c_unmarshal c); [apply H|]. apply IH; auto.
Qed.
