(** Types that mention each other: decoding ends. *)
From Verif Require Import Types DecPrim Enc Dec DecEq Spec TyInd EncFacts DecWire DecWithin DecSafe DecLocal RecSpec RecFacts RecEnc RecEnds ManySpec.
Notation length := Datatypes.length.

(** * Programs that do not get to a cut with few bytes left *)
Definition kd {A} (k : Z) (m : DM A) : Prop := forall s, inside s -> remaining_of s < k -> fst (m s) <> Deep.

Lemma kd_nodeep {A} k (m : DM A) : nodeep m -> kd k m.
Proof. intros H s _ _. apply H. Qed.
Lemma kd_weak {A} k k' (m : DM A) : k' <= k -> kd k m -> kd k' m.
Proof. intros Hk H s Hi Hr. apply H; auto. lia. Qed.
Lemma kd_bind {A B} k (m : DM A) (f : A -> DM B) :
  within m -> kd k m -> (forall a, kd k (f a)) -> kd k (bind m f).
Proof.
  intros Hw Hm Hf s Hi Hr. unfold bind. pose proof (Hw s Hi) as Ho. specialize (Hm s Hi Hr).
  destruct (m s) as [[a| | | |] s']; try discriminate; try easy.
  destruct Ho as (H1 & H2 & H3 & H4). cbn [snd] in *.
  apply Hf; open_rem; rewrite ?H1; auto; lia.
Qed.
Lemma kd_bind_eat {A B} k (m : DM A) (f : A -> DM B) :
  within m -> eats 1 m -> kd k m -> (forall a, kd (k - 1) (f a)) -> kd k (bind m f).
Proof.
  intros Hw Ha Hm Hf s Hi Hr. unfold bind. pose proof (Hw s Hi) as Ho. specialize (Hm s Hi Hr).
  destruct (m s) as [[a| | | |] s'] eqn:Em; try discriminate; try easy.
  destruct Ho as (H1 & H2 & H3 & H4). cbn [snd] in *. specialize (Ha _ _ _ Hi Em).
  apply Hf; open_rem; rewrite ?H1; auto; lia.
Qed.
Lemma kd_fmap {A B} k (f : A -> B) (m : DM A) : kd k m -> kd k (fmap f m).
Proof. intros H s Hi Hr. unfold fmap, bind. specialize (H s Hi Hr). now destruct (m s) as [[a| | | |] s']. Qed.
Lemma kd_map_err {A} k f (m : DM A) : kd k m -> kd k (map_err f m).
Proof. intros H s Hi Hr. unfold map_err. specialize (H s Hi Hr). now destruct (m s) as [[a| | | |] s']. Qed.
Lemma kd_rep {A} k n (m : DM A) : within m -> kd k m -> kd k (read_rep n m).
Proof.
  intros Hw H. induction n; cbn [read_rep]; [apply kd_nodeep; nodeep|]. apply kd_bind; auto. intro.
  apply kd_bind; [within|exact IHn|]. intro. apply kd_nodeep. nodeep.
Qed.
Lemma kd_each {A B} k (f : A -> DM B) l : (forall a, In a l -> within (f a)) -> (forall a, In a l -> kd k (f a)) ->
  kd k (each_dec f l).
Proof.
  intros Hw H. induction l as [|a l IH]; cbn [each_dec]; [apply kd_nodeep; nodeep|].
  assert (Hwl : within (each_dec f l)).
  { clear - Hw. assert (Hw' : forall a, In a l -> within (f a)) by (intros; apply Hw; now right). clear Hw.
    induction l as [|b l IH]; cbn [each_dec]; [within|]. apply within_bind; [apply Hw'; now left|]. intro.
    apply within_bind; [apply IH; intros; apply Hw'; now right|]. intro. within. }
  apply kd_bind; [apply Hw; now left|apply H; now left|]. intro.
  apply kd_bind; [exact Hwl|apply IH; intros; [apply Hw|apply H]; now right|].
  intro. apply kd_nodeep. nodeep.
Qed.
Lemma kd_dec_map k kt n deck decv : within deck -> within decv -> kd k deck -> kd k decv ->
  forall m, kd k (dec_map kt n deck decv m).
Proof.
  intros Hw1 Hw2 H1 H2. induction n; intro m; cbn [dec_map]; [apply kd_nodeep; nodeep|].
  apply kd_bind; auto. intro. apply kd_bind; auto.
Qed.
Lemma kd_pend k pend t c : within c -> kd k c -> kd k (with_pend pend t c).
Proof.
  intros Hw H. unfold with_pend. destruct pend; [|exact H].
  apply kd_bind; [within|apply kd_nodeep; nodeep|]. intros []; [exact H|apply kd_nodeep; nodeep].
Qed.

(** * Unexported variants *)
Lemma nodeep_sealed_any t : uncut t -> forall v, nodeep (dec_sealed t v).
Proof.
  assert (Hroot : forall fs, (exists t, fs = TSlice t) \/ (exists kt vt, fs = TMap kt vt) \/ (exists l, fs = TStruct l) ->
    forall v, nodeep (dec_sealed fs v)).
  { intros ? [[t' ->]|[(kt & vt & ->)|[l ->]]] v; cbn [dec_sealed].
    - apply nodeep_bind; [nodeep|]. intro l. destruct (l =? 0); [nodeep|]. apply nodeep_bind; [nodeep|]. intro x. destruct (x <? l); [nodeep|].
      destruct (uint_kind t'); [apply nodeep_then_panic|]; nodeep.
    - nodeep.
    - destruct v; try apply nodeep_stuck. destruct (is_enum l); [apply nodeep_then_panic; nodeep|]. apply nodeep_bind; [apply nodeep_hidden|nodeep]. }
  induction t as [t IH] using ty_strong_ind. intros Hu v.
  destruct t as [|un w|nm w|f| |sg| | |t|n t|t|t1 t2|fs|c t|];
    try (apply Hroot; eauto; fail); cbn [dec_sealed]; try (apply nodeep_hopeless; nodeep; fail); try (apply nodeep_then_panic; nodeep; fail); try (nodeep; fail).
  - destruct v as [| | | |[x|]| | | | | |]; try (nodeep; fail). apply IH; [cbn; lia|exact Hu].
  - destruct (uint_kind _); [nodeep|]. destruct v; try (nodeep; fail). apply nodeep_bind; [|nodeep]. apply nodeep_each. intro a.
    apply nodeep_bind; [nodeep|]. intro. apply IH; [cbn; lia|exact Hu].
  - apply IH; [cbn; lia|exact Hu].
Qed.
Lemma behind_uncut E t : forall k sz, 0 < k -> behind E k sz t -> uncut t.
Proof.
  induction t using ty_ind'; intros k sz Hk Hp; cbn [behind uncut] in *; auto; try (eapply IHt; eauto; fail).
  - destruct (c_unmarshal c); [apply Hp|]. eapply IHt; eauto.
  - lia.
Qed.
Lemma kd_sealed E t k sz v : behind E k sz t -> kd k (dec_sealed t v).
Proof.
  intros Hp s Hi Hr. apply nodeep_sealed_any. eapply behind_uncut; [|exact Hp]. (unfold inside in *; open_rem). lia.
Qed.

(** * Fields *)
Section BehindFields.
  Variables (E : encoding) (all : list (fhdr * ty)).
  Fixpoint behind_fields (k : Z) (l : list (fhdr * ty)) : Prop :=
    match l with
    | [] => True
    | (h, t') :: l' =>
        behind E (if flagged_field E (parse_field_tag (f_tag h)) then k - 1 else k)
          (Exists (fun ht => ft_sizeof (parse_field_tag (f_tag (fst ht))) = f_name h) all) t' /\
        (t' = TDeep -> k <= 0) /\
        (behind_fields k l' \/ (solid_field E all h t' (solid E t') /\ behind_fields (k - 1) l'))
    end.
End BehindFields.
Lemma behind_struct E k sz fs : behind E k sz (TStruct fs) <->
  if enum_struct E fs then Forall (fun ht => behind E (k - 1) False (snd ht)) fs else behind_fields E fs k fs.
Proof.
  cbn [behind]. destruct (enum_struct E fs).
  - induction fs as [|ht fs IH]; split; intro H; [constructor|exact I| |].
    + destruct H. constructor; [|apply IH]; assumption.
    + inversion_clear H. split; [|apply IH]; assumption.
  - generalize fs at 1 2 4. intro all. revert k. induction fs as [|[h t] fs IH]; intro k; [easy|].
    cbn [behind_fields]. rewrite <- (IH k), <- (IH (k - 1)). reflexivity.
Qed.

Lemma behind_mono E t : forall k k' (sz sz' : Prop), k' <= k -> (sz' -> sz) -> behind E k sz t -> behind E k' sz' t.
Proof.
  induction t using ty_ind'; intros k k' sz sz' Hk Hz Hp; cbn [behind] in *; auto; try (eapply IHt; [..|exact Hp]; auto; lia).
  - destruct Hp as [Hp1 Hp2]. split; [eapply IHt; [..|exact Hp1]; auto; lia|].
    intro Hs. specialize (Hp2 (Hz Hs)). eapply IHt; [..|exact Hp2]; auto.
  - destruct Hp as [Hp1 Hp2]. split; [eapply IHt1; [..|exact Hp1]; auto; lia|eapply IHt2; [..|exact Hp2]; auto; lia].
  - change (behind E k sz (TStruct fs)) in Hp. change (behind E k' sz' (TStruct fs)). apply behind_struct in Hp. apply behind_struct.
    destruct (enum_struct E fs).
    + rewrite Forall_forall in *. intros ht Hin. eapply (H ht Hin); [..|exact (Hp ht Hin)]; auto; lia.
    + revert Hp. generalize fs at 1 3. intros all Hp. revert k k' Hk Hp.
      induction H as [|[h t] fs H1 H2 IH]; intros k k' Hk Hp; [exact I|]. cbn [behind_fields snd] in *. destruct Hp as [Hp1 [Hp0 Hp2]].
      split; [eapply H1; [..|exact Hp1]; auto; destruct (flagged_field _ _); lia|]. split; [intro H0; specialize (Hp0 H0); lia|].
      destruct Hp2 as [Hp2|[Hs Hp2]]; [left|right; split; [exact Hs|]]; (eapply IH; [|exact Hp2]; lia).
  - destruct (c_unmarshal c); [exact Hp|]. eapply IHt; [..|exact Hp]; auto; lia.
  - lia.
Qed.

(** * All levels *)
Section Walk.
  Variable E : encoding.

  Definition far_walk (t : ty) : Prop := forall k sz o pend v,
    behind E k sz t -> all_codecs codec_within t -> (o_size o <> None -> sz) -> fits t v ->
    kd k (dec_val E t (DWalk o pend) v).
  Definition far_null (t : ty) : Prop := forall k sz o v,
    behind E (k - 1) sz t -> (t = TDeep -> k <= 0) -> all_codecs codec_within t -> (o_size o <> None -> sz) -> fits t v ->
    kd k (dec_val E t (DNull o) v).

  Lemma far_start t : far_walk t -> far_null t -> forall k (sz : Prop) o v,
    behind E (if o_opt o || (is_borsh E && o_copt o) then k - 1 else k) sz t -> (t = TDeep -> k <= 0) -> all_codecs codec_within t ->
    (o_size o <> None -> sz) -> fits t v -> kd k (dec_val E t (DStart o) v).
  Proof.
    intros Hw Hn k sz o v Hp Hd Hc Ho Hf. rewrite dec_start_eq.
    apply kd_bind; [within|now apply kd_nodeep|]. intros _.
    destruct (o_opt o || _); [eapply Hn|eapply Hw]; eauto.
  Qed.
  Lemma far_flagged t : far_walk t -> forall k (sz : Prop) o v,
    behind E (k - 1) sz t -> all_codecs codec_within t -> (o_size o <> None -> sz) -> fits t v ->
    kd k (dec_flagged E t o v).
  Proof.
    intros Hw k sz o v Hp Hc Ho Hf. unfold dec_flagged. destruct (o_opt o).
    - apply kd_bind_eat; [within|apply eats_read_flag|apply kd_nodeep; nodeep|].
      intros []; [eapply Hw; eauto|apply kd_nodeep; nodeep].
    - apply kd_bind_eat; [within|apply eats_read_cflag|apply kd_nodeep; nodeep|].
      intros []; [eapply Hw; eauto|apply kd_nodeep; nodeep].
  Qed.

  Lemma far_fields all fs : forall k ps sizes seen,
    Forall (fun ht => far_walk (snd ht) /\ far_null (snd ht) /\ all_codecs codec_within (snd ht)) fs ->
    behind_fields E all k fs -> incl fs all -> sizes_from all sizes -> fits_fields fits fs ps ->
    kd k (dec_fields E (fun t' o' v' => dec_val E t' (DStart o') v') fs ps sizes seen).
  Proof.
    induction fs as [|[h t] fs IH]; intros k ps sizes seen Ha Hp Hin Hsz Hf.
    { destruct ps; [|destruct Hf]. apply kd_nodeep. cbn [dec_fields]. nodeep. }
    destruct ps as [|p ps]; [destruct Hf|]. destruct Hf as [Hp1 Hf].
    inversion_clear Ha as [|? ? (Hw & Hn & Hc) Ha']. cbn [fst snd] in *.
    destruct Hp as [Hpt [Hpd Hpf]]. fold (behind_fields E all) in Hpf.
    assert (Hin' : incl fs all) by (intros y Hy; apply Hin; now right).
    assert (Hth : In (h, t) all) by (apply Hin; now left).
    cbn [dec_fields fst snd]. set (tg := parse_field_tag (f_tag h)) in *.
    set (rec := fun t' o' v' => dec_val E t' (DStart o') v').
    assert (Hwf : forall ps sizes seen, within (dec_fields E rec fs ps sizes seen)).
    { intros. apply within_dec_fields. eapply Forall_impl; [|exact Ha']. intros [h1 t1] (_ & _ & H1).
      cbn [fst snd] in *. split; [exact H1|]. intros. now apply within_dec_val. }
    assert (Hsz' : forall n, sizes_from all ((ft_sizeof tg, n) :: sizes)).
    { intros n name. cbn [sm_get]. destruct (String.eqb (ft_sizeof tg) name) eqn:Es; [|apply Hsz].
      intros _. apply String.eqb_eq in Es. apply Exists_exists. exists (h, t). now split. }
    (* the rest, with what this field is known to have read *)
    assert (Hrest : exists k', (k' = k \/ (solid_field E all h t (solid E t) /\ k' = k - 1)) /\
      forall ps sizes seen, sizes_from all sizes -> fits_fields fits fs ps -> kd k' (dec_fields E rec fs ps sizes seen)).
    { destruct Hpf as [Hpf|[Hs Hpf]]; [exists k|exists (k - 1)]; split; auto; intros; now apply IH. }
    destruct Hrest as (k' & Hk' & Hrest).
    assert (Hkeep : ~ solid_field E all h t (solid E t) \/ ft_ext tg = true -> forall x sn, kd k (fmap (cons x) (dec_fields E rec fs ps sizes sn))).
    { intros Hns y1 sn. apply kd_fmap. destruct Hk' as [->|[H _]]; [now apply Hrest|]. exfalso.
      destruct Hns as [Hns|Hns]; [tauto|]. destruct H as (_ & H & _). fold tg in H. congruence. }
    cbv zeta. destruct (ft_skip tg) eqn:Esk.
    { apply Hkeep. left. intros (H & _). unfold live in H. fold tg in H. rewrite Esk in H. discriminate. }
    destruct (_ && seen); [apply kd_nodeep; nodeep|].
    assert (Hfirst : kd k (map_err EWrap (rec t (field_opt E tg (f_name h) sizes) p))).
    { apply kd_map_err. unfold rec. eapply far_start; eauto. cbn [field_opt o_opt o_copt].
      eapply behind_mono; [..|exact Hpt]; [|auto]. unfold flagged_field. destruct E; destruct (ft_option tg), (ft_coption tg); cbn; lia. }
    assert (Heat : solid_field E all h t (solid E t) ->
      match is_borsh E, borsh_field_unmarshaler t with
      | true, Some m => eats 1 m
      | _, _ => eats 1 (map_err EWrap (rec t (field_opt E tg (f_name h) sizes) p))
      end).
    { intro Hs. destruct Hs as (_ & _ & Hs). fold tg in Hs.
      assert (Hd : eats 1 (map_err EWrap (rec t (field_opt E tg (f_name h) sizes) p))).
      { apply eats_map_err. unfold rec. destruct Hs as [[Hfl _]|[Hs Hn']].
        - apply eats_start_flagged; [exact Hc|]. unfold flagged_field in Hfl. cbn [field_opt o_opt o_copt].
          destruct (ft_option tg); [reflexivity|]. cbn [orb] in *. now destruct (is_borsh E).
        - apply eats_start; auto; [now apply eats_dec_val|]. cbn [field_opt o_size].
          destruct Hn' as [Hn'|Hn']; [now right|left]. destruct (sm_get sizes (f_name h)) eqn:Es; [|reflexivity].
          exfalso. assert (Hx : sm_get sizes (f_name h) <> None) by congruence. apply Hsz in Hx.
          apply Exists_exists in Hx. destruct Hx as (ht & Hx1 & Hx2). rewrite Forall_forall in Hn'. now apply (Hn' ht). }
      destruct (is_borsh E) eqn:Eb; [|exact Hd].
      destruct (borsh_field_unmarshaler t) as [m|] eqn:Em; [|exact Hd].
      assert (HE : E = Borsh) by (now destruct E).
      assert (Hs' : solid E t).
      { destruct Hs as [[_ Hb]|[Hs _]]; [|exact Hs]. exfalso. destruct (Hb HE) as [Hb1 Hb2].
        destruct t as [| | | | | | | |q| | | | |c u|]; try discriminate.
        - destruct q; try discriminate. cbn in Em, Hb2. rewrite Hb2 in Em. discriminate.
        - cbn in Em, Hb1. rewrite Hb1 in Em. discriminate. }
      clear - Em Hs' Hc. destruct t as [| | | | | | | |q| | | | |c u|]; try discriminate.
      - destruct q; try discriminate. cbn [borsh_field_unmarshaler] in Em. cbn [solid] in Hs'. destruct Hc as [Hc _].
        destruct (c_unmarshal c) eqn:Ec; [|discriminate]. injection Em as <-. apply eats_fmap; [|apply Hs']. now apply Hc.
      - cbn [borsh_field_unmarshaler] in Em. cbn [solid] in Hs'.
        destruct (c_unmarshal c) eqn:Ec; [|discriminate]. injection Em as <-. apply Hs'. }
    (* read the field, then the rest *)
    assert (Hthen : forall A (m : DM A) (f : A -> DM (list val)), within m -> kd k m ->
      (solid_field E all h t (solid E t) -> eats 1 m) -> (forall a, kd k' (f a)) -> kd k (bind m f)).
    { intros A m f Hwm Hm He Hf'. destruct Hk' as [->|[Hs ->]]; [now apply kd_bind|]. apply kd_bind_eat; auto. }
    assert (Hbody : kd k
      (if negb (f_exported h)
       then fmap (cons p) (dec_fields E rec fs ps sizes (seen || ft_ext tg))
       else match is_borsh E, borsh_field_unmarshaler t with
            | true, Some m =>
                x <- m ;; fmap (cons x) (dec_fields E rec fs ps sizes (seen || ft_ext tg))
            | _, _ =>
                x <- map_err EWrap (rec t (field_opt E tg (f_name h) sizes) p) ;;
                if String.eqb (ft_sizeof tg) "" then
                  fmap (cons x) (dec_fields E rec fs ps sizes (seen || ft_ext tg))
                else match sizeof_val t x with
                     | None => panic
                     | Some n =>
                         fmap (cons x)
                           (dec_fields E rec fs ps ((ft_sizeof tg, n) :: sizes) (seen || ft_ext tg))
                     end
            end)).
    { destruct (f_exported h) eqn:Ex; cbn [negb].
      2:{ apply Hkeep. left. intros (H & _). unfold live in H. rewrite Ex, andb_false_r in H. discriminate. }
      assert (Hx : forall x, kd k'
        (if String.eqb (ft_sizeof tg) "" then
           fmap (cons x) (dec_fields E rec fs ps sizes (seen || ft_ext tg))
         else match sizeof_val t x with
              | None => panic
              | Some n => fmap (cons x) (dec_fields E rec fs ps ((ft_sizeof tg, n) :: sizes) (seen || ft_ext tg))
              end)).
      { intro y1. destruct (String.eqb _ _); [apply kd_fmap; now apply Hrest|].
        destruct (sizeof_val _ y1); [apply kd_fmap; now apply Hrest|apply kd_nodeep; nodeep]. }
      destruct (is_borsh E); [destruct (borsh_field_unmarshaler t) as [m|] eqn:Em|].
      - apply Hthen; [now apply (within_unmarshaler t)| |exact Heat|intro; apply kd_fmap; now apply Hrest].
        apply kd_nodeep. clear - Em Hpt. destruct t as [| | | | | | | |q| | | | |c u|]; try discriminate.
        + destruct q; try discriminate. cbn [borsh_field_unmarshaler behind] in *.
          destruct (c_unmarshal c); [|discriminate]. injection Em as <-. apply nodeep_fmap. intro s. apply Hpt.
        + cbn [borsh_field_unmarshaler behind] in *.
          destruct (c_unmarshal c); [|discriminate]. injection Em as <-. intro s. apply Hpt.
      - apply Hthen; [apply within_map_err; now apply within_dec_val|exact Hfirst|exact Heat|exact Hx].
      - apply Hthen; [apply within_map_err; now apply within_dec_val|exact Hfirst|exact Heat|exact Hx]. }
    destruct (ft_ext tg) eqn:Ee; [|exact Hbody].
    apply kd_bind; [within|apply kd_nodeep; nodeep|]. intros [|? ?]; [apply Hkeep; now right|exact Hbody].
  Qed.

  Lemma far_variant fs : forall k ps n,
    Forall (fun ht => far_walk (snd ht) /\ far_null (snd ht) /\ all_codecs codec_within (snd ht)) fs ->
    Forall (fun ht => behind E k False (snd ht)) fs ->
    fits_fields fits fs ps ->
    kd k (dec_variant (fun t' o' v' => dec_val E t' (DStart o') v') fs ps n).
  Proof.
    induction fs as [|[h t] fs IH]; intros k [|p ps] n Ha Hp Hf; try (destruct Hf; fail).
    { apply kd_nodeep. cbn [dec_variant]. nodeep. }
    destruct Hf as [Hp1 Hf].
    inversion_clear Ha as [|? ? (Hw & Hn & Hc) Ha']. inversion_clear Hp as [|? ? Hpt Hpf]. cbn [fst snd] in *.
    cbn [dec_variant fst snd]. destruct n; [|apply kd_fmap; now apply IH].
    destruct (negb _).
    { apply kd_bind; [within|apply kd_nodeep; nodeep|]. intro.
      apply kd_bind; [now apply within_sealed|now apply (kd_sealed E t k False)|intro; apply kd_nodeep; nodeep]. }
    apply kd_bind; [now apply within_dec_val| |intro; apply kd_nodeep; nodeep].
    apply (far_start t Hw Hn k False); auto; try easy; [|intros ->; exact Hpt]. replace (o_opt opt0 || _) with false by (now destruct E). exact Hpt.
  Qed.

  Lemma far_decode t : far_walk t /\ far_null t.
  Proof.
    induction t as [t IH] using ty_strong_ind.
    assert (H0 : (o_opt opt0 || (is_borsh E && o_copt opt0)) = false) by (now destruct E).
    assert (Hwalk : far_walk t).
    { intros k sz o pend v Hp Hc Ho Hf.
      destruct t as [|un w|nm w|f| |sg| | |t|n t|t|t1 t2|fs|c t|];
        try (rewrite dec_walk_eq; apply kd_pend; [within|apply kd_nodeep; nodeep]; fail).
      - rewrite dec_walk_eq. apply kd_fmap. destruct (IH t) as [Hw _]; [cbn; lia|].
        eapply Hw; eauto. exact (fits_deref _ _ Hf).
      - rewrite dec_walk_eq. destruct Hf as (ps & -> & Hl & Hps).
        destruct (IH t) as [Hw Hn]; [cbn; lia|].
        destruct (uint_kind t); [apply kd_pend; [within|apply kd_nodeep; nodeep]|].
        assert (Hwt : forall m v, within (dec_val E t m v)) by (intros; now apply within_dec_val).
        apply kd_pend; [within|]. apply kd_fmap, kd_each; [auto|]. intros a Hin.
        apply (far_start t Hw Hn k False); auto; try easy.
        + rewrite H0. exact Hp.
        + intros ->. exact Hp.
        + rewrite Forall_forall in Hps. auto.
      - rewrite dec_walk_eq. destruct (IH t) as [Hw Hn]; [cbn; lia|]. cbn [behind] in Hp.
        assert (Hwt : forall m v, within (dec_val E t m v)) by (intros; now apply within_dec_val).
        apply kd_pend; [within|].
        assert (Hgo : forall k', behind E k' False t -> forall l, kd k' (if is_borsh E && (l =? 0) then ret v else
           r' <- d_remaining ;; if r' <? l then fail EUnexpectedEOF else match uint_kind t with
             | Some w => fmap (fun zs => VSlice (Some (map VNum zs))) (read_uints w l)
             | None => fmap (fun vs => VSlice (Some vs))
                 (read_rep (Z.to_nat l) (dec_val E t (DStart opt0) (zero_val t))) end)).
        { intros k' Hp' l. destruct (is_borsh E && (l =? 0)); [apply kd_nodeep; nodeep|].
          apply kd_bind; [within|now apply kd_nodeep|]. intro r'. destruct (r' <? l); [apply kd_nodeep; nodeep|].
          destruct (uint_kind t); [apply kd_nodeep; nodeep|]. apply kd_fmap, kd_rep; [within|].
          apply (far_start t Hw Hn k' False); auto; try easy; try apply fits_zero; [now rewrite H0|intros ->; exact Hp']. }
        destruct (o_size o) as [z|] eqn:Eo.
        + apply kd_bind; [within|apply kd_nodeep; nodeep|]. intro l. apply Hgo. apply Hp, Ho. discriminate.
        + apply kd_bind_eat; [within|apply eats_read_count|apply kd_nodeep; nodeep|]. intro l. apply Hgo. apply Hp.
      - rewrite dec_walk_eq. destruct (IH t1) as [Hw1 Hn1]; [cbn; lia|].
        destruct (IH t2) as [Hw2 Hn2]; [cbn; lia|]. destruct Hp as [Hp1 Hp2], Hc as [Hc1 Hc2].
        assert (Hwt1 : forall m v, within (dec_val E t1 m v)) by (intros; now apply within_dec_val).
        assert (Hwt2 : forall m v, within (dec_val E t2 m v)) by (intros; now apply within_dec_val).
        apply kd_pend; [within|].
        apply kd_bind_eat; [within|apply eats_read_count|apply kd_nodeep; nodeep|]. intro l.
        destruct (l =? 0); [apply kd_nodeep; nodeep|]. apply kd_fmap, kd_dec_map; [within|within| |].
        + apply (far_start t1 Hw1 Hn1 _ False); auto; try easy; try apply fits_zero; [now rewrite H0|intros ->; exact Hp1].
        + apply (far_start t2 Hw2 Hn2 _ False); auto; try easy; try apply fits_zero; [now rewrite H0|intros ->; exact Hp2].
      - rewrite dec_walk_eq.
        assert (Hcp : all_codecs codec_within (TStruct fs)) by exact Hc.
        assert (Hall : Forall (fun ht => far_walk (snd ht) /\ far_null (snd ht) /\ all_codecs codec_within (snd ht)) fs).
        { apply all_codecs_struct in Hc. rewrite Forall_forall in *. intros [h a] Hin. specialize (Hc _ Hin).
          destruct (IH a) as [Hw Hn]; [now apply (ty_size_field fs h)|]. auto. }
        apply behind_struct in Hp. destruct Hf as (ps & -> & Hps).
        apply kd_pend.
        { unfold dec_struct. pose proof (within_dec_val _ Hcp E (DWalk opt0 false) (VStruct ps)) as Hx.
          rewrite dec_walk_eq in Hx. exact Hx. }
        unfold dec_struct. rewrite <- enum_struct_is.
        destruct (enum_struct E fs) eqn:Een.
        + apply kd_bind_eat; [within|apply eats_read_byte|apply kd_nodeep; nodeep|]. intro n.
          destruct fs as [|[h a] fs]; [apply kd_nodeep; cbn; nodeep|].
          destruct ps as [|p ps]; [apply kd_nodeep; nodeep|]. destruct (negb _); [apply kd_nodeep; nodeep|].
          inversion_clear Hall as [|? ? Ha1 Ha2]. inversion_clear Hp as [|? ? Hp1 Hp2]. destruct Hps as [_ Hps].
          apply kd_bind; [|now apply far_variant|intro; apply kd_nodeep; nodeep].
          apply within_dec_variant. eapply Forall_impl; [|exact Ha2]. intros [h1 t1] (_ & _ & H1).
          cbn [fst snd] in *. intros. now apply within_dec_val.
        + apply kd_fmap. apply (far_fields fs fs); auto; [apply incl_refl|]. intros name H. now cbn in H.
      - rewrite dec_walk_eq. cbn [behind] in Hp. destruct Hc as [_ Hc]. destruct (c_unmarshal c) as [f|].
        + apply kd_nodeep. destruct pend; [nodeep|]. intro s. apply Hp.
        + destruct (IH t) as [Hw _]; [cbn; lia|]. eapply Hw; eauto.
      - intros s Hi Hr. cbn [behind] in Hp. (unfold inside in *; open_rem). lia. }
    split; [exact Hwalk|]. intros k sz o v Hp Hd Hc Ho Hf. rewrite dec_null_eq.
    assert (Hfl : kd k (dec_flagged E t o v)) by (eapply far_flagged; eauto).
    destruct t as [|un w|nm w|f| |sg| | |t|n t|t|t1 t2|fs|c t|]; try exact Hfl.
    - destruct (is_ptr t) eqn:Ept; [|exact Hfl]. destruct v; try exact Hfl. destruct p as [x|]; [|exact Hfl].
      apply kd_fmap. destruct (IH t) as [_ Hn]; [cbn; lia|]. eapply Hn; eauto; [intros ->; discriminate|exact (fits_deref _ _ Hf)].
    - destruct (c_unmarshal c); [apply kd_nodeep; nodeep|exact Hfl].
    - specialize (Hd eq_refl). intros s Hi Hr. (unfold inside in *; open_rem). lia.
  Qed.
End Walk.

Theorem far_decode_ends t k v s : behind (d_enc s) k False t -> all_codecs codec_within t ->
  inside s -> fits t v -> remaining_of s < k -> fst (decode t v s) <> Deep.
Proof.
  intros Hp Hc Hi Hf Hk. unfold decode, decode_target, bind, d_get_enc. rewrite dec_start_eq.
  replace (o_opt opt0 || (is_borsh (d_enc s) && o_copt opt0)) with false by (now destruct (d_enc s)).
  unfold bind, d_set_cur. refine (proj1 (far_decode (d_enc s) t) k False opt0 false v Hp Hc _ Hf _ _ _).
  - intro H. now apply H.
  - exact Hi.
  - exact Hk.
Qed.
