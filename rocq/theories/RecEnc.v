(** Recursive types: the encoder, and unrollings. *)
From Verif Require Import Types EncPrim DecPrim Enc Dec DecEq Spec TyInd EncFacts DecWithin DecSafe DecLocal GoEncFacts RecSpec RecFacts.
Notation length := Datatypes.length.

Lemma le_each {A} (f f' : A -> EM unit) l : (forall a, le (f a) (f' a)) -> le (each f l) (each f' l).
Proof. intro H. induction l; cbn [each]; [apply le_refl|]. apply le_bind; [apply H|]. intro. exact IHl. Qed.

Definition enc_le (E : encoding) (a b : fhdr * ty) : Prop :=
  fst a = fst b /\ deeper false (snd a) (snd b) /\
  (forall m v, le (enc_val E (snd a) m v) (enc_val E (snd b) m v)) /\
  (forall t t' v, snd a = TPtr t -> snd b = TPtr t' -> le (enc_val E t EPayload v) (enc_val E t' EPayload v)).

Lemma le_enc_fields E fs fs' : Forall2 (enc_le E) fs fs' -> forall vs sizes,
  le (enc_fields E (fun t' o' v' => enc_val E t' (EFull o') v') fs vs sizes)
     (enc_fields E (fun t' o' v' => enc_val E t' (EFull o') v') fs' vs sizes).
Proof.
  induction 1 as [|[h t] [h' t'] fs fs' (Hh & Hd & Hv & _) _ IH]; intros [|v vs] sizes; try apply le_refl.
  cbn [fst snd] in *. subst h'. cbn [enc_fields]. cbv zeta. rewrite (deeper_sizeof t false t' v Hd).
  destruct (ft_skip _); [apply IH|].
  match goal with |- le (match ?x with _ => _ end) _ => destruct x end; [|apply le_refl].
  destruct (negb _); [apply IH|]. apply le_bind; [apply le_map_err, Hv|]. intro. apply IH.
Qed.

Lemma le_enc_hidden rec rec' fs fs' :
  Forall2 (fun a b => fst a = fst b /\ deeper false (snd a) (snd b)) fs fs' -> forall vs sizes,
  le (enc_fields Borsh rec (hide fs) vs sizes) (enc_fields Borsh rec' (hide fs') vs sizes).
Proof.
  induction 1 as [|[h t] [h' t'] fs fs' (Hh & Hd) _ IH]; intros [|v vs] sizes; try apply le_refl.
  cbn [fst snd] in *. subst h'. cbn [hide map enc_fields fst snd f_tag f_exported negb]. fold (hide fs) (hide fs'). cbv zeta.
  rewrite (deeper_sizeof t false t' v Hd). destruct (ft_skip _); [apply IH|].
  match goal with |- le (match ?x with _ => _ end) _ => destruct x end; [|apply le_refl]. apply IH.
Qed.
Lemma le_enc_sealed t : forall g t' v, deeper g t t' -> le (enc_sealed t v) (enc_sealed t' v).
Proof.
  induction t as [t IH] using ty_strong_ind. intros g t' v Hd.
  destruct t as [|un w|nm w|f| |sg| | |t|n t|t|t1 t2|fs|c t|];
    destruct t' as [|un' w'|nm' w'|f'| |sg'| | |t'|n' t'|t'|t1' t2'|fs'|c' t'|];
    cbn [deeper] in Hd; try discriminate; try (destruct Hd; discriminate); try apply le_deep;
    try (injection Hd; intros; subst); try apply le_refl; cbn [enc_sealed].
  - change (deeper g (TStruct fs) (TStruct fs')) in Hd. apply deeper_struct in Hd.
    destruct v as [| | | | | | | |vs| |]; try apply le_refl. rewrite <- (deeper_enum _ _ Hd). destruct (is_enum fs); [|now apply le_enc_hidden].
    destruct vs as [|[]]; try apply le_refl. apply le_bind_r. intros _.
    generalize (VNum z :: vs) as us. generalize (S (Z.to_nat (z mod 256))) as n. clear vs z.
    assert (IH' : forall h a, In (h, a) fs -> forall a1, (ty_size a1 <= ty_size a)%nat -> forall g t' v,
      deeper g a1 t' -> le (enc_sealed a1 v) (enc_sealed t' v)).
    { intros h a Hin a1 Hs. intros. eapply IH; eauto. pose proof (ty_size_field fs h a Hin). lia. }
    clear IH. induction Hd as [|[h t] [h' t'] fs fs' (Hh & Hd) _ IHf]; intros n [|v us]; try apply le_refl.
    cbn [fst snd] in *. subst h'. cbn [nth_field].
    destruct n; [|apply IHf; intros h2 a2 Hin; apply (IH' h2 a2); now right].
    pose proof (IH' h t (or_introl eq_refl)) as Hi. clear IH' IHf.
    destruct t as [|un w|nm w|f| |sg| | |t|n t|t|t1 t2|fs0|c t|];
      destruct t' as [|un' w'|nm' w'|f'| |sg'| | |t'|n' t'|t'|t1' t2'|fs0'|c' t'|];
      try (eapply Hi; [lia|exact Hd]); cbn [deeper] in Hd; try discriminate; try (destruct Hd; discriminate).
    destruct v; try apply le_refl. destruct p; [|apply le_refl]. eapply Hi; [cbn; lia|exact Hd].
  - destruct Hd as [_ Hd]. eapply IH; [cbn; lia|exact Hd].
Qed.
Lemma le_sealed_payload t t' v : deeper false t t' -> le (sealed_payload t v) (sealed_payload t' v).
Proof.
  intro Hd. unfold sealed_payload.
  destruct t as [|un w|nm w|f| |sg| | |t|n t|t|t1 t2|fs0|c t|];
    destruct t' as [|un' w'|nm' w'|f'| |sg'| | |t'|n' t'|t'|t1' t2'|fs0'|c' t'|];
    try (eapply le_enc_sealed; exact Hd); cbn [deeper] in Hd; try discriminate; try (destruct Hd; discriminate).
  destruct v; try apply le_refl. destruct p; [|apply le_refl]. eapply le_enc_sealed; exact Hd.
Qed.

Lemma le_enc_struct E fs fs' vs : Forall2 (enc_le E) fs fs' -> le (enc_struct E fs vs) (enc_struct E fs' vs).
Proof.
  intro H. unfold enc_struct.
  assert (Hd : Forall2 (fun a b => fst a = fst b /\ deeper false (snd a) (snd b)) fs fs').
  { clear vs. induction H as [|a b fs fs' (H1 & H2 & _) _ IH]; constructor; auto. }
  rewrite <- (deeper_enum _ _ Hd). destruct (_ && _); [|now apply le_enc_fields].
  destruct vs as [|[]]; try apply le_refl. apply le_bind_r. intros _.
  generalize (VNum z :: vs) as us. generalize (S (Z.to_nat (z mod 256))) as n. clear Hd vs z.
  induction H as [|[h t] [h' t'] fs fs' (Hh & Hd & Hv & Hp) _ IH]; intros n [|v us]; try apply le_refl.
  cbn [fst snd] in *. subst h'. cbn [nth_field]. destruct n; [|apply IH].
  destruct (negb _); [now apply le_sealed_payload|].
  destruct t as [|un w|nm w|f| |sg| | |t|n t|t|t1 t2|fs0|c t|];
  destruct t' as [|un' w'|nm' w'|f'| |sg'| | |t'|n' t'|t'|t1' t2'|fs0'|c' t'|];
    try (apply Hv); cbn [deeper] in Hd; try discriminate; try (destruct Hd; discriminate).
  destruct v; try apply le_refl. destruct p; [|apply le_refl]. now apply Hp.
Qed.

Lemma le_enc_val E t : forall g t' m v, deeper g t t' -> le (enc_val E t m v) (enc_val E t' m v).
Proof.
  induction t as [t IH] using ty_strong_ind. intros g t' m v Hd.
  assert (Hfs : forall fs fs', t = TStruct fs -> t' = TStruct fs' -> Forall2 (enc_le E) fs fs').
  { intros fs fs' -> ->. apply deeper_struct in Hd.
    assert (IH' : forall h a, In (h, a) fs -> forall a1, (ty_size a1 <= ty_size a)%nat -> forall g t' m v,
      deeper g a1 t' -> le (enc_val E a1 m v) (enc_val E t' m v)).
    { intros h a Hin a1 Hs. intros. eapply IH; eauto. pose proof (ty_size_field fs h a Hin). lia. }
    clear IH v. induction Hd as [|[h a] [h' b] fs fs' [H1 H2] _ IHf]; constructor.
    - repeat split; auto; cbn [snd] in *.
      + intros m1 v1. eapply IH'; [now left|lia|exact H2].
      + intros t1 t2 v1 -> ->. eapply IH'; [now left|cbn; lia|]. exact H2.
    - apply IHf. intros h2 a2 Hin. apply (IH' h2 a2). now right. }
  assert (Hsame : t = t' -> le (enc_val E t m v) (enc_val E t' m v)) by (intros ->; apply le_refl).
  destruct m as [o|].
  - rewrite !enc_full_eq. apply le_bind_r. intros _.
    assert (Hc : le (enc_core E t o v) (enc_core E t' o v)).
    { clear Hsame. destruct t as [|un w|nm w|f| |sg| | |t|n t|t|t1 t2|fs|c t|];
      destruct t' as [|un' w'|nm' w'|f'| |sg'| | |t'|n' t'|t'|t1' t2'|fs'|c' t'|];
      cbn [deeper] in Hd; try discriminate; try (destruct Hd; discriminate); try apply le_deep;
      try (injection Hd; intros; subst); try apply le_refl; cbn [enc_core].
      - assert (Hp : ptr_codec t = ptr_codec t' /\ (codec_of t = None -> codec_of t' = None)).
        { destruct t, t'; cbn [deeper] in Hd; try discriminate; try (split; reflexivity); try (destruct Hd; discriminate).
          - destruct Hd as [-> _]. now split.
          - now destruct Hd. }
        destruct Hp as [Hp _]. rewrite <- Hp. destruct (ptr_codec t) as [[c f]|]; [apply le_refl|].
        destruct v; try apply le_refl. destruct p as [x|].
        + destruct E; (eapply IH; [cbn; lia|exact Hd]).
        + destruct E; try apply le_refl. destruct (cut_or_zero _ _ _ Hd) as [->|Hz].
          * intro s. left. rewrite enc_full_eq. reflexivity.
          * rewrite Hz. eapply IH; [cbn; lia|exact Hd].
      - destruct Hd as [<- Hd]. destruct v; try apply le_refl. rewrite <- (deeper_uint _ _ _ Hd).
        destruct (uint_kind t); [apply le_refl|]. apply le_each. intro. eapply IH; [cbn; lia|exact Hd].
      - destruct v; try apply le_refl. cbv zeta. apply le_bind_r. intros _. rewrite <- (deeper_uint _ _ _ Hd).
        destruct (uint_kind t); [apply le_refl|]. apply le_bind; [|intro; apply le_refl].
        apply le_each. intro. eapply IH; [cbn; lia|exact Hd].
      - destruct Hd as [<- Hd]. destruct v; try apply le_refl. cbv zeta.
        destruct (ordered_keys E t1 _); [|apply le_refl]. apply le_bind_r. intros _.
        unfold enc_map. apply le_each. intro k. destruct (negb (iface_elem t1 k)); [apply le_refl|].
        apply le_bind_r. intros _. destruct (map_index t1 _ k) as [x|]; [|apply le_refl].
        assert (Hc : t2 = TDeep \/ iface_elem t2 x = iface_elem t2' x).
        { destruct t2, t2'; cbn [deeper] in Hd; try discriminate; try (now right); try (now left); destruct Hd; discriminate. }
        destruct Hc as [->|<-].
        + intro s. left. cbn [iface_elem negb]. rewrite enc_full_eq. now destruct E.
        + destruct (negb (iface_elem t2 x)); [apply le_refl|]. eapply IH; [cbn; lia|exact Hd].
      - destruct v; try apply le_refl. apply le_enc_struct. now apply Hfs.
      - destruct Hd as [<- Hd]. destruct (c_marshal c) as [f|]; [destruct (c_byval c); [apply le_refl|]|];
          (eapply IH; [cbn; lia|exact Hd]). }
    unfold flags. cbv zeta.
    assert (Hr : le (if is_borsh E && o_copt o then if is_zero v then write_coption false
        else write_coption true ;;; enc_core E t o v else enc_core E t o v)
      (if is_borsh E && o_copt o then if is_zero v then write_coption false
        else write_coption true ;;; enc_core E t' o v else enc_core E t' o v)).
    { destruct (_ && _); [|exact Hc]. destruct (is_zero v); [apply le_refl|]. apply le_bind_r. intros _. exact Hc. }
    destruct (o_opt o); [|exact Hr]. destruct (is_zero v); [apply le_refl|]. apply le_bind_r. intros _. exact Hr.
  - rewrite !enc_payload_eq. clear Hsame. destruct t as [|un w|nm w|f| |sg| | |t|n t|t|t1 t2|fs|c t|];
      destruct t' as [|un' w'|nm' w'|f'| |sg'| | |t'|n' t'|t'|t1' t2'|fs'|c' t'|];
      cbn [deeper] in Hd; try discriminate; try (destruct Hd; discriminate); try apply le_deep;
      try (injection Hd; intros; subst); try apply le_refl.
    + destruct v; try apply le_refl. apply le_enc_struct. now apply Hfs.
    + destruct Hd as [<- Hd]. eapply IH; [cbn; lia|exact Hd].
Qed.

(** * Unrollings *)

Lemma guarded_struct g fs : guarded g (TStruct fs) <-> Forall (fun ht => guarded false (snd ht)) fs.
Proof.
  cbn [guarded]. induction fs as [|ht fs IH]; split; intro H; [constructor|exact I| |].
  - destruct H. constructor; [|apply IH]; assumption.
  - inversion_clear H. split; [|apply IH]; assumption.
Qed.
Lemma whole_struct fs : whole (TStruct fs) <-> Forall (fun ht => whole (snd ht)) fs.
Proof.
  cbn [whole]. induction fs as [|ht fs IH]; split; intro H; [constructor|exact I| |].
  - destruct H. constructor; [|apply IH]; assumption.
  - inversion_clear H. split; [|apply IH]; assumption.
Qed.
Lemma plug_whole t r : whole t -> plug t r = t.
Proof.
  induction t using ty_ind'; intro Hw; cbn [plug]; try reflexivity; try (cbn [whole] in Hw).
  - now rewrite IHt.
  - now rewrite IHt.
  - now rewrite IHt.
  - destruct Hw. now rewrite IHt1, IHt2.
  - f_equal. change (whole (TStruct fs)) in Hw. apply whole_struct in Hw.
    induction fs as [|[h t] fs IH]; [reflexivity|]. inversion_clear H as [|? ? H1 H2].
    inversion_clear Hw as [|? ? Hw1 Hw2]. cbn [map fst snd] in *. rewrite H1 by exact Hw1. f_equal. auto.
  - now rewrite IHt.
  - destruct Hw.
Qed.

Lemma deeper_plug t : forall g a b, guarded g t -> deeper true a b -> deeper g (plug t a) (plug t b).
Proof.
  induction t using ty_ind'; intros g a b Hg Hd; cbn [guarded] in Hg; cbn [plug]; try (cbn; reflexivity); try (cbn; auto; fail).
  - destruct Hg as [Hk Hv]. rewrite !(plug_whole t1) by exact Hk. cbn; auto.
  - change (guarded g (TStruct fs)) in Hg. apply guarded_struct in Hg. apply deeper_struct.
    induction fs as [|[h t] fs IH]; [constructor|]. inversion_clear H as [|? ? H1 H2].
    inversion_clear Hg as [|? ? Hg1 Hg2]. cbn [map]. constructor; cbn [fst snd] in *; auto.
  - subst g. exact Hd.
Qed.

Lemma heavy_plug t r : heavy t -> heavy (plug t r).
Proof. destruct t; easy. Qed.

Lemma unroll_deeper F n : guarded true F -> heavy F -> forall n', (n <= n')%nat -> deeper true (unroll F n) (unroll F n').
Proof.
  intros Hg Hh. induction n as [|n IH]; intros [|n'] Hn; try lia; cbn [unroll].
  - exact I.
  - assert (H : forall t, heavy t -> deeper true TDeep t) by (intros []; cbn; auto; easy).
    apply H, heavy_plug, Hh.
  - apply deeper_plug; [exact Hg|]. apply IH. lia.
Qed.
