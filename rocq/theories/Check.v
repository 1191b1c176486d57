(** Boolean versions of [fits] and [ok] for types without codec methods, so
    that the hypotheses of the theorems can be checked by computation on
    concrete values. *)
From Verif Require Import Types Spec NumFacts TyInd EncWire DecWire.

Definition inb (lo z hi : Z) : bool := (lo <=? z) && (z <? hi).
Lemma inb_ok lo z hi : inb lo z hi = true -> lo <= z < hi.
Proof. unfold inb. lia. Qed.

Definition bytesb (l : list Z) : bool := forallb (fun b => inb 0 b 256) l.
Lemma bytesb_ok l : bytesb l = true -> bytes_ok l.
Proof.
  unfold bytesb, bytes_ok. rewrite forallb_forall, Forall_forall.
  intros H x Hx. apply H, inb_ok in Hx. exact Hx.
Qed.

Section FieldsB.
  Variable f : ty -> val -> bool.
  Fixpoint fitsb_fields (fs : list (fhdr * ty)) (vs : list val) : bool :=
    match fs, vs with
    | [], [] => true
    | ht :: fs', v :: vs' => f (snd ht) v && fitsb_fields fs' vs'
    | _, _ => false
    end.
End FieldsB.

Fixpoint fitsb (t : ty) (v : val) {struct t} : bool :=
  match t, v with
  | TBool, VBool _ => true
  | TUint _ w, VNum z => inb 0 z (2 ^ wbits w)
  | TInt _ w, VNum z => inb (- 2 ^ (wbits w - 1)) z (2 ^ (wbits w - 1))
  | TNative s, VNum z => if s then inb (- 2 ^ 63) z (2 ^ 63) else inb 0 z (2 ^ 64)
  | TFloat f, VFloat b => inb 0 b (2 ^ fbits f)
  | TString, VStr s => bytesb s
  | TOther, VOther => true
  | TIface, VIface _ => true
  | TPtr t', VPtr None => true
  | TPtr t', VPtr (Some x) => fitsb t' x
  | TArray n t', VSeq l => Nat.eqb (length l) n && forallb (fitsb t') l
  | TSlice t', VSlice None => true
  | TSlice t', VSlice (Some l) => forallb (fitsb t') l
  | TMap _ _, VMap None => true
  | TMap kt vt, VMap (Some m) => forallb (fun e => fitsb kt (fst e) && fitsb vt (snd e)) m
  | TStruct fs, VStruct vs => fitsb_fields fitsb fs vs
  | TCodec _ u, _ => fitsb u v
  | TDeep, _ => true
  | _, _ => false
  end.

Lemma fitsb_ok t : forall v, fitsb t v = true -> fits t v.
Proof.
  induction t as [t IH] using ty_strong_ind. intros v H.
  assert (Hall : forall t' l, (ty_size t' < ty_size t)%nat -> forallb (fitsb t') l = true -> Forall (fits t') l).
  { intros t' l Ht Hl. rewrite Forall_forall. rewrite forallb_forall in Hl. intros x Hx. apply IH; auto. }
  destruct t; cbn [fitsb] in H; destruct v as [b|z|b|s|[x|]|l|[l|]|[m|]|vs|d|]; try discriminate;
    cbn [fits]; try apply inb_ok in H; try (eexists; split; [reflexivity|]; try easy; exact H); eauto.
  - eexists; split; [reflexivity|]. now apply bytesb_ok.
  - destruct signed; apply inb_ok in H; eauto.
  - eexists; split; [reflexivity|]. intros ? [= <-]. apply IH; auto.
  - apply andb_true_iff in H. destruct H as [Hl H]. apply Nat.eqb_eq in Hl.
    eexists; split; [reflexivity|]. split; auto.
  - eexists; split; [reflexivity|]. intros ? [= <-]. auto.
  - eexists; split; [reflexivity|]. intros ? [= <-].
    rewrite Forall_forall. rewrite forallb_forall in H. intros e He. apply H, andb_true_iff in He.
    split; apply IH; try tauto; cbn; lia.
  - eexists; split; [reflexivity|]. clear Hall. revert vs H.
    assert (IH' : forall h t, In (h, t) fs -> forall v, fitsb t v = true -> fits t v).
    { intros h t Hin. apply IH. exact (ty_size_field _ _ _ Hin). }
    clear IH. induction fs as [|[h t] fs IHf]; intros [|v vs] H; try discriminate; [exact I|].
    cbn [fitsb_fields fits_fields snd] in *. apply andb_true_iff in H. split.
    + apply (IH' h); [now left|tauto].
    + apply IHf; [intros; apply (IH' h0); auto; now right|tauto].
Qed.

Fixpoint distinctb (kt : ty) (ks : list val) : bool :=
  match ks with
  | [] => true
  | k :: r => forallb (fun x => negb (key_eqb kt k x) && negb (key_eqb kt x k)) r && distinctb kt r
  end.
Lemma distinctb_ok kt ks : distinctb kt ks = true -> distinct kt ks.
Proof.
  unfold distinct. induction ks as [|k ks IH]; intro H; [constructor|].
  cbn [distinctb] in H. apply andb_true_iff in H. destruct H as [H1 H2].
  constructor; [|auto]. rewrite Forall_forall. rewrite forallb_forall in H1.
  intros x Hx. apply H1, andb_true_iff in Hx. now rewrite !negb_true_iff in Hx.
Qed.

Definition orderb (o : order) : bool := match o with LE => true | BE => false end.
Definition ptrptr (t : ty) : bool :=
  match t with TPtr (TPtr _) | TDeep => false | _ => true end.
Definition plain_int (t : ty) : bool :=
  match t with TInt _ _ | TUint _ _ => true | _ => false end.
Definition is_iface (t : ty) : bool := match t with TIface => true | _ => false end.
Definition nonnil {A} (l : list A) : bool := match l with [] => false | _ => true end.
Definition no_codec (t : ty) : bool :=
  match t with TCodec c _ => match c_unmarshal c with Some _ => false | None => true end | _ => true end.

Section OkFieldsB.
  Variable E : encoding.
  Variable okb : ty -> option Z -> order -> val -> bool.
  Variable wire : ty -> option Z -> order -> val -> list Z.

  Definition okb_field (t : ty) (tg : field_tag) (sz : option Z) (v : val) : bool :=
    (negb (is_borsh E) || orderb (ft_order tg)) &&
    (negb (flagged_field E tg) || (no_codec t && ptrptr t && (negb (is_borsh E) || bare t))) &&
    (flagged_field E tg && is_zero v || okb t sz (ft_order tg) v) &&
    fitsb t v.

  Definition okb_sizeof (t : ty) (tg : field_tag) (name : string) (v : val) : bool :=
    String.eqb (ft_sizeof tg) EmptyString ||
    (plain_int t && negb (String.eqb (ft_sizeof tg) name) &&
     match v with VNum z => inb (- 2 ^ 63) z (2 ^ 63) | _ => false end).

  Fixpoint okb_fields (fs : list (fhdr * ty)) (vs : list val) (s : sizes) (seen : bool) : bool :=
    match fs, vs with
    | [], [] => true
    | (h, t) :: fs', v :: vs' =>
        let tg := parse_field_tag (f_tag h) in
        if ft_skip tg then okb_fields fs' vs' s seen
        else
          (negb seen || ft_ext tg) &&
          if f_exported h then
            okb_field t tg (s (f_name h)) v &&
            okb_sizeof t tg (f_name h) v &&
            (negb (ft_ext tg) ||
               nonnil (with_flags E tg v (wire t (s (f_name h)) (ft_order tg) v))) &&
            okb_fields fs' vs' (bind_size tg v s) (seen || ft_ext tg)
          else
            String.eqb (ft_sizeof tg) EmptyString &&
            okb_fields fs' vs' s (seen || ft_ext tg)
    | _, _ => false
    end.

  Fixpoint okb_nth (fs : list (fhdr * ty)) (vs : list val) (n : nat) : bool :=
    match fs, vs, n with
    | (h, t) :: fs', v :: vs', O =>
        f_exported h && okb t None LE v && Nat.eqb (length fs') (length vs')
    | _ :: fs', _ :: vs', S n' => okb_nth fs' vs' n'
    | _, _, _ => false
    end.
End OkFieldsB.

Fixpoint okb (E : encoding) (t : ty) (sz : option Z) (o : order) (v : val) {struct t} : bool :=
  let elem t' x :=
    match uint_kind t', x with
    | Some w, VNum z => inb 0 z (2 ^ wbits w)
    | Some w, _ => false
    | None, _ => okb E t' None LE x
    end in
  let bulk t' (l : list val) :=
    match uint_kind t' with Some W8 => zlen l <=? bulk_max | _ => true end in
  match t, v with
  | TBool, VBool _ => true
  | TUint _ w, VNum z => inb 0 z (2 ^ wbits w)
  | TInt _ w, VNum z => inb (- 2 ^ (wbits w - 1)) z (2 ^ (wbits w - 1))
  | TFloat f, VFloat b => inb 0 b (2 ^ fbits f) && (negb (is_borsh E) || negb (f_isnan f b))
  | TString, VStr s => bytesb s && (zlen s <=? text_max E)
  | TIface, VIface _ => true
  | TPtr t', VPtr q =>
      match t' with
      | TCodec _ _ => false
      | _ =>
          match E, q with
          | Borsh, _ => match sz with
                        | None => okb E t' None LE (match q with Some x => x | None => zero_val t' end)
                        | Some _ => false
                        end
          | _, Some x => okb E t' sz o x
          | _, None => false
          end
      end
  | TArray n t', VSeq l => Nat.eqb (length l) n && forallb (elem t') l && bulk t' l
  | TSlice t', VSlice ol =>
      let l := match ol with Some l => l | None => [] end in
      match sz with Some n => n =? zlen l | None => zlen l <=? count_max E end &&
      forallb (elem t') l && bulk t' l &&
      match uint_kind t' with
      | Some _ => true
      | None => forallb (fun x => nonnil (wire E t' None LE x)) l
      end
  | TMap kt vt, VMap om =>
      let m := match om with Some m => m | None => [] end in
      (zlen m <=? count_max E) &&
      forallb (fun e => okb E kt None LE (fst e) && okb E vt None LE (snd e) &&
                        key_eqb kt (fst e) (fst e) &&
                        negb (is_iface kt) && negb (is_iface vt)) m &&
      distinctb kt (map fst m) &&
      distinctb kt (map (fun e => back E kt None LE (zero_val kt) (fst e)) m) &&
      (negb (is_borsh E) || Nat.leb (length m) 1 || key_sortable false kt)
  | TStruct fs, VStruct vs =>
      if enum_struct E fs then
        match vs with
        | VNum z :: vs' =>
            inb 0 z 256 &&
            match fs with (h, _) :: _ => f_exported h | [] => true end &&
            okb_nth
              (fun t' _ _ v' =>
                 match t' with
                 | TPtr (TCodec _ _) | TCodec _ _ => false
                 | TPtr t'' => match v' with
                               | VPtr (Some x) => payload t'' && okb E t' None LE v'
                               | _ => false
                               end
                 | _ => payload t' && okb E t' None LE v'
                 end) fs vs (S (Z.to_nat z))
        | _ => false
        end
      else okb_fields E (okb E) (wire E) fs vs no_sizes false
  | TCodec c u, _ =>
      match c_marshal c, c_unmarshal c with
      | None, None => okb E u sz o v
      | _, _ => false
      end
  | _, _ => false
  end.

Lemma nonnil_ok {A} (l : list A) : nonnil l = true -> l <> [].
Proof. now destruct l. Qed.

Lemma okb_field_ok E t tg sz v :
  (forall sz o v, okb E t sz o v = true -> ok E t sz o v) ->
  okb_field E (okb E) t tg sz v = true -> ok_field E (ok E) t tg sz v.
Proof.
  intros IH H. unfold okb_field in H. rewrite !andb_true_iff in H.
  destruct H as (((H1 & H2) & H3) & H4). unfold ok_field. repeat split.
  - intros ->. cbn in H1. now destruct (ft_order tg).
  - rewrite H in H2. cbn in H2. rewrite !andb_true_iff in H2. destruct H2 as ((H2 & _) & _).
    destruct t; try reflexivity. cbn in *. now destruct (c_unmarshal c).
  - rewrite H in H2. cbn in H2. rewrite !andb_true_iff in H2. destruct H2 as ((_ & H2) & _).
    destruct t; try exact I; try discriminate. now destruct t.
  - intros ->. rewrite H in H2. cbn in H2. rewrite !andb_true_iff in H2. tauto.
  - apply orb_true_iff in H3. destruct H3; auto.
  - now apply fitsb_ok.
Qed.

Lemma okb_sizeof_ok E t tg n v : fits t v ->
  okb_sizeof t tg n v = true -> ok_sizeof E (back E) t tg n v.
Proof.
  intros Hf H. unfold okb_sizeof in H. unfold ok_sizeof.
  apply orb_true_iff in H. destruct H as [H|H]; [left; now apply String.eqb_eq|right].
  rewrite !andb_true_iff in H. destruct H as ((H1 & H2) & H3).
  split; [now destruct t|]. split.
  { apply negb_true_iff, String.eqb_neq in H2. exact H2. }
  split; [now destruct t|].
  destruct v; try discriminate. apply inb_ok in H3. exists z. split; [reflexivity|]. split; [lia|].
  intros sz p Hp. unfold back_field. destruct (flagged_field E tg && is_zero (VNum z)) eqn:Hz.
  - apply andb_true_iff in Hz. destruct Hz as [_ Hz]. cbn in Hz. assert (z = 0) as -> by lia.
    now destruct t.
  - destruct E, t; try discriminate; reflexivity.
Qed.

Lemma okb_fields_ok E fs :
  (forall h t, In (h, t) fs -> forall sz o v, okb E t sz o v = true -> ok E t sz o v) ->
  forall vs s seen, okb_fields E (okb E) (wire E) fs vs s seen = true ->
  ok_fields E (ok E) (back E) (wire E) fs vs s seen.
Proof.
  induction fs as [|[h t] fs IH]; intros Hall [|v vs] s seen H; try discriminate; [exact I|].
  specialize (IH (fun h t Hin => Hall h t (or_intror Hin))).
  specialize (Hall h t (or_introl eq_refl)).
  cbn [okb_fields ok_fields] in *. destruct (ft_skip _); [auto|].
  apply andb_true_iff in H. destruct H as [Hs H]. split.
  { intros ->. now cbn in Hs. }
  destruct (f_exported h).
  - rewrite !andb_true_iff in H. destruct H as (((H1 & H2) & H3) & H4).
    pose proof (okb_field_ok _ _ _ _ _ Hall H1) as Hf.
    split; [exact Hf|]. split; [|split].
    + apply okb_sizeof_ok; [|exact H2]. apply Hf.
    + intro He. rewrite He in H3. apply nonnil_ok. exact H3.
    + auto.
  - rewrite !andb_true_iff in H. split; [now apply String.eqb_eq|]. apply IH. tauto.
Qed.

Lemma okb_nth_ok (f : ty -> option Z -> order -> val -> bool) (P : ty -> option Z -> order -> val -> Prop) fs :
  (forall h t, In (h, t) fs -> forall v, f t None LE v = true -> P t None LE v) ->
  forall vs n, okb_nth f fs vs n = true -> ok_nth P fs vs n.
Proof.
  induction fs as [|[h t] fs IH]; intros Hall [|v vs] n H; try discriminate.
  destruct n; cbn [okb_nth ok_nth] in *.
  - rewrite !andb_true_iff in H. destruct H as ((H1 & H2) & H3). apply Nat.eqb_eq in H3.
    split; [exact H1|]. split; [|exact H3]. apply (Hall h); [now left|exact H2].
  - apply IH; auto. intros. apply (Hall h0); auto. now right.
Qed.

Lemma okb_ok E t : forall sz o v, okb E t sz o v = true -> ok E t sz o v.
Proof.
  induction t as [t IH] using ty_strong_ind. intros sz o v H.
  assert (Hall : forall t' l, (ty_size t' < ty_size t)%nat ->
    forallb (fun x => match uint_kind t', x with
      | Some w, VNum z => inb 0 z (2 ^ wbits w)
      | Some w, _ => false
      | None, _ => okb E t' None LE x
      end) l = true ->
    Forall (fun x => match uint_kind t' with
      | Some w => exists z, x = VNum z /\ 0 <= z < 2 ^ wbits w
      | None => ok E t' None LE x end) l).
  { intros t' l Ht Hl. rewrite Forall_forall. rewrite forallb_forall in Hl. intros x Hx.
    specialize (Hl x Hx). cbn beta in Hl. destruct (uint_kind t').
    - destruct x; try discriminate. apply inb_ok in Hl. eauto.
    - apply IH; auto. }
  assert (Hbulk : forall t' (l : list val),
    match uint_kind t' with Some W8 => zlen l <=? bulk_max | _ => true end = true ->
    uint_kind t' = Some W8 -> zlen l <= bulk_max).
  { intros t' l Hb Hk. rewrite Hk in Hb. lia. }
  destruct t; cbn [okb] in H; try (destruct v as [b|z|b|s|q|l|ol|om|vs|d|]; try discriminate);
    cbn [ok]; try (apply inb_ok in H; eauto; fail); eauto;
    try (unfold val_marshal; destruct (c_marshal c); [discriminate|];
         destruct (c_unmarshal c); [discriminate|]; destruct (c_byval c); apply IH; auto; fail).
  - apply andb_true_iff in H. destruct H as [H1 H2]. apply inb_ok in H1.
    exists b. repeat split; try tauto; try lia. intros ->. cbn in H2. now apply negb_true_iff in H2.
  - apply andb_true_iff in H. destruct H as [H1 H2]. apply bytesb_ok in H1.
    exists s. repeat split; auto. lia.
  - exists q. split; [reflexivity|].
    assert (Hn : ptr_marshal t = None) by (destruct t; try reflexivity; discriminate).
    rewrite Hn. assert (Hx : forall b : bool, match t with TCodec _ _ => false | _ => b end = true -> b = true).
    { intro b. now destruct t. }
    apply Hx in H. destruct E.
    + destruct q as [x|]; [|discriminate]. exists x. auto.
    + destruct q as [x|]; [|discriminate]. exists x. auto.
    + destruct sz; [discriminate|]. auto.
  - rewrite !andb_true_iff in H. destruct H as ((H1 & H2) & H3). apply Nat.eqb_eq in H1.
    exists l. split; [reflexivity|]. split; [exact H1|]. split; [auto|exact (Hbulk _ _ H3)].
  - rewrite !andb_true_iff in H. destruct H as (((H1 & H2) & H3) & H4).
    exists ol. cbn zeta. split; [reflexivity|]. split; [destruct sz; lia|].
    split; [auto|]. split; [exact (Hbulk _ _ H3)|].
    { intro Hk. rewrite Hk in H4. rewrite Forall_forall. rewrite forallb_forall in H4.
      intros x Hx. apply nonnil_ok, H4, Hx. }
  - rewrite !andb_true_iff in H. destruct H as ((((H1 & H2) & H3) & H4) & H5).
    exists om. cbn zeta. repeat split; auto.
    + lia.
    + rewrite Forall_forall. rewrite forallb_forall in H2. intros e He. apply H2 in He.
      rewrite !andb_true_iff in He. destruct He as ((((E1 & E2) & E3) & E4) & E5).
      repeat split; auto.
      * apply IH; auto. cbn. lia.
      * apply IH; auto. cbn. lia.
      * intros ->. discriminate.
      * intros ->. discriminate.
    + now apply distinctb_ok.
    + now apply distinctb_ok.
    + intros -> Hl. cbn in H5. apply orb_true_iff in H5. destruct H5 as [H5|H5]; [|exact H5].
      apply Nat.leb_le in H5. lia.
  - exists vs. split; [reflexivity|]. destruct (enum_struct E fs) eqn:He.
    + destruct vs as [|[] vs']; try discriminate. rewrite !andb_true_iff in H.
      destruct H as ((H1 & H2) & H3). apply inb_ok in H1.
      exists z, vs'. repeat split; try lia.
      * intros h t' Hh. destruct fs; [discriminate|]. inversion Hh; subst. exact H2.
      * eapply okb_nth_ok; [|exact H3]. intros h t Hin v Hv. cbn beta in Hv.
        pose proof (ty_size_field _ _ _ Hin) as Hlt.
        assert (Hd : payload t && okb E t None LE v = true -> payload t = true /\ ok E t None LE v).
        { intro Hp. apply andb_true_iff in Hp. split; [tauto|]. apply IH; tauto. }
        destruct t; auto; try discriminate.
        assert (Hg : match t with TCodec _ _ => false | _ => true end = true ->
          exists x, v = VPtr (Some x) /\ payload t = true /\ ok E (TPtr t) None LE v).
        { intros Hb. assert (Hv' : match v with VPtr (Some x) => payload t && okb E (TPtr t) None LE v | _ => false end = true).
          { destruct t; try discriminate; exact Hv. }
          destruct v as [| | | |[x|]| | | | | |]; try discriminate.
          apply andb_true_iff in Hv'. exists x. split; [reflexivity|]. split; [tauto|]. apply IH; tauto. }
        destruct t; try (apply Hg; reflexivity); discriminate.
    + apply okb_fields_ok; auto. intros h t Hin. apply IH. exact (ty_size_field _ _ _ Hin).
Qed.
