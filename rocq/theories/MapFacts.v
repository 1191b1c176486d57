(** Maps whose entries are enumerated in different orders (C14, C15). *)
From Verif Require Import Types EncPrim DecPrim Enc Dec Builtin Spec NumFacts TyInd EncWire DecWire
  RoundTrip RoundTripProps.
From Coq Require Import Permutation Sorting.Sorted.

(** * Values that differ in the order of map entries only *)

(** What a Go map guarantees: no key twice, and every key equal to itself. *)
Definition good_keys (kt : ty) (m : list (val * val)) : Prop :=
  Forall (fun e => key_eqb kt (fst e) (fst e) = true) m /\ distinct kt (map fst m).

Section Shuffled.
  (** Condition on the maps. *)
  Variable P : ty -> list (val * val) -> Prop.

  Section Fields.
    Variable rel : ty -> val -> val -> Prop.
    Fixpoint shuffled_fields (fs : list (fhdr * ty)) (vs vs' : list val) : Prop :=
      match fs, vs, vs' with
      | [], [], [] => True
      | (_, t) :: fs1, v :: vs1, v' :: vs1' => rel t v v' /\ shuffled_fields fs1 vs1 vs1'
      | _, _, _ => False
      end.
  End Fields.

  (** [v'] is [v] with the entries of maps (at any depth) reordered, except
      inside values of types with codec methods. *)
  Fixpoint shuffled (t : ty) (v v' : val) {struct t} : Prop :=
    v = v' \/
    match t with
    | TPtr t' => exists x x', v = VPtr (Some x) /\ v' = VPtr (Some x') /\ shuffled t' x x'
    | TArray _ t' => exists l l', v = VSeq l /\ v' = VSeq l' /\ Forall2 (shuffled t') l l'
    | TSlice t' =>
        exists l l', v = VSlice (Some l) /\ v' = VSlice (Some l') /\ Forall2 (shuffled t') l l'
    | TMap kt vt =>
        exists m m1 m', v = VMap (Some m) /\ v' = VMap (Some m') /\ P kt m /\ Permutation m m1 /\
          Forall2 (fun e e' => fst e = fst e' /\ shuffled vt (snd e) (snd e')) m1 m'
    | TStruct fs =>
        exists vs vs', v = VStruct vs /\ v' = VStruct vs' /\ shuffled_fields shuffled fs vs vs'
    | TCodec c u => c_marshal c = None /\ c_unmarshal c = None /\ shuffled u v v'
    | _ => False
    end.
End Shuffled.

Lemma shuffled_refl P t v : shuffled P t v v.
Proof. destruct t; left; reflexivity. Qed.

Lemma shuffled_uint P t w v v' : uint_kind t = Some w -> shuffled P t v v' -> v = v'.
Proof.
  intro H. induction t as [t IH] using ty_strong_ind.
  destruct t; try discriminate; intros [Hs|Hs]; auto; try easy.
  destruct Hs as (_ & _ & Hs). apply (IH t); auto.
Qed.
Lemma shuffled_num P t z v' : shuffled P t (VNum z) v' -> v' = VNum z.
Proof.
  induction t as [t IH] using ty_strong_ind.
  destruct t; intros [Hs|Hs]; auto; try easy.
  - destruct Hs as (? & ? & ? & _); discriminate.
  - destruct Hs as (? & ? & ? & _); discriminate.
  - destruct Hs as (? & ? & ? & _); discriminate.
  - destruct Hs as (? & ? & ? & ? & _); discriminate.
  - destruct Hs as (? & ? & ? & _); discriminate.
  - destruct Hs as (_ & _ & Hs). apply (IH t); auto.
Qed.
Lemma shuffled_num_r P t z v : shuffled P t v (VNum z) -> v = VNum z.
Proof.
  induction t as [t IH] using ty_strong_ind.
  destruct t; intros [Hs|Hs]; auto; try easy.
  - destruct Hs as (? & ? & _ & ? & _); discriminate.
  - destruct Hs as (? & ? & _ & ? & _); discriminate.
  - destruct Hs as (? & ? & _ & ? & _); discriminate.
  - destruct Hs as (? & ? & ? & _ & ? & _); discriminate.
  - destruct Hs as (? & ? & _ & ? & _); discriminate.
  - destruct Hs as (_ & _ & Hs). apply (IH t); auto.
Qed.

Lemma shuffled_zero P t : forall v v', shuffled P t v v' -> is_zero v = is_zero v'.
Proof.
  induction t as [t IH] using ty_strong_ind. intros v v'.
  destruct t; intros [Hs|Hs]; try (now subst); try easy.
  - destruct Hs as (x & x' & -> & -> & _). reflexivity.
  - destruct Hs as (l & l' & -> & -> & Hs). cbn [is_zero].
    induction Hs as [|a b l l' Hab _ IHl]; [reflexivity|]. cbn [forallb]. rewrite IHl. f_equal.
    apply (IH t); [cbn; lia|exact Hab].
  - destruct Hs as (l & l' & -> & -> & Hs). reflexivity.
  - destruct Hs as (m & m1 & m' & -> & -> & _). reflexivity.
  - destruct Hs as (vs & vs' & -> & -> & Hs). cbn [is_zero].
    assert (IH' : forall h t, In (h, t) fs -> forall v v', shuffled P t v v' -> is_zero v = is_zero v').
    { intros h t Hin. apply IH. now apply (ty_size_field _ h). }
    clear IH. revert vs vs' Hs. induction fs as [|[h t] fs IHf]; intros [|v vs] [|v' vs'] Hs; try easy.
    destruct Hs as [H1 H2]. cbn [forallb]. f_equal.
    + apply (IH' h t); [now left|exact H1].
    + apply IHf; [|exact H2]. intros h' t' Hin. apply (IH' h'). now right.
  - destruct Hs as (_ & _ & Hs). apply (IH t); auto.
Qed.

(** * The Borsh encoder *)

Definition eqm {A} (m m' : EM A) : Prop := forall s, m s = m' s.

Lemma eqm_refl {A} (m : EM A) : eqm m m.
Proof. intro. reflexivity. Qed.
Lemma eqm_bind {A B} (m m' : EM A) (k k' : A -> EM B) :
  eqm m m' -> (forall a, eqm (k a) (k' a)) -> eqm (bind m k) (bind m' k').
Proof.
  intros H1 H2 s. unfold bind. rewrite H1. destruct (m' s) as [[]]; try reflexivity. apply H2.
Qed.
Lemma eqm_map_err {A} f (m m' : EM A) : eqm m m' -> eqm (map_err f m) (map_err f m').
Proof. intros H s. unfold map_err. now rewrite H. Qed.
Lemma eqm_each {A} (f f' : A -> EM unit) l :
  (forall a, In a l -> eqm (f a) (f' a)) -> eqm (each f l) (each f' l).
Proof.
  induction l as [|a l IH]; intro H; cbn [each]; [apply eqm_refl|].
  apply eqm_bind; [apply H; now left|]. intros _. apply IH. intros b Hb. apply H. now right.
Qed.
Lemma eqm_each2 {A} (R : A -> A -> Prop) (f : A -> EM unit) l l' :
  (forall a a', R a a' -> eqm (f a) (f a')) -> Forall2 R l l' -> eqm (each f l) (each f l').
Proof.
  intros H Hl. induction Hl as [|a a' l l' Ha _ IH]; cbn [each]; [apply eqm_refl|].
  apply eqm_bind; [now apply H|]. intros _. apply IH.
Qed.

(** Sorting. *)
Section Uniq.
  Context {A : Type}.
  Variable lt : A -> A -> bool.
  Hypothesis lt_trans : forall x y z, lt x y = true -> lt y z = true -> lt x z = true.
  Lemma insert_swap x y l : lt x y = negb (lt y x) ->
    insert_sorted lt x (insert_sorted lt y l) = insert_sorted lt y (insert_sorted lt x l).
  Proof.
    intro H. induction l as [|z r IH]; cbn [insert_sorted].
    - rewrite H. destruct (lt y x); reflexivity.
    - destruct (lt x z) eqn:Ex, (lt y z) eqn:Ey; cbn [insert_sorted]; rewrite ?Ex, ?Ey.
      + rewrite H. destruct (lt y x); reflexivity.
      + rewrite (proj1 (not_true_iff_false (lt y x))); [reflexivity|]. intro Hc.
        rewrite (lt_trans y x z Hc Ex) in Ey. discriminate.
      + rewrite (proj1 (not_true_iff_false (lt x y))); [reflexivity|]. intro Hc.
        rewrite (lt_trans x y z Hc Ey) in Ex. discriminate.
      + now rewrite IH.
  Qed.
  Lemma isort_perm l l' : Permutation l l' ->
    ForallOrdPairs (fun x y => lt x y = negb (lt y x)) l -> isort lt l = isort lt l'.
  Proof.
    intro Hp. induction Hp as [|x l l' Hp IH|x y l|l l' l'' H1 IH1 H2 IH2]; intro H.
    - reflexivity.
    - inversion_clear H. unfold isort in *. cbn [fold_right]. now rewrite IH.
    - inversion_clear H as [|? ? Ha Hb]. inversion_clear Ha as [|? ? Hc Hd].
      unfold isort. cbn [fold_right]. now apply insert_swap.
    - rewrite IH1 by exact H. apply IH2. clear -H H1.
      assert (Hs : forall x y, lt x y = negb (lt y x) -> lt y x = negb (lt x y)).
      { intros x y E. rewrite E. now rewrite negb_involutive. }
      induction H1; auto.
      + inversion_clear H as [|? ? Ha Hb]. constructor; [|auto]. eapply Permutation_Forall; eauto.
      + inversion_clear H as [|? ? Ha Hb]. inversion_clear Ha as [|? ? Hc Hd].
        inversion_clear Hb as [|? ? He Hf]. constructor; [constructor; auto|]. now constructor.
  Qed.
End Uniq.

Lemma bytes_ltb_trans x : forall y z,
  bytes_ltb x y = true -> bytes_ltb y z = true -> bytes_ltb x z = true.
Proof.
  induction x as [|a x IH]; intros [|b y] [|c z] H1 H2; try easy. cbn [bytes_ltb] in *.
  apply orb_true_iff in H1, H2. apply orb_true_iff. rewrite andb_true_iff in H1, H2 |- *.
  destruct H1 as [H1|[H1 H1']], H2 as [H2|[H2 H2']]; try (left; lia).
  right. split; [lia|]. eapply IH; eauto.
Qed.
Lemma bytes_ltb_total x : forall y, x <> y -> bytes_ltb x y = negb (bytes_ltb y x).
Proof.
  induction x as [|a x IH]; intros [|b y] H; try easy. cbn [bytes_ltb].
  destruct (a <? b) eqn:E1, (b <? a) eqn:E2; cbn [orb negb]; try lia.
  replace (a =? b) with true by lia. replace (b =? a) with true by lia. cbn [andb].
  apply IH. intros ->. apply H. f_equal. lia.
Qed.

Lemma key_ltb_order t : forall b lt, key_ltb_k b t = Some lt ->
  (forall x y z, lt x y = true -> lt y z = true -> lt x z = true) /\
  (forall x y, key_eqb t x x = true -> key_eqb t y y = true -> key_eqb t x y = false ->
     lt x y = negb (lt y x)).
Proof.
  assert (Hnum : (forall x y z, num_ltb x y = true -> num_ltb y z = true -> num_ltb x z = true) /\
    (forall x y, key_eqb (TNative true) x x = true -> key_eqb (TNative true) y y = true ->
       key_eqb (TNative true) x y = false ->
       num_ltb x y = negb (num_ltb y x))).
  { split.
    - intros x y z. unfold num_ltb. destruct x, y; try easy. destruct z; try easy. lia.
    - intros x y. cbn [key_eqb]. unfold num_ltb. destruct x; try easy. destruct y; try easy. intros _ _. lia. }
  induction t as [t IH] using ty_strong_ind. intros b lt. destruct t; try discriminate; cbn [key_ltb_k].
  - destruct w; try (intros [= <-]; exact Hnum). destruct n; try discriminate.
    destruct b; [intros [= <-]; exact Hnum|discriminate].
  - destruct w; try (intros [= <-]; exact Hnum). destruct (_ || _); [discriminate|intros [= <-]; exact Hnum].
  - intros [= <-]. split.
    + intros x y z. destruct x, y; try easy. destruct z; try easy.
      rewrite !andb_true_iff, !negb_true_iff. intros [[]] [[]]. repeat split; auto. lia.
    + intros x y. cbn [key_eqb]. destruct x; try easy. destruct y; try easy.
      rewrite !andb_true_iff, !negb_true_iff. intros [[Hx _] _] [[Hy _] _]. rewrite Hx, Hy. cbn [negb andb]. lia.
  - intros [= <-]. split.
    + intros x y z. destruct x, y; try easy. destruct z; try easy. apply bytes_ltb_trans.
    + intros x y. cbn [key_eqb]. destruct x; try easy. destruct y; try easy. intros _ _.
      destruct (list_eq_dec Z.eq_dec s s0); [discriminate|]. intros _. now apply bytes_ltb_total.
  - intros [= <-]. exact Hnum.
  - intro H. cbn [key_eqb]. eapply (IH t); eauto.
Qed.

Lemma good_keys_perm kt m m' : Permutation m m' -> good_keys kt m -> good_keys kt m'.
Proof.
  intros Hp [H1 H2]. split; [eapply Permutation_Forall; eauto|].
  eapply distinct_perm; [|exact H2]. now apply Permutation_map.
Qed.
Lemma good_keys_fst kt m m' : map fst m = map fst m' -> good_keys kt m -> good_keys kt m'.
Proof.
  intros Hf [H1 H2]. split; [|now rewrite <- Hf].
  apply (Forall_map fst (fun k => key_eqb kt k k = true)). rewrite <- Hf. now apply Forall_map.
Qed.

Lemma ordered_perm kt m ks : good_keys kt m -> Permutation (map fst m) ks ->
  ordered_keys Borsh kt (map fst m) = ordered_keys Borsh kt ks.
Proof.
  intros [H1 H2] Hp. unfold ordered_keys.
  assert (Hl := Permutation_length Hp).
  destruct (map fst m) as [|a [|b l]] eqn:Em.
  - apply Permutation_nil in Hp. now subst.
  - apply Permutation_length_1_inv in Hp. now subst.
  - destruct ks as [|a' [|b' l']]; try discriminate. destruct (key_ltb kt) as [lt|] eqn:El; [|reflexivity].
    f_equal. destruct (key_ltb_order kt true lt El) as [Ht Hx]. apply isort_perm; [exact Ht|exact Hp|].
    assert (Hself : Forall (fun k => key_eqb kt k k = true) (a :: b :: l)).
    { rewrite <- Em. now apply Forall_map. }
    clear -H2 Hself Hx. unfold distinct in H2. induction H2 as [|x r Hxr _ IH]; [constructor|].
    inversion_clear Hself as [|? ? Ha Hb]. constructor; [|auto].
    rewrite Forall_forall in *. intros y Hy. apply Hx; [exact Ha|now apply Hb|now apply Hxr].
Qed.

Lemma map_index_in kt m k v : good_keys kt m -> In (k, v) m -> map_index kt m k = Some v.
Proof.
  intros [H1 H2] Hin. unfold map_index. induction m as [|[k' v'] m IH]; [easy|].
  inversion_clear H1 as [|? ? Ha Hb]. cbn [map fst] in H2. inversion_clear H2 as [|? ? Hc Hd].
  cbn [find fst] in *. destruct Hin as [[= -> ->]|Hin].
  - now rewrite Ha.
  - rewrite Forall_forall in Hc. destruct (Hc k) as [-> _]; [|now apply IH].
    apply in_map_iff. now exists (k, v).
Qed.
Lemma ordered_in E kt ks ks' : ordered_keys E kt ks = Some ks' -> forall k, In k ks' -> In k ks.
Proof.
  assert (Hs : forall (lt : val -> val -> bool) l, Permutation (isort lt l) l).
  { intros lt l. rewrite isort_sort. apply sort_perm. }
  unfold ordered_keys. destruct E; try (intros [= <-]; auto).
  destruct ks as [|a [|b l]]; try (intros [= <-]; auto).
  destruct (key_ltb kt) as [lt|]; [|discriminate]. intros [= <-] k Hk.
  eapply Permutation_in; [apply Hs|exact Hk].
Qed.

Definition enc_same (t : ty) : Prop := forall m v v', shuffled good_keys t v v' ->
  eqm (enc_val Borsh t m v) (enc_val Borsh t m v').

Lemma enc_same_fields fs : forall vs vs' sz,
  (forall h t, In (h, t) fs -> enc_same t) -> shuffled_fields (shuffled good_keys) fs vs vs' ->
  eqm (enc_fields Borsh (fun t' o' v' => enc_val Borsh t' (EFull o') v') fs vs sz)
      (enc_fields Borsh (fun t' o' v' => enc_val Borsh t' (EFull o') v') fs vs' sz).
Proof.
  induction fs as [|[h t] fs IH]; intros [|v vs] [|v' vs'] sz Hr Hs; try easy; try apply eqm_refl.
  destruct Hs as [H1 H2]. cbn [enc_fields]. cbv zeta.
  assert (IH' : forall sz, eqm (enc_fields Borsh (fun t' o' v' => enc_val Borsh t' (EFull o') v') fs vs sz)
      (enc_fields Borsh (fun t' o' v' => enc_val Borsh t' (EFull o') v') fs vs' sz)).
  { intro. apply IH; [|exact H2]. intros h' t' Hin. apply (Hr h'). now right. }
  destruct (ft_skip _); [apply IH'|].
  assert (Hz : sizeof_val t v = sizeof_val t v').
  { clear -H1. revert H1. induction t as [t IH] using ty_strong_ind. destruct t; intros [->|H1]; try easy.
    cbn [sizeof_val]. apply (IH t); [cbn; lia|apply H1]. }
  rewrite Hz. destruct (if String.eqb _ _ then Some sz else _) as [sz'|]; [|apply eqm_refl].
  destruct (negb (f_exported h)); [apply IH'|].
  apply eqm_bind; [|intros _; apply IH']. apply eqm_map_err, (Hr h); [now left|exact H1].
Qed.
Lemma enc_same_nth (d b : EM unit) fs : forall vs vs' n (f : fhdr -> ty -> val -> EM unit),
  (forall h t v v', In (h, t) fs -> shuffled good_keys t v v' -> eqm (f h t v) (f h t v')) ->
  shuffled_fields (shuffled good_keys) fs vs vs' ->
  eqm (nth_field f d b fs vs n) (nth_field f d b fs vs' n).
Proof.
  induction fs as [|[h t] fs IH]; intros [|v vs] [|v' vs'] n f Hf Hs; try easy; cbn [nth_field];
    try apply eqm_refl.
  destruct Hs as [H1 H2]. destruct n.
  - apply Hf; [now left|exact H1].
  - apply IH; [|exact H2]. intros. apply Hf; auto. now right.
Qed.

Lemma Forall2_firstn {A B} (R : A -> B -> Prop) l l' n : Forall2 R l l' -> Forall2 R (firstn n l) (firstn n l').
Proof. intro H. revert n. induction H; intros [|n]; cbn [firstn]; auto. Qed.
Lemma Forall2_zlen {A B} (R : A -> B -> Prop) l l' : Forall2 R l l' -> zlen l = zlen l'.
Proof. intro H. unfold zlen. f_equal. induction H; cbn [length]; auto. Qed.
Lemma Forall2_uint P t w l l' : uint_kind t = Some w -> Forall2 (shuffled P t) l l' -> l = l'.
Proof. intros Hw H. induction H; [reflexivity|]. f_equal; [|auto]. eapply shuffled_uint; eauto. Qed.

(** Payloads of unexported variants. *)
Lemma shuffled_sizeof P t : forall v v', shuffled P t v v' -> sizeof_val t v = sizeof_val t v'.
Proof.
  induction t as [t IH] using ty_strong_ind. intros v v' H. destruct t; destruct H as [->|H]; try easy.
  cbn [sizeof_val]. apply (IH t); [cbn; lia|apply H].
Qed.
Lemma hidden_same rec fs : forall vs vs' sz, shuffled_fields (shuffled good_keys) fs vs vs' ->
  eqm (enc_fields Borsh rec (hide fs) vs sz) (enc_fields Borsh rec (hide fs) vs' sz).
Proof.
  induction fs as [|[h t] fs IH]; intros [|v vs] [|v' vs'] sz Hs; try easy; try apply eqm_refl.
  destruct Hs as [H1 H2]. cbn [hide map enc_fields fst snd f_tag f_exported negb]. fold (hide fs). cbv zeta.
  destruct (ft_skip _); [now apply IH|]. rewrite (shuffled_sizeof _ _ _ _ H1).
  destruct (if String.eqb _ _ then Some sz else _) as [sz'|]; [now apply IH|apply eqm_refl].
Qed.
Lemma sealed_same t : forall v v', shuffled good_keys t v v' -> eqm (enc_sealed t v) (enc_sealed t v').
Proof.
  induction t as [t IH] using ty_strong_ind. intros v v' Hs.
  destruct t as [|un w|nm w|f| |sg| | |t|n t|t|t1 t2|fs|c t|]; destruct Hs as [Hs|Hs];
    try (subst; apply eqm_refl); try easy.
  - destruct Hs as (vs & vs' & -> & -> & Hs). cbn [enc_sealed].
    destruct (is_enum fs); [|now apply hidden_same].
    destruct fs as [|[h t] fs]; [destruct vs, vs'; try easy; apply eqm_refl|].
    destruct vs as [|v vs], vs' as [|v' vs']; try easy.
    assert (Hv : match v with VNum z => v' = VNum z | _ => match v' with VNum z => False | _ => True end end).
    { destruct Hs as [Hs _]. destruct v; try (apply shuffled_num in Hs; exact Hs);
        destruct v'; auto; apply shuffled_num_r in Hs; discriminate. }
    destruct v; try (destruct v'; try apply eqm_refl; easy). subst v'.
    apply eqm_bind; [apply eqm_refl|]. intros _. apply enc_same_nth; [|exact Hs].
    intros h' t' w w' Hin Hw. pose proof (ty_size_field _ _ _ Hin) as Hz.
    assert (Hgen : eqm (enc_sealed t' w) (enc_sealed t' w')) by (apply IH; [exact Hz|exact Hw]).
    destruct t'; try exact Hgen. destruct Hw as [->|(x & x' & -> & -> & Hx)]; [apply eqm_refl|].
    apply IH; [|exact Hx]. cbn [ty_size] in Hz |- *. lia.
  - destruct Hs as (_ & _ & Hs). cbn [enc_sealed]. apply IH; [cbn; lia|exact Hs].
Qed.
Lemma payload_same t v v' : shuffled good_keys t v v' -> eqm (sealed_payload t v) (sealed_payload t v').
Proof.
  intro Hs. destruct t; try (now apply sealed_same). destruct Hs as [->|(x & x' & -> & -> & Hx)]; [apply eqm_refl|].
  now apply sealed_same.
Qed.

Lemma enc_same_core t : (forall t', (ty_size t' < ty_size t)%nat -> enc_same t') ->
  forall m v v',
    match m with EFull o => o_opt o = false /\ o_copt o = false | EPayload => True end ->
    shuffled good_keys t v v' -> eqm (enc_val Borsh t m v) (enc_val Borsh t m v').
Proof.
  intros IH m v v' Hm Hs.
  destruct t as [|un w|nm w|f| |sg| | |t|n t|t|t1 t2|fs|c t|]; destruct Hs as [Hs|Hs];
    try (subst; apply eqm_refl); try easy.
  - (* pointer *)
    destruct Hs as (x & x' & -> & -> & Hs). cbn [enc_val]. destruct m as [o|]; [|apply eqm_refl].
    destruct Hm as [Ho Hc]. rewrite Ho, Hc. cbn [is_borsh andb].
    apply eqm_bind; [apply eqm_refl|]. intros _. destruct t as [| | | | | | | | | | | | |c t|]; cbn [codec_of];
      try (apply IH; [cbn; lia|exact Hs]).
    destruct Hs as [Hs|(Hc1 & Hc2 & Hs)]; [subst; apply eqm_refl|]. rewrite Hc1.
    apply IH; [cbn; lia|]. right. auto.
  - (* array *)
    destruct Hs as (l & l' & -> & -> & Hs). cbn [enc_val]. destruct m as [o|]; [|apply eqm_refl].
    destruct Hm as [Ho Hc]. rewrite Ho, Hc. cbn [is_borsh andb].
    apply eqm_bind; [apply eqm_refl|]. intros _. destruct (uint_kind t) as [w|] eqn:Ew.
    + rewrite (Forall2_uint _ _ _ _ _ Ew Hs). apply eqm_refl.
    + eapply eqm_each2; [|exact Hs]. intros a a' Ha. apply IH; [cbn; lia|exact Ha].
  - (* slice *)
    destruct Hs as (l & l' & -> & -> & Hs). cbn [enc_val]. destruct m as [o|]; [|apply eqm_refl].
    destruct Hm as [Ho Hc]. rewrite Ho, Hc. cbn [is_borsh andb]. cbv zeta.
    rewrite (Forall2_zlen _ _ _ Hs).
    apply eqm_bind; [apply eqm_refl|]. intros _. apply eqm_bind; [apply eqm_refl|]. intros _.
    destruct (uint_kind t) as [w|] eqn:Ew.
    + rewrite (Forall2_uint _ _ _ _ _ Ew Hs). apply eqm_refl.
    + apply eqm_bind; [|intros _; apply eqm_refl]. eapply eqm_each2; [|apply Forall2_firstn; exact Hs].
      intros a a' Ha. apply IH; [cbn; lia|exact Ha].
  - (* map *)
    destruct Hs as (l & l1 & l' & -> & -> & Hg & Hp & Hs). cbn [enc_val]. destruct m as [o|]; [|apply eqm_refl].
    destruct Hm as [Ho Hc]. rewrite Ho, Hc. cbn [is_borsh andb]. cbv zeta.
    assert (Hfst : map fst l1 = map fst l').
    { clear -Hs. induction Hs as [|e e' r r' [He _] _ IH]; [reflexivity|]. cbn [map]. now rewrite He, IH. }
    rewrite <- (ordered_perm t1 l (map fst l') Hg)
      by (rewrite <- Hfst; now apply Permutation_map).
    destruct (ordered_keys Borsh t1 (map fst l)) as [ks|] eqn:Eo; [|apply eqm_refl].
    assert (Hl : zlen l = zlen l').
    { rewrite <- (Forall2_zlen _ _ _ Hs). unfold zlen. now rewrite (Permutation_length Hp). }
    rewrite Hl. apply eqm_bind; [apply eqm_refl|]. intros _.
    apply eqm_bind; [apply eqm_refl|]. intros _. apply eqm_each. intros k Hk.
    destruct (negb (iface_elem t1 k)); [apply eqm_refl|].
    apply eqm_bind; [apply eqm_refl|]. intros _.
    apply (ordered_in _ _ _ _ Eo) in Hk. apply in_map_iff in Hk. destruct Hk as ([k0 x] & Hk & Hin).
    cbn [fst] in Hk. subst k0. rewrite (map_index_in t1 l k x Hg Hin).
    assert (Hin1 : In (k, x) l1) by (eapply Permutation_in; eauto).
    assert (Hx : exists x', In (k, x') l' /\ shuffled good_keys t2 x x').
    { clear -Hin1 Hs. induction Hs as [|[a b] [a' b'] r r' [He1 He2] _ IH]; [easy|]. cbn [fst snd] in *.
      destruct Hin1 as [[= -> ->]|Hin1].
      - subst a'. exists b'. split; [now left|exact He2].
      - destruct (IH Hin1) as (x' & H1 & H2). exists x'. split; [now right|exact H2]. }
    destruct Hx as (x' & Hin' & Hx). rewrite (map_index_in t1 l' k x').
    + assert (Hi : iface_elem t2 x = iface_elem t2 x').
      { destruct t2; try reflexivity. destruct Hx as [->|Hx]; easy. }
      rewrite Hi. destruct (negb (iface_elem t2 x')); [apply eqm_refl|]. apply IH; [cbn; lia|exact Hx].
    + eapply good_keys_fst; [exact Hfst|]. eapply good_keys_perm; eauto.
    + exact Hin'.
  - (* struct *)
    destruct Hs as (vs & vs' & -> & -> & Hs).
    assert (IHf : forall h t, In (h, t) fs -> enc_same t).
    { intros h t Hin. apply IH. now apply (ty_size_field _ h). }
    assert (Hst : eqm
      (if is_borsh Borsh && is_enum fs then
        match vs with
        | VNum z :: _ =>
          write_byte z ;;;
          nth_field
            (fun h t' v' =>
               if negb (f_exported h) then sealed_payload t' v' else
               match t' with
               | TPtr t'' =>
                   match v' with
                   | VPtr (Some x) => enc_val Borsh t'' EPayload x
                   | VPtr None => ret tt
                   | _ => stuck
                   end
               | _ => enc_val Borsh t' EPayload v'
               end)
            (fail EMsg) stuck fs vs (S (Z.to_nat (z mod 256)))
        | _ => stuck
        end
      else enc_fields Borsh (fun t' o' v' => enc_val Borsh t' (EFull o') v') fs vs [])
      (if is_borsh Borsh && is_enum fs then
        match vs' with
        | VNum z :: _ =>
          write_byte z ;;;
          nth_field
            (fun h t' v' =>
               if negb (f_exported h) then sealed_payload t' v' else
               match t' with
               | TPtr t'' =>
                   match v' with
                   | VPtr (Some x) => enc_val Borsh t'' EPayload x
                   | VPtr None => ret tt
                   | _ => stuck
                   end
               | _ => enc_val Borsh t' EPayload v'
               end)
            (fail EMsg) stuck fs vs' (S (Z.to_nat (z mod 256)))
        | _ => stuck
        end
      else enc_fields Borsh (fun t' o' v' => enc_val Borsh t' (EFull o') v') fs vs' [])).
    { destruct (is_borsh Borsh && is_enum fs); [|now apply enc_same_fields].
      destruct fs as [|[h t] fs]; [destruct vs, vs'; try easy; apply eqm_refl|].
      destruct vs as [|v vs], vs' as [|v' vs']; try easy.
      assert (Hv : match v with VNum z => v' = VNum z | _ => match v' with VNum z => False | _ => True end end).
      { destruct Hs as [Hs _]. destruct v; try (apply shuffled_num in Hs; exact Hs);
          destruct v'; auto; apply shuffled_num_r in Hs; discriminate. }
      destruct v; try (destruct v'; try apply eqm_refl; easy). subst v'.
      apply eqm_bind; [apply eqm_refl|]. intros _. apply enc_same_nth; [|exact Hs].
      intros h' t' w w' Hin Hw. destruct (negb (f_exported h')); [now apply payload_same|].
      assert (Hgen : eqm (enc_val Borsh t' EPayload w) (enc_val Borsh t' EPayload w')).
      { now apply (IHf h'). }
      destruct t'; try exact Hgen. destruct Hw as [->|(x & x' & -> & -> & Hx)]; [apply eqm_refl|].
      apply IH; [|exact Hx]. pose proof (ty_size_field _ _ _ Hin) as Hz. cbn [ty_size] in Hz |- *. lia. }
    cbn [enc_val]. destruct m as [o|]; [|exact Hst].
    destruct Hm as [Ho Hc]. rewrite Ho, Hc. cbn [andb]. rewrite andb_false_r.
    apply eqm_bind; [apply eqm_refl|]. intros _. exact Hst.
  - (* codec *)
    destruct Hs as (Hc1 & Hc2 & Hs). cbn [enc_val]. destruct m as [o|].
    + destruct Hm as [Ho Hc]. rewrite Ho, Hc, Hc1. cbn [is_borsh andb].
      apply eqm_bind; [apply eqm_refl|]. intros _. apply IH; [cbn; lia|exact Hs].
    + apply IH; [cbn; lia|exact Hs].
Qed.

Lemma enc_same_all t : enc_same t.
Proof.
  induction t as [t IH] using ty_strong_ind. intros [o|] v v' Hs; [|now apply enc_same_core].
  intro s. rewrite !enc_val_unflag. rewrite <- (shuffled_zero _ _ _ _ Hs). cbv zeta.
  assert (Hc : eqm (enc_val Borsh t (EFull (cut_opt o)) v) (enc_val Borsh t (EFull (cut_opt o)) v')).
  { apply enc_same_core; [exact IH|now split|exact Hs]. }
  revert s. apply eqm_bind; [apply eqm_refl|]. intros _.
  destruct (o_opt o), (is_borsh Borsh && o_copt o), (is_zero v); try apply eqm_refl; try exact Hc;
    repeat (apply eqm_bind; [apply eqm_refl|]; intros _); exact Hc.
Qed.

Lemma encode_same t v v' s : e_enc s = Borsh -> shuffled good_keys t v v' -> encode t v s = encode t v' s.
Proof.
  intros Hb Hs. unfold encode, bind, e_get_enc. rewrite Hb. now apply enc_same_all.
Qed.

(** * Ascending keys *)

Lemma key_before_trans t : forall a b c,
  key_before t a b = true -> key_before t b c = true -> key_before t a c = true.
Proof.
  assert (Hlex : forall x y z, lex_lt x y = true -> lex_lt y z = true -> lex_lt x z = true).
  { induction x as [|a x IH]; intros [|b y] [|c z] H1 H2; try easy. cbn [lex_lt] in *.
    apply orb_true_iff in H1, H2. apply orb_true_iff. rewrite andb_true_iff in H1, H2 |- *.
    destruct H1 as [H1|[H1 H1']], H2 as [H2|[H2 H2']]; try (left; lia).
    right. split; [lia|]. eapply IH; eauto. }
  induction t; intros a b c1; try discriminate; cbn [key_before]; try exact (IHt a b c1);
    destruct a, b; try discriminate; destruct c1; try discriminate; try lia; auto; apply Hlex.
Qed.
Lemma key_before_total t : forall d a b, key_sortable d t = true ->
  key_eqb t a a = true -> key_eqb t b b = true -> key_eqb t a b = false ->
  key_before t a b = negb (key_before t b a).
Proof.
  intros d a b Hs Ha Hb Hab. destruct (key_ltb_before t d Hs) as (lt & H1 & H2).
  rewrite <- !H2 by assumption. apply (key_ltb_order t _ lt H1); assumption.
Qed.

Section StrongSort.
  Context {A : Type}.
  Variable lt : A -> A -> bool.
  Hypothesis lt_trans : forall x y z, lt x y = true -> lt y z = true -> lt x z = true.
  Let R a b := lt a b = true.
  Lemma put_sorted x l : StronglySorted R l -> Forall (fun y => lt x y = negb (lt y x)) l ->
    StronglySorted R (put lt x l).
  Proof.
    intros Hs Hx. induction Hs as [|y r Hr IH Hy]; cbn [put].
    - constructor; [constructor|constructor].
    - inversion_clear Hx as [|? ? H1 H2]. destruct (lt x y) eqn:E.
      + constructor; [now constructor|]. constructor; [exact E|].
        eapply Forall_impl; [|exact Hy]. intros z Hz. eapply lt_trans; eauto.
      + constructor; [auto|].
        assert (Hp : Permutation (x :: r) (put lt x r)).
        { clear. induction r as [|z r IH]; cbn [put]; [reflexivity|].
          destruct (lt x z); [reflexivity|]. rewrite perm_swap. now constructor. }
        eapply Permutation_Forall; [exact Hp|]. constructor; [|exact Hy].
        unfold R. destruct (lt y x); [reflexivity|discriminate].
  Qed.
  Lemma sort_sorted l : ForallOrdPairs (fun x y => lt x y = negb (lt y x)) l ->
    StronglySorted R (Spec.sort lt l).
  Proof.
    intro H. induction H as [|x l Hx _ IH]; [constructor|]. cbn [Spec.sort fold_right].
    apply put_sorted; [exact IH|]. eapply Permutation_Forall; [|exact Hx].
    symmetry. apply sort_perm.
  Qed.
End StrongSort.

Lemma flat_map_eq {A B} (f g : A -> list B) l : (forall x, In x l -> f x = g x) -> flat_map f l = flat_map g l.
Proof.
  induction l as [|x l IH]; intro H; [reflexivity|]. cbn [flat_map]. f_equal; [apply H; now left|].
  apply IH. intros. apply H. now right.
Qed.

Lemma borsh_map_sorted kt vt m : ok Borsh (TMap kt vt) None LE (VMap (Some m)) ->
  exists l, Permutation m l /\
    StronglySorted (fun a b => key_before kt (fst a) (fst b) = true) l /\
    marshal Borsh (TMap kt vt) (VMap (Some m)) =
      (Ok tt, fixed LE 4 (zlen m) ++
              flat_map (fun e => snd (marshal Borsh kt (fst e)) ++ snd (marshal Borsh vt (snd e))) l).
Proof.
  intro Hok. exists (entries Borsh kt m). split; [symmetry; apply entries_perm|].
  pose proof (marshal_wire _ _ _ Hok) as Hw.
  cbn [ok] in Hok. destruct Hok as (om & [= <-] & Hl & Hall & Hd & _ & Hs). split.
  - cbn [entries].
    apply (sort_sorted (fun a b => key_before kt (fst a) (fst b))).
    { intros x y z. apply key_before_trans. }
    destruct m as [|a [|b m']]; [constructor|constructor; constructor|].
    specialize (Hs eq_refl ltac:(cbn; lia)). remember (a :: b :: m') as m. clear -Hall Hd Hs.
    induction m as [|e m IH]; [constructor|]. cbn [map] in Hd.
    inversion_clear Hall as [|? ? H1 H2]. inversion_clear Hd as [|? ? H3 H4].
    constructor; [|now apply IH]. apply Forall_forall. intros e' Hin.
    rewrite Forall_forall in H2, H3. destruct (H2 _ Hin) as (_ & _ & Hk & _). destruct H1 as (_ & _ & Hk' & _).
    apply (key_before_total kt false); auto. apply H3. now apply in_map.
  - rewrite Hw. f_equal. cbn [wire]. f_equal. apply flat_map_eq. intros e He.
    rewrite Forall_forall in Hall. destruct (Hall e) as (H1 & H2 & _).
    { eapply Permutation_in; [apply (entries_perm Borsh kt)|exact He]. }
    now rewrite !marshal_wire by assumption.
Qed.

(** * Bin and compact-u16 *)

Definition any_map (kt : ty) (m : list (val * val)) : Prop := True.

Lemma shuffled_weaken (P Q : ty -> list (val * val) -> Prop) t : (forall kt m, P kt m -> Q kt m) ->
  forall v v', shuffled P t v v' -> shuffled Q t v v'.
Proof.
  intro H. induction t as [t IH] using ty_strong_ind. intros v v'.
  destruct t as [|un w|nm w|f| |sg| | |t|n t|t|t1 t2|fs|c t|]; intros [Hs|Hs]; try (now left); try easy; right.
  - destruct Hs as (x & x' & -> & -> & Hs). do 2 eexists. do 2 (split; [reflexivity|]).
    apply IH; [cbn; lia|exact Hs].
  - destruct Hs as (l & l' & -> & -> & Hs). do 2 eexists. do 2 (split; [reflexivity|]).
    induction Hs; constructor; auto.
  - destruct Hs as (l & l' & -> & -> & Hs). do 2 eexists. do 2 (split; [reflexivity|]).
    induction Hs; constructor; auto.
  - destruct Hs as (m & m1 & m' & -> & -> & Hp & Hm & Hs). do 3 eexists. do 2 (split; [reflexivity|]).
    split; [auto|]. split; [exact Hm|]. clear Hm. induction Hs as [|e e' r r' [H1 H2] _ IHs]; constructor; auto.
    split; [exact H1|]. apply IH; [cbn; lia|exact H2].
  - destruct Hs as (vs & vs' & -> & -> & Hs). do 2 eexists. do 2 (split; [reflexivity|]).
    assert (IH' : forall h t, In (h, t) fs -> forall v v', shuffled P t v v' -> shuffled Q t v v').
    { intros h t Hin. apply IH. now apply (ty_size_field _ h). }
    clear IH. revert vs vs' Hs. induction fs as [|[h t] fs IHf]; intros [|v vs] [|v' vs'] Hs; try easy.
    destruct Hs as [H1 H2]. split; [apply (IH' h t); [now left|exact H1]|].
    apply IHf; [|exact H2]. intros h' t' Hin. apply (IH' h'). now right.
  - destruct Hs as (H1 & H2 & Hs). repeat (split; [assumption|]). apply (IH t); [cbn; lia|exact Hs].
Qed.

Lemma bind_size_same P t tg v v' s : shuffled P t v v' -> bind_size tg v s = bind_size tg v' s.
Proof.
  intro H. unfold bind_size. destruct (ft_sizeof tg); [reflexivity|].
  destruct v; try (apply shuffled_num in H; now subst v');
    (destruct v'; try reflexivity; apply shuffled_num_r in H; discriminate).
Qed.

Section Rest.
  Variables (E : encoding) (P : ty -> list (val * val) -> Prop).
  Hypothesis HE : E <> Borsh.
  Lemma no_enum fs : enum_struct E fs = false.
  Proof. destruct E; try reflexivity. congruence. Qed.

  Lemma zlen_flat {A} (R : A -> A -> Prop) (f : A -> list Z) l l' :
    (forall a a', R a a' -> zlen (f a) = zlen (f a')) -> Forall2 R l l' ->
    zlen (flat_map f l) = zlen (flat_map f l').
  Proof.
    intros H Hl. induction Hl as [|a a' l l' Ha _ IH]; [reflexivity|]. cbn [flat_map].
    rewrite !zlen_app, IH. f_equal. now apply H.
  Qed.
  Lemma zlen_flat_perm {A} (f : A -> list Z) l l' : Permutation l l' ->
    zlen (flat_map f l) = zlen (flat_map f l').
  Proof.
    induction 1; cbn [flat_map]; rewrite ?zlen_app; lia.
  Qed.

  Lemma wire_length t : forall sz o v v', shuffled P t v v' ->
    zlen (wire E t sz o v) = zlen (wire E t sz o v').
  Proof.
    induction t as [t IH] using ty_strong_ind. intros sz o v v' Hs.
    assert (Helem : forall t' l l', (ty_size t' < ty_size t)%nat -> Forall2 (shuffled P t') l l' ->
      zlen (flat_map (fun x => match uint_kind t', x with
                               | Some w, VNum z => fixed LE (wbytes w) z
                               | _, _ => wire E t' None LE x
                               end) l) =
      zlen (flat_map (fun x => match uint_kind t', x with
                               | Some w, VNum z => fixed LE (wbytes w) z
                               | _, _ => wire E t' None LE x
                               end) l')).
    { intros t' l l' Ht Hl. destruct (uint_kind t') as [w|] eqn:Ew.
      - now rewrite (Forall2_uint _ _ _ _ _ Ew Hl).
      - eapply zlen_flat; [|exact Hl]. intros a a' Ha. now apply IH. }
    destruct t as [|un w|nm w|f| |sg| | |t|n t|t|t1 t2|fs|c t|]; destruct Hs as [Hs|Hs];
      try (now subst); try easy.
    - destruct Hs as (x & x' & -> & -> & Hs). cbn [wire].
      destruct t as [| | | | | | | | | | | | |c t|]; cbn [ptr_marshal];
        try (destruct E; apply IH; solve [cbn; lia|exact Hs]).
      destruct Hs as [->|(H1 & H2 & Hs)]; [reflexivity|]. rewrite H1.
      destruct E; apply (IH (TCodec c t)); try (cbn; lia); right; auto.
    - destruct Hs as (l & l' & -> & -> & Hs). cbn [wire]. apply Helem; [cbn; lia|exact Hs].
    - destruct Hs as (l & l' & -> & -> & Hs). cbn [wire]. rewrite !zlen_app, (Forall2_zlen _ _ _ Hs).
      f_equal. apply Helem; [cbn; lia|exact Hs].
    - destruct Hs as (m & m1 & m' & -> & -> & _ & Hp & Hs). cbn [wire].
      replace (zlen m) with (zlen m') by (rewrite <- (Forall2_zlen _ _ _ Hs); unfold zlen; now rewrite (Permutation_length Hp)).
      rewrite !zlen_app. f_equal.
      replace (entries E t1 m) with m by (destruct E; [reflexivity..|congruence]).
      replace (entries E t1 m') with m' by (destruct E; [reflexivity..|congruence]).
      rewrite (zlen_flat_perm _ _ _ Hp). eapply zlen_flat; [|exact Hs]. intros e e' [H1 H2].
      rewrite H1, !zlen_app. f_equal. apply IH; [cbn; lia|exact H2].
    - destruct Hs as (vs & vs' & -> & -> & Hs). cbn [wire]. rewrite no_enum.
      assert (IH' : forall h t, In (h, t) fs -> forall sz o v v', shuffled P t v v' ->
        zlen (wire E t sz o v) = zlen (wire E t sz o v')).
      { intros h t Hin. apply IH. now apply (ty_size_field _ h). }
      clear IH Helem. revert vs vs' Hs. generalize no_sizes.
      induction fs as [|[h t] fs IHf]; intros s [|v vs] [|v' vs'] Hs; try easy.
      destruct Hs as [H1 H2]. cbn [wire_fields]. cbv zeta.
      assert (IHf' : forall s, zlen (wire_fields E (wire E) fs vs s) = zlen (wire_fields E (wire E) fs vs' s)).
      { intro. apply IHf; [|exact H2]. intros h' t' Hin. apply (IH' h'). now right. }
      destruct (live h); [|apply IHf'].
      rewrite <- (bind_size_same _ _ _ _ _ s H1). rewrite !zlen_app. f_equal; [|apply IHf'].
      unfold with_flags. cbv zeta. rewrite <- (shuffled_zero _ _ _ _ H1).
      destruct (ft_option _ && is_zero v); [reflexivity|]. rewrite !zlen_app. f_equal.
      destruct (_ && is_zero v); [reflexivity|]. rewrite !zlen_app. f_equal.
      apply (IH' h t); [now left|exact H1].
    - destruct Hs as (H1 & H2 & Hs). cbn [wire].
      replace (val_marshal c) with (@None (val -> EM unit)) by (unfold val_marshal; rewrite H1; now destruct (c_byval c)).
      apply IH; [cbn; lia|exact Hs].
  Qed.

  Lemma Forall2_map_rel {A B} (R : A -> A -> Prop) (S : B -> B -> Prop) f l l' :
    (forall a a', R a a' -> S (f a) (f a')) -> Forall2 R l l' -> Forall2 S (map f l) (map f l').
  Proof. intros H Hl. induction Hl; cbn [map]; constructor; auto. Qed.
  Lemma Forall2_weak {A} (R S : A -> A -> Prop) l l' :
    (forall a a', R a a' -> S a a') -> Forall2 R l l' -> Forall2 S l l'.
  Proof. intros H Hl. induction Hl; constructor; auto. Qed.

  Lemma back_same t : forall sz o p v v', fits t p -> shuffled P t v v' ->
    shuffled any_map t (back E t sz o p v) (back E t sz o p v').
  Proof.
    induction t as [t IH] using ty_strong_ind. intros sz o p v v' Hf Hs.
    assert (Hw : shuffled any_map t v v').
    { eapply shuffled_weaken; [|exact Hs]. easy. }
    destruct t as [|un w|nm w|f| |sg| | |t|n t|t|t1 t2|fs|c t|]; destruct Hs as [Hs|Hs];
      try (subst; apply shuffled_refl); try easy.
    - destruct Hs as (x & x' & -> & -> & Hs). right.
      destruct (ptr_marshal t) eqn:Ep.
      + destruct t; try discriminate. cbn [ptr_marshal] in Ep.
        destruct Hs as [->|(H1 & _)]; [|congruence]. do 2 eexists. do 2 (split; [reflexivity|]). apply shuffled_refl.
      + cbn [back]. rewrite Ep. do 2 eexists. do 2 (split; [reflexivity|]).
        destruct E; apply IH; try (cbn; lia); try exact Hs; now apply fits_deref.
    - destruct Hs as (l & l' & -> & -> & Hs). cbn [back]. destruct (uint_kind t); [exact Hw|].
      destruct Hf as (ps & -> & _ & Hf). right. do 2 eexists. do 2 (split; [reflexivity|]).
      revert ps Hf. clear Hw. induction Hs as [|a a' l l' Ha _ IHl]; intros [|q ps] Hf; cbn [zip_with]; constructor;
        inversion_clear Hf as [|? ? H1 H2].
      + apply IH; [cbn; lia|exact H1|exact Ha].
      + now apply IHl.
    - destruct Hs as (l & l' & -> & -> & Hs). cbn [back].
      assert (Hgo : shuffled any_map (TSlice t)
        (VSlice (Some (match uint_kind t with Some _ => l | None => map (back E t None LE (zero_val t)) l end)))
        (VSlice (Some (match uint_kind t with Some _ => l' | None => map (back E t None LE (zero_val t)) l' end)))).
      { destruct (uint_kind t) as [w|] eqn:Ew; [exact Hw|]. right. do 2 eexists. do 2 (split; [reflexivity|]).
        eapply Forall2_map_rel; [|exact Hs]. intros a a' Ha. apply IH; [cbn; lia|apply fits_zero|exact Ha]. }
      destruct E; [exact Hgo|exact Hgo|congruence].
    - destruct Hs as (m & m1 & m' & -> & -> & _ & Hp & Hs). cbn [back].
      destruct m as [|e m].
      { apply Permutation_nil in Hp. subst m1. inversion Hs; subst. apply shuffled_refl. }
      destruct m' as [|e' m'].
      { inversion Hs; subst. symmetry in Hp. apply Permutation_nil in Hp. discriminate. }
      right. do 3 eexists. do 2 (split; [reflexivity|]). split; [exact I|].
      replace (entries E t1 (e :: m)) with (e :: m) by (destruct E; [reflexivity..|congruence]).
      replace (entries E t1 (e' :: m')) with (e' :: m') by (destruct E; [reflexivity..|congruence]).
      split; [apply Permutation_map; exact Hp|]. eapply Forall2_map_rel; [|exact Hs].
      intros a a' [H1 H2]. cbn [fst snd]. rewrite H1. split; [reflexivity|]. apply IH; [cbn; lia|apply fits_zero|exact H2].
    - destruct Hs as (vs & vs' & -> & -> & Hs). cbn [back]. destruct Hf as (ps & -> & Hf). rewrite no_enum.
      right. do 2 eexists. do 2 (split; [reflexivity|]).
      assert (IH' : forall h t, In (h, t) fs -> forall sz o p v v', fits t p -> shuffled P t v v' ->
        shuffled any_map t (back E t sz o p v) (back E t sz o p v')).
      { intros h t Hin. apply IH. now apply (ty_size_field _ h). }
      clear IH Hw. revert ps vs vs' Hf Hs. generalize no_sizes.
      induction fs as [|[h t] fs IHf]; intros s [|q ps] [|v vs] [|v' vs'] Hf Hs; try easy.
      destruct Hs as [H1 H2]. destruct Hf as [F1 F2]. cbn [snd] in F1. cbn [back_fields]. cbv zeta.
      assert (IHf' : forall s, shuffled_fields (shuffled any_map) fs
        (back_fields E (back E) fs ps vs s) (back_fields E (back E) fs ps vs' s)).
      { intro. apply IHf; auto. intros h' t' Hin. apply (IH' h'). now right. }
      destruct (live h); [|split; [apply shuffled_refl|apply IHf']].
      rewrite <- (bind_size_same _ _ _ _ _ s H1). split; [|apply IHf'].
      unfold back_field. rewrite <- (shuffled_zero _ _ _ _ H1).
      destruct (_ && is_zero v); [apply shuffled_refl|]. cbv zeta.
      apply (IH' h t); [now left| |exact H1]. destruct E; [exact F1|exact F1|congruence].
    - destruct Hs as (H1 & H2 & Hs). cbn [back]. rewrite H2. right.
      repeat (split; [assumption|]). apply IH; [cbn; lia|exact Hf|exact Hs].
  Qed.
End Rest.

Lemma maps_any_order E t v v' p : E <> Borsh -> fits t p ->
  ok E t None LE v -> ok E t None LE v' -> shuffled any_map t v v' ->
  exists b b' x x',
    marshal E t v = (Ok tt, b) /\ marshal E t v' = (Ok tt, b') /\ zlen b = zlen b' /\
    unmarshal E t p b = Ok x /\ unmarshal E t p b' = Ok x' /\ shuffled any_map t x x'.
Proof.
  intros HE Hf Hv Hv' Hs.
  exists (wire E t None LE v), (wire E t None LE v'), (back E t None LE p v), (back E t None LE p v').
  split; [now apply marshal_wire|]. split; [now apply marshal_wire|].
  split; [eapply wire_length; eauto|].
  assert (Hd : forall w, ok E t None LE w -> unmarshal E t p (wire E t None LE w) = Ok (back E t None LE p w)).
  { intros w Hw. destruct (decode_run E t w p [] [] None Hw Hf) as (c & H).
    cbn [app] in H. rewrite app_nil_r in H. change (zlen []) with 0 in H. unfold unmarshal, new_decoder.
    rewrite H. reflexivity. }
  split; [now apply Hd|]. split; [now apply Hd|]. eapply back_same; eauto.
Qed.

(** One map. *)
Lemma ok_map_perm E kt vt m m' : Permutation m m' ->
  ok E (TMap kt vt) None LE (VMap (Some m)) -> ok E (TMap kt vt) None LE (VMap (Some m')).
Proof.
  intros Hp H. cbn [ok] in *. destruct H as (om & [= <-] & Hl & Hall & Hd & Hd' & Hs).
  exists (Some m'). split; [reflexivity|]. unfold zlen in *. rewrite <- (Permutation_length Hp).
  split; [exact Hl|]. split; [eapply Permutation_Forall; eauto|].
  split; [eapply distinct_perm; [apply Permutation_map; exact Hp|exact Hd]|].
  split; [eapply distinct_perm; [apply Permutation_map; exact Hp|exact Hd']|exact Hs].
Qed.
Lemma same_map_perm kt vt x x' :
  (forall v v', shuffled any_map vt v v' -> v = v') ->
  shuffled any_map (TMap kt vt) (VMap (Some x)) (VMap (Some x')) -> Permutation x x'.
Proof.
  intros Hv [[= <-]|Hs]; [reflexivity|].
  destruct Hs as (m & m1 & m' & [= <-] & [= <-] & _ & Hp & Hs). rewrite Hp.
  replace m1 with x'; [reflexivity|].
  clear Hp. induction Hs as [|[k v] [k' v'] r r' [H1 H2] _ IH]; [reflexivity|]. cbn [fst snd] in *.
  subst. rewrite (Hv _ _ H2). now f_equal.
Qed.
Lemma one_map_any_order E kt vt m m' : E <> Borsh -> m <> [] ->
  ok E (TMap kt vt) None LE (VMap (Some m)) -> Permutation m m' ->
  exists b b' x x',
    marshal E (TMap kt vt) (VMap (Some m)) = (Ok tt, b) /\
    marshal E (TMap kt vt) (VMap (Some m')) = (Ok tt, b') /\ zlen b = zlen b' /\
    unmarshal E (TMap kt vt) (zero_val (TMap kt vt)) b = Ok (VMap (Some x)) /\
    unmarshal E (TMap kt vt) (zero_val (TMap kt vt)) b' = Ok (VMap (Some x')) /\ Permutation x x'.
Proof.
  intros HE Hn Hok Hp. pose proof (ok_map_perm E kt vt m m' Hp Hok) as Hok'.
  assert (Hn' : m' <> []).
  { intros ->. symmetry in Hp. apply Permutation_nil in Hp. congruence. }
  assert (Hent : forall l, entries E kt l = l) by (intro; destruct E; [reflexivity..|congruence]).
  assert (Hd : forall w, ok E (TMap kt vt) None LE (VMap (Some w)) -> w <> [] ->
    unmarshal E (TMap kt vt) (zero_val (TMap kt vt)) (wire E (TMap kt vt) None LE (VMap (Some w))) =
    Ok (VMap (Some (map (fun e => (back E kt None LE (zero_val kt) (fst e),
                                   back E vt None LE (zero_val vt) (snd e))) w)))).
  { intros w Hw Hne. destruct (decode_run E _ _ (zero_val (TMap kt vt)) [] [] None Hw (fits_zero _)) as (c & H).
    cbn [app] in H. rewrite app_nil_r in H. change (zlen []) with 0 in H. unfold unmarshal, new_decoder.
    rewrite H. cbn [fst back]. destruct w; [congruence|]. now rewrite Hent. }
  do 4 eexists. split; [now apply marshal_wire|]. split; [now apply marshal_wire|].
  split; [|split; [now apply Hd|split; [now apply Hd|now apply Permutation_map]]].
  apply (wire_length E any_map HE). right. do 3 eexists. do 2 (split; [reflexivity|]). split; [exact I|].
  split; [exact Hp|]. clear. induction m' as [|e m' IH]; constructor; auto. split; [reflexivity|apply shuffled_refl].
Qed.
