(** Recursive types: lemmas. *)
From Verif Require Import Types EncPrim DecPrim Enc Dec DecEq Spec TyInd EncFacts DecWithin DecSafe DecLocal RecSpec.
Notation length := Datatypes.length.

(** * Agreement of computations up to the cut *)

Definition le {S A} (m m' : SM S A) : Prop := forall s, fst (m s) = Deep \/ m s = m' s.

Lemma le_refl {S A} (m : SM S A) : le m m.
Proof. now right. Qed.
Lemma le_deep {S A} (m : SM S A) : le deep m.
Proof. now left. Qed.
Lemma le_bind {S A B} (m m' : SM S A) (k k' : A -> SM S B) :
  le m m' -> (forall a, le (k a) (k' a)) -> le (bind m k) (bind m' k').
Proof.
  intros H Hk s. unfold bind. destruct (H s) as [Hd|He].
  - left. destruct (m s) as [[] ?]; cbn [fst] in Hd; try discriminate. reflexivity.
  - rewrite <- He. destruct (m s) as [[a| | | |] s']; try (now right). apply Hk.
Qed.
Lemma le_bind_r {S A B} (m : SM S A) (k k' : A -> SM S B) :
  (forall a, le (k a) (k' a)) -> le (bind m k) (bind m k').
Proof. apply le_bind, le_refl. Qed.
Lemma le_fmap {S A B} (f : A -> B) (m m' : SM S A) : le m m' -> le (fmap f m) (fmap f m').
Proof. intro H. apply le_bind; [exact H|]. intro. apply le_refl. Qed.
Lemma le_map_err {S A} f (m m' : SM S A) : le m m' -> le (map_err f m) (map_err f m').
Proof.
  intros H s. unfold map_err. destruct (H s) as [Hd|He].
  - left. destruct (m s) as [[] ?]; cbn [fst] in Hd; try discriminate. reflexivity.
  - right. now rewrite He.
Qed.

(** * Deeper types look the same *)

Lemma deeper_struct g fs fs' : deeper g (TStruct fs) (TStruct fs') <->
  Forall2 (fun a b => fst a = fst b /\ deeper false (snd a) (snd b)) fs fs'.
Proof.
  cbn [deeper]. revert fs'. induction fs as [|[h a] fs IH]; intros [|[h' b] fs']; split; intro H; try easy;
    try (now inversion H); try constructor.
  - exact (proj1 H).
  - apply IH. exact (proj2 H).
  - inversion_clear H as [|? ? ? ? H1 H2]. exact H1.
  - inversion_clear H as [|? ? ? ? H1 H2]. now apply IH.
Qed.
Lemma deeper_refl t : forall g, deeper g t t.
Proof.
  induction t using ty_ind'; intro g; try (cbn; reflexivity); try (cbn; auto; fail).
  apply deeper_struct. induction H; constructor; auto.
Qed.
Lemma deeper_weak t t' : deeper false t t' -> deeper true t t'.
Proof. destruct t, t'; cbn [deeper]; intuition easy. Qed.
Lemma deeper_zero t : forall t', deeper false t t' -> zero_val t = zero_val t'.
Proof.
  induction t using ty_ind'; intros t' Hd; destruct t'; cbn [deeper] in Hd; try discriminate;
    try (injection Hd; intros; subst); try (match type of Hd with _ /\ _ => destruct Hd as [Hd1 Hd2]; try discriminate end); subst; try reflexivity.
  - cbn [zero_val]. now rewrite (IHt _ Hd2).
  - change (deeper false (TStruct fs) (TStruct fs0)) in Hd. apply deeper_struct in Hd. cbn [zero_val]. f_equal.
    induction Hd as [|a b fs fs' [_ Ha] _ IH]; [reflexivity|]. inversion_clear H as [|? ? H1 H2].
    cbn [map]. f_equal; [apply H1, Ha|apply IH, H2].
  - cbn [zero_val]. now apply IHt.
Qed.
Lemma deeper_zero_head t g t' : t <> TDeep -> deeper g t t' -> zero_val t = zero_val t'.
Proof.
  intros Hn H. apply deeper_zero. destruct t, t'; cbn [deeper] in *; intuition easy.
Qed.
Lemma cut_or_zero t g t' : deeper g t t' -> t = TDeep \/ zero_val t = zero_val t'.
Proof.
  intro H. destruct t; try (right; eapply deeper_zero_head; [discriminate|exact H]). now left.
Qed.
Lemma cut_or_pointee t g t' v : deeper g t t' -> t = TDeep \/ pointee t v = pointee t' v.
Proof.
  intro H. destruct (cut_or_zero _ _ _ H) as [Hc|Hz]; [now left|right]. unfold pointee. now rewrite Hz.
Qed.
Lemma deeper_uint t : forall g t', deeper g t t' -> uint_kind t = uint_kind t'.
Proof.
  induction t using ty_ind'; intros g t' Hd; destruct t'; cbn [deeper] in Hd; try discriminate;
    try (injection Hd; intros; subst); try (match type of Hd with _ /\ _ => destruct Hd as [Hd1 Hd2]; try discriminate end); subst; try reflexivity;
    try easy.
  cbn [uint_kind]. eapply IHt; eassumption.
Qed.
Lemma deeper_sizeof t : forall g t' v, deeper g t t' -> sizeof_val t v = sizeof_val t' v.
Proof.
  induction t using ty_ind'; intros g t' x Hd; destruct t'; cbn [deeper] in Hd; try discriminate;
    try (injection Hd; intros; subst); try (match type of Hd with _ /\ _ => destruct Hd as [Hd1 Hd2]; try discriminate end); subst; try reflexivity;
    try easy.
  cbn [sizeof_val]. eapply IHt; eassumption.
Qed.
Lemma deeper_enum fs fs' : Forall2 (fun a b => fst a = fst b /\ deeper false (snd a) (snd b)) fs fs' ->
  is_enum fs = is_enum fs'.
Proof.
  intro H. destruct H as [|[h t] [h' t'] ? ? [Hh Ht] _]; [reflexivity|]. cbn [fst snd] in *. subst h'. cbn [is_enum].
  destruct t, t'; cbn [deeper] in Ht; try discriminate; try reflexivity; try (destruct Ht; discriminate).
  now injection Ht as -> ->.
Qed.
Lemma deeper_unmarshaler t t' : deeper false t t' ->
  borsh_field_unmarshaler t = borsh_field_unmarshaler t'.
Proof.
  intro Hd. destruct t, t'; cbn [deeper] in Hd; try discriminate; try reflexivity; try (destruct Hd; discriminate).
  - destruct t, t'; cbn [deeper] in Hd; try discriminate; try reflexivity; try (destruct Hd; discriminate); try (now destruct Hd).
    destruct Hd as [-> Hd]. cbn [borsh_field_unmarshaler]. now rewrite (deeper_zero _ _ Hd).
  - destruct Hd as [-> Hd]. cbn [borsh_field_unmarshaler]. now rewrite (deeper_zero _ _ Hd).
Qed.

(** * The decoder *)

Lemma le_read_rep {A} n (m m' : DM A) : le m m' -> le (read_rep n m) (read_rep n m').
Proof. intro H. induction n; cbn [read_rep]; [apply le_refl|]. apply le_bind; [exact H|]. intro. apply le_bind; [exact IHn|]. intro. apply le_refl. Qed.
Lemma le_each_dec {A B} (f f' : A -> DM B) l : (forall a, le (f a) (f' a)) -> le (each_dec f l) (each_dec f' l).
Proof.
  intro H. induction l; cbn [each_dec]; [apply le_refl|]. apply le_bind; [apply H|]. intro.
  apply le_bind; [exact IHl|]. intro. apply le_refl.
Qed.
Lemma le_dec_map kt n deck decv decv' : le decv decv' -> forall m,
  le (dec_map kt n deck decv m) (dec_map kt n deck decv' m).
Proof.
  intro H. induction n; intro m; cbn [dec_map]; [apply le_refl|]. apply le_bind_r. intro.
  apply le_bind; [exact H|]. intro. apply IHn.
Qed.

Lemma le_ext {A} (e : bool) (k k' b b' : DM A) : le k k' -> le b b' ->
  le (if e then rest <- d_rest ;; match rest with [] => k | _ => b end else b)
     (if e then rest <- d_rest ;; match rest with [] => k' | _ => b' end else b').
Proof. intros Hk Hb. destruct e; [|exact Hb]. apply le_bind_r. intros [|? ?]; assumption. Qed.

Definition fields_le (E : encoding) (a b : fhdr * ty) : Prop :=
  fst a = fst b /\ deeper false (snd a) (snd b) /\
  forall o v, le (dec_val E (snd a) (DStart o) v) (dec_val E (snd b) (DStart o) v).

Lemma le_dec_fields E fs fs' : Forall2 (fields_le E) fs fs' -> forall ps sizes seen,
  le (dec_fields E (fun t' o' v' => dec_val E t' (DStart o') v') fs ps sizes seen)
     (dec_fields E (fun t' o' v' => dec_val E t' (DStart o') v') fs' ps sizes seen).
Proof.
  induction 1 as [|[h t] [h' t'] fs fs' (Hh & Hd & Hv) _ IH]; intros [|p ps] sizes seen; try apply le_refl.
  cbn [fst snd] in *. subst h'. cbn [dec_fields]. cbv zeta.
  assert (Hk : forall sn, le (fmap (cons p) (dec_fields E (fun t' o' v' => dec_val E t' (DStart o') v') fs ps sizes sn))
    (fmap (cons p) (dec_fields E (fun t' o' v' => dec_val E t' (DStart o') v') fs' ps sizes sn)))
    by (intro; apply le_fmap, IH).
  destruct (ft_skip _); [apply Hk|]. destruct (_ && seen); [apply le_refl|].
  rewrite <- (deeper_unmarshaler t t' Hd).
  apply le_ext; [apply Hk|].
  destruct (negb (f_exported h)); [apply Hk|].
    assert (Hx : forall x, le
      (if String.eqb (ft_sizeof (parse_field_tag (f_tag h))) "" then fmap (cons x)
          (dec_fields E (fun t' o' v' => dec_val E t' (DStart o') v') fs ps sizes (seen || ft_ext (parse_field_tag (f_tag h))))
       else match sizeof_val t x with None => panic | Some n => fmap (cons x)
          (dec_fields E (fun t' o' v' => dec_val E t' (DStart o') v') fs ps
             ((ft_sizeof (parse_field_tag (f_tag h)), n) :: sizes) (seen || ft_ext (parse_field_tag (f_tag h)))) end)
      (if String.eqb (ft_sizeof (parse_field_tag (f_tag h))) "" then fmap (cons x)
          (dec_fields E (fun t' o' v' => dec_val E t' (DStart o') v') fs' ps sizes (seen || ft_ext (parse_field_tag (f_tag h))))
       else match sizeof_val t' x with None => panic | Some n => fmap (cons x)
          (dec_fields E (fun t' o' v' => dec_val E t' (DStart o') v') fs' ps
             ((ft_sizeof (parse_field_tag (f_tag h)), n) :: sizes) (seen || ft_ext (parse_field_tag (f_tag h)))) end)).
    { intro x. rewrite (deeper_sizeof t false t' x Hd). destruct (String.eqb _ _); [apply le_fmap, IH|].
      destruct (sizeof_val t' x); [apply le_fmap, IH|apply le_refl]. }
    destruct (is_borsh E), (borsh_field_unmarshaler t);
      try (apply le_bind; [apply le_map_err, Hv|exact Hx]).
    apply le_bind_r. intro. apply le_fmap, IH.
Qed.
Lemma deeper_plain t t' : deeper false t t' -> plain_uint t = plain_uint t'.
Proof.
  intro Hd. destruct t, t'; cbn [deeper] in Hd; try discriminate; try reflexivity; try (destruct Hd; discriminate).
  now injection Hd as -> ->.
Qed.
Lemma le_hidden rec rec' fs fs' :
  Forall2 (fun a b => fst a = fst b /\ deeper false (snd a) (snd b)) fs fs' -> forall ps sizes seen,
  le (dec_fields Borsh rec (hide fs) ps sizes seen) (dec_fields Borsh rec' (hide fs') ps sizes seen).
Proof.
  induction 1 as [|[h t] [h' t'] fs fs' (Hh & _) _ IH]; intros [|p ps] sizes seen; try apply le_refl.
  cbn [fst snd] in *. subst h'. cbn [hide map dec_fields fst snd f_tag f_exported negb]. fold (hide fs) (hide fs'). cbv zeta.
  assert (Hk : forall sn, le (fmap (cons p) (dec_fields Borsh rec (hide fs) ps sizes sn))
    (fmap (cons p) (dec_fields Borsh rec' (hide fs') ps sizes sn))) by (intro; apply le_fmap, IH).
  destruct (ft_skip _); [apply Hk|]. destruct (_ && seen); [apply le_refl|]. apply le_ext; apply Hk.
Qed.
Lemma le_sealed t : forall g t' v, deeper g t t' -> le (dec_sealed t v) (dec_sealed t' v).
Proof.
  induction t as [t IH] using ty_strong_ind. intros g t' v Hd.
  destruct t as [|un w|nm w|f| |sg| | |t|n t|t|t1 t2|fs|c t|];
    destruct t' as [|un' w'|nm' w'|f'| |sg'| | |t'|n' t'|t'|t1' t2'|fs'|c' t'|];
    cbn [deeper] in Hd; try discriminate; try (destruct Hd; discriminate); try apply le_deep;
    try (injection Hd; intros; subst); try apply le_refl; cbn [dec_sealed].
  - destruct v as [| | | |[x|]| | | | | |]; try apply le_refl. eapply IH; [cbn; lia|exact Hd].
  - destruct Hd as [<- Hd]. rewrite <- (deeper_uint _ _ _ Hd), <- (deeper_plain _ _ Hd).
    destruct (uint_kind t); [apply le_refl|]. destruct v; try apply le_refl.
    apply le_bind; [|intro; apply le_refl]. apply le_each_dec. intro a. apply le_bind_r. intros _.
    eapply IH; [cbn; lia|exact Hd].
  - rewrite <- (deeper_uint _ _ _ Hd). apply le_refl.
  - change (deeper g (TStruct fs) (TStruct fs')) in Hd. apply deeper_struct in Hd.
    destruct v; try apply le_refl. rewrite <- (deeper_enum _ _ Hd). destruct (is_enum fs); [apply le_refl|].
    apply le_bind; [|intro; apply le_refl]. now apply le_hidden.
  - destruct Hd as [_ Hd]. eapply IH; [cbn; lia|exact Hd].
Qed.
Lemma le_dec_variant E fs fs' : Forall2 (fields_le E) fs fs' -> forall ps n,
  le (dec_variant (fun t' o' v' => dec_val E t' (DStart o') v') fs ps n)
     (dec_variant (fun t' o' v' => dec_val E t' (DStart o') v') fs' ps n).
Proof.
  induction 1 as [|[h t] [h' t'] fs fs' (Hh & Hd & Hv) _ IH]; intros [|p ps] n; try apply le_refl.
  cbn [fst snd] in *. subst h'. cbn [dec_variant]. destruct n; [|apply le_fmap, IH].
  destruct (negb _).
  { apply le_bind_r. intros _. apply le_bind; [eapply le_sealed, Hd|]. intro. apply le_refl. }
  apply le_bind; [apply Hv|]. intro. apply le_refl.
Qed.

Lemma le_pend pend t t' c c' : zero_val t = zero_val t' -> le c c' ->
  le (with_pend pend t c) (with_pend pend t' c').
Proof.
  intros Hz H. unfold with_pend. rewrite Hz. destruct pend; [|exact H]. apply le_bind_r. intros []; [exact H|apply le_refl].
Qed.

Lemma le_dec_val E t : forall g t' m v v', deeper g t t' -> (t = TDeep \/ v = v') ->
  le (dec_val E t m v) (dec_val E t' m v').
Proof.
  induction t as [t IH] using ty_strong_ind. intros g t' m v v' Hd Hv.
  assert (Hcut : t = TDeep -> le (dec_val E t m v) (dec_val E t' m v')).
  { intros ->. destruct m; [rewrite dec_start_eq, dec_null_eq, dec_walk_eq|rewrite dec_null_eq|rewrite dec_walk_eq];
      try apply le_deep. intro s. left. now destruct (_ || _). }
  destruct Hv as [Hv|<-]; [auto|].
  assert (Hz : t <> TDeep -> zero_val t = zero_val t') by (intro; eapply deeper_zero_head; eassumption).
  assert (Hwalk : forall o pend v, le (dec_val E t (DWalk o pend) v) (dec_val E t' (DWalk o pend) v)).
  { clear m v Hcut. intros o pend v. rewrite !dec_walk_eq.
    destruct t as [|un w|nm w|f| |sg| | |t|n t|t|t1 t2|fs|c t|];
    destruct t' as [|un' w'|nm' w'|f'| |sg'| | |t'|n' t'|t'|t1' t2'|fs'|c' t'|];
    cbn [deeper] in Hd; try discriminate; try (destruct Hd; discriminate); try apply le_deep;
    try (injection Hd; intros; subst); try apply le_refl.
    - apply le_fmap. eapply IH; [cbn; lia|exact Hd|eapply cut_or_pointee, Hd].
    - destruct Hd as [<- Hd]. apply le_pend; [apply Hz; discriminate|].
      rewrite <- (deeper_uint _ _ _ Hd). destruct (uint_kind t); [apply le_refl|].
      destruct v; try apply le_refl. apply le_fmap, le_each_dec. intro a. eapply IH; [cbn; lia|exact Hd|now right].
    - apply le_pend; [reflexivity|]. apply le_bind_r. intro l. destruct (_ && _); [apply le_refl|].
      apply le_bind_r. intro r. destruct (r <? l); [apply le_refl|].
      rewrite <- (deeper_uint _ _ _ Hd). destruct (uint_kind t); [apply le_refl|].
      apply le_fmap, le_read_rep. eapply IH; [cbn; lia|exact Hd|eapply cut_or_zero, Hd].
    - destruct Hd as [<- Hd]. apply le_pend; [reflexivity|]. apply le_bind_r. intro l. destruct (l =? 0); [apply le_refl|].
      apply le_fmap, le_dec_map. eapply IH; [cbn; lia|exact Hd|eapply cut_or_zero, Hd].
    - change (deeper g (TStruct fs) (TStruct fs')) in Hd. apply deeper_struct in Hd.
      apply le_pend; [apply Hz; discriminate|]. destruct v; try apply le_refl.
      assert (Hf : Forall2 (fields_le E) fs fs').
      { clear Hz. assert (IH' : forall h a, In (h, a) fs -> forall g t' m v v', deeper g a t' -> a = TDeep \/ v = v' ->
          le (dec_val E a m v) (dec_val E t' m v')) by (intros; eapply IH; eauto; now apply (ty_size_field fs h)).
        clear IH. induction Hd as [|[h a] [h' b] fs fs' [H1 H2] _ IHf]; constructor.
        - repeat split; auto. cbn [snd]. intros o1 v1. eapply IH'; [now left|exact H2|now right].
        - apply IHf. intros h2 a2 Hin. eapply (IH' h2). now right. }
      unfold dec_struct. rewrite <- (deeper_enum _ _ Hd).
      destruct (is_borsh E && is_enum fs); [|apply le_fmap, le_dec_fields, Hf].
      apply le_bind_r. intro n. destruct Hf as [|[h a] [h' b] fs fs' (H1 & _ & _) Hf]; [apply le_refl|].
      cbn [fst] in H1. subst h'.
      match goal with |- le (match ?x with _ => _ end) _ => destruct x as [|? ps] end; [apply le_refl|].
      destruct (negb _); [apply le_refl|]. apply le_bind; [apply le_dec_variant, Hf|]. intro. apply le_refl.
    - destruct Hd as [<- Hd]. destruct (c_unmarshal c); [apply le_refl|]. eapply IH; [cbn; lia|exact Hd|now right]. }
  assert (Hfl : t <> TDeep -> forall o v, le (dec_flagged E t o v) (dec_flagged E t' o v)).
  { intros Hn o x. unfold dec_flagged. rewrite <- (Hz Hn).
    destruct (o_opt o); apply le_bind_r; intros []; try apply le_refl; apply Hwalk. }
  assert (Hnull : forall o v, le (dec_val E t (DNull o) v) (dec_val E t' (DNull o) v)).
  { clear v Hcut. intros o v. rewrite !dec_null_eq.
    destruct t as [|un w|nm w|f| |sg| | |t|n t|t|t1 t2|fs|c t|];
    destruct t' as [|un' w'|nm' w'|f'| |sg'| | |t'|n' t'|t'|t1' t2'|fs'|c' t'|];
    cbn [deeper] in Hd; try discriminate; try (destruct Hd; discriminate); try apply le_deep;
    try (apply Hfl; discriminate).
    - assert (Hp : is_ptr t = is_ptr t').
      { destruct t, t'; cbn [deeper] in Hd; try discriminate; try reflexivity; try (destruct Hd; discriminate). now destruct Hd. }
      rewrite <- Hp. destruct (is_ptr t) eqn:Ep; [|apply Hfl; discriminate].
      destruct v; try (apply Hfl; discriminate). destruct p as [x|]; try (apply Hfl; discriminate).
      apply le_fmap. eapply IH; [cbn; lia|exact Hd|now right].
    - destruct Hd as [<- Hd]. destruct (c_unmarshal c); [apply le_refl|apply Hfl; discriminate]. }
  destruct m; [rewrite !dec_start_eq; apply le_bind_r; intros _; destruct (_ || _)| |]; auto.
Qed.
