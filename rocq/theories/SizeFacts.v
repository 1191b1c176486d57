(** Proofs about SizeSpec.v. *)
From Coq Require Import String.
From Verif Require Import Types DecPrim Enc Dec Spec NumFacts TyInd EncWire DecWire AccSpec AccFacts AccLib SizeSpec.
Notation length := Datatypes.length.

(** * Bounds *)
Lemma within_exactly n : within n (exactly n).
Proof. split; cbn [exactly fst snd]; [lia|]. intros m [= <-]. lia. Qed.
Lemma within_from n k : n <= k -> within k (from n).
Proof. intro H. split; cbn [from fst snd]; [lia|discriminate]. Qed.
Lemma within_plus a b n m : within n a -> within m b -> within (n + m) (plus a b).
Proof.
  intros [H1 H2] [H3 H4]. split; cbn [plus fst snd]; [lia|]. intros k.
  destruct (snd a), (snd b); cbn [most_of]; intros [= <-]. specialize (H2 _ eq_refl). specialize (H4 _ eq_refl). lia.
Qed.
Definition pos_bounds (a : bounds) : Prop := 0 <= fst a /\ forall m, snd a = Some m -> 0 <= m.
Lemma within_maybe a n : 0 <= n -> within n a -> within n (maybe a).
Proof. intros H [H1 H2]. split; cbn [maybe fst snd]; auto. Qed.
Lemma maybe_0 a : pos_bounds a -> within 0 (maybe a).
Proof. intros [_ H]. split; cbn [maybe fst snd]; [lia|exact H]. Qed.
Lemma within_either_l a b n : within n a -> within n (either a b).
Proof.
  intros [H1 H2]. split; cbn [either fst snd]; [lia|]. intros k.
  destruct (snd a), (snd b); cbn [most_of]; intros [= <-]. specialize (H2 _ eq_refl). lia.
Qed.
Lemma within_either_r a b n : within n b -> within n (either a b).
Proof.
  intros [H1 H2]. split; cbn [either fst snd]; [lia|]. intros k.
  destruct (snd a), (snd b); cbn [most_of]; intros [= <-]. specialize (H2 _ eq_refl). lia.
Qed.
Lemma within_times_S a n x y : within x a -> within y (times n a) -> within (x + y) (times (n + 1) a).
Proof.
  intros [H1 H2] [H3 H4]. split; cbn [times fst snd] in *; [lia|]. intros k.
  destruct (snd a); cbn [option_map] in *; intros [= <-]. specialize (H2 _ eq_refl). specialize (H4 _ eq_refl). lia.
Qed.

Lemma pos_exactly n : 0 <= n -> pos_bounds (exactly n).
Proof. intro H. split; cbn [exactly fst snd]; [lia|]. intros m [= <-]. lia. Qed.
Lemma pos_from n : 0 <= n -> pos_bounds (from n).
Proof. intro H. split; cbn [from fst snd]; [lia|discriminate]. Qed.
Lemma pos_plus a b : pos_bounds a -> pos_bounds b -> pos_bounds (plus a b).
Proof.
  intros [H1 H2] [H3 H4]. split; cbn [plus fst snd]; [lia|]. intros k.
  destruct (snd a), (snd b); cbn [most_of]; intros [= <-]. specialize (H2 _ eq_refl). specialize (H4 _ eq_refl). lia.
Qed.
Lemma pos_maybe a : pos_bounds a -> pos_bounds (maybe a).
Proof. intros [H1 H2]. split; cbn [maybe fst snd]; [lia|auto]. Qed.
Lemma pos_either a b : pos_bounds a -> pos_bounds b -> pos_bounds (either a b).
Proof.
  intros [H1 H2] [H3 H4]. split; cbn [either fst snd]; [lia|]. intros k.
  destruct (snd a), (snd b); cbn [most_of]; intros [= <-]. specialize (H2 _ eq_refl). specialize (H4 _ eq_refl). lia.
Qed.
Lemma pos_times n a : 0 <= n -> pos_bounds a -> pos_bounds (times n a).
Proof.
  intros Hn [H1 H2]. split; cbn [times fst snd]; [nia|]. intros k.
  destruct (snd a); cbn [option_map]; intros [= <-]. specialize (H2 _ eq_refl). nia.
Qed.
Lemma pos_flagged E opt copt a : pos_bounds a -> pos_bounds (flagged E opt copt a).
Proof.
  intro H. unfold flagged, flag_size.
  assert (H' : pos_bounds (if copt then plus (exactly 4) (maybe a) else a)).
  { destruct copt; [|exact H]. apply pos_plus; [apply pos_exactly; lia|now apply pos_maybe]. }
  destruct opt; [|exact H']. apply pos_plus; [apply pos_exactly; destruct E; lia|now apply pos_maybe].
Qed.

Lemma pos_sealed t : pos_bounds (span_sealed t).
Proof.
  induction t using ty_ind'; cbn [span_sealed]; try (apply pos_exactly; lia); auto.
  destruct (uint_kind t); [apply pos_exactly; lia|]. apply pos_times; [lia|auto].
Qed.
Lemma pos_span own E : (forall u, pos_bounds (own u)) -> forall t sized, pos_bounds (span own E t sized).
Proof.
  intro Ho. induction t using ty_ind'; intro sized; cbn [span]; try (apply pos_exactly; lia); auto.
  - apply pos_from. destruct E; cbn; lia.
  - apply pos_times; [lia|]. destruct (uint_kind t); [apply pos_exactly; lia|auto].
  - destruct sized; apply pos_from; [lia|destruct E; cbn; lia].
  - apply pos_from. destruct E; cbn; lia.
  - destruct (enum_struct E fs).
    + apply pos_plus; [apply pos_exactly; lia|]. destruct fs as [|[h0 t0] fs]; [apply pos_exactly; lia|]. cbn [tl].
      apply Forall_inv_tail in H. induction H as [|[h1 t1] fs H1 H IH]; [apply pos_exactly; lia|]. cbn [span_variants]. cbn [snd] in H1.
      assert (Hone : pos_bounds (if f_exported h1 then span own E t1 false else span_sealed t1)) by (destruct (f_exported h1); [apply H1|apply pos_sealed]).
      destruct fs; [apply Hone|]. apply pos_either; auto.
    + generalize (fun _ : string => false). induction H as [|[h1 t1] fs H1 H IH]; intro s; cbn [span_fields]; [apply pos_exactly; lia|].
      cbn [snd] in H1. destruct (live h1); [|apply IH].
      destruct (by_method E t1) as [u|].
      * destruct (ft_ext _); [apply pos_maybe|]; apply pos_plus; auto.
      * destruct (ft_ext _); [apply pos_maybe|]; (apply pos_plus; [apply pos_flagged; auto|apply IH]).
  - destruct (c_unmarshal c); auto.
Qed.

(** * What is accepted *)
Definition sized (sz : option Z) : bool := match sz with Some _ => true | None => false end.
Definition placed (E : encoding) (pl : place) : bounds -> bounds :=
  match pl with Front opt copt => flagged E opt copt | Below copt => flagged E false copt end.

Lemma zlen_leb128_pos x : 1 <= zlen (leb128 x).
Proof. unfold leb128, zlen. rewrite map_length, seq_length. lia. Qed.

Lemma count_in_size E b rest n : count_in E b rest n -> count_size E <= zlen b.
Proof.
  destruct E; cbn [count_in count_size].
  - intros [(init & last & -> & _) _]. rewrite zlen_app, zlen_cons. pose proof (zlen_nonneg init). rewrite zlen_nil. lia.
  - intros [_ ->]. apply zlen_leb128_pos.
  - intros [_ ->]. rewrite fixed_zlen. lia.
Qed.
Lemma text_in_size E b rest s : text_in E b rest s -> text_size E <= zlen b.
Proof.
  intros [_ ->]. unfold text. rewrite zlen_app. pose proof (zlen_nonneg s).
  destruct E; cbn [text_size count]; rewrite ?fixed_zlen; try lia. pose proof (zlen_leb128_pos (zlen s)). lia.
Qed.
Lemma flag_in_size E b rest x : flag_in E b rest x -> within (zlen b) (flag_size E).
Proof.
  unfold flag_size. destruct E; cbn [flag_in].
  - intros (z & _ & -> & _). rewrite fixed_zlen. apply within_exactly.
  - intros (z & -> & _). apply within_exactly.
  - intros (z & -> & _). apply within_exactly.
Qed.
Lemma cflag_in_size b rest x : cflag_in b rest x -> zlen b = 4.
Proof. intros ->. unfold cflag. now rewrite fixed_zlen. Qed.

Lemma each_size a (R : val -> rel val) : forall ps b rest vs,
  (forall p b rest v, In p ps -> bytes_ok (b ++ rest) -> R p b rest v -> within (zlen b) a) ->
  bytes_ok (b ++ rest) -> each_in R ps b rest vs -> within (zlen b) (times (zlen ps) a).
Proof.
  induction ps as [|p ps IH]; intros b rest vs HR Hb H; cbn [each_in] in H.
  - destruct H as [-> _]. unfold zlen. cbn [length Z.of_nat]. split; cbn [times fst snd]; [lia|]. intros m. destruct (snd a); cbn [option_map]; intros [= <-]. lia.
  - destruct H as (b1 & b2 & x & -> & H1 & y & _ & H2). rewrite <- app_assoc in Hb. rewrite zlen_app, zlen_cons, (Z.add_comm 1).
    apply within_times_S.
    + apply (HR p b1 (b2 ++ rest) x); auto. now left.
    + apply (IH b2 rest y); [|now apply bytes_ok_app in Hb|exact H2]. intros q b' rest' v' Hin. apply HR. now right.
Qed.

Section Main.
  Variable own : ty -> bounds.
  Variable E : encoding.
  Variable W : list ((val -> DM val) * ty).
  Variable O : list order.
  Hypothesis Hpos : forall u, pos_bounds (own u).
  Hypothesis HW : forall f u, In (f, u) W -> keeps_to own E f u.
  Hypothesis HO : E = Borsh -> W <> [] -> forall o, In o O -> o = LE.
  Definition calm (o : order) : Prop := E = Borsh -> W <> [] -> o = LE.

  Lemma calm_LE : calm LE.
  Proof. intros _ _. reflexivity. Qed.

  Definition sizing (t : ty) : Prop := forall pl sz o old b rest v, calm o -> fits t old -> bytes_ok (b ++ rest) ->
    accepts E t pl sz o old b rest v -> within (zlen b) (placed E pl (span own E t (sized sz))).

  Lemma own_size f u o old b rest v : In (f, u) W -> calm o -> fits u old -> bytes_ok (b ++ rest) ->
    own_in E o f old b rest v -> within (zlen b) (own u).
  Proof.
    intros Hin Hc Hf Hb H. apply (HW f u Hin o old b rest v); auto. intro EE. rewrite Hc; auto.
    intro Hn. rewrite Hn in Hin. destruct Hin.
  Qed.

  Lemma fields_size fs : (forall h t, In (h, t) fs -> sizing t /\ incl (owners t) W /\ calm (ft_order (parse_field_tag (f_tag h)))) ->
    forall ps s s' seen b rest vs, (forall n, sized (s n) = s' n) -> fits_fields fits fs ps -> bytes_ok (b ++ rest) ->
    fields_in E (accepts E) fs ps s seen b rest vs ->
    within (zlen b) (span_fields own E (span own E) fs s') /\ (seen = true -> within 0 (span_fields own E (span own E) fs s')).
  Proof.
    induction fs as [|[h t] fs IH]; intros Hfs ps s s' seen b rest vs Hs Hf Hb H.
    - destruct ps; cbn [fields_in span_fields] in *; [|contradiction]. destruct H as [-> _]. split; [|intros _]; apply within_exactly.
    - destruct ps as [|p ps]; cbn [fields_in span_fields fits_fields] in *; [contradiction|]. cbn [snd] in Hf. destruct Hf as [Hfp Hf].
      destruct (Hfs h t (or_introl eq_refl)) as (Hst & Hinc & Hord).
      assert (IH' := IH (fun h' t' Hin => Hfs h' t' (or_intror Hin))). clear IH Hfs.
      set (tg := parse_field_tag (f_tag h)) in *. unfold live. fold tg.
      destruct (ft_skip tg); cbn [negb andb].
      { destruct H as (vs' & _ & H). exact (IH' _ _ _ _ _ _ _ Hs Hf Hb H). }
      destruct (seen && negb (ft_ext tg)) eqn:Esn; [contradiction|].
      destruct (f_exported h) eqn:Eex; cbn [negb] in H.
      2: { destruct H as (vs' & _ & H). destruct (IH' _ _ _ _ _ _ _ Hs Hf Hb H) as [H1 H2]. split; [exact H1|].
           intros ->. apply H2. reflexivity. }
      set (A := match by_method E t with
                | Some u => (own u, s')
                | None => (flagged E (ft_option tg) (is_borsh E && ft_coption tg) (span own E t (s' (f_name h))),
                   match ft_sizeof tg with EmptyString => s' | n => fun x => String.eqb n x || s' x end)
                end) in *.
      assert (Hp : pos_bounds (let '(a, s'') := A in plus a (span_fields own E (span own E) fs s''))).
      { assert (Hps : forall s, pos_bounds (span_fields own E (span own E) fs s)).
        { clear -Hpos. induction fs as [|[h1 t1] fs IH]; intro s; cbn [span_fields]; [apply pos_exactly; lia|].
          destruct (live h1); [|apply IH]. destruct (by_method E t1) as [u|].
          * destruct (ft_ext _); [apply pos_maybe|]; apply pos_plus; auto.
          * destruct (ft_ext _); [apply pos_maybe|]; (apply pos_plus; [apply pos_flagged, pos_span; auto|apply IH]). }
        unfold A. destruct (by_method E t); apply pos_plus; auto. apply pos_flagged, pos_span. exact Hpos. }
      assert (Hmain : (match borsh_method E t with
              | Some R => followed R (fun x => image (cons x) (fields_in E (accepts E) fs ps s (seen || ft_ext tg))) b rest vs
              | None =>
                  followed (accepts E t (Front (ft_option tg) (is_borsh E && ft_coption tg)) (s (f_name h)) (ft_order tg) p)
                    (fun x => match ft_sizeof tg, size_of t x with
                              | EmptyString, _ => image (cons x) (fields_in E (accepts E) fs ps s (seen || ft_ext tg))
                              | n, Some z => image (cons x) (fields_in E (accepts E) fs ps (fun y => if String.eqb n y then Some z else s y) (seen || ft_ext tg))
                              | _, None => nothing
                              end) b rest vs
              end) -> within (zlen b) (let '(a, s'') := A in plus a (span_fields own E (span own E) fs s''))).
      { clear H. unfold A. clear A Hp. intro H.
        destruct (borsh_method E t) as [R|] eqn:Ebm.
        - destruct H as (b1 & b2 & x & -> & H1 & vs' & _ & H2). rewrite <- app_assoc in Hb. rewrite zlen_app.
          assert (Hu : exists u, by_method E t = Some u /\ within (zlen b1) (own u)).
          { assert (EE : E = Borsh) by (destruct E; [discriminate|discriminate|reflexivity]).
            unfold borsh_method, by_method in *. rewrite EE in Ebm |- *. destruct t as [| | | | | | | |t| | | | |c u|]; try discriminate.
            - destruct t as [| | | | | | | | | | | | |c u|]; try discriminate. destruct (c_unmarshal c) as [f|] eqn:Ec; [|discriminate].
              exists u. split; [reflexivity|]. injection Ebm as <-. destruct H1 as (y & _ & H1). rewrite <- EE in H1.
              apply (own_size f u LE (zero_val u) b1 (b2 ++ rest) y); auto using calm_LE, fits_zero.
              apply Hinc. cbn [owners]. rewrite Ec. now left.
            - destruct (c_unmarshal c) as [f|] eqn:Ec; [|discriminate].
              exists u. split; [reflexivity|]. injection Ebm as <-. rewrite <- EE in H1.
              apply (own_size f u LE (zero_val u) b1 (b2 ++ rest) x); auto using calm_LE, fits_zero.
              apply Hinc. cbn [owners]. rewrite Ec. now left. }
          destruct Hu as (u & -> & Hu). apply within_plus; [exact Hu|].
          apply (IH' ps s s' (seen || ft_ext tg) b2 rest vs' Hs Hf); [now apply bytes_ok_app in Hb|exact H2].
        - assert (Hbm : by_method E t = None).
          { unfold borsh_method, by_method in *. destruct E; try reflexivity. destruct t as [| | | | | | | |t| | | | |c u|]; try reflexivity.
            - destruct t; try reflexivity. destruct (c_unmarshal c); [discriminate|reflexivity].
            - destruct (c_unmarshal c); [discriminate|reflexivity]. }
          rewrite Hbm. destruct H as (b1 & b2 & x & -> & H1 & H2). rewrite <- app_assoc in Hb. rewrite zlen_app. apply within_plus.
          + rewrite <- Hs. exact (Hst _ _ _ _ _ _ _ Hord Hfp Hb H1).
          + apply bytes_ok_app in Hb. destruct Hb as [_ Hb]. destruct (ft_sizeof tg) as [|ch nm].
            * destruct H2 as (vs' & _ & H2). exact (proj1 (IH' _ _ _ _ _ _ _ Hs Hf Hb H2)).
            * destruct (size_of t x) as [z|]; [|contradiction]. destruct H2 as (vs' & _ & H2).
              refine (proj1 (IH' _ _ _ _ _ _ _ _ Hf Hb H2)). intro n. destruct (String.eqb (String ch nm) n); cbn [sized orb]; auto. }
      destruct A as [a s'']. destruct (ft_ext tg) eqn:Eext.
      + split.
        * cbn [andb] in H. destruct (zlen (b ++ rest) =? 0) eqn:Ez.
          -- apply Z.eqb_eq in Ez. rewrite zlen_app in Ez. pose proof (zlen_nonneg b). pose proof (zlen_nonneg rest).
             replace (zlen b) with 0 by lia. now apply maybe_0.
          -- apply within_maybe; [apply zlen_nonneg|]. apply Hmain. destruct (borsh_method E t); exact H.
        * intros _. now apply maybe_0.
      + split.
        * cbn [andb] in H. apply Hmain. destruct (borsh_method E t); exact H.
        * intros ->. discriminate.
  Qed.

  Lemma sealed_size t : forall old b rest x, fits t old -> sealed_in t old b rest x -> within (zlen b) (span_sealed t).
  Proof.
    induction t as [t IH] using ty_strong_ind. intros old b rest x Hf H.
    destruct t as [|nm w|nm w|f| |sg| | |t|n t|t|kt vt|fs|c u|]; cbn [sealed_in span_sealed] in *; try contradiction.
    - destruct H as [-> _]. apply within_exactly.
    - destruct Hf as (p & -> & Hx). destruct p as [y|]; [|contradiction]. eapply (IH t); [cbn; lia|exact (Hx y eq_refl)|exact H].
    - destruct Hf as (l & -> & Hl & Hf). destruct (uint_kind t).
      + destruct n; [|contradiction]. destruct t as [|[]| | | | | | | | | | | | |]; try contradiction; destruct H as [-> _]; apply within_exactly.
      + destruct H as (vs & _ & H). subst n. assert (IH0 : forall old b rest x, fits t old -> sealed_in t old b rest x -> within (zlen b) (span_sealed t)) by (apply IH; cbn; lia).
        clear IH. revert b vs H. induction Hf as [|y l Hy _ IHl]; intros b vs H; cbn [each_in] in H.
        * destruct H as [-> _]. split; cbn [times fst snd zlen List.length Z.of_nat]; [lia|]. destruct (snd (span_sealed t)); cbn; [intros m [= <-]; lia|discriminate].
        * destruct H as (b1 & b2 & z & -> & H1 & (zs & _ & H2)). rewrite zlen_app. cbn [List.length]. rewrite Nat2Z.inj_succ. unfold Z.succ.
          apply within_times_S; [|exact (IHl b2 zs H2)]. eapply IH0; [exact Hy|exact H1].
    - subst b. rewrite fixed_zlen. apply within_exactly.
    - subst b. rewrite fixed_zlen. apply within_exactly.
    - destruct Hf as (vs & -> & _). destruct (_ && _); [|contradiction]. destruct H as [-> _]. apply within_exactly.
    - eapply (IH u); [cbn; lia|exact Hf|exact H].
  Qed.

  Lemma nth_size fs : (forall h t, In (h, t) fs -> sizing t) -> forall ps n b rest vs,
    fits_fields fits fs ps -> bytes_ok (b ++ rest) -> nth_in (accepts E) fs ps n b rest vs ->
    within (zlen b) (span_variants (span own E) fs).
  Proof.
    induction fs as [|[h t] fs IH]; intros Hfs ps n b rest vs Hf Hb H; [contradiction|].
    destruct ps as [|p ps]; [contradiction|]. cbn [fits_fields snd] in Hf. destruct Hf as [Hfp Hf]. destruct n as [|n]; cbn [nth_in] in H.
    - assert (Hone : within (zlen b) (if f_exported h then span own E t false else span_sealed t)).
      { destruct (f_exported h); destruct H as (x & _ & H); [|eapply sealed_size; eauto].
        apply (Hfs h t (or_introl eq_refl) (Front false false) None LE p b rest x) in H; auto using calm_LE. }
      cbn [span_variants]. destruct fs; [exact Hone|]. now apply within_either_l.
    - destruct H as (x & _ & H).
      assert (Hr : within (zlen b) (span_variants (span own E) fs)).
      { apply (IH (fun h' t' Hin => Hfs h' t' (or_intror Hin)) ps n b rest x); auto. }
      cbn [span_variants]. destruct fs; [contradiction|]. now apply within_either_r.
  Qed.

  Lemma sizes_all t : incl (owners t) W -> incl (orders t) O -> sizing t.
  Proof.
    induction t as [t IH] using ty_strong_ind. intros Hm Ho.
    assert (IH' : forall t', (ty_size t' < ty_size t)%nat -> incl (owners t') (owners t) -> incl (orders t') (orders t) -> sizing t').
    { intros t' Hs H1 H2. apply IH; [exact Hs|now apply (incl_tran H1)|now apply (incl_tran H2)]. }
    assert (Hcore : forall sz o old b rest v, calm o -> fits t old -> bytes_ok (b ++ rest) -> core_in E t sz o old b rest v ->
              within (zlen b) (span own E t (sized sz))).
    { intros sz o old b rest v Hc Hf Hb H.
      destruct t as [|nm w|nm w|f| |sg| | |t|n t|t|kt vt|fs|c u|]; cbn [core_in span] in *; try contradiction.
      - destruct H as (x & _ & z & -> & _). apply within_exactly.
      - destruct H as (x & _ & _ & ->). rewrite fixed_zlen. apply within_exactly.
      - destruct H as (x & _ & _ & ->). rewrite fixed_zlen. apply within_exactly.
      - destruct H as (x & _ & _ & -> & _). rewrite fixed_zlen. apply within_exactly.
      - destruct H as (x & _ & H). apply within_from. eapply text_in_size, H.
      - destruct H as [-> _]. apply within_exactly.
      - destruct (uint_kind t) as [w|].
        + destruct H as (zs & _ & Hl & _ & -> & _). rewrite flat_fixed_zlen, <- Hl. apply within_exactly.
        + destruct Hf as (l & -> & Hl & Hf). destruct H as (vs & _ & H). replace (Z.of_nat n) with (zlen l) by (unfold zlen; lia).
          eapply each_size; [|exact Hb|exact H]. intros p b' rest' v' Hin Hb' H'. rewrite Forall_forall in Hf.
          apply (IH' t) in H'; auto using calm_LE; try (cbn [ty_size]; lia); try apply incl_refl.
      - destruct H as (b1 & b2 & n & -> & H1 & H2). rewrite zlen_app. pose proof (zlen_nonneg b1). pose proof (zlen_nonneg b2).
        destruct sz; cbn [sized]; apply within_from; [lia|]. pose proof (count_in_size _ _ _ _ H1). lia.
      - destruct H as (b1 & b2 & n & -> & H1 & H2). rewrite zlen_app. pose proof (zlen_nonneg b2).
        apply within_from. pose proof (count_in_size _ _ _ _ H1). lia.
      - assert (Hfs : forall h t, In (h, t) fs -> sizing t /\ incl (owners t) W /\ calm (ft_order (parse_field_tag (f_tag h)))).
        { intros h t Hin.
          assert (H1 : incl (owners t) (owners (TStruct fs))) by (cbn [owners]; apply (gather_incl (fun _ => owners) fs h t Hin)).
          pose proof (gather_incl (fun h t' => ft_order (parse_field_tag (f_tag h)) :: orders t') fs h t Hin) as H2. cbv beta in H2.
          split; [|split].
          - apply IH'; [now apply (ty_size_field fs h)|exact H1|]. intros x Hx. apply H2. now right.
          - now apply (incl_tran H1).
          - intros EE Hn. apply HO; auto. apply Ho. cbn [orders]. apply H2. now left. }
        destruct Hf as (ps & -> & Hf). destruct (enum_struct E fs).
        + destruct H as (b1 & b2 & n & -> & [_ ->] & H). rewrite zlen_app, fixed_zlen. apply within_plus; [apply within_exactly|].
          destruct fs as [|[h0 t0] fs]; [contradiction|]. destruct ps as [|p ps]; [contradiction|].
          destruct (f_exported h0); [|contradiction]. destruct H as (vs & _ & H). cbn [fits_fields] in Hf.
          apply (nth_size fs) with (ps := ps) (n := Z.to_nat n) (rest := rest) (vs := vs); [| tauto | |exact H].
          * intros h' t' Hin. apply (Hfs h' t'). now right.
          * rewrite <- app_assoc in Hb. now apply bytes_ok_app in Hb.
        + destruct H as (vs & _ & H). refine (proj1 (fields_size fs Hfs ps no_sizes _ false b rest vs _ Hf Hb H)). reflexivity. }
    assert (Hbelow : forall pend sz o old b rest v, calm o -> fits t old -> bytes_ok (b ++ rest) -> accepts E t (Below pend) sz o old b rest v ->
              within (zlen b) (flagged E false pend (span own E t (sized sz)))).
    { intros pend sz o old b rest v Hc Hf Hb H. rewrite accepts_below in H.
      assert (Hplain : (if pend then followed cflag_in (fun p => if p then core_in E t sz o old else yields (zero_val t)) else core_in E t sz o old) b rest v ->
                within (zlen b) (flagged E false pend (span own E t (sized sz)))).
      { clear H. intro H. unfold flagged. destruct pend; [|now apply (Hcore sz o old b rest v)].
        destruct H as (b1 & b2 & p & -> & H1 & H2). rewrite zlen_app, (cflag_in_size _ _ _ H1). apply within_plus; [apply within_exactly|].
        rewrite <- app_assoc in Hb. apply bytes_ok_app in Hb. destruct Hb as [_ Hb]. destruct p.
        - apply within_maybe; [apply zlen_nonneg|]. now apply (Hcore sz o old b2 rest v).
        - destruct H2 as [-> _]. rewrite zlen_nil. apply maybe_0, pos_span, Hpos. }
      destruct t as [|nm w|nm w|f| |sg| | |t|n t|t|kt vt|fs|c u|]; try (now apply Hplain).
      - destruct H as (x & _ & H). cbn [span].
        apply (IH' t) in H; auto; try (cbn [ty_size]; lia); try apply incl_refl. now apply fits_deref.
      - cbn [span]. cbn [fits] in Hf. destruct (c_unmarshal c) as [f|] eqn:Ec.
        + destruct pend; [contradiction|]. unfold flagged. apply (own_size f u o old b rest v); auto.
          apply Hm. cbn [owners]. rewrite Ec. now left.
        + apply (IH' u) in H; auto; try (cbn [ty_size]; lia); try apply incl_refl.
          cbn [owners]. rewrite Ec. apply incl_refl. }
    intros pl sz o old b rest v Hc Hf Hb H. destruct pl as [opt copt|pend]; [|now apply (Hbelow pend sz o old b rest v)].
    rewrite accepts_front in H. cbn [placed]. destruct (opt || copt) eqn:Eoc.
    2: { apply orb_false_iff in Eoc. destruct Eoc as [-> ->]. now apply (Hbelow false sz o old b rest v). }
    assert (Hflags : flags_in E t opt copt sz o old b rest v -> within (zlen b) (flagged E opt copt (span own E t (sized sz)))).
    { clear H. unfold flags_in. intro H. destruct opt.
      - destruct H as (b1 & b2 & p & -> & H1 & H2). rewrite zlen_app. unfold flagged. apply within_plus; [eapply flag_in_size, H1|].
        rewrite <- app_assoc in Hb. apply bytes_ok_app in Hb. destruct Hb as [_ Hb]. destruct p.
        + apply within_maybe; [apply zlen_nonneg|]. exact (Hbelow copt sz o old b2 rest v Hc Hf Hb H2).
        + destruct H2 as [-> _]. rewrite zlen_nil. apply maybe_0. apply (pos_flagged E false copt), pos_span, Hpos.
      - cbn [orb] in Eoc. subst copt. destruct H as (b1 & b2 & p & -> & H1 & H2). rewrite zlen_app, (cflag_in_size _ _ _ H1).
        unfold flagged. apply within_plus; [apply within_exactly|].
        rewrite <- app_assoc in Hb. apply bytes_ok_app in Hb. destruct Hb as [_ Hb]. destruct p.
        + apply within_maybe; [apply zlen_nonneg|]. exact (Hbelow false sz o old b2 rest v Hc Hf Hb H2).
        + destruct H2 as [-> _]. rewrite zlen_nil. apply maybe_0, pos_span, Hpos. }
    destruct t as [|nm w|nm w|f| |sg| | |t|n t|t|kt vt|fs|c u|]; try (now apply Hflags).
    - destruct old as [| | | |[x|]| | | | | |]; try (now apply Hflags). destruct (is_pointer t); [|now apply Hflags].
      destruct H as (y & _ & H). cbn [span]. destruct Hf as (q & [= <-] & Hf).
      apply (IH' t) in H; auto; try (cbn [ty_size]; lia); try apply incl_refl.
    - destruct (c_unmarshal c); [contradiction|]. now apply Hflags.
  Qed.
End Main.

Lemma methods_owners t : methods t = map fst (owners t).
Proof.
  induction t using ty_ind'; cbn [methods owners]; auto.
  - now rewrite map_app, IHt1, IHt2.
  - induction H as [|[h t] fs H H' IH]; [reflexivity|]. cbn [gather snd] in *. now rewrite map_app, H, IH.
  - destruct (c_unmarshal c); auto.
Qed.

Theorem accepts_span own E t old b rest v : kept own E t -> tame E t -> fits t old -> bytes_ok (b ++ rest) ->
  accepts E t (Front false false) None LE old b rest v -> within (zlen b) (span own E t false).
Proof.
  intros [Hp Hk] [_ Ho] Hf Hb H.
  refine (sizes_all own E (owners t) (orders t) Hp _ _ t (incl_refl _) (incl_refl _) (Front false false) None LE old b rest v _ Hf Hb H).
  - intros f u Hin. rewrite Forall_forall in Hk. exact (Hk _ Hin).
  - intros EE Hn o Hin. symmetry. revert o Hin. apply Forall_forall, Ho; [exact EE|]. rewrite methods_owners. destruct (owners t); [easy|discriminate].
  - intros _ _. reflexivity.
Qed.

Theorem decode_span own E t old pre inp c v s : kept own E t -> tame E t -> fits t old -> bytes_ok inp ->
  decode t old (mkD (pre ++ inp) (zlen pre) c E) = (Ok v, s) ->
  within (d_pos s - zlen pre) (span own E t false).
Proof.
  intros Hk Ht Hf Hb H. destruct (decode_only E t old pre inp c v s Ht Hb H) as (b & rest & c' & -> & -> & Ha).
  cbn [d_pos]. replace (zlen pre + zlen b - zlen pre) with (zlen b) by lia. eapply accepts_span; eauto.
Qed.

Theorem decode_short own E t old pre inp c v s : kept own E t -> tame E t -> fits t old -> bytes_ok inp ->
  zlen inp < fst (span own E t false) -> decode t old (mkD (pre ++ inp) (zlen pre) c E) <> (Ok v, s).
Proof.
  intros Hk Ht Hf Hb Hl H. destruct (decode_only E t old pre inp c v s Ht Hb H) as (b & rest & c' & -> & _ & Ha).
  pose proof (accepts_span own E t old b rest v Hk Ht Hf Hb Ha) as [Hw _]. rewrite zlen_app in Hl. pose proof (zlen_nonneg rest). lia.
Qed.

Theorem wire_span own E t v : kept own E t -> tame E t -> ok E t None LE v -> bytes_ok (wire E t None LE v) ->
  within (zlen (wire E t None LE v)) (span own E t false).
Proof.
  intros Hk Ht Hok Hb. eapply (accepts_span own E t (zero_val t) _ []); auto using fits_zero.
  - rewrite app_nil_r. exact Hb.
  - apply wire_accepted; auto using fits_zero. rewrite app_nil_r. exact Hb.
Qed.

(** * The library's types *)
Lemma uvarint64_size b rest z : uvarint64 b rest z -> within (zlen b) (1, Some 10).
Proof.
  intros (init & last & -> & _ & _ & Hl & _). pose proof (zlen_nonneg init). rewrite zlen_app, zlen_cons, zlen_nil in *.
  split; cbn [fst snd]; [lia|]. intros m [= <-]. lia.
Qed.
Lemma counted_size E b rest s : counted E b rest s -> within (zlen b) (from (count_size E)).
Proof.
  intros (b1 & b2 & n & -> & [H _] & _). apply count_in_size in H. rewrite zlen_app. pose proof (zlen_nonneg b2). apply within_from. lia.
Qed.

Lemma image_size {A B} (f : A -> B) (R : rel A) a : (forall b rest x, R b rest x -> within (zlen b) a) ->
  forall b rest y, image f R b rest y -> within (zlen b) a.
Proof. intros H b rest y (x & _ & Hx). eapply H, Hx. Qed.
Lemma fixed_size n o : forall b rest z, unsigned n o b rest z -> within (zlen b) (exactly (Z.of_nat n)).
Proof. intros b rest z [_ ->]. rewrite fixed_zlen. apply within_exactly. Qed.

Lemma library_table E : Forall (fun e : ty * (encoding -> order -> val -> rel val) => match fst e with
    | TCodec _ u => forall o old b rest v, snd e E o old b rest v -> within (zlen b) (lib_own E u)
    | _ => False
    end) library.
Proof.
  unfold library. repeat apply Forall_cons; [..|apply Forall_nil].
  all: cbv [fst snd Builtin.SafeString Builtin.Bool_ Builtin.HexBytes Builtin.Varint16 Builtin.Varint32 Builtin.Varuint16 Builtin.Varuint32
         Builtin.JSONFloat64 Builtin.Int64 Builtin.Uint64 Builtin.Uint128 Builtin.Int128 Builtin.Float128 Builtin.EmptyVariant Builtin.u128_fields lib_own]; intros o old.
  1, 3: apply image_size, counted_size.
  1: apply image_size; intros b rest x (z & -> & _); apply within_exactly.
  1-4: apply image_size, uvarint64_size.
  1: apply image_size; intros b rest x (_ & -> & _); rewrite fixed_zlen; apply within_exactly.
  1: apply image_size; intros b rest x (_ & ->); rewrite fixed_zlen; apply within_exactly.
  1-4: apply image_size; intros b rest x (_ & ->); rewrite fixed_zlen; apply within_exactly.
  intros b rest v [-> _]. apply within_exactly.
Qed.

Lemma library_sizes E f u : In (f, u) lib_owners -> keeps_to (lib_own E) E f u.
Proof.
  unfold lib_owners. rewrite in_flat_map. intros ([t R] & Hin & Hf). cbn [fst] in Hf.
  pose proof (library_exact E) as H1. pose proof (library_table E) as H2. rewrite Forall_forall in H1, H2.
  specialize (H1 _ Hin). specialize (H2 _ Hin). cbn [fst snd] in *. destruct t; try contradiction.
  destruct H1 as (g & Hg & _ & Hx). cbn [owners] in Hf. rewrite Hg in Hf. destruct Hf as [[= <- <-]|[]].
  intros o old b rest v Ho Hfit Hb Hown. apply (H2 o old b rest v). apply (own_of E o g old (R E o old)); auto.
Qed.

Theorem library_kept E t : incl (owners t) lib_owners -> kept (lib_own E) E t.
Proof.
  intro Hi. split.
  - intro u. change (pos_bounds (lib_own E u)).
    assert (H10 : pos_bounds (1, Some 10)) by (split; cbn [fst snd]; [lia|]; intros m [= <-]; lia).
    assert (Hc : pos_bounds (from (count_size E))) by (apply pos_from; destruct E; cbn; lia).
    destruct u as [|nm w|nm w|f| |sg| | |t'|n t'|t'|kt vt|fs|c u|]; cbn [lib_own]; try exact Hc; try (apply pos_exactly; lia);
      try (destruct w); try destruct f; try (destruct fs); try exact H10; apply pos_exactly; lia.
  - apply Forall_forall. intros [f u] Hin. apply library_sizes, Hi, Hin.
Qed.
