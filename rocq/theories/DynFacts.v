(** Interfaces in maps: the transcribed encoder with dynamic values. *)
From Verif Require Import Types EncPrim Enc Spec NumFacts TyInd EncFacts EncWire Builtin GoEnc GoEncFacts DynSpec.
Notation length := Datatypes.length.

(** * More known values, the same outcome *)
Definition upto {A} (m m' : EM A) : Prop := forall s, fst (m s) = Stuck \/ m' s = m s.
Lemma upto_refl {A} (m : EM A) : upto m m.
Proof. intro s. now right. Qed.
Lemma upto_stuck {A} (m : EM A) : upto stuck m.
Proof. intro s. now left. Qed.
Lemma upto_bind {A B} (m m' : EM A) (k k' : A -> EM B) : upto m m' -> (forall a, upto (k a) (k' a)) -> upto (bind m k) (bind m' k').
Proof.
  intros H Hk s. unfold bind. destruct (H s) as [Hs| ->].
  - destruct (m s) as [[a|e| | |] s1]; try discriminate. now left.
  - destruct (m s) as [[a|e| | |] s1]; try (now right). apply Hk.
Qed.
Lemma upto_map_err (m m' : EM unit) f : upto m m' -> upto (map_err f m) (map_err f m').
Proof.
  intros H s. unfold map_err. destruct (H s) as [Hs| ->]; [|now right].
  destruct (m s) as [[a|e| | |] s1]; try discriminate. now left.
Qed.
Lemma upto_each {A} (f f' : A -> EM unit) l : (forall a, upto (f a) (f' a)) -> upto (each f l) (each f' l).
Proof. intro H. induction l; cbn [each]; [apply upto_refl|]. apply upto_bind; [apply H|auto]. Qed.
Lemma upto_for n : forall i b b', (forall i, upto (b i) (b' i)) -> upto (for_ n i b) (for_ n i b').
Proof. induction n as [|n IH]; intros i b b' H; cbn [for_]; [apply upto_refl|]. apply upto_bind; [apply H|auto]. Qed.
Lemma upto_loop opt enc enc' rv n : (forall rv o, upto (enc rv o) (enc' rv o)) ->
  forall i sz, upto (struct_loop opt enc rv n i sz) (struct_loop opt enc' rv n i sz).
Proof.
  intro H. induction n as [|n IH]; intros i sz; cbn [struct_loop]; [apply upto_refl|].
  destruct (nth_error _ i) as [[h t]|]; [|apply upto_refl]. destruct (nth_error _ i); [|apply upto_refl].
  destruct (ft_skip _); [apply IH|].
  assert (Hgo : forall sz1 o, upto (map_err EWrap (enc (Rv t v) o) ;;; struct_loop opt enc rv n (S i) sz1)
    (map_err EWrap (enc' (Rv t v) o) ;;; struct_loop opt enc' rv n (S i) sz1)).
  { intros. apply upto_bind; [apply upto_map_err, H|]. intro. apply IH. }
  destruct (negb (String.eqb _ _)).
  - destruct (sizeof_val t v); [|apply upto_refl]. destruct (_ || _); [apply IH|apply Hgo].
  - destruct (_ || _); [apply IH|apply Hgo].
Qed.
Lemma upto_flags E o v m m' : upto m m' -> upto (flags E o v m) (flags E o v m').
Proof.
  intro H. unfold flags.
  destruct (o_opt o), (is_borsh E && o_copt o), (is_zero v); try apply upto_refl; try exact H;
    repeat (apply upto_bind; [apply upto_refl|intros _]); try exact H; apply upto_refl.
Qed.
Lemma upto_boxed dyn t v enc enc' : (forall x, upto (enc x) (enc' x)) -> upto (boxed unknown t v enc) (boxed dyn t v enc').
Proof.
  intro H. destruct t; try apply H. destruct v; try apply upto_refl. destruct d; [apply upto_stuck|apply H].
Qed.

Lemma dyn_upto dyn fuel :
  (forall E rv opt, upto (goEd unknown E fuel rv opt) (goEd dyn E fuel rv opt)) /\
  (forall E rv, upto (goSd unknown E fuel rv) (goSd dyn E fuel rv)) /\
  (forall rv, upto (encodeComplexEnumBorsh unknown fuel rv) (encodeComplexEnumBorsh dyn fuel rv)).
Proof.
  induction fuel as [|fuel (IHE & IHS & IHC)].
  - split; [|split]; [intros [] ? ?|intros [] ?|intro]; apply upto_refl.
  - assert (Hsw : forall E rv o, upto (go_switchd unknown E fuel rv o) (go_switchd dyn E fuel rv o)).
    { intros E rv o. unfold go_switchd.
      assert (Hi : forall l, upto (go_indexedd unknown E fuel rv l) (go_indexedd dyn E fuel rv l)).
      { intro l. unfold go_indexedd. destruct (uint_kind _); [apply upto_refl|]. apply upto_for. intro i.
        destruct (rv_index rv i); [apply IHE|apply upto_refl]. }
      destruct (rv_kind rv); try apply upto_refl; try apply Hi.
      - unfold go_elemd. pose proof (IHE Borsh) as IHB. cbn [goEd] in IHB.
        destruct E; try apply IHE. destruct (rv_is_zero rv); apply IHB.
      - apply upto_bind; [apply upto_refl|]. intro. apply Hi.
      - destruct (sort_keys_unknown E (key_type (rv_type rv)) (rv_map_keys rv)) as [-> Hcs].
        destruct (ordered_keys E (key_type (rv_type rv)) (rv_map_keys rv)) as [ks|] eqn:Eo.
        2: { rewrite (Hcs eq_refl). unfold unsortable. destruct (key_type (rv_type rv)) eqn:Ek; try apply upto_stuck;
               rewrite sort_keys_plain, Eo by discriminate; apply upto_refl. }
        rewrite (sort_keys_some dyn _ _ _ _ Eo).
        apply upto_bind; [apply upto_refl|]. intros _.
        unfold encode_entries. apply upto_each. intro k. apply upto_bind; [apply upto_boxed; intro; apply IHE|].
        intros _. destruct (map_index _ _ _); [|apply upto_refl]. apply upto_boxed. intro; apply IHE.
      - apply IHS. }
    split; [|split].
    + intros E rv opt s. rewrite !goEd_eq.
      revert s. change (upto (e_set_cur (o_order (or_default opt)) ;;; flags E (or_default opt) (rv_val rv) (go_cored unknown E fuel rv (or_default opt)))
        (e_set_cur (o_order (or_default opt)) ;;; flags E (or_default opt) (rv_val rv) (go_cored dyn E fuel rv (or_default opt)))).
      apply upto_bind; [apply upto_refl|]. intros _. apply upto_flags. unfold go_cored.
      destruct (rv_kind rv); try apply upto_refl; destruct (marshaler rv); try apply upto_refl; apply Hsw.
    + intros E rv. pose proof (IHE E) as IH. destruct E; cbn [goSd goEd encodeStructBin encodeStructCompactU16 encodeStructBorsh] in *.
      * apply upto_loop. intros; apply IH.
      * apply upto_loop. intros; apply IH.
      * assert (Hl : forall n, upto (struct_loop (fun fieldTag => mkOpt (ft_option fieldTag) (ft_coption fieldTag) None (ft_order fieldTag))
          (fun rv option => encodeBorsh unknown fuel rv (Some option)) rv n 0 [])
          (struct_loop (fun fieldTag => mkOpt (ft_option fieldTag) (ft_coption fieldTag) None (ft_order fieldTag))
          (fun rv option => encodeBorsh dyn fuel rv (Some option)) rv n 0 [])).
        { intro n. apply upto_loop. intros; apply IH. }
        cbv zeta. destruct (type_fields (rv_type rv)) as [|[h t] fs]; [apply Hl|].
        destruct t as [|[] []| | | | | | | | | | | | |]; try apply Hl. destruct (ft_enum _); [apply IHC|apply Hl].
    + intro rv. cbn [encodeComplexEnumBorsh]. pose proof (IHS Borsh) as IH. cbn [goSd] in IH.
      destruct (rv_fields rv) as [|[] vs] eqn:Ev; try apply upto_refl. cbv zeta.
      apply upto_bind; [apply upto_refl|]. intros _. destruct (_ <=? _); [apply upto_refl|].
      destruct (nth_error _ _) as [[h t]|]; [|apply upto_refl]. destruct (nth_error _ _); [|apply upto_refl].
      match goal with |- upto (match rv_kind ?x with _ => _ end) _ => destruct (rv_kind x) end; try apply upto_refl. apply IH.
Qed.

(** Known values or not, what does not depend on them is the same. *)
Lemma go_val_dyn dyn E t v o s fuel : go_type t -> fits t v -> (3 * ty_size t <= fuel)%nat -> fst (enc_val E t (EFull o) v s) <> Stuck ->
  goEd dyn E fuel (Rv t v) (Some o) s = enc_val E t (EFull o) v s.
Proof.
  intros Hg Hf Hn Hs. pose proof (proj1 (agree t Hg) E v o s fuel Hf Hn) as H.
  destruct (dyn_upto dyn fuel) as [Hu _]. destruct (Hu E (Rv t v) (Some o) s) as [H1|H1]; rewrite H in H1; [congruence|exact H1].
Qed.
Lemma go_encode_goEd dyn fuel rv s : go_encode dyn fuel rv s = goEd dyn (e_enc s) fuel rv None s.
Proof. unfold go_encode, bind, e_get_enc. now destruct (e_enc s). Qed.
Lemma goEd_none dyn E fuel rv s : goEd dyn E fuel rv None s = goEd dyn E fuel rv (Some opt0) s.
Proof. destruct fuel; [now destruct E|]. now rewrite !goEd_eq. Qed.
Theorem go_encode_dyn dyn t v s fuel : go_type t -> fits t v -> (3 * ty_size t <= fuel)%nat -> fst (encode t v s) <> Stuck ->
  go_encode dyn fuel (Rv t v) s = encode t v s.
Proof.
  intros Hg Hf Hn Hs. rewrite go_encode_goEd, goEd_none.
  change (encode t v s) with (enc_val (e_enc s) t (EFull opt0) v s) in *. now apply go_val_dyn.
Qed.

(** * The bytes *)
Definition does dyn E t sz o v bs : Prop := exists n, forall fuel, (n <= fuel)%nat -> forall c, exists c',
  emits E c (goEd dyn E fuel (Rv t v) (Some (mkOpt false false sz o))) bs c'.
Definition does_boxed dyn E t v bs : Prop := exists n, forall fuel, (n <= fuel)%nat -> forall c, exists c',
  emits E c (boxed dyn t v (fun x => goEd dyn E fuel x None)) bs c'.

Lemma emits_same E c m m' b c' : (forall s, fst (m s) <> Stuck -> m' s = m s) -> emits E c m b c' -> emits E c m' b c'.
Proof.
  intros H (cs & Hc & Hb). exists cs. split; [|exact Hb]. intros w n h a. specialize (Hc w n h a).
  destruct (play w cs n h a) as [[[[x|] n'] h'] a'].
  - destruct Hc as (e & c2 & He & Hm). exists e, c2. split; [exact He|]. rewrite H, Hm; [reflexivity|]. now rewrite Hm.
  - rewrite H, Hc; [reflexivity|]. now rewrite Hc.
Qed.
Lemma core_opt dyn E fuel rv oo oc sz o : (is_borsh E = false -> oc = false) ->
  go_cored dyn E fuel rv (mkOpt oo oc sz o) = go_cored dyn E fuel rv (mkOpt false false sz o).
Proof. intro H. destruct E; cbn in H; try (rewrite H by reflexivity); reflexivity. Qed.
(** A value without flags, and with. *)
Lemma does_core dyn E t sz o v bs fuel c c' :
  emits E (Some o) (go_cored dyn E fuel (Rv t v) (mkOpt false false sz o)) bs c' ->
  emits E c (goEd dyn E (S fuel) (Rv t v) (Some (mkOpt false false sz o))) bs c'.
Proof.
  intro H. eapply emits_ext; [intros s _ _; symmetry; apply goEd_eq|].
  cbn [or_default o_order]. apply emits_set_cur. unfold flags. cbn [o_opt o_copt]. rewrite andb_false_r. exact H.
Qed.
Lemma does_core_inv dyn E t sz o v bs fuel c' :
  emits E (Some o) (goEd dyn E (S fuel) (Rv t v) (Some (mkOpt false false sz o))) bs c' ->
  emits E (Some o) (go_cored dyn E fuel (Rv t v) (mkOpt false false sz o)) bs c'.
Proof.
  apply emits_ext. intros s _ Hs. rewrite goEd_eq. cbn [or_default o_order]. unfold bind. rewrite (set_cur_same _ _ Hs).
  unfold flags. cbn [o_opt o_copt]. now rewrite andb_false_r.
Qed.
Lemma emits_flags E tg sz v core bs c :
  (flagged_field E tg && is_zero v = true \/ exists c', emits E c core bs c') ->
  exists c', emits E c (flags E (mkOpt (ft_option tg) (is_borsh E && ft_coption tg) sz (ft_order tg)) v core) (with_flags E tg v bs) c'.
Proof.
  intro H. unfold flags, with_flags, flagged_field in *. cbn [o_opt o_copt].
  replace (is_borsh E && (is_borsh E && ft_coption tg)) with (is_borsh E && ft_coption tg) by (now destruct (is_borsh E)).
  set (co := is_borsh E && ft_coption tg) in *. clearbody co.
  destruct (ft_option tg), co, (is_zero v); cbn [andb orb app] in *;
    try (eexists; apply emits_write_flag); try (eexists; apply emits_write_coption);
    destruct H as [H|[c' Hc]]; try discriminate H; exists c'; try exact Hc.
  - eapply emits_bind; [apply emits_write_flag|]. eapply emits_bind; [apply emits_write_coption|exact Hc].
  - eapply emits_bind; [apply emits_write_flag|exact Hc].
  - eapply emits_bind; [apply emits_write_coption|exact Hc].
Qed.
Lemma does_field dyn E t tg sz v bs : flagged_field E tg && is_zero v = true \/ does dyn E t sz (ft_order tg) v bs ->
  exists n, forall fuel, (n <= fuel)%nat -> forall c, exists c',
    emits E c (goEd dyn E fuel (Rv t v) (Some (mkOpt (ft_option tg) (is_borsh E && ft_coption tg) sz (ft_order tg)))) (with_flags E tg v bs) c'.
Proof.
  intro H.
  assert (Hn : exists n, forall fuel, (n <= fuel)%nat -> flagged_field E tg && is_zero v = true \/
    exists c', emits E (Some (ft_order tg)) (goEd dyn E fuel (Rv t v) (Some (mkOpt false false sz (ft_order tg)))) bs c').
  { destruct H as [H|[n H]]; [exists O; auto|]. exists n. intros fuel Hf. right. now apply H. }
  destruct Hn as [n Hn]. exists (S n). intros [|fuel] Hf; [lia|]. intro c.
  destruct (emits_flags E tg sz v (go_cored dyn E fuel (Rv t v) (mkOpt (ft_option tg) (is_borsh E && ft_coption tg) sz (ft_order tg))) bs
    (Some (ft_order tg))) as [c' Hc].
  - destruct (Hn (S fuel)) as [Hz|[c' Hc]]; [lia|now left|right]. exists c'.
    rewrite core_opt by (intros ->; reflexivity). now apply does_core_inv.
  - exists c'. eapply emits_ext; [intros s _ _; symmetry; apply goEd_eq|]. cbn [or_default o_order rv_val]. now apply emits_set_cur.
Qed.

Definition does_fields dyn E fs vs s bs : Prop := exists n, forall fuel, (n <= fuel)%nat ->
  forall rv fs1 vs1 sizes, rv_ro rv = false -> type_fields (rv_type rv) = fs1 ++ fs -> rv_fields rv = vs1 ++ vs -> length vs1 = length fs1 ->
  EncWire.agrees sizes s -> forall c, exists c', emits E c
    (struct_loop (fun tg => mkOpt (ft_option tg) (is_borsh E && ft_coption tg) None (ft_order tg))
       (fun rv o => goEd dyn E fuel rv (Some o)) rv (length fs) (length fs1) sizes) bs c'.
Definition does_all dyn E t l bs : Prop := exists n, forall fuel, (n <= fuel)%nat -> forall c, exists c',
  emits E c (each (fun x => goEd dyn E fuel (Rv t x) None) l) bs c'.
Definition does_entries dyn E kt vt l bs : Prop := exists n, forall fuel, (n <= fuel)%nat ->
  forall rv, key_type (rv_type rv) = kt -> elem_type (rv_type rv) = vt ->
  (forall e, In e l -> map_index kt (rv_entries rv) (fst e) = Some (snd e)) -> forall c, exists c',
  emits E c (encode_entries dyn rv (fun x => goEd dyn E fuel x None) (map fst l)) bs c'.

Lemma does_cons dyn E h t fs v vs s b1 b2 : live h = true ->
  let tg := parse_field_tag (f_tag h) in
  ft_sizeof tg = EmptyString \/
    (int_like t = true /\ fits t v /\ ft_sizeof tg <> f_name h /\ exists z, v = VNum z /\ - 2 ^ 63 <= z < 2 ^ 63) ->
  flagged_field E tg && is_zero v = true \/ does dyn E t (s (f_name h)) (ft_order tg) v b1 ->
  does_fields dyn E fs vs (bind_size tg v s) b2 ->
  does_fields dyn E ((h, t) :: fs) (v :: vs) s (with_flags E tg v b1 ++ b2).
Proof.
  intros Hl tg Hsz H1 [n2 H2]. destruct (does_field dyn E t tg (s (f_name h)) v b1 H1) as [n1 Hn1].
  exists (n1 + n2)%nat. intros fuel Hf rv fs1 vs1 sizes Hro Hfs Hvs Hlen Ha c.
  cbn [length struct_loop]. rewrite Hfs, Hvs, Hro.
  rewrite nth_error_app2, Nat.sub_diag by lia. rewrite nth_error_app2, Hlen, Nat.sub_diag by lia. cbn [nth_error].
  fold tg. apply andb_true_iff in Hl. destruct Hl as [Hs He]. fold tg in Hs. rewrite He.
  destruct (ft_skip tg); [discriminate|]. cbn [negb orb]. clear Hs.
  assert (Hs' : exists sizes', match sm_get sizes' (f_name h) with Some s1 => Some s1 | None => None end = s (f_name h) /\
     EncWire.agrees sizes' (bind_size tg v s) /\
     (if String.eqb (ft_sizeof tg) "" then Some sizes
         else match sizeof_val t v with
              | Some n => Some ((ft_sizeof tg, n) :: sizes)
              | None => None
              end) = Some sizes').
  { assert (Hid : forall x : option Z, match x with Some s1 => Some s1 | None => None end = x) by (intros []; reflexivity).
    destruct Hsz as [Hsz|(Hint & Hfit & Hne & z & -> & Hz)].
    - exists sizes. rewrite Hsz, bind_size_none, Hid by easy. cbn. auto.
    - destruct (String.eqb_spec (ft_sizeof tg) "") as [Hq|Hq].
      + exists sizes. rewrite bind_size_none, Hid by easy. auto.
      + rewrite (sizeof_int_like t z) by easy. eexists. split; [|split; [|reflexivity]].
        * cbn [sm_get]. destruct (String.eqb_spec (ft_sizeof tg) (f_name h)); [easy|]. rewrite Hid. apply Ha.
        * intro m. rewrite bind_size_num by easy. cbn [sm_get]. destruct (String.eqb (ft_sizeof tg) m); [reflexivity|apply Ha]. }
  destruct Hs' as (sizes' & Hg & Ha' & Hs').
  destruct (Hn1 fuel ltac:(lia) c) as [c1 Hc1].
  destruct (H2 fuel ltac:(lia) rv (fs1 ++ [(h, t)]) (vs1 ++ [v]) sizes') with (c := c1) as [c2 Hc2];
    [exact Hro|now rewrite <- app_assoc|now rewrite <- app_assoc|rewrite !app_length; cbn; lia|exact Ha'|].
  rewrite app_length in Hc2. cbn [length] in Hc2. rewrite Nat.add_1_r in Hc2.
  exists c2.
  assert (Hgo : emits E c (map_err EWrap (goEd dyn E fuel (Rv t v) (Some match sm_get sizes' (f_name h) with
      | Some s1 => mkOpt (ft_option tg) (is_borsh E && ft_coption tg) (Some s1) (ft_order tg)
      | None => mkOpt (ft_option tg) (is_borsh E && ft_coption tg) None (ft_order tg) end)) ;;;
      struct_loop (fun tg => mkOpt (ft_option tg) (is_borsh E && ft_coption tg) None (ft_order tg))
       (fun rv o => goEd dyn E fuel rv (Some o)) rv (length fs) (S (length fs1)) sizes') (with_flags E tg v b1 ++ b2) c2).
  { eapply emits_bind; [|exact Hc2]. apply emits_map_err. rewrite <- Hg in Hc1. destruct (sm_get sizes' (f_name h)); exact Hc1. }
  cbn [o_opt o_copt o_size o_order].
  destruct (String.eqb (ft_sizeof tg) ""); cbn [negb].
  - injection Hs' as ->. exact Hgo.
  - destruct (sizeof_val t v); [|discriminate]. injection Hs' as ->. exact Hgo.
Qed.

Lemma does_none dyn E t v bs : does dyn E t None LE v bs -> exists n, forall fuel, (n <= fuel)%nat -> forall c, exists c',
  emits E c (goEd dyn E fuel (Rv t v) None) bs c'.
Proof.
  intros [n H]. exists n. intros fuel Hf c. destruct (H fuel Hf c) as [c' Hc]. exists c'.
  eapply emits_ext; [|exact Hc]. intros s _ _. symmetry. apply goEd_none.
Qed.
Lemma indexed_does dyn E t rv l bs : rv_ro rv = false -> uint_kind t = None -> elem_type (rv_type rv) = t -> rv_elems rv = l -> does_all dyn E t l bs ->
  exists n, forall fuel, (n <= fuel)%nat -> forall c, exists c', emits E c (go_indexedd dyn E fuel rv (zlen l)) bs c'.
Proof.
  intros Hro Hu Ht Hl [n H]. exists n. intros fuel Hf c. destruct (H fuel Hf c) as [c' Hc]. exists c'.
  unfold go_indexedd. rewrite Ht, Hu. eapply emits_ext; [|exact Hc]. intros s _ _.
  rewrite (for_same _ _ _ (fun i => match nth_error l i with Some x => goEd dyn E fuel (Rv t x) None | None => panic end)).
  - rewrite (for_each (fun x => goEd dyn E fuel (Rv t x) None) l). cbn [skipn Nat.add].
    unfold zlen. rewrite Nat2Z.id, firstn_all, Nat.ltb_irrefl. cbn [andb]. unfold bind.
    destruct (each _ l s) as [[[]|e| | |] s1]; reflexivity.
  - intros i s1. unfold rv_index, rv_inner. rewrite Hl, Ht, Hro. now destruct (nth_error l i).
Qed.

Theorem sends_does dyn E :
  (forall t sz o v bs, sends dyn E t sz o v bs -> does dyn E t sz o v bs) /\
  (forall t l bs, sends_all dyn E t l bs -> does_all dyn E t l bs) /\
  (forall kt vt l bs, sends_entries dyn E kt vt l bs -> does_entries dyn E kt vt l bs) /\
  (forall t v bs, boxed_as dyn E t v bs -> does_boxed dyn E t v bs) /\
  (forall fs vs s bs, sends_fields dyn E fs vs s bs -> does_fields dyn E fs vs s bs).
Proof.
  apply sends_mutind.
  - (* plain *)
    intros t sz o v Hg Hf Ho. exists (3 * ty_size t)%nat. intros fuel Hn c. destruct (enc_wire E t sz o v c Ho) as [c' Hc].
    exists c'. eapply emits_same; [|exact Hc]. intros s Hs. now apply go_val_dyn.
  - (* pointers *)
    intros t sz o x bs Hp _ [n H]. exists (S n). intros [|fuel] Hf; [lia|]. intro c.
    destruct (H fuel ltac:(lia) (Some o)) as [c' Hc]. exists c'. apply does_core. unfold go_cored.
    change (rv_kind (Rv (TPtr t) (VPtr (Some x)))) with KPtr. cbn iota.
    replace (marshaler (Rv (TPtr t) (VPtr (Some x)))) with (@None (EM unit)).
    2: { destruct t; try reflexivity. cbn [ptr_marshal] in Hp. cbn [marshaler]. now rewrite Hp. }
    unfold go_switchd. change (rv_kind (Rv (TPtr t) (VPtr (Some x)))) with KPtr. cbn iota. unfold go_elemd.
    change (rv_is_zero (Rv (TPtr t) (VPtr (Some x)))) with false.
    change (rv_elem (Rv (TPtr t) (VPtr (Some x)))) with (Rv t x).
    destruct E; cbn [is_borsh] in Hc; try exact Hc.
    eapply emits_ext; [|exact Hc]. intros s _ _. symmetry. apply (goEd_none dyn Borsh).
  - (* arrays *)
    intros t sz o l bs Hu _ H.
    destruct (indexed_does dyn E t (Rv (TArray (length l) t) (VSeq l)) l bs eq_refl Hu eq_refl eq_refl H) as [n Hn].
    exists (S n). intros [|fuel] Hf; [lia|]. intro c. destruct (Hn fuel ltac:(lia) (Some o)) as [c' Hc]. exists c'.
    apply does_core. exact Hc.
  - (* slices *)
    intros t sz o l bs Hu Hsz _ H.
    destruct (indexed_does dyn E t (Rv (TSlice t) (VSlice (Some l))) l bs eq_refl Hu eq_refl eq_refl H) as [n Hn].
    exists (S n). intros [|fuel] Hf; [lia|]. intro c. destruct (Hn fuel ltac:(lia) (Some o)) as [c' Hc]. exists c'.
    apply does_core. change (emits E (Some o)
      (l0 <- match sz with Some l0 => ret l0 | None => write_count E (zlen l) ;;; ret (zlen l) end ;;
       go_indexedd dyn E fuel (Rv (TSlice t) (VSlice (Some l))) l0)
      (match sz with Some _ => [] | None => count E (zlen l) end ++ bs) c').
    destruct sz as [k|].
    + subst k. exact Hc.
    + pose proof (zlen_nonneg l). eapply emits_ext; [|eapply emits_bind; [apply (emits_write_count E (Some o) (zlen l)); lia|exact Hc]].
      intros s _ _. unfold bind, ret. destruct (write_count E (zlen l) s) as [[[]|e| | |] s1]; reflexivity.
  - (* maps *)
    intros kt vt sz o m bs Hlen Hself Hd Hs _ [n H]. exists (S n). intros [|fuel] Hf; [lia|]. intro c.
    assert (Hin : forall e, In e (entries E kt m) <-> In e m).
    { intro e. destruct E; try reflexivity. cbn [entries]. apply sort_in. }
    destruct (H fuel ltac:(lia) (Rv (TMap kt vt) (VMap (Some m))) eq_refl eq_refl) with (c := Some o) as [c' Hc].
    { intros e He. apply Hin in He. cbn [rv_entries rv_val]. apply find_distinct; [exact Hd|exact He|].
      rewrite Forall_forall in Hself. now apply Hself. }
    exists c'. apply does_core. change (emits E (Some o)
      match sort_keys dyn E kt (map fst m) with
      | None => cannot_sort dyn kt (map fst m)
      | Some keys => write_count E (zlen m) ;;; encode_entries dyn (Rv (TMap kt vt) (VMap (Some m))) (fun x => goEd dyn E fuel x None) keys
      end (count E (zlen m) ++ bs) c').
    rewrite (sort_keys_some dyn _ _ _ _ (ordered_keys_entries E kt m Hself Hs)). pose proof (zlen_nonneg m).
    eapply emits_bind; [apply emits_write_count; lia|exact Hc].
  - (* structs *)
    intros fs vs sz o bs He _ [n H]. exists (S (S n)). intros [|[|fuel]] Hf; [lia|lia|]. intro c.
    destruct (H fuel ltac:(lia) (Rv (TStruct fs) (VStruct vs)) [] [] [] eq_refl eq_refl eq_refl eq_refl) with (c := Some o) as [c' Hc].
    { intro; reflexivity. }
    exists c'. apply does_core. change (emits E (Some o) (goSd dyn E (S fuel) (Rv (TStruct fs) (VStruct vs))) bs c').
    destruct E; cbn [goSd encodeStructBin encodeStructCompactU16 encodeStructBorsh]; try exact Hc.
    change (type_fields (rv_type (Rv (TStruct fs) (VStruct vs)))) with fs.
    destruct fs as [|[h t] fs]; [exact Hc|]. destruct t as [|[] []| | | | | | | | | | | | |]; try exact Hc.
    cbn [enum_struct] in He. rewrite He. exact Hc.
  - (* all *)
    intro t. exists O. intros. exists c. apply emits_ret.
  - intros t x l b1 b2 _ H1 _ [n2 H2]. destruct (does_none _ _ _ _ _ H1) as [n1 H1']. exists (n1 + n2)%nat. intros fuel Hf c.
    destruct (H1' fuel ltac:(lia) c) as [c1 Hc1]. destruct (H2 fuel ltac:(lia) c1) as [c2 Hc2]. exists c2.
    cbn [each]. eapply emits_bind; eauto.
  - (* entries *)
    intros kt vt. exists O. intros. exists c. apply emits_ret.
  - intros kt vt k v m b1 b2 b3 _ [n1 H1] _ [n2 H2] _ [n3 H3]. exists (n1 + n2 + n3)%nat. intros fuel Hf rv Hk Hv Hi c.
    destruct (H1 fuel ltac:(lia) c) as [c1 Hc1]. destruct (H2 fuel ltac:(lia) c1) as [c2 Hc2].
    destruct (H3 fuel ltac:(lia) rv Hk Hv) with (c := c2) as [c3 Hc3]; [intros; apply Hi; now right|]. exists c3.
    unfold encode_entries in *. cbn [map each]. rewrite Hk, Hv in *. rewrite (Hi (k, v)) by now left. cbn [fst snd].
    eapply emits_bind; [|exact Hc3]. eapply emits_bind; eauto.
  - (* boxed *)
    exists 1%nat. intros [|fuel] Hf c; [lia|]. exists (Some LE). eapply emits_ext; [intros s _ _; symmetry; apply goEd_eq|].
    apply emits_set_cur. unfold flags. cbn [or_default opt0 o_opt o_copt]. rewrite andb_false_r. apply emits_ret.
  - intros z t v bs Hd _ H. destruct (does_none _ _ _ _ _ H) as [n Hn]. exists n. intros fuel Hf c.
    cbn [boxed]. rewrite Hd. now apply Hn.
  - intros t v bs Ht _ H. destruct (does_none _ _ _ _ _ H) as [n Hn]. exists n. intros fuel Hf c.
    replace (boxed dyn t v (fun x => goEd dyn E fuel x None)) with (goEd dyn E fuel (Rv t v) None) by (now destruct t). now apply Hn.
  - (* fields *)
    intro s. exists O. intros. exists c. apply emits_ret.
  - intros h t fs v vs s bs Hl Hz _ [n H]. exists n. intros fuel Hf rv fs1 vs1 sizes Hro Hfs Hvs Hlen Ha c.
    cbn [length struct_loop]. rewrite Hfs, Hvs, Hro.
    rewrite nth_error_app2, Nat.sub_diag by lia. rewrite nth_error_app2, Hlen, Nat.sub_diag by lia. cbn [nth_error].
    destruct (H fuel Hf rv (fs1 ++ [(h, t)]) (vs1 ++ [v]) sizes) with (c := c) as [c2 Hc2];
      [exact Hro|now rewrite <- app_assoc|now rewrite <- app_assoc|rewrite !app_length; cbn; lia|exact Ha|].
    rewrite app_length in Hc2. cbn [length] in Hc2. rewrite Nat.add_1_r in Hc2. exists c2.
    unfold live in Hl. cbv zeta. destruct (ft_skip _); [exact Hc2|]. cbn [negb andb] in Hl. rewrite Hl.
    destruct Hz as [Hz|Hz]; [discriminate|]. rewrite Hz. exact Hc2.
  - intros h t fs v vs s b1 b2 Hl tg Hsz _ H1 _ H2. exact (does_cons dyn E h t fs v vs s b1 b2 Hl Hsz (or_intror H1) H2).
  - intros h t fs v vs s b2 Hl tg Hz Ha _ H2. apply (does_cons dyn E h t fs v vs s [] b2 Hl (or_introl Hz) (or_introl Ha)).
    fold tg. now rewrite bind_size_none.
Qed.

Theorem sends_go dyn E t v bs : sends dyn E t None LE v bs -> exists n, forall fuel, (n <= fuel)%nat -> forall c, exists cs c',
  script E c (go_encode dyn fuel (Rv t v)) cs (Ok tt) c' /\ concat cs = bs.
Proof.
  intro H. destruct (does_none _ _ _ _ _ (proj1 (sends_does dyn E) _ _ _ _ _ H)) as [n Hn]. exists n. intros fuel Hf c.
  destruct (Hn fuel Hf c) as [c' Hc]. apply (emits_ext _ _ _ (go_encode dyn fuel (Rv t v))) in Hc.
  - destruct Hc as (cs & H1 & H2). eauto.
  - intros s He _. rewrite go_encode_goEd. now rewrite He.
Qed.
(** To a buffer. *)
Lemma sends_buffer dyn E t v bs : sends dyn E t None LE v bs -> exists n, forall fuel, (n <= fuel)%nat ->
  let '(r, s) := go_encode dyn fuel (Rv t v) (new_encoder E (fun _ => None)) in r = Ok tt /\ e_acc s = bs.
Proof.
  intro H. destruct (sends_go dyn E t v bs H) as [n Hn]. exists n. intros fuel Hf.
  destruct (Hn fuel Hf None) as (cs & c' & H1 & H2). specialize (H1 (fun _ => None) 0 [] []). rewrite play_buffer in H1.
  unfold new_encoder. rewrite H1. split; [reflexivity|]. exact H2.
Qed.

(** * Interfaces that all hold the same type *)
Definition unboxes (dyn : dynamic) (vt : ty) (m m' : list (val * val)) : Prop :=
  Forall2 (fun e e' => fst e = fst e' /\ exists z, snd e = VIface (Some z) /\ dyn z = Some (vt, snd e')) m m'.
Lemma uniform dyn vt m m' E kt fuel s : vt <> TIface -> unboxes dyn vt m m' ->
  goEd dyn E fuel (Rv (TMap kt TIface) (VMap (Some m))) None s = goEd dyn E fuel (Rv (TMap kt vt) (VMap (Some m'))) None s.
Proof.
  intros Hv Hm. destruct fuel as [|fuel]; [now destruct E|]. rewrite !goEd_eq. apply then_same; [reflexivity|]. intro s1.
  unfold flags. cbn [or_default opt0 o_opt o_copt]. rewrite andb_false_r.
  assert (Hk : map fst m = map fst m') by (clear -Hm; induction Hm as [|? ? ? ? [H _] _ IH]; cbn [map]; congruence).
  assert (Hl : zlen m = zlen m') by (unfold zlen; now rewrite <- (map_length fst m), Hk, map_length).
  change (match sort_keys dyn E kt (map fst m) with
      | None => cannot_sort dyn kt (map fst m)
      | Some keys => write_count E (zlen m) ;;; encode_entries dyn (Rv (TMap kt TIface) (VMap (Some m))) (fun x => goEd dyn E fuel x None) keys
      end s1 = match sort_keys dyn E kt (map fst m') with
      | None => cannot_sort dyn kt (map fst m')
      | Some keys => write_count E (zlen m') ;;; encode_entries dyn (Rv (TMap kt vt) (VMap (Some m'))) (fun x => goEd dyn E fuel x None) keys
      end s1).
  rewrite <- Hk, <- Hl. destruct (sort_keys dyn E kt (map fst m)) as [ks|]; [|reflexivity]. apply then_same; [reflexivity|].
  unfold encode_entries. apply each_same. intros k _ s2. apply then_same; [reflexivity|]. intro s3.
  change (match map_index kt m k with Some x => boxed dyn TIface x (fun x => goEd dyn E fuel x None) | None => panic end s3 =
          match map_index kt m' k with Some x => boxed dyn vt x (fun x => goEd dyn E fuel x None) | None => panic end s3).
  unfold map_index. clear -Hm Hv.
  induction Hm as [|[k1 x1] [k2 x2] m m' [H1 (z & H2 & H3)] _ IH]; [reflexivity|]. cbn [fst snd find] in *. subst k2 x1.
  destruct (key_eqb kt k1 k); [|exact IH]. cbn [snd boxed]. rewrite H3. destruct vt; try reflexivity. easy.
Qed.
Theorem uniform_encode dyn kt vt m m' s fuel : vt <> TIface -> unboxes dyn vt m m' ->
  go_type (TMap kt vt) -> fits (TMap kt vt) (VMap (Some m')) -> (3 * ty_size (TMap kt vt) <= fuel)%nat ->
  fst (encode (TMap kt vt) (VMap (Some m')) s) <> Stuck ->
  go_encode dyn fuel (Rv (TMap kt TIface) (VMap (Some m))) s = encode (TMap kt vt) (VMap (Some m')) s.
Proof.
  intros Hv Hm Hg Hf Hn Hs. rewrite <- (go_encode_dyn dyn _ _ _ fuel Hg Hf Hn Hs). rewrite !go_encode_goEd. now apply uniform.
Qed.

(** Keys that all hold the same type. *)
Definition unboxes_keys (dyn : dynamic) (kt : ty) (m m' : list (val * val)) : Prop :=
  Forall2 (fun e e' => (exists z, fst e = VIface (Some z) /\ dyn z = Some (kt, fst e')) /\ snd e = snd e') m m'.
(** Two interfaces are called the same if Go's == on the values says so. *)
Definition well_named (dyn : dynamic) (kt : ty) : Prop :=
  forall z1 z2 x1 x2, dyn z1 = Some (kt, x1) -> dyn z2 = Some (kt, x2) -> key_eqb kt x1 x2 = (z1 =? z2).

Definition holding (dyn : dynamic) (kt : ty) (a b : val) : Prop := exists z, a = VIface (Some z) /\ dyn z = Some (kt, b).
Lemma holding_inside dyn kt a b : holding dyn kt a b -> inside dyn a = Some (kt, b).
Proof. intros (z & -> & H). exact H. Qed.

Lemma insert_rel {A B} (R : A -> B -> Prop) (lt : A -> A -> bool) (lt' : B -> B -> bool) :
  (forall a a' b b', R a a' -> R b b' -> lt a b = lt' a' b') ->
  forall l l', Forall2 R l l' -> forall x x', R x x' -> Forall2 R (insert_sorted lt x l) (insert_sorted lt' x' l').
Proof.
  intros Hlt l l' H. induction H as [|a a' l l' Ha Hr IH]; intros x x' Hx; cbn [insert_sorted]; [auto|].
  rewrite (Hlt x x' a a' Hx Ha). destruct (lt' x' a'); constructor; auto.
Qed.
Lemma isort_rel {A B} (R : A -> B -> Prop) (lt : A -> A -> bool) (lt' : B -> B -> bool) :
  (forall a a' b b', R a a' -> R b b' -> lt a b = lt' a' b') ->
  forall l l', Forall2 R l l' -> Forall2 R (isort lt l) (isort lt' l').
Proof. intros Hlt l l' H. induction H; cbn [isort fold_right]; [constructor|]. apply insert_rel; auto. Qed.

Lemma kind_under t : kind_of (under t) = kind_of t.
Proof. unfold kind_of. induction t; try reflexivity. cbn [under]. exact IHt. Qed.
Lemma class_sorts kt : match class_of kt with
  | Some c => exists lt, key_ltb kt = Some lt /\ forall a b, lt a b = class_ltb c a b
  | None => key_ltb kt = None
  end.
Proof.
  assert (Hs : forall c0 u, match key_ltb_k false u with
    | Some lt => exists c, class_of (TCodec c0 u) = Some c /\ forall a b, lt a b = class_ltb c a b
    | None => class_of (TCodec c0 u) = None end).
  { intros c0 u. induction u as [u IH] using ty_strong_ind. destruct u as [|nm w|nm w|f| |sg| | |t|n t|t|kt' vt|fs|c u|]; cbn [key_ltb_k]; try reflexivity.
    - destruct w; try (eexists; split; [reflexivity|reflexivity]). destruct nm; reflexivity.
    - destruct w; try (eexists; split; [reflexivity|reflexivity]). cbn. rewrite orb_true_r. reflexivity.
    - eexists; split; [reflexivity|reflexivity].
    - eexists; split; [reflexivity|reflexivity].
    - destruct sg; eexists; split; reflexivity.
    - apply (IH u). cbn [ty_size]. lia. }
  destruct kt as [|nm w|nm w|f| |sg| | |t|n t|t|kt' vt|fs|c u|]; try reflexivity.
  - destruct w; try (eexists; split; [reflexivity|reflexivity]). destruct nm; try reflexivity. eexists; split; reflexivity.
  - destruct w; try (eexists; split; [reflexivity|reflexivity]). destruct nm; try reflexivity. eexists; split; reflexivity.
  - eexists; split; reflexivity.
  - eexists; split; reflexivity.
  - destruct sg; eexists; split; reflexivity.
  - specialize (Hs c u). unfold key_ltb. cbn [key_ltb_k].
    destruct (key_ltb_k false u) as [lt|].
    + destruct Hs as (c' & -> & H). eauto.
    + now rewrite Hs.
Qed.

Lemma common_same dyn kt l l' : Forall2 (holding dyn kt) l l' -> l <> [] -> common_class dyn l = Some (class_of kt).
Proof.
  intros H Hl. unfold common_class. destruct H as [|a a' l l' Ha H]; [easy|]. cbn [map]. rewrite (holding_inside _ _ _ _ Ha).
  assert (Hf : forallb (fun p => match p with
    | Some (t', _) => if sort_class_eq_dec (class_of t') (class_of kt) then true else false
    | None => false end) (map (inside dyn) l) = true).
  { induction H as [|b b' l l' Hb _ IH]; [reflexivity|]. cbn [map forallb]. rewrite (holding_inside _ _ _ _ Hb).
    destruct (sort_class_eq_dec _ _); [|easy]. apply IH. easy. }
  now rewrite Hf.
Qed.
Lemma sort_same dyn E kt l l' : kt <> TIface -> Forall2 (holding dyn kt) l l' ->
  match sort_keys dyn E TIface l, sort_keys dyn E kt l' with
  | Some ks, Some ks' => Forall2 (holding dyn kt) ks ks'
  | None, None => cannot_sort dyn TIface l = panic /\ cannot_sort dyn kt l' = panic
  | _, _ => False
  end.
Proof.
  intros Hk H. rewrite (sort_keys_plain dyn E kt) by exact Hk.
  destruct E; [exact H|exact H|].
  destruct H as [|a a' l l' Ha H]; [constructor|]. destruct H as [|b b' l l' Hb H]; [repeat constructor; auto|].
  assert (Hall : Forall2 (holding dyn kt) (a :: b :: l) (a' :: b' :: l')) by auto.
  unfold sort_keys, ordered_keys, cannot_sort. rewrite (common_same _ _ _ _ Hall) by discriminate.
  pose proof (class_sorts kt) as Hc. destruct (class_of kt) as [c|].
  - destruct Hc as (lt & -> & Hlt). apply isort_rel; [|exact Hall]. intros x x' y y' Hx Hy.
    unfold inside_ltb. rewrite (holding_inside _ _ _ _ Hx), (holding_inside _ _ _ _ Hy). symmetry. apply Hlt.
  - rewrite Hc. split; [reflexivity|]. destruct kt; congruence.
Qed.

Lemma each_rel {A B} (R : A -> B -> Prop) (f : A -> EM unit) (g : B -> EM unit) :
  (forall a b, R a b -> forall s, f a s = g b s) -> forall l l', Forall2 R l l' -> forall s, each f l s = each g l' s.
Proof.
  intros Hf l l' H. induction H as [|a b l l' Hab _ IH]; intro s; cbn [each]; [reflexivity|].
  apply then_same; [now apply Hf|]. exact IH.
Qed.

Lemma uniform_keys dyn kt vt m m' E fuel s : kt <> TIface -> well_named dyn kt -> unboxes_keys dyn kt m m' ->
  goEd dyn E fuel (Rv (TMap TIface vt) (VMap (Some m))) None s = goEd dyn E fuel (Rv (TMap kt vt) (VMap (Some m'))) None s.
Proof.
  intros Hv Hw Hm. destruct fuel as [|fuel]; [now destruct E|]. rewrite !goEd_eq. apply then_same; [reflexivity|]. intro s1.
  unfold flags. cbn [or_default opt0 o_opt o_copt]. rewrite andb_false_r.
  assert (Hk : Forall2 (holding dyn kt) (map fst m) (map fst m')).
  { clear -Hm. induction Hm as [|? ? ? ? [H _] _ IH]; cbn [map]; constructor; auto. }
  assert (Hl : zlen m = zlen m') by (unfold zlen; clear -Hm; induction Hm as [|? ? ? ? _ _ IH]; cbn [length]; lia).
  change (match sort_keys dyn E TIface (map fst m) with
      | None => cannot_sort dyn TIface (map fst m)
      | Some keys => write_count E (zlen m) ;;; encode_entries dyn (Rv (TMap TIface vt) (VMap (Some m))) (fun x => goEd dyn E fuel x None) keys
      end s1 = match sort_keys dyn E kt (map fst m') with
      | None => cannot_sort dyn kt (map fst m')
      | Some keys => write_count E (zlen m') ;;; encode_entries dyn (Rv (TMap kt vt) (VMap (Some m'))) (fun x => goEd dyn E fuel x None) keys
      end s1).
  pose proof (sort_same dyn E kt _ _ Hv Hk) as Hsort.
  destruct (sort_keys dyn E TIface (map fst m)) as [ks|], (sort_keys dyn E kt (map fst m')) as [ks'|]; try easy.
  2: { destruct Hsort as [-> ->]. reflexivity. }
  rewrite <- Hl. apply then_same; [reflexivity|]. unfold encode_entries. apply (each_rel (holding dyn kt)); [|exact Hsort].
  intros k k' (z & -> & Hz) s2. apply then_same.
  - change (boxed dyn TIface (VIface (Some z)) (fun x => goEd dyn E fuel x None) s2 = boxed dyn kt k' (fun x => goEd dyn E fuel x None) s2).
    cbn [boxed]. rewrite Hz. destruct kt; try reflexivity. easy.
  - intro s3.
    change (match map_index TIface m (VIface (Some z)) with Some x => boxed dyn vt x (fun x => goEd dyn E fuel x None) | None => panic end s3 =
            match map_index kt m' k' with Some x => boxed dyn vt x (fun x => goEd dyn E fuel x None) | None => panic end s3).
    assert (Hi : map_index TIface m (VIface (Some z)) = map_index kt m' k'); [|now rewrite Hi].
    unfold map_index. clear -Hm Hw Hz.
    induction Hm as [|[k1 x1] [k2 x2] m m' [(z1 & H1 & H2) H3] _ IH]; [reflexivity|]. cbn [fst snd find] in *. subst k1 x1.
    rewrite (Hw z1 z k2 k' H2 Hz). cbn [key_eqb]. destruct (z1 =? z); [reflexivity|exact IH].
Qed.
Theorem uniform_keys_encode dyn kt vt m m' s fuel : kt <> TIface -> well_named dyn kt -> unboxes_keys dyn kt m m' ->
  go_type (TMap kt vt) -> fits (TMap kt vt) (VMap (Some m')) -> (3 * ty_size (TMap kt vt) <= fuel)%nat ->
  fst (encode (TMap kt vt) (VMap (Some m')) s) <> Stuck ->
  go_encode dyn fuel (Rv (TMap TIface vt) (VMap (Some m))) s = encode (TMap kt vt) (VMap (Some m')) s.
Proof.
  intros Hv Hw Hm Hg Hf Hn Hs. rewrite <- (go_encode_dyn dyn _ _ _ fuel Hg Hf Hn Hs). rewrite !go_encode_goEd. now apply uniform_keys.
Qed.

(** * A map that contains itself *)
Definition knot (z k : Z) : val := VMap (Some [(VNum k, VIface (Some z))]).
Definition knot_type : ty := TMap (TUint UPlain W8) TIface.
Lemma knot_run dyn z k E : dyn z = Some (knot_type, knot z k) -> forall fuel c n h a,
  exists s, goEd dyn E fuel (Rv knot_type (knot z k)) None (mkE E (fun _ => None) c n h a) = (Stuck, s) /\
    zlen a + Z.of_nat fuel <= zlen (e_acc s).
Proof.
  intro Hd. induction fuel as [|fuel IH]; intros c n h a.
  - eexists. split; [now destruct E|]. cbn. lia.
  - rewrite goEd_eq. cbn [or_default opt0 o_order]. unfold flags. cbn [o_opt o_copt]. rewrite andb_false_r.
    change (exists s, (e_set_cur LE ;;; match sort_keys dyn E (TUint UPlain W8) [VNum k] with
      | None => cannot_sort dyn (TUint UPlain W8) [VNum k]
      | Some keys => write_count E 1 ;;; encode_entries dyn (Rv knot_type (knot z k)) (fun x => goEd dyn E fuel x None) keys
      end) (mkE E (fun _ => None) c n h a) = (Stuck, s) /\ zlen a + Z.of_nat (S fuel) <= zlen (e_acc s)).
    replace (sort_keys dyn E (TUint UPlain W8) [VNum k]) with (Some [VNum k]) by (now destruct E).
    destruct (emits_write_count E (Some LE) 1) as (cs & Hc & Hb); [destruct E; cbn; lia|].
    specialize (Hc (fun _ => None) n h a). rewrite play_buffer in Hc. 
    change (exists s, (write_count E 1 ;;; encode_entries dyn (Rv knot_type (knot z k)) (fun x => goEd dyn E fuel x None) [VNum k])
      (mkE E (fun _ => None) (Some LE) n h a) = (Stuck, s) /\ zlen a + Z.of_nat (S fuel) <= zlen (e_acc s)).
    unfold bind. rewrite Hc.
    set (n1 := n + _). clearbody n1. set (h1 := h ++ _). clearbody h1.
    assert (Hlen : 1 <= zlen (concat cs)) by (rewrite Hb; destruct E; vm_compute; congruence).
    set (a1 := a ++ concat cs). assert (Ha : zlen a + 1 <= zlen a1) by (unfold a1; rewrite zlen_app; lia). clearbody a1.
    unfold encode_entries. cbn [each]. unfold bind.
    change (boxed dyn (key_type (rv_type (Rv knot_type (knot z k)))) (VNum k) (fun x => goEd dyn E fuel x None))
      with (goEd dyn E fuel (Rv (TUint UPlain W8) (VNum k)) None).
    destruct fuel as [|fuel].
    + eexists. split; [now destruct E|]. cbn [e_acc]. change (Z.of_nat 1) with 1. now destruct E.
    + assert (Hk : exists n2 h2 a2 c2, goEd dyn E (S fuel) (Rv (TUint UPlain W8) (VNum k)) None (mkE E (fun _ => None) (Some LE) n1 h1 a1) =
        (Ok tt, mkE E (fun _ => None) c2 n2 h2 a2) /\ zlen a1 <= zlen a2).
      { clear. destruct E; rewrite goEd_eq; do 4 eexists; (split; [reflexivity|]); cbn [e_acc]; rewrite zlen_app;
          match goal with |- _ <= _ + zlen ?x => pose proof (zlen_nonneg x) end; lia. }
      destruct Hk as (n2 & h2 & a2 & c2 & Hk & Ha2). rewrite Hk.
      replace (map_index (key_type (rv_type (Rv knot_type (knot z k)))) (rv_entries (Rv knot_type (knot z k))) (VNum k))
        with (Some (VIface (Some z))) by (unfold map_index, rv_entries, knot; cbn [rv_type knot_type key_type under rv_val find fst key_eqb]; rewrite Z.eqb_refl; reflexivity).
      change (boxed dyn (elem_type (rv_type (Rv knot_type (knot z k)))) (VIface (Some z)) (fun x => goEd dyn E (S fuel) x None))
        with (match dyn z with Some (t', v') => goEd dyn E (S fuel) (Rv t' v') None | None => stuck end). rewrite Hd.
      destruct (IH c2 n2 h2 a2) as (s & Hs & Hz). rewrite Hs. exists s. split; [reflexivity|]. lia.
Qed.
Theorem knot_forever dyn z k E fuel : dyn z = Some (knot_type, knot z k) ->
  let '(r, s) := go_encode dyn fuel (Rv knot_type (knot z k)) (new_encoder E (fun _ => None)) in
  r = Stuck /\ Z.of_nat fuel <= zlen (e_acc s).
Proof.
  intro Hd. rewrite go_encode_goEd. cbn [e_enc new_encoder]. unfold new_encoder.
  destruct (knot_run dyn z k E Hd fuel None 0 [] []) as (s & Hs & Hz). cbn [e_enc]. rewrite Hs. split; [reflexivity|exact Hz].
Qed.
