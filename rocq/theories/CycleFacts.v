(** Facts for C88. *)
From Coq Require Import String Permutation.
From Verif Require Import Types EncPrim Enc Spec NumFacts TyInd KeyEq EncFacts EncWire MapFacts GoEncFacts WriteSpec WriteFacts RecSpec Builtin Dec RecEncEnds CycleSpec.
Notation length := Datatypes.length.

Definition never (m : EM unit) : Prop := forall s, fst (m s) <> Ok tt.
Lemma never_then {A} (m : EM A) k : (forall a, never (k a)) -> never (bind m k).
Proof. intros H s. unfold bind. destruct (m s) as [[a|e| | |] s1]; try discriminate. apply H. Qed.
Lemma never_first m (k : unit -> EM unit) : never m -> never (bind m k).
Proof. intros H s. unfold bind. specialize (H s). destruct (m s) as [[[]|e| | |] s1]; try discriminate. now cbn [fst] in H. Qed.
Lemma never_map_err f m : never m -> never (map_err f m).
Proof. intros H s. unfold map_err. specialize (H s). destruct (m s) as [[[]|e| | |] s1]; try discriminate. exact H. Qed.
Lemma never_each {A} (f : A -> EM unit) l x : In x l -> never (f x) -> never (each f l).
Proof.
  intros Hin Hx. induction l as [|y l IH]; [destruct Hin|]. cbn [each]. destruct Hin as [->|Hin]; [now apply never_first|].
  apply never_then. intros _. now apply IH.
Qed.

Definition avoids (E : encoding) (t : ty) (v : val) : Prop :=
  (forall o, o_size o = None -> (o_opt o = true \/ is_borsh E && o_copt o = true -> is_zero v = false) -> never (enc_val E t (EFull o) v)) /\
  match t with TStruct _ | TDeep => never (enc_val E t EPayload v) | _ => True end.
Lemma avoids_core E t v o : (o_opt o = true \/ is_borsh E && o_copt o = true -> is_zero v = false) ->
  never (enc_core E t o v) -> never (enc_val E t (EFull o) v).
Proof.
  intros Hz H. rewrite enc_full_eq. apply never_then. intros _. unfold flags. cbv zeta.
  assert (R : never (if is_borsh E && o_copt o then if is_zero v then write_coption false else write_coption true ;;; enc_core E t o v else enc_core E t o v)).
  { destruct (is_borsh E && o_copt o) eqn:Ec; [|exact H]. rewrite (Hz (or_intror eq_refl)). apply never_then. intros _. exact H. }
  destruct (o_opt o) eqn:Eo; [|exact R]. rewrite (Hz (or_introl eq_refl)) in R |- *. apply never_then. intros _. exact R.
Qed.
Lemma avoids_deep E v : avoids E TDeep v.
Proof.
  split; [|rewrite enc_payload_eq; now intros s]. intros o _ Hz. apply avoids_core; [exact Hz|]. now intros s.
Qed.

Lemma never_fields E fs i h t x : nth_error fs i = Some (h, t) -> f_exported h = true -> ft_skip (parse_field_tag (f_tag h)) = false ->
  (ft_option (parse_field_tag (f_tag h)) = true \/ ft_coption (parse_field_tag (f_tag h)) = true -> is_zero x = false) ->
  avoids E t x -> uncounted fs (f_name h) ->
  forall vs sizes, nth_error vs i = Some x -> sm_get sizes (f_name h) = None ->
  never (enc_fields E (fun t' o' v' => enc_val E t' (EFull o') v') fs vs sizes).
Proof.
  intros Hi Hx Hs Hz [Ha _]. revert i Hi. induction fs as [|[h1 t1] fs IH]; intros i Hi Hu vs sizes Hv Hg; [destruct i; discriminate|].
  destruct vs as [|v vs]; [destruct i; discriminate|]. cbn [enc_fields]. cbv zeta.
  assert (Hu' : uncounted fs (f_name h)) by (intros h' t' Hin; apply (Hu h' t'); now right).
  destruct i as [|i]; cbn [nth_error] in Hi, Hv.
  - injection Hi as -> ->. injection Hv as ->. rewrite Hs, Hx. cbn [negb].
    assert (G : forall z, sm_get z (f_name h) = None -> never (map_err EWrap (enc_val E t (EFull (field_opt E (parse_field_tag (f_tag h)) (f_name h) z)) x) ;;;
      enc_fields E (fun t' o' v' => enc_val E t' (EFull o') v') fs vs z)).
    { intros z Hgz. apply never_first, never_map_err, Ha; unfold field_opt; cbn [o_size o_opt o_copt]; [exact Hgz|].
      intros [H|H]; apply Hz; [now left|right]. destruct (is_borsh E); [exact H|discriminate]. }
    destruct (String.eqb (ft_sizeof (parse_field_tag (f_tag h))) "") eqn:E0; [now apply G|].
    destruct (sizeof_val t x); [|now intros s]. apply G. cbn [sm_get].
    destruct (String.eqb_spec (ft_sizeof (parse_field_tag (f_tag h))) (f_name h)) as [Eq|_]; [|exact Hg].
    exfalso. exact (Hu h t (or_introl eq_refl) Eq).
  - destruct (ft_skip (parse_field_tag (f_tag h1))); [now apply (IH i)|].
    assert (G : forall z, sm_get z (f_name h) = None -> never (if negb (f_exported h1) then enc_fields E (fun t' o' v' => enc_val E t' (EFull o') v') fs vs z
      else map_err EWrap (enc_val E t1 (EFull (field_opt E (parse_field_tag (f_tag h1)) (f_name h1) z)) v) ;;;
      enc_fields E (fun t' o' v' => enc_val E t' (EFull o') v') fs vs z)).
    { intros z Hgz. destruct (negb (f_exported h1)); [now apply (IH i)|]. apply never_then. intros _. now apply (IH i). }
    destruct (String.eqb (ft_sizeof (parse_field_tag (f_tag h1))) "") eqn:E0; [now apply G|].
    destruct (sizeof_val t1 v); [|now intros s]. apply G. cbn [sm_get].
    destruct (String.eqb_spec (ft_sizeof (parse_field_tag (f_tag h1))) (f_name h)) as [Eq|_]; [|exact Hg].
    exfalso. exact (Hu h1 t1 (or_introl eq_refl) Eq).
Qed.

Lemma never_variant fs vs n h t x (f : fhdr -> ty -> val -> EM unit) d b : nth_error fs n = Some (h, t) -> nth_error vs n = Some x ->
  never (f h t x) -> never (nth_field f d b fs vs n).
Proof.
  revert fs vs. induction n as [|n IH]; intros [|[h1 t1] fs] [|v vs]; try discriminate; cbn [nth_error nth_field].
  - intros [= -> ->] [= ->]. auto.
  - apply IH.
Qed.

Lemma ordered_has E kt ks ks' k : ordered_keys E kt ks = Some ks' -> In k ks -> In k ks'.
Proof.
  unfold ordered_keys. destruct E; try (intros [= <-]; auto).
  destruct ks as [|k1 [|k2 ks]]; try (intros [= <-]; auto). destruct (key_ltb kt) as [lt|]; [|discriminate]. intro Hs. assert (ks' = isort lt (k1 :: k2 :: ks)) as -> by congruence.
  generalize (k1 :: k2 :: ks). clear. intro l. induction l as [|a l IH]; cbn [isort fold_right]; [auto|].
  change (fold_right (insert_sorted lt) [] l) with (isort lt l).
  assert (H : forall r, In k (a :: r) -> In k (insert_sorted lt a r)).
  { induction r as [|b r IHr]; [auto|]. cbn [insert_sorted]. destruct (lt a b); [auto|]. intros [->|[->|H]]; [right; apply IHr; now left|now left|right; apply IHr; now right]. }
  intros [->|Hin]; apply H; [now left|right; auto].
Qed.
Lemma index_own kt m k x : distinct kt (map fst m) -> In (k, x) m -> map_index kt m k = Some x \/ map_index kt m k = None.
Proof.
  unfold map_index. intros Hd Hin. destruct (find (fun e => key_eqb kt (fst e) k) m) as [[k' x']|] eqn:Ef; [left|now right].
  apply find_some in Ef. destruct Ef as [Hin' Hk]. cbn [fst snd] in *. f_equal. unfold distinct in Hd.
  induction m as [|[k1 x1] m IH]; [destruct Hin|]. cbn [map fst] in Hd. inversion_clear Hd as [|? ? H1 H2]. rewrite Forall_forall in H1.
  destruct Hin as [Ea|Hin], Hin' as [Eb|Hin'].
  - congruence.
  - injection Ea as -> ->. destruct (H1 k') as [_ H]; [exact (in_map fst _ _ Hin')|]. congruence.
  - injection Eb as -> ->. destruct (H1 k) as [H _]; [exact (in_map fst _ _ Hin)|]. congruence.
  - now apply IH.
Qed.

Lemma leads_avoids E t v t' v' : leads E t v t' v' -> avoids E t' v' -> avoids E t v.
Proof.
  intros Hl Ha. destruct Hl as [t x Hc|c u v Hc|n t l x Hk Hin|t l x Hk Hin|kt vt m k x Hd Hin|fs vs i h t x He Hi Hv Hx Hs Hu Hz|fs z vs h t x -> He Hi Hv Hx Ht].
  - split; [|exact I]. intros o Ho Hz. apply avoids_core; [exact Hz|]. cbn [enc_core].
    replace (ptr_codec t) with (@None (codec * (val -> EM unit))).
    2: { unfold ptr_codec, codec_of. destruct t; try reflexivity. now rewrite (Hc _ _ eq_refl). }
    destruct Ha as [Ha _]. destruct E; apply Ha; auto; cbn [cut_opt o_opt o_copt opt0]; intros [H|H]; rewrite ?andb_false_r in H; discriminate.
  - split; [|exact I]. intros o Ho Hz. apply avoids_core; [exact Hz|]. cbn [enc_core]. destruct Ha as [Ha _].
    assert (G : never (enc_val E u (EFull (cut_opt o)) v)).
    { apply Ha; [exact Ho|]. cbn [cut_opt o_opt o_copt]. intros [H|H]; rewrite ?andb_false_r in H; discriminate. }
    destruct (c_marshal c), (c_byval c); auto. destruct Hc; discriminate.
  - split; [|exact I]. intros o Ho Hz. apply avoids_core; [exact Hz|]. cbn [enc_core]. rewrite Hk. apply (never_each _ l x Hin).
    apply Ha; [reflexivity|]. cbn [opt0 o_opt o_copt]. intros [H|H]; rewrite ?andb_false_r in H; discriminate.
  - split; [|exact I]. intros o Ho Hz. apply avoids_core; [exact Hz|]. cbn [enc_core]. rewrite Ho, Hk. cbv zeta. apply never_then. intros _.
    apply never_first. unfold zlen. rewrite Nat2Z.id, firstn_all. apply (never_each _ l x Hin).
    apply Ha; [reflexivity|]. cbn [opt0 o_opt o_copt]. intros [H|H]; rewrite ?andb_false_r in H; discriminate.
  - split; [|exact I]. intros o Ho Hz. apply avoids_core; [exact Hz|]. cbn [enc_core]. cbv zeta.
    destruct (ordered_keys E kt (map fst m)) as [ks|] eqn:Ek; [|destruct kt; now intros s]. apply never_then. intros _.
    unfold enc_map. apply (never_each _ ks k); [apply (ordered_has _ _ _ _ _ Ek); exact (in_map fst _ _ Hin)|].
    destruct (negb (iface_elem kt k)); [now intros s|]. apply never_then. intros _.
    destruct (index_own kt m k x Hd Hin) as [-> | ->]; [|now intros s]. destruct (negb (iface_elem vt x)); [now intros s|].
    apply Ha; [reflexivity|]. cbn [opt0 o_opt o_copt]. intros [H|H]; rewrite ?andb_false_r in H; discriminate.
  - assert (G : never (enc_struct E fs vs)).
    { unfold enc_struct. destruct (is_borsh E && is_enum fs) eqn:Ee.
      - exfalso. destruct E; try discriminate. rewrite (He eq_refl) in Ee. discriminate.
      - now apply (never_fields E fs i h t x Hi Hx Hs Hz Ha Hu). }
    split; [|rewrite enc_payload_eq; exact G]. intros o Ho Hz'. apply avoids_core; [exact Hz'|]. exact G.
  - assert (G : never (enc_struct Borsh fs (VNum z :: vs))).
    { unfold enc_struct. rewrite He. cbn [is_borsh andb]. apply never_then. intros _.
      apply (never_variant fs (VNum z :: vs) _ h (TPtr t) (VPtr (Some x)) _ _ _ Hi Hv). rewrite Hx. cbn [negb].
      destruct Ha as [_ Ha]. destruct t; try destruct Ht; exact Ha. }
    split; [|rewrite enc_payload_eq; exact G]. intros o Ho Hz'. apply avoids_core; [exact Hz'|]. exact G.
Qed.
Lemma reaches_avoids E t v t' v' : reaches E t v t' v' -> avoids E t' v' -> avoids E t v.
Proof. induction 1 as [|t v t1 v1 t2 v2 Hl Hr IH]; [auto|]. intro Ha. apply (leads_avoids E t v t1 v1 Hl). now apply IH. Qed.
Lemma reaches_trans E t v t1 v1 t2 v2 : reaches E t v t1 v1 -> reaches E t1 v1 t2 v2 -> reaches E t v t2 v2.
Proof. induction 1; [auto|]. intro H'. eapply r_on; [eassumption|]. auto. Qed.

Theorem deep_avoids E t v v' s : e_enc s = E -> reaches E t v TDeep v' -> fst (encode t v s) <> Ok tt.
Proof.
  intros <- Hr. unfold encode, e_get_enc, bind. apply (reaches_avoids _ _ _ _ _ Hr (avoids_deep _ _)); [reflexivity|].
  cbn [opt0 o_opt o_copt]. intros [H|H]; rewrite ?andb_false_r in H; discriminate.
Qed.
Lemma again_reaches E F G n x : contains_itself E F G -> reaches E (unroll F n) (again G n x) TDeep x.
Proof.
  intro H. induction n as [|n IH]; cbn [unroll again]; [constructor|]. eapply reaches_trans; [|exact IH]. apply H.
  destruct n as [|n]; [now left|right]. now exists (unroll F n).
Qed.

(** * A ring of one *)
Definition ring_of (z : Z) (x : val) : val := VStruct [VNum z; VPtr (Some x)].
Lemma ring_deep E z x n : forall o s, o_opt o = false -> o_copt o = false -> e_w s = buffer ->
  exists s', enc_val E (unroll chain n) (EFull o) (again (ring_of z) n x) s = (Deep, s') /\
    e_acc s' = e_acc s ++ repeat (z mod 256) n.
Proof.
  induction n as [|n IH]; intros o s Ho Hc Hw.
  - cbn [unroll]. rewrite enc_full_eq. unfold flags. rewrite Ho, Hc, andb_false_r. eexists. split; [reflexivity|]. cbn [e_acc repeat]. now rewrite app_nil_r.
  - cbn [unroll chain plug map fst snd again].
    change (ring_of z (again (ring_of z) n x)) with (VStruct [VNum z; VPtr (Some (again (ring_of z) n x))]). rewrite enc_full_eq. unfold flags. rewrite Ho, Hc, andb_false_r.
    unfold bind at 1, e_set_cur. cbn [enc_core]. unfold enc_struct. replace (is_borsh E && is_enum _) with false by (now destruct E). cbn [enc_fields].
    assert (Ht : forall nm, parse_field_tag (f_tag (mkF nm true notag)) = mkFT EmptyString false LE false false false false) by reflexivity.
    rewrite !Ht. cbn [ft_skip ft_sizeof String.eqb f_exported negb].
    assert (Hfo : forall nm, field_opt E (mkFT EmptyString false LE false false false false) nm [] = opt0) by (intro; now destruct E).
    rewrite !Hfo.
    unfold bind, map_err. rewrite ?enc_full_eq. unfold flags. cbn [opt0 o_opt o_copt o_order]. rewrite !andb_false_r. cbn [enc_core write_int].
    unfold bind, e_set_cur, write_byte, to_writer. cbn [e_w e_hist e_count e_enc e_cur e_acc]. rewrite Hw.
    unfold buffer at 1. cbn [e_w e_hist e_count e_enc e_cur e_acc].
    assert (Hp : ptr_codec (unroll chain n) = None) by (now destruct n). rewrite Hp.
    set (s1 := mkE _ _ _ _ _ _).
    assert (Hz : forall o', o_opt o' = false -> o_copt o' = false -> exists s', enc_val E (unroll chain n) (EFull o') (again (ring_of z) n x) s1 = (Deep, s') /\
      e_acc s' = e_acc s1 ++ repeat (z mod 256) n) by (intros o' Ho' Hc'; now apply IH).
    assert (Hb : exists s', (match E with Borsh => enc_val E (unroll chain n) (EFull opt0) (again (ring_of z) n x)
      | _ => enc_val E (unroll chain n) (EFull (cut_opt opt0)) (again (ring_of z) n x) end) s1 = (Deep, s') /\ e_acc s' = e_acc s1 ++ repeat (z mod 256) n)
      by (destruct E; now apply Hz).
    destruct Hb as (s' & H1 & H2). rewrite H1. eexists. split; [reflexivity|].
    rewrite H2. subst s1. cbn [e_acc repeat]. now rewrite <- app_assoc.
Qed.
Lemma ring_bytes E n z x : is_byte z -> marshal E (unroll chain n) (again (ring_of z) n x) = (Deep, repeat z n).
Proof.
  intro Hz. unfold marshal, encode, bind, e_get_enc. cbn [e_enc new_encoder].
  destruct (ring_deep E z x n opt0 (new_encoder E buffer) eq_refl eq_refl eq_refl) as (s' & H1 & H2). rewrite H1. f_equal. rewrite H2.
  cbn [e_acc new_encoder app]. unfold is_byte in Hz. now rewrite Z.mod_small by lia.
Qed.
