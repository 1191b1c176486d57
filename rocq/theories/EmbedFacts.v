(** Structs with embedded fields: proofs (C80). *)
From Verif Require Import Types EncPrim DecPrim Enc Dec Builtin Spec NumFacts Embed EmbedSpec.

Definition ptr_of (m : mode) : option bool := match m with Named => None | Embedded => Some false | Pointed => Some true end.

Lemma below_in f : forall fs i p c, In (p, c) (below f i fs) <->
  exists j m b h d q, nth_error fs j = Some (m, h, d) /\ ptr_of m = Some b /\ p = ((i + j)%nat, b) :: q /\ In (q, c) (f d).
Proof.
  assert (Hs : forall i b d p c, In (p, c) (step f i b d) <-> exists q, p = (i, b) :: q /\ In (q, c) (f d)).
  { intros i b d p c. unfold step. rewrite in_map_iff. split.
    - intros ([q c'] & Heq & Hin). cbn [fst snd] in Heq. injection Heq as <- <-. eauto.
    - intros (q & -> & Hin). exists (q, c). auto. }
  induction fs as [|[[e h] d] fs IH]; intros i p c; cbn [below].
  - split; [easy|]. intros (j & m & b & h & d & q & H & _). now destruct j.
  - rewrite in_app_iff, IH. split.
    + intros [H|(j & m & b & h' & d' & q & H1 & H2 & H3 & H4)].
      * destruct e; [easy| |]; apply Hs in H as (q & -> & Hin).
        -- exists O, Embedded, false, h, d, q. rewrite Nat.add_0_r. auto.
        -- exists O, Pointed, true, h, d, q. rewrite Nat.add_0_r. auto.
      * exists (S j), m, b, h', d', q. rewrite Nat.add_succ_r. auto.
    + intros (j & m & b & h' & d' & q & H1 & H2 & H3 & H4). destruct j as [|j].
      * cbn [nth_error] in H1. injection H1 as -> -> ->. left. rewrite Nat.add_0_r in H3. subst p.
        destruct m; [discriminate| |]; injection H2 as <-; apply Hs; eauto.
      * right. exists j, m, b, h', d', q. rewrite Nat.add_succ_r in H3. auto.
Qed.
Lemma at_depth_reaches has n : forall d p c, In (p, c) (at_depth has n d) <-> reaches has n d p c.
Proof.
  induction n as [|n IH]; intros d p c; cbn [at_depth].
  - destruct d as [c' t|t|fs].
    + destruct (has c') eqn:Eh.
      * split; [intros [[= <- <-]|[]]; now constructor|]. intro H. inversion H; subst. now left.
      * split; [easy|]. intro H. inversion H; subst. congruence.
    + split; [easy|intro H; inversion H].
    + split; [easy|intro H; inversion H].
  - destruct d as [c' t|t|fs]; try (split; [easy|intro H; inversion H]).
    rewrite below_in. split.
    + intros (j & m & b & h & d & q & H1 & H2 & -> & H3). cbn [Nat.add].
      destruct m; [discriminate| |]; injection H2 as <-.
      * apply (reach_field has n fs j h d); [exact H1|now apply IH].
      * apply (reach_pointer has n fs j h d); [exact H1|now apply IH].
    + intro H. inversion H as [|n' fs' j h d q c' H1 H2|n' fs' j h d q c' H1 H2]; subst.
      * exists j, Embedded, false, h, d, q. repeat split; [exact H1|now apply IH].
      * exists j, Pointed, true, h, d, q. repeat split; [exact H1|now apply IH].
Qed.
Lemma NoDup_app' {A} (l r : list A) : NoDup l -> NoDup r -> (forall x, In x l -> ~ In x r) -> NoDup (l ++ r).
Proof.
  induction 1 as [|x l Hx Hl IH]; intros Hr Hd; [exact Hr|]. cbn [app]. constructor.
  - rewrite in_app_iff. intros [H|H]; [easy|]. now apply (Hd x (or_introl eq_refl)).
  - apply IH; [exact Hr|]. intros y Hy. apply Hd. now right.
Qed.
Lemma below_nodup f fs : (forall e h d, In (e, h, d) fs -> NoDup (map fst (f d))) -> forall i, NoDup (map fst (below f i fs)).
Proof.
  assert (Hs : forall i b d, NoDup (map fst (f d)) -> NoDup (map fst (step f i b d))).
  { intros i b d H. unfold step. rewrite map_map. cbn [fst].
    induction (f d) as [|[q c] l IHl]; [constructor|]. cbn [map fst] in *. inversion_clear H as [|? ? H1 H2]. constructor; [|auto].
    intro Hin. apply in_map_iff in Hin as ([q' c'] & [= ->] & Hin). apply H1. apply in_map_iff. now exists (q, c'). }
  assert (Hf : forall i b d p, In p (map fst (step f i b d)) -> exists q, p = (i, b) :: q).
  { intros i b d p H. apply in_map_iff in H as ([r c'] & <- & Hin). apply in_map_iff in Hin as ([r' c''] & [= <- <-] & _). cbn [fst]. eauto. }
  induction fs as [|[[e h] d] fs IH]; intros H i; cbn [below]; [constructor|]. rewrite map_app. apply NoDup_app'.
  - specialize (H e h d (or_introl eq_refl)). destruct e; [constructor| |]; now apply Hs.
  - apply IH. intros e' h' d' Hin. apply (H e' h' d'). now right.
  - intros p Hp Hq. apply in_map_iff in Hq as ([q c] & <- & Hq). apply below_in in Hq as (j & _ & b & _ & _ & q' & _ & _ & -> & _).
    cbn [fst] in Hp. destruct e; [easy| |]; apply Hf in Hp as (q0 & Heq); injection Heq as Heq _ _; lia.
Qed.
Lemma at_depth_nodup has n : forall d, NoDup (map fst (at_depth has n d)).
Proof.
  induction n as [|n IH]; intros d; cbn [at_depth].
  - destruct d; try constructor. destruct (has c); repeat constructor. easy.
  - destruct d; try constructor. apply below_nodup. intros. apply IH.
Qed.
Lemma reaches_height has n d p c : reaches has n d p c -> (n < height d)%nat.
Proof.
  assert (Hh : forall fs i m h d n, nth_error fs i = Some (m, h, d) -> (n < height d)%nat -> (S n < height (DStruct fs))%nat).
  { clear. intros fs i m h d n Hi IH. cbn [height]. apply nth_error_In in Hi.
    apply -> Nat.succ_lt_mono. eapply Nat.lt_le_trans; [exact IH|].
    clear IH. induction fs as [|f fs IHf]; [easy|]. cbn [fold_right]. destruct Hi as [->|Hi]; [cbn [snd]; lia|]. specialize (IHf Hi). lia. }
  induction 1 as [c t Hc|n fs i h d p c Hi _ IH|n fs i h d p c Hi _ IH]; [cbn; lia| |]; eapply Hh; eauto.
Qed.
Lemma selected_spec has d : forall k n p c, selected has k n d = Some (p, c) <->
  exists m, (n <= m < n + k)%nat /\ at_depth has m d = [(p, c)] /\ forall j, (n <= j < m)%nat -> at_depth has j d = [].
Proof.
  induction k as [|k IH]; intros n p c; cbn [selected].
  - split; [easy|]. intros (m & H & _). lia.
  - destruct (at_depth has n d) as [|x [|y l]] eqn:Ea.
    + rewrite IH. split; intros (m & H1 & H2 & H3).
      * exists m. split; [lia|]. split; [exact H2|]. intros j Hj. destruct (Nat.eq_dec j n) as [->|]; [exact Ea|apply H3; lia].
      * destruct (Nat.eq_dec m n) as [->|]; [congruence|]. exists m. split; [lia|]. split; [exact H2|]. intros j Hj. apply H3. lia.
    + split.
      * intros [= ->]. exists n. split; [lia|]. split; [exact Ea|lia].
      * intros (m & H1 & H2 & H3). destruct (Nat.eq_dec m n) as [->|]; [congruence|]. rewrite (H3 n) in Ea by lia. discriminate.
    + split; [easy|]. intros (m & H1 & H2 & H3). destruct (Nat.eq_dec m n) as [->|]; [congruence|]. rewrite (H3 n) in Ea by lia. discriminate.
Qed.
Lemma promoted_rule has d p c : promoted has d = Some (p, c) <-> the_method has d p c.
Proof.
  unfold promoted, the_method. rewrite selected_spec. split.
  - intros (n & _ & H2 & H3). exists n. split; [apply at_depth_reaches; rewrite H2; now left|]. split.
    + intros p' c' H. apply at_depth_reaches in H. rewrite H2 in H. destruct H as [[= <- <-]|[]]. auto.
    + intros m p' c' Hm H. apply at_depth_reaches in H. rewrite (H3 m) in H by lia. exact H.
  - intros (n & H1 & H2 & H3). exists n. pose proof (reaches_height _ _ _ _ _ H1). split; [lia|]. split.
    + pose proof (at_depth_nodup has n d) as Hn. apply at_depth_reaches in H1. pose proof (fun p' c' => proj1 (at_depth_reaches has n d p' c')) as Hr.
      destruct (at_depth has n d) as [|[p1 c1] [|[p2 c2] l]]; [destruct H1| |].
      * destruct (H2 _ _ (Hr p1 c1 (or_introl eq_refl))) as [-> ->]. reflexivity.
      * destruct (H2 _ _ (Hr p1 c1 (or_introl eq_refl))) as [-> _]. destruct (H2 _ _ (Hr p2 c2 (or_intror (or_introl eq_refl)))) as [-> _].
        cbn [map fst] in Hn. inversion_clear Hn as [|? ? Hx _]. destruct Hx. now left.
    + intros j Hj. destruct (at_depth has j d) as [|[p' c'] l] eqn:Ea; [reflexivity|]. destruct (H3 j p' c' ltac:(lia)).
      apply at_depth_reaches. rewrite Ea. now left.
Qed.

Lemma the_method_has has d p c : the_method has d p c -> has c = true.
Proof. intros (n & H & _). induction H; auto. Qed.

(** Encoding: only the field with the method. *)
Lemma enc_codec E c u o v s f : c_marshal c = Some f -> c_byval c = true -> o_opt o = false -> o_copt o = false ->
  enc_val E (TCodec c u) (EFull o) v s = (e_set_cur (o_order o) ;;; f v) s.
Proof. intros Hf Hb H1 H2. cbn [enc_val]. rewrite Hf, Hb, H1, H2. rewrite andb_false_r. reflexivity. Qed.
Lemma nth_replaced vs : forall i z w, nth_error vs i = Some z -> nth_error (replace_nth vs i w) i = Some w.
Proof. induction vs as [|v vs IH]; intros [|i] z w Ei; try discriminate; cbn [replace_nth nth_error] in *; eauto. Qed.
Lemma find_put p : forall v x y, find p v = At x -> find p (put p v y) = At y.
Proof.
  induction p as [|[i b] p IH]; intros v x y H; [reflexivity|]. cbn [find put] in *.
  destruct v as [| | | | | | | |vs| |]; try discriminate. destruct (nth_error vs i) as [z|] eqn:Ei; [|discriminate]. cbn [find].
  rewrite (nth_replaced vs i z _ Ei). destruct b; [|exact (IH z x y H)].
  destruct z as [| | | |[z|]| | | | | |]; try discriminate; [exact (IH z x y H)|destruct p; discriminate].
Qed.
Lemma nth_replace vs : forall i j w, i <> j -> nth_error (replace_nth vs i w) j = nth_error vs j.
Proof. induction vs as [|v vs IH]; intros [|i] [|j] w H; try easy. cbn [replace_nth nth_error]. apply IH. congruence. Qed.
Lemma find_put_apart p q : apart p q -> forall v y, find q (put p v y) = find q v.
Proof.
  induction 1 as [i j b c p q Hij|i b p q _ IH]; intros v y; cbn [find put].
  - destruct v as [| | | | | | | |vs| |]; try reflexivity. destruct (nth_error vs i) eqn:Ei; [|reflexivity]. cbn [find]. now rewrite nth_replace.
  - destruct v as [| | | | | | | |vs| |]; try reflexivity. destruct (nth_error vs i) as [z|] eqn:Ei; [|cbn [find]; now rewrite Ei]. cbn [find].
    rewrite (nth_replaced vs i z _ Ei). destruct b; [|apply IH]. destruct z as [| | | |[z|]| | | | | |]; try reflexivity. apply IH.
Qed.
Lemma pointing_spec p : existsb snd p = true <-> pointing p.
Proof.
  rewrite existsb_exists. unfold pointing. split.
  - intros ([i b] & H & Hb). cbn [snd] in Hb. subst b. eauto.
  - intros (i & H). exists (i, true). auto.
Qed.

Lemma elab_marshal fs p m : the_method has_marshal (DStruct fs) p m -> exists c', elab (DStruct fs) = TCodec c' (fields_of fs) /\
  c_marshal c' = lift_marshal (p, m) /\ c_byval c' = lift_byval (p, m) /\ c_marshal_nil c' = panic.
Proof.
  intro H. apply promoted_rule in H. cbn [elab]. rewrite H. unfold lifted. eexists. split; [reflexivity|].
  cbn [c_marshal c_byval c_marshal_nil snd]. auto.
Qed.
(** What the struct does as a value, by what is found. *)
Lemma embed_value E fs p m v : the_method has_marshal (DStruct fs) p m -> lift_byval (p, m) = true ->
  exists f, c_marshal (fst m) = Some f /\ forall s, e_enc s = E ->
    encode (elab (DStruct fs)) v s = (e_set_cur (o_order opt0) ;;;
      match find p v with At x => f x | Nil => if c_byval (fst m) then panic else c_marshal_nil (fst m) | Lost => panic | Bad => stuck end) s.
Proof.
  intros H Hb. destruct (elab_marshal _ _ _ H) as (c' & -> & H1 & H2 & _). pose proof (the_method_has _ _ _ _ H) as Hh. unfold has_marshal in Hh.
  unfold lift_marshal in H1. cbn [fst snd] in H1. destruct (c_marshal (fst m)) as [f|] eqn:Ef; [|discriminate].
  exists f. split; [reflexivity|]. intros s Hs. unfold encode, bind at 1, e_get_enc.
  rewrite (enc_codec _ c' _ opt0 v s _ H1) by (congruence || reflexivity). reflexivity.
Qed.
Lemma embed_marshal E fs p m u v x : the_method has_marshal (DStruct fs) p m -> c_byval (fst m) = true \/ pointing p -> find p v = At x ->
  marshal E (elab (DStruct fs)) v = marshal E (TCodec (by_value (fst m)) u) x.
Proof.
  intros H Hb Hx. assert (Hl : lift_byval (p, m) = true).
  { unfold lift_byval. cbn [fst snd]. rewrite orb_true_iff, pointing_spec. exact Hb. }
  destruct (embed_value E fs p m v H Hl) as (f & Hf & He). unfold marshal. rewrite He by reflexivity. rewrite Hx.
  assert (Hs : forall s, encode (TCodec (by_value (fst m)) u) x s = (e_set_cur (o_order opt0) ;;; f x) s).
  { intro s. unfold encode, bind at 1, e_get_enc. now rewrite (enc_codec _ (by_value (fst m)) _ opt0 x _ f) by (exact Hf || reflexivity). }
  now rewrite Hs.
Qed.
Lemma embed_own_byval E c u x : c_byval c = true -> marshal E (TCodec (by_value c) u) x = marshal E (TCodec c u) x.
Proof. intro H. destruct c as [cm cb cn cu]. cbn [c_byval] in H. now subst cb. Qed.
Lemma embed_marshal_nil E fs p m v : the_method has_marshal (DStruct fs) p m -> c_byval (fst m) = true \/ pointing p ->
  (find p v = Nil -> c_byval (fst m) = false -> forall x u, marshal E (elab (DStruct fs)) v =
    marshal E (TCodec (mkCodec (Some (fun _ => c_marshal_nil (fst m))) true panic None) u) x) /\
  (find p v = Nil -> c_byval (fst m) = true -> marshal E (elab (DStruct fs)) v = (Panic, [])) /\
  (find p v = Lost -> marshal E (elab (DStruct fs)) v = (Panic, [])).
Proof.
  intros H Hb. assert (Hl : lift_byval (p, m) = true).
  { unfold lift_byval. cbn [fst snd]. rewrite orb_true_iff, pointing_spec. exact Hb. }
  destruct (embed_value E fs p m v H Hl) as (f & Hf & He). unfold marshal. rewrite He by reflexivity.
  split; [|split; [intros -> ->|intros ->]; reflexivity]. intros -> -> x u.
  assert (Hs : forall s, encode (TCodec (mkCodec (Some (fun _ => c_marshal_nil (fst m))) true panic None) u) x s =
    (e_set_cur (o_order opt0) ;;; c_marshal_nil (fst m)) s).
  { intro s. unfold encode, bind at 1, e_get_enc. now rewrite (enc_codec _ _ _ opt0 x _ (fun _ => c_marshal_nil (fst m))) by reflexivity. }
  now rewrite Hs.
Qed.
Lemma embed_pointer E fs p m u v x : the_method has_marshal (DStruct fs) p m -> find p v = At x ->
  marshal E (TPtr (elab (DStruct fs))) (VPtr (Some v)) = marshal E (TPtr (TCodec (fst m) u)) (VPtr (Some x)).
Proof.
  intros H Hx. destruct (elab_marshal _ _ _ H) as (c' & -> & H1 & H2 & _). pose proof (the_method_has _ _ _ _ H) as Hh. unfold has_marshal in Hh.
  unfold lift_marshal in H1. cbn [fst snd] in H1. destruct (c_marshal (fst m)) as [f|] eqn:Ef; [|discriminate].
  unfold marshal, encode, bind, e_get_enc. cbn [enc_val codec_of]. rewrite H1, Ef. cbn [new_encoder e_enc o_opt o_copt opt0]. rewrite andb_false_r. now rewrite Hx.
Qed.
Lemma embed_nil E fs p m : the_method has_marshal (DStruct fs) p m -> E <> Borsh ->
  fst (marshal E (TPtr (elab (DStruct fs))) (VPtr None)) = Panic.
Proof.
  intros H HE. destruct (elab_marshal _ _ _ H) as (c' & -> & H1 & H2 & H3). pose proof (the_method_has _ _ _ _ H) as Hh. unfold has_marshal in Hh.
  unfold lift_marshal in H1. cbn [fst snd] in H1. destruct (c_marshal (fst m)) as [f|] eqn:Ef; [|discriminate].
  unfold marshal, encode, bind, e_get_enc. cbn [enc_val codec_of]. rewrite H1. cbn [new_encoder e_enc o_opt o_copt opt0]. rewrite andb_false_r, H3.
  destruct E; try congruence; destruct (c_byval c'); reflexivity.
Qed.
(** A method on the pointer, or none: a value is encoded field by field. *)
Lemma enc_walk c u v s : c_marshal c = None \/ c_byval c = false -> encode (TCodec c u) v s = encode u v s.
Proof.
  intro H. unfold encode, bind, e_get_enc. cbn [enc_val o_opt o_copt opt0]. rewrite andb_false_r.
  change (cut_opt opt0) with opt0.
  assert (Hs : forall s', (match c_marshal c, c_byval c with Some f, true => f v | _, _ => enc_val (e_enc s) u (EFull opt0) v end) s' = enc_val (e_enc s) u (EFull opt0) v s').
  { intro s'. destruct H as [-> | ->]; [reflexivity|]. now destruct (c_marshal c). }
  unfold bind. destruct (e_set_cur (o_order opt0) s) as [[] s'] eqn:Es; try discriminate. rewrite Hs.
  unfold e_set_cur in Es. injection Es as Es. subst s'. destruct u; reflexivity.
Qed.
Lemma embed_walk E fs v : (forall p m, the_method has_marshal (DStruct fs) p m -> c_byval (fst m) = false /\ ~ pointing p) ->
  marshal E (elab (DStruct fs)) v = marshal E (fields_of fs) v.
Proof.
  intro H. unfold marshal. cbn [elab]. fold (fields_of fs).
  destruct (lifted (promoted has_marshal (DStruct fs)) (promoted has_unmarshal (DStruct fs))) as [c|] eqn:El; [|reflexivity].
  rewrite enc_walk; [reflexivity|]. unfold lifted in El.
  destruct (promoted has_marshal (DStruct fs)) as [[p m]|] eqn:Em.
  - injection El as <-. right. cbn [c_byval]. apply promoted_rule in Em. destruct (H p m Em) as [H1 H2].
    unfold lift_byval. cbn [fst snd]. rewrite H1. destruct (existsb snd p) eqn:Ep; [|reflexivity]. now apply pointing_spec in Ep.
  - destruct (promoted has_unmarshal (DStruct fs)); [|discriminate]. injection El as <-. now left.
Qed.
Lemma embed_none fs : (forall p m, ~ the_method has_marshal (DStruct fs) p m) -> (forall p m, ~ the_method has_unmarshal (DStruct fs) p m) ->
  elab (DStruct fs) = fields_of fs.
Proof.
  intros H1 H2. cbn [elab]. fold (fields_of fs). destruct (promoted has_marshal (DStruct fs)) as [[p c]|] eqn:Em.
  { apply promoted_rule in Em. now apply H1 in Em. }
  destruct (promoted has_unmarshal (DStruct fs)) as [[p c]|] eqn:Eu; [|reflexivity]. apply promoted_rule in Eu. now apply H2 in Eu.
Qed.

(** Decoding *)
Lemma dec_codec c u v f d : c_unmarshal c = Some f -> decode (TCodec c u) v d = (d_set_cur LE ;;; f v) d.
Proof. intro H. unfold decode, decode_target, bind, d_get_enc. cbn [dec_val o_opt o_copt opt0]. rewrite andb_false_r, H. reflexivity. Qed.
Lemma embed_read fs p m v : the_method has_unmarshal (DStruct fs) p m ->
  exists f, c_unmarshal (fst m) = Some f /\ forall d, decode (elab (DStruct fs)) v d = (d_set_cur LE ;;;
    match find p v with At x => fmap (put p v) (f x) | Nil => snd m ;;; ret v | Lost => panic | Bad => stuck end) d.
Proof.
  intro H. pose proof (the_method_has _ _ _ _ H) as Hh. unfold has_unmarshal in Hh. apply promoted_rule in H.
  destruct (c_unmarshal (fst m)) as [f|] eqn:Ef; [|discriminate]. exists f. split; [reflexivity|]. intro d.
  assert (He : exists c', elab (DStruct fs) = TCodec c' (fields_of fs) /\ c_unmarshal c' = lift_unmarshal (p, m)).
  { cbn [elab]. rewrite H. unfold lifted. destruct (promoted has_marshal (DStruct fs)); eexists; (split; [reflexivity|]); reflexivity. }
  destruct He as (c' & -> & Hu). unfold lift_unmarshal in Hu. cbn [fst snd] in Hu. rewrite Ef in Hu.
  now rewrite (dec_codec c' _ v _ d Hu).
Qed.
Lemma embed_decode fs p m u v x d : the_method has_unmarshal (DStruct fs) p m -> find p v = At x ->
  decode (elab (DStruct fs)) v d = fmap (put p v) (decode (TCodec (fst m) u) x) d.
Proof.
  intros H Hx. destruct (embed_read fs p m v H) as (f & Hf & ->). rewrite Hx.
  unfold fmap, bind. rewrite (dec_codec (fst m) u x f d Hf). unfold bind.
  destruct (d_set_cur LE d) as [[] d']; try reflexivity.
Qed.
Lemma embed_unmarshal E fs p m u v x data : the_method has_unmarshal (DStruct fs) p m -> find p v = At x ->
  unmarshal E (elab (DStruct fs)) v data =
  match unmarshal E (TCodec (fst m) u) x data with
  | Ok y => Ok (put p v y) | Err e => Err e | Panic => Panic | Deep => Deep | Stuck => Stuck
  end.
Proof.
  intros H Hx. unfold unmarshal. rewrite (embed_decode fs p m u v x _ H Hx). unfold fmap, bind. destruct (decode (TCodec (fst m) u) x (new_decoder E data)) as [[] d']; reflexivity.
Qed.
(** Nil pointers. *)
Lemma embed_unmarshal_nil E fs p m v data : the_method has_unmarshal (DStruct fs) p m ->
  (find p v = Nil -> unmarshal E (elab (DStruct fs)) v data =
    match fst (snd m (mkD data 0 (Some LE) E)) with
    | Ok _ => Ok v | Err e => Err e | Panic => Panic | Deep => Deep | Stuck => Stuck
    end) /\
  (find p v = Lost -> unmarshal E (elab (DStruct fs)) v data = Panic).
Proof.
  intro H. destruct (embed_read fs p m v H) as (f & Hf & He). unfold unmarshal. rewrite He. split; intros ->; [|reflexivity].
  unfold bind, d_set_cur, ret. cbn [new_decoder d_data d_pos d_enc].
  destruct (snd m (mkD data 0 (Some LE) E)) as [[] d']; reflexivity.
Qed.
(** New variables have nil pointers. *)
Lemma zero_elab fs : zero_val (elab (DStruct fs)) = zero_val (fields_of fs).
Proof. cbn [elab]. fold (fields_of fs). destruct (lifted _ _); reflexivity. Qed.
Lemma zero_field fs i m h d : nth_error fs i = Some (m, h, d) ->
  exists vs, zero_val (fields_of fs) = VStruct vs /\ nth_error vs i = Some (zero_val (field_ty m (elab d))).
Proof.
  intro H. unfold fields_of. cbn [zero_val]. eexists. split; [reflexivity|]. rewrite map_map, nth_error_map, H. reflexivity.
Qed.
Lemma reaches_zero has n d p m : reaches has n d p m ->
  ((exists x, find p (zero_val (elab d)) = At x) /\ ~ pointing p) \/
  ((find p (zero_val (elab d)) = Nil \/ find p (zero_val (elab d)) = Lost) /\ pointing p).
Proof.
  induction 1 as [c t Hc|n fs i h d p c Hi _ IH|n fs i h d p c Hi _ IH].
  - left. split; [cbn [find]; eauto|]. intros (i & []).
  - rewrite zero_elab. destruct (zero_field fs i Embedded h d Hi) as (vs & -> & Hn). cbn [find]. rewrite Hn. cbn [field_ty].
    destruct IH as [(H1 & H2)|(H1 & (j & H2))].
    + left. split; [exact H1|]. intros (j & [Hj|Hj]); [discriminate|]. apply H2. now exists j.
    + right. split; [exact H1|]. exists j. now right.
  - right. split; [|exists i; now left]. rewrite zero_elab. destruct (zero_field fs i Pointed h d Hi) as (vs & -> & Hn). cbn [find]. rewrite Hn.
    cbn [field_ty zero_val]. destruct p; auto.
Qed.
Lemma embed_fresh E fs p m data : the_method has_unmarshal (DStruct fs) p m -> pointing p ->
  (forall d x d', snd m d <> (Ok x, d')) -> forall y, unmarshal E (elab (DStruct fs)) (zero_val (elab (DStruct fs))) data <> Ok y.
Proof.
  intros H Hp Hn y. destruct (embed_unmarshal_nil E fs p m (zero_val (elab (DStruct fs))) data H) as [H1 H2].
  destruct H as (n & Hr & _). destruct (reaches_zero _ _ _ _ _ Hr) as [(_ & H)|([H|H] & _)]; [easy| |].
  - rewrite (H1 H). destruct (snd m (mkD data 0 (Some LE) E)) as [[] d'] eqn:Em; try discriminate. now apply Hn in Em.
  - rewrite (H2 H). discriminate.
Qed.
Lemma embed_fresh_value fs p m has : the_method has (DStruct fs) p m -> ~ pointing p ->
  exists x, find p (zero_val (elab (DStruct fs))) = At x.
Proof. intros (n & H & _) Hp. destruct (reaches_zero _ _ _ _ _ H) as [(Hx & _)|(_ & Hq)]; [exact Hx|easy]. Qed.
Lemma never_ok {A} (m : DM A) d x d' : (m ;;; @panic dst unit) d <> (Ok x, d').
Proof. unfold bind. destruct (m d) as [[] ?]; discriminate. Qed.
