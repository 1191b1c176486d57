(** Decoding into interfaces that hold pointers (C67). *)
From Verif Require Import Types DecPrim Enc Dec Spec TyInd Dest DestFacts GoEnc GoEncFacts GoDec GoDecFacts.
Notation length := Datatypes.length.

(** An interface variable at [l] holding a pointer to the [t] at [l']. *)
Definition points (named : outside) (st : mem) (l : loc) (t : ty) (l' : loc) : Prop :=
  exists z, mget st l = Some (VIface (Some z)) /\ holds named z = Some (t, l').
(** An interface variable that is nil or holds anything but a pointer (or a nil
    pointer). *)
Definition opaque (named : outside) (st : mem) (l : loc) : Prop :=
  exists i, mget st l = Some (VIface i) /\ forall z, i = Some z -> holds named z = None.
(** The value given to decodeBin &c. for the interface: the variable, or (Decode)
    its address. *)
Definition iface_at (l : loc) (rv : rval) : Prop := rv = RVar TIface l false \/ rv = RAddr TIface l.

Lemma points_dynamic named st l t l' d : points named st l t l' ->
  forall ro, r_dynamic named (RVar TIface l ro) (mkG d st) = (Ok (Some (t, l')), mkG d st).
Proof. intros (z & Hm & Hh) ro. unfold r_dynamic, r_load, load, bind, ret. cbn [g_mem]. now rewrite Hm, Hh. Qed.
Lemma opaque_dynamic named st l d : opaque named st l ->
  forall ro, r_dynamic named (RVar TIface l ro) (mkG d st) = (Ok None, mkG d st).
Proof.
  intros (i & Hm & Hh) ro. unfold r_dynamic, r_load, load, bind, ret. cbn [g_mem]. rewrite Hm.
  destruct i as [z|]; [|reflexivity]. now rewrite Hh.
Qed.

Lemma loop_iface named f l v0 b null d st t l' : points named st l t l' ->
  indirect_loop named (S f) (RVar TIface l false) v0 b null (mkG d st) =
  if negb null || is_kptr (kind_of t) then indirect_loop named f (RAddr t l') v0 false null (mkG d st)
  else (Ok (None, RVar TIface l false), mkG d st).
Proof.
  intro H. cbn [indirect_loop r_kind]. change (is_kiface (kind_of TIface)) with true. unfold bind at 1.
  rewrite (points_dynamic named st l t l' d H). now destruct (negb null || is_kptr (kind_of t)).
Qed.
Lemma loop_opaque named f l ro v0 b null d st : opaque named st l ->
  indirect_loop named (S f) (RVar TIface l ro) v0 b null (mkG d st) = (Ok (None, RVar TIface l ro), mkG d st).
Proof.
  intro H. cbn [indirect_loop r_kind]. change (is_kiface (kind_of TIface)) with true. unfold bind at 1.
  now rewrite (opaque_dynamic named st l d H).
Qed.
(** Through the address of an interface. *)
Lemma loop_addr named f l v0 b null d st :
  (exists t l', points named st l t l' /\ l' <> l) \/ opaque named st l ->
  indirect_loop named (S f) (RAddr TIface l) v0 b null (mkG d st) =
  indirect_loop named f (if b then v0 else RVar TIface l false) v0 false null (mkG d st).
Proof.
  intro H. cbn [indirect_loop r_kind is_kiface is_kptr negb r_elem r_is_nil r_type r_can_set r_itself].
  unfold bind at 1, ret at 1. unfold bind at 1, ret at 1. cbn [r_kind]. rewrite andb_false_r.
  change (is_kiface (kind_of TIface)) with true. cbn iota. unfold bind, ret.
  destruct H as [(t & l' & H & Hl)|H].
  - rewrite (points_dynamic named st l t l' d H). destruct (loc_eq_dec l' l); [easy|]. cbn [unmarshaler]. now destruct b.
  - rewrite (opaque_dynamic named st l d H). cbn [unmarshaler]. now destruct b.
Qed.
(** The interface that holds its own address. *)
Lemma loop_itself named f l v0 b null d st t : points named st l t l ->
  indirect_loop named (S f) (RAddr TIface l) v0 b null (mkG d st) = (Ok (None, RVar TIface l false), mkG d st).
Proof.
  intro H. cbn [indirect_loop r_kind is_kiface is_kptr negb r_elem r_is_nil r_type r_can_set r_itself].
  unfold bind at 1, ret at 1. unfold bind at 1, ret at 1. cbn [r_kind]. rewrite andb_false_r.
  change (is_kiface (kind_of TIface)) with true. cbn iota. unfold bind, ret.
  rewrite (points_dynamic named st l t l d H). now destruct (loc_eq_dec l l).
Qed.

(** * Through the pointer *)

(** indirect on the interface goes on with the pointer, if it does. *)
Lemma indirect_iface named f l rv null t l' : iface_at l rv -> l' <> l -> exists f', (f <= f')%nat /\
  forall d st, points named st l t l' ->
  indirect named (S (S (S f))) rv null (mkG d st) =
  if negb null || is_kptr (kind_of t) then indirect_loop named f' (RAddr t l') rv false null (mkG d st)
  else (Ok (None, RVar TIface l false), mkG d st).
Proof.
  intros Hrv Hl. unfold indirect. destruct Hrv as [->| ->]; cbn [r_kind is_kptr].
  - change (is_kptr (kind_of TIface)) with false. cbn iota. destruct (has_name named TIface) eqn:En.
    + exists (S f). split; [lia|]. intros d st H. unfold bind, r_type, ret. rewrite En. cbn [r_can_addr andb r_addr].
      rewrite loop_addr by (left; now exists t, l'). now apply loop_iface.
    + exists (S (S f)). split; [lia|]. intros d st H. unfold bind, r_type, ret. rewrite En. cbn [r_can_addr andb r_addr].
      now apply loop_iface.
  - exists (S f). split; [lia|]. intros d st H. rewrite loop_addr by (left; now exists t, l'). now apply loop_iface.
Qed.
Lemma indirect_opaque named f l rv null d st : iface_at l rv -> opaque named st l ->
  indirect named (S (S (S f))) rv null (mkG d st) = (Ok (None, RVar TIface l false), mkG d st).
Proof.
  intros Hrv H. unfold indirect. destruct Hrv as [->| ->]; cbn [r_kind is_kptr].
  - change (is_kptr (kind_of TIface)) with false. cbn iota. destruct (has_name named TIface) eqn:En; unfold bind, r_type, ret;
      rewrite En; cbn [r_can_addr andb r_addr]; [rewrite loop_addr by (now right)|]; now apply loop_opaque.
  - rewrite loop_addr by (now right). now apply loop_opaque.
Qed.
Lemma indirect_itself named f l rv null d st t : iface_at l rv -> points named st l t l -> t = TIface ->
  indirect named (S (S (S f))) rv null (mkG d st) = (Ok (None, RVar TIface l false), mkG d st).
Proof.
  intros Hrv H ->. unfold indirect. destruct Hrv as [->| ->]; cbn [r_kind is_kptr].
  - change (is_kptr (kind_of TIface)) with false. cbn iota. destruct (has_name named TIface) eqn:En; unfold bind, r_type, ret;
      rewrite En; cbn [r_can_addr andb r_addr]; [now apply (loop_itself _ _ _ _ _ _ _ _ TIface)|].
    rewrite (loop_iface _ _ _ _ _ _ _ _ _ _ H). change (is_kptr (kind_of TIface)) with false. rewrite orb_false_r.
    destruct null; cbn [negb]; [reflexivity|]. now apply (loop_itself _ _ _ _ _ _ _ _ TIface).
  - now apply (loop_itself _ _ _ _ _ _ _ _ TIface).
Qed.

Lemma addr_walk named E W o p k t : forall f v st l v0, settled named t -> fits t v -> mget st l = Some v -> (ty_size t < f)%nat ->
  (forall t1 l1 st1 v1, final t1 -> settled named t1 -> (ty_size t1 <= ty_size t)%nat -> fits t1 v1 -> mget st1 l1 = Some v1 ->
    does st1 l1 (k (None, RVar t1 l1 false)) (dest_val E W t1 (DWalk o p) v1)) ->
  (forall c u g l1 st1 v1, c_unmarshal c = Some g -> mget st1 l1 = Some v1 ->
    does st1 l1 (k (Some (mkMethod c u g l1), RZero)) (dest_val E W (TCodec c u) (DWalk o p) v1)) ->
  does st l (x <- indirect_loop named f (RAddr t l) v0 false false ;; k x) (dest_val E W t (DWalk o p) v).
Proof.
  intros f v st l v0 Hg Hf Hm Hn Kn Km. destruct f as [|f]; [lia|].
  apply (bind_at _ _ _ (fun s => match method_at t l with Some m => (Ok (Some m, RZero), s)
      | None => indirect_loop named f (RVar t l false) v0 false false s end)).
  { intro d. cbn [r_kind is_kptr is_kiface indirect_loop negb r_elem r_is_nil r_type r_can_set]. unfold bind at 1, ret at 1. unfold bind at 1, ret at 1.
    cbn [r_kind]. rewrite andb_false_r. unfold bind at 1. rewrite (itself_none named t l false d st v Hg Hm). unfold bind, ret.
    cbn [unmarshaler]. destruct t; try reflexivity. cbn [method_at]. now destruct (c_unmarshal c). }
  destruct (method_at t l) as [m|] eqn:Em.
  - destruct (method_some _ _ _ Em) as (c & u & g & -> & Hc & ->).
    apply (does_at _ _ _ (k (Some (mkMethod c u g l), RZero))); [reflexivity|]. now apply Km.
  - apply (loop_walk named E W o p k t f v st l); auto. lia.
Qed.
Lemma addr_null named E W o k t : forall f v st l v0, is_ptr t = true -> settled named t -> fits t v -> mget st l = Some v -> (ty_size t < f)%nat ->
  (forall t1 l1 st1 v1, t1 <> TDeep -> (forall l, method_at t1 l = None) -> settled named t1 -> (ty_size t1 <= ty_size t)%nat -> fits t1 v1 ->
    mget st1 l1 = Some v1 -> does st1 l1 (k (None, RVar t1 l1 false)) (dest_flagged E W t1 o v1)) ->
  does st l (x <- indirect_loop named f (RAddr t l) v0 false true ;; k x) (dest_val E W t (DNull o) v).
Proof.
  intros f v st l v0 Hp Hg Hf Hm Hn Kn. destruct f as [|f]; [lia|].
  apply (bind_at _ _ _ (indirect_loop named f (RVar t l false) v0 false true)).
  { intro d. cbn [r_kind is_kptr is_kiface indirect_loop negb r_elem r_is_nil r_type r_can_set]. unfold bind at 1, ret at 1. unfold bind at 1, ret at 1.
    cbn [r_kind]. rewrite andb_false_r. unfold bind at 1. rewrite (itself_none named t l false d st v Hg Hm). unfold bind, ret.
    now destruct t. }
  apply (loop_null named E W o k t f v st l); auto; [lia|now destruct t].
Qed.

Section Through.
  Variables (E : encoding) (W : codec -> ty -> val -> dst -> val) (named : outside) (F : nat) (t : ty) (o : fopt) (l l' : loc) (st : mem) (v : val).
  Hypothesis HF : (3 * ty_size t + 3 <= F)%nat.
  Hypothesis Hp : points named st l t l'.
  Hypothesis Hl : l' <> l.
  Hypothesis Hg : settled named t.
  Hypothesis Hf : fits t v.
  Hypothesis Hm : mget st l' = Some v.
  Let IH : forall t', (ty_size t' < ty_size t)%nat -> settled named t' -> decodes E W named t'.
  Proof. intros t' _. apply go_decodes. Qed.
  Let HF' : (3 * ty_size t <= S F)%nat.
  Proof. lia. Qed.

  Lemma iface_walk rv : iface_at l rv ->
    does st l' (x <- indirect named F rv false ;; go_rest E W named F o x) (dest_val E W t (DWalk o false) v).
  Proof.
    intro Hrv. pose proof (size_pos t).
    assert (HS : exists f, F = S (S (S f))) by (exists (F - 3)%nat; lia). destruct HS as [f HS].
    destruct (indirect_iface named f l rv false t l' Hrv Hl) as (f' & Hf' & He). rewrite <- HS in He.
    eapply bind_at; [intro d; rewrite (He d st Hp); cbn [negb orb]; reflexivity|].
    apply (addr_walk named); auto; [lia| |now intros; apply rest_some].
    intros t1 l1 st1 v1 H1 H2 H3. apply (rest_none E W named F t o HF' IH); auto.
  Qed.
  Lemma iface_cwalk rv : iface_at l rv ->
    does st l' (x <- indirect named F rv false ;; go_coption E W named F o x) (dest_val E W t (DWalk o (is_borsh E && o_copt o)) v).
  Proof.
    intro Hrv. pose proof (size_pos t).
    assert (HS : exists f, F = S (S (S f))) by (exists (F - 3)%nat; lia). destruct HS as [f HS].
    destruct (indirect_iface named f l rv false t l' Hrv Hl) as (f' & Hf' & He). rewrite <- HS in He.
    eapply bind_at; [intro d; rewrite (He d st Hp); cbn [negb orb]; reflexivity|].
    apply (addr_walk named); auto; [lia| |now intros; apply coption_some].
    intros t1 l1 st1 v1 H1 H2 H3. apply (coption_none E W named F t o HF' IH); auto.
  Qed.
  Lemma iface_null rv : iface_at l rv -> is_ptr t = true -> o_opt o || (is_borsh E && o_copt o) = true ->
    does st l' (x <- indirect named F rv true ;; go_top E W named F o x) (dest_val E W t (DNull o) v).
  Proof.
    intros Hrv Hpt Hnull. pose proof (size_pos t).
    assert (HS : exists f, F = S (S (S f))) by (exists (F - 3)%nat; lia). destruct HS as [f HS].
    destruct (indirect_iface named f l rv true t l' Hrv Hl) as (f' & Hf' & He). rewrite <- HS in He.
    eapply bind_at.
    { intro d. rewrite (He d st Hp). rewrite kind_ptr, Hpt by apply Hg. cbn [negb orb]. reflexivity. }
    apply (addr_null named); auto; [lia|].
    intros t1 l1 st1 v1 _ _ H2 H3. apply (top_null E W named F t o HF' IH); auto.
  Qed.

  Lemma iface_does rv : iface_at l rv -> is_ptr t = true \/ o_opt o || (is_borsh E && o_copt o) = false ->
    does st l' (goD E W named (S F) rv (Some o)) (dest_val E W t (DStart o) v).
  Proof.
    intros Hrv Hk. eapply does_ext; [intro s; apply goD_eq|reflexivity|]. cbn [or_default]. rewrite dest_start_eq.
    apply does_after; [exact Hm|]. intros _. destruct (o_opt o || (is_borsh E && o_copt o)) eqn:Enull.
    - destruct Hk as [Hk|Hk]; [|discriminate]. now apply iface_null.
    - apply orb_false_iff in Enull. destruct Enull as [E1 E2]. eapply does_ext; [|reflexivity|apply (iface_walk rv Hrv)].
      intro s. apply gbind_same. intros ur s'. unfold go_top, go_coption. now rewrite E1, E2.
  Qed.

  (** A flag in front: the interface itself is what is optional. *)
  Lemma iface_flag m k kk rv : iface_at l rv -> is_ptr t = false ->
    does st l' (x <- indirect named F (RVar TIface l false) false ;; k x) kk -> forall d d1,
    let body := (x <- indirect named F rv true ;; go_flag named F m k x) (mkG d st) in
    (m d = (Ok false, d1) -> body = (Ok tt, mkG d1 (mset st l (VIface None)))) /\
    (m d = (Ok true, d1) -> same l' st body (kk d1)) /\
    (forall e, m d = (Err e, d1) -> body = (Err EMsg, mkG d1 st)).
  Proof.
    intros Hrv Hpt Hk d d1 body.
    assert (HS : exists f, F = S (S (S f))) by (exists (F - 3)%nat; lia). destruct HS as [f HS].
    destruct (indirect_iface named f l rv true t l' Hrv Hl) as (f' & Hf' & He). rewrite <- HS in He.
    assert (Hb : body = go_flag named F m k (None, RVar TIface l false) (mkG d st)).
    { unfold body, bind. rewrite (He d st Hp), kind_ptr, Hpt by apply Hg. reflexivity. }
    rewrite Hb. split; [|split]; [intro H|intro H|intros e H]; unfold go_flag, catch, lift; unfold bind at 1; cbn [g_dec g_mem]; rewrite H.
    - reflexivity.
    - exact (Hk d1).
    - reflexivity.
  Qed.
  Lemma iface_optional rv : iface_at l rv -> is_ptr t = false -> forall d d1,
    let body := goD E W named (S F) rv (Some o) (mkG d st) in
    let d0 := snd (d_set_cur (o_order o) d) in
    o_opt o = true ->
    (raw_flag E d0 = (Ok false, d1) -> body = (Ok tt, mkG d1 (mset st l (VIface None)))) /\
    (raw_flag E d0 = (Ok true, d1) -> same l' st body (dest_val E W t (DWalk o (is_borsh E && o_copt o)) v d1)) /\
    (forall e, raw_flag E d0 = (Err e, d1) -> body = (Err EMsg, mkG d1 st)).
  Proof.
    intros Hrv Hpt d d1 body d0 Ho.
    pose proof (iface_flag (raw_flag E) (go_coption E W named F o) _ rv Hrv Hpt (iface_cwalk _ (or_introl eq_refl)) d0 d1) as H.
    assert (Hb : body = (x <- indirect named F rv true ;; go_flag named F (raw_flag E) (go_coption E W named F o) x) (mkG d0 st)).
    { unfold body. rewrite goD_eq. cbn [or_default]. rewrite Ho. cbn [orb]. unfold bind at 1, lift at 1. cbn [g_dec g_mem].
      unfold d0. destruct d. cbn. apply gbind_same. intros ur s. unfold go_top. now rewrite Ho. }
    rewrite Hb. exact H.
  Qed.
End Through.

(** * Other interfaces *)
Lemma goD_opaque E W named F l rv o d st : iface_at l rv -> opaque named st l \/ points named st l TIface l ->
  o_opt o || (is_borsh E && o_copt o) = false -> (3 <= F)%nat ->
  goD E W named (S F) rv (Some o) (mkG d st) = (Ok tt, mkG (snd (d_set_cur (o_order o) d)) st).
Proof.
  intros Hrv H Ho HF. assert (HS : exists f, F = S (S (S f))) by (exists (F - 3)%nat; lia). destruct HS as [f ->].
  rewrite goD_eq. cbn [or_default]. rewrite Ho. unfold bind at 1, lift at 1. cbn [g_dec g_mem].
  assert (Hi : forall d, indirect named (S (S (S f))) rv false (mkG d st) = (Ok (None, RVar TIface l false), mkG d st)).
  { intro d'. destruct H as [H|H]; [now apply indirect_opaque|now apply (indirect_itself _ _ _ _ _ _ _ TIface)]. }
  apply orb_false_iff in Ho. destruct Ho as [E1 E2].
  destruct d. cbn [d_set_cur snd]. unfold bind, d_set_cur. rewrite Hi. unfold go_top, go_coption. rewrite E1, E2. reflexivity.
Qed.

(** Interfaces that hold pointers to each other: indirect never returns. *)
Definition ring (named : outside) (st : mem) (L : list loc) : Prop :=
  forall l, In l L -> exists l', points named st l TIface l' /\ In l' L /\ l' <> l.
Lemma ring_loop named st L : ring named st L -> forall f v0 b d l, In l L -> (b = true -> v0 = RVar TIface l false) ->
  fst (indirect_loop named f (RAddr TIface l) v0 b false (mkG d st)) = Stuck /\
  fst (indirect_loop named f (RVar TIface l false) v0 b false (mkG d st)) = Stuck.
Proof.
  intros HR. induction f as [|f IH]; intros v0 b d l Hin Hb; [easy|]. destruct (HR l Hin) as (l' & Hp & Hin' & Hl). split.
  - rewrite loop_addr by (left; now exists TIface, l'). replace (if b then v0 else RVar TIface l false) with (RVar TIface l false).
    + now apply IH.
    + destruct b; [symmetry; now apply Hb|reflexivity].
  - rewrite (loop_iface _ _ _ _ _ _ _ _ _ _ Hp). cbn [negb orb]. now apply IH.
Qed.
Lemma ring_goD E W named st L : ring named st L -> forall f o d l rv, In l L -> iface_at l rv ->
  o_opt o || (is_borsh E && o_copt o) = false ->
  fst (goD E W named f rv (Some o) (mkG d st)) = Stuck.
Proof.
  intros HR f o d l rv Hin Hrv Ho. destruct f as [|F]; [now destruct E|]. rewrite goD_eq. cbn [or_default]. rewrite Ho.
  unfold bind at 1, lift at 1. cbn [g_dec g_mem]. destruct d. cbn [d_set_cur].
  assert (Hi : forall d, fst (indirect named F rv false (mkG d st)) = Stuck).
  { intro d'. unfold indirect. destruct Hrv as [->| ->]; cbn [r_kind is_kptr].
    - change (is_kptr (kind_of TIface)) with false. cbn iota. unfold bind, r_type, ret.
      destruct (has_name named TIface); cbn [r_can_addr andb r_addr]; now apply (ring_loop named st L HR).
    - now apply (ring_loop named st L HR). }
  unfold bind, d_set_cur. match goal with |- context [indirect named F rv false ?s] => specialize (Hi (g_dec s)); cbn [g_dec] in Hi; destruct (indirect named F rv false s) as [r s'] end.
  cbn [fst] in Hi. now subst r.
Qed.

(** * The statements of C67 *)
Theorem through E W named t o l l' st v d rv fuel :
  points named st l t l' -> l' <> l -> settled named t -> fits t v -> mget st l' = Some v -> iface_at l rv ->
  is_ptr t = true \/ o_opt o || (is_borsh E && o_copt o) = false -> (3 * ty_size t + 4 <= fuel)%nat ->
  same l' st (goD E W named fuel rv (Some o) (mkG d st)) (dest_val E W t (DStart o) v d).
Proof. intros H1 H2 H3 H4 H5 H6 H7 H8. destruct fuel as [|F]; [lia|]. apply (iface_does E W named F t o l l' st v); auto. lia. Qed.
Lemma go_decode_goD W named fuel rv s : is_kptr (r_kind rv) = true ->
  go_decode W named fuel rv s = goD (d_enc (g_dec s)) W named fuel rv (Some opt0) s.
Proof.
  intro H. rewrite <- goD_none. destruct s as [d m]. unfold go_decode, bind, lift, d_get_enc, decodeWithOption. cbn [g_dec g_mem].
  rewrite H. now destruct (d_enc d).
Qed.
Theorem decode_through W named t l l' st v d fuel :
  points named st l t l' -> l' <> l -> settled named t -> fits t v -> mget st l' = Some v -> (3 * ty_size t + 4 <= fuel)%nat ->
  exists x g d1, go_decode W named fuel (RAddr TIface l) (mkG d st) = (blame (fst (decode t v d)), mkG d1 (mset st l' x ++ g)) /\
    (fst (decode t v d) <> Panic -> d1 = snd (decode t v d)) /\
    (forall y, fst (decode t v d) = Ok y -> x = y).
Proof.
  intros H1 H2 H3 H4 H5 H6. rewrite go_decode_goD by reflexivity. cbn [g_dec].
  assert (H := through (d_enc d) W named t opt0 l l' st v d (RAddr TIface l) fuel H1 H2 H3 H4 H5 (or_intror eq_refl)).
  specialize (H ltac:(right; now destruct (d_enc d)) H6).
  unfold decode, decode_target, bind, d_get_enc. rewrite (dest_agrees (d_enc d) W t (DStart opt0) v d).
  unfold same in H. destruct (dest_val (d_enc d) W t (DStart opt0) v d) as [[r x] d']. destruct H as (g & d1 & H & Hd).
  exists x, g, d1. rewrite H. clear H.
  destruct r as [[]|e| | |]; cbn [view fst snd blame]; (split; [reflexivity|]); (split; [intro Hp; try congruence; now apply Hd|]); congruence.
Qed.
Theorem optional_through E W named t o l l' st v d d1 rv fuel :
  points named st l t l' -> l' <> l -> settled named t -> fits t v -> mget st l' = Some v -> iface_at l rv ->
  is_ptr t = false -> o_opt o = true -> (3 * ty_size t + 4 <= fuel)%nat ->
  let after := goD E W named fuel rv (Some o) (mkG d st) in
  let d0 := snd (d_set_cur (o_order o) d) in
  (raw_flag E d0 = (Ok false, d1) -> after = (Ok tt, mkG d1 (mset st l (VIface None)))) /\
  (raw_flag E d0 = (Ok true, d1) -> same l' st after (dest_val E W t (DWalk o (is_borsh E && o_copt o)) v d1)) /\
  (forall e, raw_flag E d0 = (Err e, d1) -> after = (Err EMsg, mkG d1 st)).
Proof.
  intros H1 H2 H3 H4 H5 H6 H7 H8 H9. destruct fuel as [|F]; [lia|]. apply (iface_optional E W named F t o l l' st v); auto. lia.
Qed.
Theorem left_alone E W named o l st d rv fuel : iface_at l rv -> opaque named st l \/ points named st l TIface l ->
  o_opt o || (is_borsh E && o_copt o) = false -> (4 <= fuel)%nat ->
  goD E W named fuel rv (Some o) (mkG d st) = (Ok tt, mkG (snd (d_set_cur (o_order o) d)) st).
Proof. intros H1 H2 H3 H4. destruct fuel as [|F]; [lia|]. apply (goD_opaque E W named F l); auto. lia. Qed.
Theorem ring_forever W named st L l d fuel : ring named st L -> In l L ->
  fst (go_decode W named fuel (RAddr TIface l) (mkG d st)) = Stuck.
Proof.
  intros HR Hin. rewrite go_decode_goD by reflexivity. apply (ring_goD _ W named st L HR fuel opt0 d l); [exact Hin|now right|cbn [g_dec]; now destruct (d_enc d)].
Qed.
