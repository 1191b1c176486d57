(** Bounds for the work of the decoders. *)
From Verif Require Import Types DecPrim Enc Dec Utf8 Builtin Spec NumFacts TyInd EncFacts DecWire DecEq DecWithin DecLocal DecBound Cost CostSpec CostFacts.
Notation length := Datatypes.length.

Lemma fed_struct E b fs : fed E b (TStruct fs) <-> Forall (fun ht => fed E b (snd ht)) fs.
Proof.
  cbn [fed]. induction fs as [|[h t] fs IH]; split; intro H; auto.
  - destruct H as [H1 H2]. constructor; [exact H1|]. now apply IH.
  - inversion_clear H as [|? ? H1 H2]. split; [exact H1|]. now apply IH.
Qed.

Lemma within_same {A} (p : priced A) m : same p m -> within m -> within (prog p).
Proof. intros H Hm s Hs. rewrite H. now apply Hm. Qed.
Lemma eats_same {A} n (p : priced A) m : same p m -> eats n m -> eats n (prog p).
Proof. intros H Hm s x s' Hs. rewrite H. now apply Hm. Qed.

Lemma within_prim_by {A} f (m : DM A) : within m -> within (prog (prim_by f m)).
Proof. easy. Qed.
Lemma within_prim {A} (m : DM A) : within m -> within (prog (prim m)).
Proof. easy. Qed.
#[global] Hint Resolve within_prim within_prim_by : within.

Lemma used_nonneg {A} (m : DM A) s : within m -> inside s -> 0 <= used (m s) s.
Proof.
  intros Hw Hs. specialize (Hw s Hs). (unfold used, onward, inside in *; open_rem).
  destruct (fst (m s)); lia.
Qed.

(** [price <= A + S M + B M used] from every state with at most [N] unread bytes. *)
Section Bill.
  Variables N M : Z.
  Hypothesis HM : 1 <= M.
  Definition bill {A} (a c b : Z) (p : priced A) : Prop :=
    forall s, inside s -> remaining_of s <= N -> price p s <= a + c * M + b * (M * used (prog p s) s).

  Lemma bill_le {A} a c b a' c' b' (p : priced A) : within (prog p) -> a <= a' -> c <= c' -> b <= b' ->
    bill a c b p -> bill a' c' b' p.
  Proof.
    intros Hw Ha Hc Hb H s Hs Hr. specialize (H s Hs Hr). pose proof (used_nonneg _ _ Hw Hs).
    assert (0 <= M * used (prog p s) s) by nia. nia.
  Qed.
  Lemma bill_tick {A} n a c b (p : priced A) : bill a c b p -> bill (n + a) c b (tick n p).
  Proof. intros H s Hs Hr. cbn [tick price prog]. specialize (H s Hs Hr). lia. Qed.
  Lemma bill_prim {A} (m : DM A) : within m -> bill 1 0 0 (prim m).
  Proof. intros Hw s Hs Hr. unfold prim, prim_by. cbn [price prog]. destruct (m s) as [[a|e| | |] s']; lia. Qed.
  Lemma bill_fmap {A B} (f : A -> B) a c b p : bill a c b p -> bill a c b (p_fmap f p).
  Proof.
    intros H s Hs Hr. specialize (H s Hs Hr). cbn [p_fmap price prog]. unfold used, fmap, bind, ret in *.
    destruct (prog p s) as [[x|e| | |] s']; exact H.
  Qed.
  Lemma bill_map_err {A} f a c b (p : priced A) : bill a c b p -> bill a c b (p_map_err f p).
  Proof.
    intros H s Hs Hr. specialize (H s Hs Hr). cbn [p_map_err price prog]. unfold used, map_err in *.
    destruct (prog p s) as [[x|e| | |] s']; exact H.
  Qed.

  (** Running one program after the other. *)
  Lemma bind_used {A B} (p : priced A) (k : A -> priced B) s : within (prog p) -> inside s ->
    match prog p s with
    | (Ok x, s') => inside s' /\ remaining_of s' <= remaining_of s /\ d_pos s <= d_pos s' /\
                    used (prog p s) s = d_pos s' - d_pos s /\
                    used (prog (p_bind p k) s) s = d_pos s' - d_pos s + used (prog (k x) s') s'
    | _ => used (prog (p_bind p k) s) s = used (prog p s) s
    end.
  Proof.
    intros Hw Hs. specialize (Hw s Hs). cbn [p_bind prog]. unfold bind.
    destruct (prog p s) as [[x|e| | |] s'] eqn:Ep; try reflexivity.
    cbn [snd] in Hw. destruct Hw as (Hd & _ & Hp & Hi). (unfold used in *; open_rem). cbn [fst snd].
    destruct (prog (k x) s') as [[y|e| | |] s2]; cbn [fst snd]; rewrite ?Hd; repeat split; try lia; apply Hi.
  Qed.

  (** If after the first program the position has moved, a multiple of [M] more is
      allowed. *)
  Lemma bill_bind_or {A B} a1 c1 b a2 c2 (p : priced A) (k : A -> priced B) :
    0 <= b -> 0 <= a2 -> 0 <= c2 ->
    within (prog p) -> (forall x, within (prog (k x))) ->
    bill a1 c1 b p ->
    (forall s x s', inside s -> prog p s = (Ok x, s') ->
       bill a2 0 b (k x) \/ (bill a2 c2 b (k x) /\ d_pos s < d_pos s')) ->
    bill (a1 + a2) c1 (b + c2) (p_bind p k).
  Proof.
    intros Hb Ha2 Hc2 Hw Hwk Hp Hk s Hs Hr. pose proof (bind_used p k s Hw Hs) as Hu.
    specialize (Hp s Hs Hr). pose proof (used_nonneg _ _ Hw Hs) as Hn. specialize (Hk s).
    cbn [p_bind price].
    destruct (prog p s) as [[x|e| | |] s'] eqn:Ep; try (rewrite Hu; assert (0 <= M * used (prog p s) s) by (rewrite Ep; nia); rewrite Ep in *; nia).
    destruct Hu as (Hi & Hr' & Hle & Hu1 & ->). specialize (Hk x s' Hs eq_refl).
    pose proof (used_nonneg _ _ (Hwk x) Hi) as Hn2. rewrite Hu1 in *.
    set (U := used (prog (k x) s') s') in *. set (V := d_pos s' - d_pos s) in *.
    assert (0 <= M * U) by nia. assert (0 <= M * V) by nia. rewrite Z.mul_add_distr_l.
    destruct Hk as [Hk|[Hk Hlt]]; specialize (Hk s' Hi ltac:(lia)); fold U in Hk.
    - nia.
    - assert (M <= M * V) by (unfold V; nia). nia.
  Qed.
  Lemma bill_bind {A B} a1 c1 b a2 c2 (p : priced A) (k : A -> priced B) :
    0 <= b -> 0 <= a2 -> 0 <= c2 ->
    within (prog p) -> (forall x, within (prog (k x))) ->
    bill a1 c1 b p -> (forall x, bill a2 c2 b (k x)) -> bill (a1 + a2) (c1 + c2) b (p_bind p k).
  Proof.
    intros Hb Ha2 Hc2 Hw Hwk Hp Hk s Hs Hr. pose proof (bind_used p k s Hw Hs) as Hu.
    specialize (Hp s Hs Hr). pose proof (used_nonneg _ _ Hw Hs) as Hn.
    cbn [p_bind price]. destruct (prog p s) as [[x|e| | |] s'] eqn:Ep; try (rewrite Hu; nia).
    destruct Hu as (Hi & Hr' & Hle & Hu1 & ->). specialize (Hk x s' Hi ltac:(lia)).
    pose proof (used_nonneg _ _ (Hwk x) Hi) as Hn2. rewrite Hu1 in *.
    set (U := used (prog (k x) s') s') in *. set (V := d_pos s' - d_pos s) in *.
    rewrite Z.mul_add_distr_l. nia.
  Qed.
  (** ... the first of which takes at least a byte. *)
  Lemma bill_bind_eats {A B} a1 b a2 c2 (p : priced A) (k : A -> priced B) :
    0 <= b -> 0 <= a2 -> 0 <= c2 ->
    within (prog p) -> (forall x, within (prog (k x))) -> eats 1 (prog p) ->
    bill a1 0 b p -> (forall x, bill a2 c2 b (k x)) -> bill (a1 + a2) 0 (b + c2) (p_bind p k).
  Proof.
    intros Hb Ha2 Hc2 Hw Hwk He Hp Hk. apply bill_bind_or; auto.
    intros s x s' Hs Ep. right. split; [apply Hk|]. specialize (He s x s' Hs Ep). lia.
  Qed.

  (** Bulk reads. *)
  Definition gives (m : DM (list Z)) : Prop :=
    forall s x s', inside s -> m s = (Ok x, s') -> zlen x <= d_pos s' - d_pos s.
  Lemma gives_never m : (forall s x s', m s <> (Ok x, s')) -> gives m.
  Proof. intros H s x s' _ E. now apply H in E. Qed.
  Lemma gives_then {A} (m : DM A) k : within m -> (forall a, gives (k a)) -> gives (bind m k).
  Proof.
    intros Hw Hk s x s' Hi E. unfold bind in E. specialize (Hw s Hi).
    destruct (m s) as [[a|e| | |] s1] eqn:Em; try discriminate. cbn [snd] in Hw.
    destruct Hw as (_ & _ & Hp & Hi'). apply (Hk a) in E; auto. lia.
  Qed.
  Lemma gives_take k : gives (d_take k).
  Proof.
    intros s x s' Hi E. unfold d_take, d_get, bind, slice_n in E.
    destruct ((0 <=? d_pos s) && (0 <=? k) && (d_pos s + k <=? zlen (d_data s))) eqn:Ec; [|discriminate].
    injection E as <- <-. cbn [d_pos]. unfold zlen in *. rewrite firstn_length, skipn_length. lia.
  Qed.
  Lemma gives_read_n k : gives (read_n_bytes k).
  Proof.
    unfold read_n_bytes. destruct (k =? 0); [intros s x s' _ [= <- <-]; unfold zlen; cbn [length]; lia|].
    destruct ((k <? 0) || (0x7FFFFFFF <? k)); [now apply gives_never|].
    apply gives_then; [within|]. intro s. destruct (_ <? _); [now apply gives_never|]. apply gives_take.
  Qed.
  Lemma gives_str E : gives (read_str E).
  Proof.
    assert (Hb : gives read_byte_slice).
    { unfold read_byte_slice. apply gives_then; [within|]. intro. apply gives_then; [within|].
      intro s. destruct (_ <? _); [now apply gives_never|]. apply gives_take. }
    destruct E; [|exact Hb|exact Hb]. cbn [read_str]. unfold read_rust_string. apply gives_then; [within|]. intro.
    destruct (_ <? _); [now apply gives_never|]. apply gives_read_n.
  Qed.
  Lemma gives_uints w l : gives (read_uints w l).
  Proof.
    intros s x s' Hi E. pose proof (eats_read_uints w l s x s' Hi E) as He.
    assert (H : zlen x <= l \/ zlen x <= d_pos s' - d_pos s); [|lia].
    unfold read_uints in E. unfold bind at 1 in E. unfold d_remaining in E.
    destruct (remaining_of s <? (if l <? 0 then _ else _)) eqn:Ec; [discriminate|].
    assert (Hrep : forall m, l <? 0 = false -> within m -> read_rep (Z.to_nat l) m s = (Ok x, s') -> zlen x <= l).
    { intros m Hl Hw Er. apply (yields_rep (remaining_of s) (Z.to_nat l) (fun _ => True)) in Er; [|exact Hw|easy|exact Hi|lia].
      destruct Er as [Er _]. unfold zlen. lia. }
    destruct w.
    - right. now apply (gives_read_n l).
    - destruct (l <? 0) eqn:El; [discriminate|]. left. eapply Hrep; eauto. within.
    - destruct (l <? 0) eqn:El; [discriminate|]. left. eapply Hrep; eauto. within.
    - destruct (l <? 0) eqn:El; [discriminate|]. left. eapply Hrep; eauto. within.
  Qed.
  Lemma bill_gives m : within m -> gives m -> bill 1 0 1 (prim_by zlen m).
  Proof.
    intros Hw Hg s Hs Hr. cbn [prim_by price prog]. specialize (Hg s). pose proof (used_nonneg _ _ Hw Hs) as Hn.
    destruct (m s) as [[x|e| | |] s'] eqn:Er; try nia.
    specialize (Hg x s' Hs eq_refl). unfold used in *. cbn [fst snd] in *. nia.
  Qed.

  (** Loops. *)
  Lemma within_p_rep {A} n (p : priced A) : within (prog p) -> within (prog (p_rep n p)).
  Proof. intro H. induction n; cbn [p_rep tick p_bind prim prim_by prog]; within. Qed.
  Lemma bill_rep {A} n a b (p : priced A) : 0 <= a -> 0 <= b -> within (prog p) -> bill a 0 b p ->
    bill (1 + Z.of_nat n * (2 + a)) 0 b (p_rep n p).
  Proof.
    intros Ha Hb Hw Hp. induction n as [|n IH]; cbn [p_rep].
    - apply (bill_le 1 0 0); try lia; [within|]. apply bill_prim. within.
    - replace (1 + Z.of_nat (S n) * (2 + a)) with (1 + (a + ((1 + Z.of_nat n * (2 + a)) + 1))) by lia.
      apply bill_tick. replace 0 with (0 + 0) by lia.
      pose proof (within_p_rep n p Hw) as Hwn.
      apply bill_bind; try lia; auto.
      + intro x. cbn [p_bind prog prim prim_by]. within.
      + intro x. replace 0 with (0 + 0) by lia. apply bill_bind; try lia; auto.
        * intro. within.
        * intro. apply (bill_le 1 0 0); try lia; [within|]. apply bill_prim. within.
  Qed.
  Lemma bill_rep_eats {A} n a b (p : priced A) : 0 <= a -> 0 <= b -> within (prog p) -> eats 1 (prog p) -> bill a 0 b p ->
    bill (1 + a) 0 (2 + a + b) (p_rep n p).
  Proof.
    intros Ha Hb Hw He Hp. induction n as [|n IH]; cbn [p_rep].
    - apply (bill_le 1 0 0); try lia; [within|]. apply bill_prim. within.
    - intros s Hs Hr. cbn [tick price prog].
      set (k := fun a0 => p_bind (p_rep n p) (fun r => prim (ret (a0 :: r)))).
      assert (Hwn : within (prog (p_rep n p))) by now apply within_p_rep.
      assert (Hwk : forall x, within (prog (k x))) by (intro; cbn [k p_bind prog prim prim_by]; within).
      assert (Hk : forall x s', inside s' -> remaining_of s' <= N ->
                price (k x) s' <= 2 + a + (2 + a + b) * (M * used (prog (k x) s') s')).
      { intros x s' Hi Hr'. assert (Hb' : bill ((1 + a) + 1) (0 + 0) (2 + a + b) (k x)).
        { apply bill_bind; try lia; auto; [intro; within|]. intro.
          apply (bill_le 1 0 0); try lia; [within|]. apply bill_prim. within. }
        specialize (Hb' s' Hi Hr'). lia. }
      clearbody k. clear IH Hwn.
      pose proof (bind_used p k s Hw Hs) as Hu. specialize (Hp s Hs Hr). specialize (He s).
      pose proof (used_nonneg _ _ Hw Hs) as Hn.
      assert (Hpr : price (p_bind p k) s = price p s + match prog p s with (Ok x, s') => price (k x) s' | _ => 0 end) by reflexivity.
      rewrite Hpr. clear Hpr.
      destruct (prog p s) as [[x|e| | |] s'] eqn:Ep; try (rewrite Hu; nia).
      destruct Hu as (Hi & Hr' & Hle & Hu1 & ->). specialize (He x s' Hs eq_refl).
      specialize (Hk x s' Hi ltac:(lia)).
      pose proof (used_nonneg _ _ (Hwk x) Hi) as Hn2. rewrite Hu1 in *.
      set (U := used (prog (k x) s') s') in *. set (V := d_pos s' - d_pos s) in *.
      assert (M <= M * V) by nia. rewrite Z.mul_add_distr_l. nia.
  Qed.
  Lemma within_p_each {A B} (f : A -> priced B) l : Forall (fun x => within (prog (f x))) l -> within (prog (p_each f l)).
  Proof. intro H. induction H; cbn [p_each tick p_bind prim prim_by prog]; within. Qed.
  Lemma bill_each {A B} a b (f : A -> priced B) l : 0 <= a -> 0 <= b ->
    Forall (fun x => within (prog (f x))) l -> Forall (fun x => bill a 0 b (f x)) l ->
    bill (1 + zlen l * (2 + a)) 0 b (p_each f l).
  Proof.
    intros Ha Hb Hw Hp. induction l as [|x l IH]; cbn [p_each].
    - apply (bill_le 1 0 0); try (unfold zlen; cbn [length]; lia); [within|]. apply bill_prim. within.
    - inversion_clear Hw as [|? ? Hw1 Hw2]. inversion_clear Hp as [|? ? Hp1 Hp2].
      rewrite zlen_cons. replace (1 + (1 + zlen l) * (2 + a)) with (1 + (a + ((1 + zlen l * (2 + a)) + 1))) by lia.
      pose proof (zlen_nonneg l).
      apply bill_tick. replace 0 with (0 + 0) by lia.
      pose proof (within_p_each f l Hw2) as Hwn.
      apply bill_bind; try lia; auto.
      + intro y. cbn [p_bind prog prim prim_by]. within.
      + intro y. replace 0 with (0 + 0) by lia. apply bill_bind; try lia; auto.
        * intro. within.
        * intro. apply (bill_le 1 0 0); try lia; [within|]. apply bill_prim. within.
  Qed.
  Lemma within_p_map kt n pk pv : within (prog pk) -> within (prog pv) -> forall m, within (prog (p_map kt n pk pv m)).
  Proof. intros Hk Hv. induction n; intro m; cbn [p_map tick p_bind prim prim_by prog]; within. Qed.
  Lemma bill_map kt n ak av b pk pv : 0 <= ak -> 0 <= av -> 0 <= b -> within (prog pk) -> within (prog pv) ->
    eats 1 (prog pk) \/ eats 1 (prog pv) -> bill ak 0 b pk -> bill av 0 b pv ->
    forall m, bill (1 + ak + av) 0 (1 + ak + av + b) (p_map kt n pk pv m).
  Proof.
    intros Hak Hav Hb Hwk Hwv He Hk Hv. induction n as [|n IH]; intro m; cbn [p_map].
    - apply (bill_le 1 0 0); try lia; [within|]. apply bill_prim. within.
    - intros s Hs Hr. cbn [tick price prog].
      set (k2 := fun k v => p_map kt n pk pv (map_set kt m k v)).
      set (k1 := fun k => p_bind pv (k2 k)).
      assert (Hw2 : forall k v, within (prog (k2 k v))) by (intros; now apply within_p_map).
      pose proof (bind_used pk k1 s Hwk Hs) as Hu. specialize (Hk s Hs Hr).
      pose proof (used_nonneg _ _ Hwk Hs) as Hn.
      change (price (p_bind pk (fun k => p_bind pv (fun v => p_map kt n pk pv (map_set kt m k v)))) s)
        with (price (p_bind pk k1) s).
      change (prog (p_bind pk (fun k => p_bind pv (fun v => p_map kt n pk pv (map_set kt m k v)))) s)
        with (prog (p_bind pk k1) s).
      assert (Hke : eats 0 (prog pk)) by now apply eats_within.
      assert (Hve : eats 0 (prog pv)) by now apply eats_within.
      assert (Hpr : price (p_bind pk k1) s = price pk s + match prog pk s with (Ok x, s') => price (k1 x) s' | _ => 0 end) by reflexivity.
      rewrite Hpr. clear Hpr.
      destruct (prog pk s) as [[x|e| | |] s'] eqn:Ep;
        try (rewrite Hu; match type of Hn with 0 <= ?u => assert (0 <= M * u) by nia end; nia).
      destruct Hu as (Hi & Hr' & Hle & Hu1 & ->).
      pose proof (bind_used pv (k2 x) s' Hwv Hi) as Hu'. specialize (Hv s' Hi ltac:(lia)).
      pose proof (used_nonneg _ _ Hwv Hi) as Hn'.
      change (prog (k1 x) s') with (prog (p_bind pv (k2 x)) s').
      rewrite Hu1 in *.
      assert (Hpr : price (k1 x) s' = price pv s' + match prog pv s' with (Ok y, s2) => price (k2 x y) s2 | _ => 0 end) by reflexivity.
      rewrite Hpr. clear Hpr.
      destruct (prog pv s') as [[y|e| | |] s2] eqn:Ev;
        try (rewrite Hu'; match type of Hn' with 0 <= ?u => assert (0 <= M * u) by nia end;
             assert (0 <= M * (d_pos s' - d_pos s)) by nia; rewrite Z.mul_add_distr_l; nia).
      destruct Hu' as (Hi2 & Hr2 & Hle2 & Hu2 & ->). rewrite Hu2 in *.
      specialize (IH (map_set kt m x y) s2 Hi2 ltac:(lia)). fold (k2 x y) in IH.
      pose proof (used_nonneg _ _ (Hw2 x y) Hi2) as Hn2.
      assert (Hmv : 1 <= (d_pos s' - d_pos s) + (d_pos s2 - d_pos s')).
      { destruct He as [He|He]; [specialize (He s x s' Hs Ep)|specialize (He s' y s2 Hi Ev)]; lia. }
      set (U := used (prog (k2 x y) s2) s2) in *. set (V := d_pos s' - d_pos s) in *. set (W := d_pos s2 - d_pos s') in *.
      assert (1 <= M * (V + W)) by nia. replace (M * (V + (W + U))) with (M * (V + W) + M * U) by ring. nia.
  Qed.
End Bill.

Lemma room_pos t : 1 <= room t.
Proof.
  induction t as [t IH] using ty_strong_ind. destruct t as [|un w|nm w|f| |sg| | |t|n t|t|t1 t2|fs|c t|]; cbn [room]; try lia.
  - specialize (IH t ltac:(cbn; lia)). nia.
  - assert (H : Forall (fun ht => 1 <= room (snd ht)) fs).
    { apply Forall_forall. intros [h t'] Hin. apply IH. now apply (ty_size_field _ h). }
    clear IH. induction H as [|[h t] fs H1 H2 IH]; cbn [map fold_right snd] in *; lia.
  - apply IH. cbn; lia.
Qed.
Definition fee kc (ht : fhdr * ty) : Z := 3 + 2 * toll kc (snd ht) + if f_exported (fst ht) then 0 else seal (snd ht).
Lemma seal_pos t : 6 <= seal t.
Proof.
  induction t as [t IH] using ty_strong_ind.
  destruct t as [|un w|nm w|f| |sg| | |t|n t|t|t1 t2|fs|c t|]; cbn [seal]; try lia.
  - specialize (IH t ltac:(cbn; lia)). lia.
  - specialize (IH t ltac:(cbn; lia)). nia.
  - pose proof (zlen_nonneg fs). lia.
  - specialize (IH t ltac:(cbn; lia)). lia.
Qed.
Lemma fee_le kc ht : 3 + 2 * toll kc (snd ht) <= fee kc ht.
Proof. unfold fee. pose proof (seal_pos (snd ht)). destruct (f_exported (fst ht)); lia. Qed.
Lemma toll_struct kc fs : toll kc (TStruct fs) =
  fold_right Z.add 0 (map (fee kc) fs) + 2 * room (TStruct fs) + 9.
Proof.
  cbn [toll]. f_equal. f_equal. f_equal. apply map_ext. now intros [h t].
Qed.
Lemma toll_pos kc t : (forall c, 0 <= kc c) -> 8 <= toll kc t.
Proof.
  intro Hk. induction t as [t IH] using ty_strong_ind. pose proof (room_pos t) as Hr.
  destruct t as [|un w|nm w|f| |sg| | |t|n t|t|t1 t2|fs|c t|]; try (cbn [toll]; lia).
  - specialize (IH t ltac:(cbn; lia)). pose proof (room_pos t). cbn [toll]. lia.
  - specialize (IH t ltac:(cbn; lia)). cbn [toll]. nia.
  - specialize (IH t ltac:(cbn; lia)). pose proof (room_pos t). cbn [toll]. lia.
  - pose proof (IH t1 ltac:(cbn; lia)). pose proof (IH t2 ltac:(cbn; lia)). pose proof (room_pos t1). pose proof (room_pos t2).
    cbn [toll]. lia.
  - rewrite toll_struct.
    assert (H : 0 <= fold_right Z.add 0 (map (fee kc) fs)).
    { assert (H : Forall (fun ht => 8 <= toll kc (snd ht)) fs).
      { apply Forall_forall. intros [h t'] Hin. apply IH. now apply (ty_size_field _ h). }
      clear IH Hr. induction H as [|ht fs H1 H2 IH]; cbn [map fold_right] in *; [lia|]. pose proof (fee_le kc ht). lia. }
    lia.
  - specialize (IH t ltac:(cbn; lia)). pose proof (room_pos t). specialize (Hk c). cbn [toll room] in *. destruct (c_unmarshal c); lia.
Qed.

Lemma toll_room kc t : (forall c, 0 <= kc c) -> room t + 4 <= toll kc t.
Proof.
  intro Hk. pose proof (toll_pos kc t Hk) as Hp. pose proof (room_pos t) as Hr.
  destruct t as [|un w|nm w|f| |sg| | |t|n t|t|t1 t2|fs|c t|]; try (cbn [room] in *; lia).
  - pose proof (toll_pos kc t Hk). cbn [toll] in *. nia.
  - rewrite toll_struct in *.
    assert (H : 0 <= fold_right Z.add 0 (map (fee kc) fs)).
    { clear Hp Hr. induction fs as [|ht fs IH]; cbn [map fold_right]; [lia|]. pose proof (toll_pos kc (snd ht) Hk). pose proof (fee_le kc ht). lia. }
    lia.
  - cbn [toll room] in *. specialize (Hk c) as Hkc. pose proof (toll_pos kc t Hk). destruct (c_unmarshal c); lia.
Qed.

Lemma within_pdec cc E t m v : all_codecs codec_within t -> within (prog (pdec cc E t m v)).
Proof. intro H. eapply within_same; [apply same_dec|]. now apply within_dec_val. Qed.
Lemma eats_pdec cc E t : all_codecs codec_within t -> solid E t ->
  eats 1 (prog (pdec cc E t (DStart opt0) (zero_val t))).
Proof.
  intros Hc Hs. eapply eats_same; [apply same_dec|]. apply eats_start; auto; [now apply eats_dec_val|apply fits_zero].
Qed.

Lemma sizeof_eats cc kc E t : all_codecs codec_within t -> all_codecs (codec_cheap cc kc) t ->
  forall m v s x s', fits t v -> inside s -> dec_val E t m v s = (Ok x, s') -> sizeof_val t x <> None ->
  d_pos s < d_pos s'.
Proof.
  induction t as [t IH] using ty_strong_ind. intros Hw Hc.
  assert (Hwalk : forall o pend v s x s', fits t v -> inside s -> dec_val E t (DWalk o pend) v s = (Ok x, s') ->
            sizeof_val t x <> None -> d_pos s < d_pos s').
  { intros o pend v s x s' Hv Hs Hd Hz.
    destruct t as [|un w|nm w|f| |sg| | |t|n t|t|t1 t2|fs|c t|]; try solve [now destruct x].
    - assert (He : eats 1 (dec_val E (TUint un w) (DWalk o pend) v)) by (apply eats_dec_val; cbn; auto).
      specialize (He s x s' Hs Hd). lia.
    - assert (He : eats 1 (dec_val E (TInt nm w) (DWalk o pend) v)) by (apply eats_dec_val; cbn; auto).
      specialize (He s x s' Hs Hd). lia.
    - assert (He : eats 1 (dec_val E (TNative sg) (DWalk o pend) v)) by (apply eats_dec_val; cbn; auto).
      specialize (He s x s' Hs Hd). lia.
    - rewrite dec_walk_eq in Hd. destruct Hw as [_ Hw]. destruct Hc as [Hc1 Hc].
      destruct (c_unmarshal c) as [f|] eqn:Ef.
      + destruct pend; [discriminate|]. destruct (Hc1 f Ef) as [_ H]. eapply H; eauto.
      + eapply (IH t); eauto. }
  intros [o|o|o pend] v s x s' Hv Hs Hd Hz; [|pose proof (eats_null E o t Hw v s x s' Hs Hd); lia|eapply Hwalk; eauto].
  rewrite dec_start_eq in Hd. unfold bind, d_set_cur in Hd.
  destruct (o_opt o || _).
  - pose proof (eats_null E o t Hw v _ x s' (Hs : inside (mkD (d_data s) (d_pos s) _ (d_enc s))) Hd) as H. cbn [d_pos] in H. lia.
  - eapply Hwalk in Hd; auto.
Qed.

(** The bills of a type. *)
Definition sized (o : fopt) (c : Z) : Z := match o_size o with Some _ => c | None => 0 end.
Definition gauge (strict : bool) (N M : Z) : Prop := 1 <= M /\ (strict = false -> M = N + 1).
Definition billed cc kc E strict t : Prop :=
  forall N M, gauge strict N M -> forall m v, fits t v ->
  bill N M (toll kc t) (sized (mode_opt m) (toll kc t)) (toll kc t) (pdec cc E t m v).
Lemma sized_le o c c' : 0 <= c <= c' -> 0 <= sized o c <= sized o c'.
Proof. unfold sized. destruct (o_size o); lia. Qed.

Section Steps.
  Variables N M : Z.
  Hypothesis HM : 1 <= M.
  Notation bill := (bill N M).

  Lemma bill_pend pend t a c b p : 0 <= a -> 0 <= c -> 0 <= b -> within (prog p) -> bill a c b p ->
    bill (2 + room t + a) c b (p_pend pend t p).
  Proof.
    intros Ha Hc Hb Hw Hp. pose proof (room_pos t). unfold p_pend. destruct pend.
    - replace (2 + room t + a) with (1 + (1 + room t + a)) by lia. replace c with (0 + c) by lia.
      apply bill_bind; try lia; try within.
      + intros [|]; within.
      + apply (bill_le N M HM 1 0 0); try lia; [within|]. apply bill_prim. within.
      + intros [|]; [apply (bill_le N M HM a c b); auto; lia|].
        apply (bill_le N M HM (room t + 1) 0 0); try lia; [within|]. apply bill_tick, bill_prim. within.
    - apply (bill_le N M HM a c b); auto; lia.
  Qed.
  Lemma bill_const {A} a c b (m : DM A) : 1 <= a -> 0 <= c -> 0 <= b -> within m -> bill a c b (prim m).
  Proof. intros. apply (bill_le N M HM 1 0 0); try lia; auto. now apply bill_prim. Qed.
  Lemma bill_remaining {A} a c b (k : Z -> priced A) : 0 <= a -> 0 <= b -> (forall r, r <= N -> bill a c b (k r)) ->
    bill (1 + a) c b (p_bind (prim d_remaining) k).
  Proof.
    intros Ha Hb H s Hs Hr. specialize (H (remaining_of s) Hr s Hs Hr).
    cbn [p_bind prim prim_by price prog]. unfold d_remaining, bind. lia.
  Qed.
  Lemma bill_codec cc c u f K v : c_unmarshal c = Some f -> fits u v -> 0 <= K ->
    (forall v, within (f v)) ->
    (forall v s, inside s -> fits u v -> cc c v s <= K * (1 + used (f v s) s)) ->
    bill (1 + K) 0 K (p_codec cc c f v).
  Proof.
    intros Hf Hv HK Hw H s Hs Hr. specialize (H v s Hs Hv). cbn [p_codec price prog].
    pose proof (used_nonneg _ _ (Hw v) Hs). nia.
  Qed.
End Steps.

(** A method called for a field of a Borsh struct. *)
Lemma bill_unmarshaler cc kc t p N M : (forall c, 0 <= kc c) -> 1 <= M ->
  all_codecs codec_within t -> all_codecs (codec_cheap cc kc) t -> p_field_unmarshaler cc t = Some p ->
  within (prog p) /\ bill N M (toll kc t) 0 (toll kc t) p.
Proof.
  intros Hk HM.
  assert (H : forall c u f, all_codecs codec_within (TCodec c u) -> all_codecs (codec_cheap cc kc) (TCodec c u) ->
    c_unmarshal c = Some f -> within (f (zero_val u)) /\ bill N M (1 + kc c) 0 (kc c) (p_codec cc c f (zero_val u))).
  { intros c u f [Hw _] [Hc _] Hf. destruct (Hc f Hf) as [H _].
    split; [now apply Hw|]. eapply bill_codec; eauto. apply fits_zero. }
  intros Hw Hc Hp.
  destruct t as [|un w|nm w|f| |sg| | |t|n t|t|t1 t2|fs|c t|]; try discriminate.
  - destruct t; try discriminate. cbn [p_field_unmarshaler] in *. cbn [toll].
    destruct (c_unmarshal c) as [f|] eqn:Ef; [|discriminate]. destruct (H c t f Hw Hc Ef) as [Hw' Hb'].
    assert (Hwp : within (prog p)) by (injection Hp as <-; cbn [tick p_fmap p_codec prog]; within).
    split; [exact Hwp|]. pose proof (room_pos t). pose proof (room_pos (TCodec c t)). specialize (Hk c).
    apply (bill_le N M HM (room t + (1 + kc c)) 0 (kc c)); try lia; [exact Hwp|].
    injection Hp as <-. apply bill_tick, bill_fmap. exact Hb'.
  - cbn [p_field_unmarshaler] in *. cbn [toll].
    destruct (c_unmarshal c) as [f|] eqn:Ef; [|discriminate]. destruct (H c t f Hw Hc Ef) as [Hw' Hb'].
    assert (Hwp : within (prog p)) by (injection Hp as <-; cbn [tick p_fmap p_codec prog]; within).
    split; [exact Hwp|]. pose proof (room_pos t). specialize (Hk c).
    apply (bill_le N M HM (room t + (1 + kc c)) 0 (kc c)); try lia; [exact Hwp|].
    injection Hp as <-. apply bill_tick. exact Hb'.
Qed.

Lemma within_p_fields cc E fs : Forall (fun ht => all_codecs codec_within (snd ht)) fs -> forall ps sizes seen,
  within (prog (p_fields cc E (fun t' o' v' => pdec cc E t' (DStart o') v') fs ps sizes seen)).
Proof.
  intros H ps sizes seen. eapply within_same; [apply (same_fields cc E _ (fun t' o' v' => dec_val E t' (DStart o') v'))|].
  - apply Forall_forall. intros ht Hin o v. apply same_dec.
  - apply within_dec_fields. eapply Forall_impl; [|exact H]. cbn beta. intros ht Ht. split; [exact Ht|].
    intros. now apply within_dec_val.
Qed.

Definition tolls kc (fs : list (fhdr * ty)) : Z := fold_right Z.add 0 (map (fee kc) fs).
Lemma tolls_nonneg kc fs : (forall c, 0 <= kc c) -> 0 <= tolls kc fs.
Proof.
  intro Hk. unfold tolls. induction fs as [|ht fs IH]; cbn [map fold_right]; [lia|]. pose proof (toll_pos kc (snd ht) Hk). pose proof (fee_le kc ht). lia.
Qed.

Definition csum kc (fs : list (fhdr * ty)) : Z := fold_right Z.add 0 (map (fun ht => toll kc (snd ht)) fs).
Lemma csum_nonneg kc fs : (forall c, 0 <= kc c) -> 0 <= csum kc fs /\ 2 * csum kc fs <= tolls kc fs.
Proof.
  intro Hk. unfold csum, tolls. induction fs as [|ht fs IH]; cbn [map fold_right]; [lia|]. pose proof (toll_pos kc (snd ht) Hk). pose proof (fee_le kc ht). lia.
Qed.

(** While no length has come up, nothing is proportional to [M]; the field that
    brings one up takes a byte. *)
Lemma bill_fields cc kc E strict fs B : (forall c, 0 <= kc c) ->
  Forall (fun ht => all_codecs codec_within (snd ht) /\ all_codecs (codec_cheap cc kc) (snd ht) /\
                    billed cc kc E strict (snd ht) /\ toll kc (snd ht) <= B) fs -> 0 <= B ->
  forall N M, gauge strict N M ->
    forall ps sizes seen, fits_fields fits fs ps ->
    bill N M (1 + tolls kc fs) (match sizes with [] => 0 | _ => csum kc fs end) (match sizes with [] => B + csum kc fs | _ => B end)
      (p_fields cc E (fun t' o' v' => pdec cc E t' (DStart o') v') fs ps sizes seen).
Proof.
  intros Hk HF HB. induction HF as [|[h t] fs (Hw & Hc & H1 & Ht) HF IH]; intros N M HG [|p ps] sizes seen Hv; try destruct Hv.
  - pose proof HG as [HM _]. cbn [p_fields]. apply bill_const; try (unfold tolls, csum; destruct sizes; cbn [map fold_right]; lia); within.
  - rename H into Hv1, H0 into Hv2. cbn [snd] in *.
    pose proof HG as [HM _].
    assert (HTe : 3 + 2 * toll kc t + tolls kc fs <= tolls kc ((h, t) :: fs))
      by (change (tolls kc ((h, t) :: fs)) with (fee kc (h, t) + tolls kc fs); pose proof (fee_le kc (h, t)); cbn [snd] in *; lia).
    match goal with |- bill _ _ _ ?c ?b _ =>
      apply (bill_le N M HM (1 + (3 + 2 * toll kc t + tolls kc fs)) c b); [|lia|lia|lia|] end.
    { apply within_p_fields. constructor; [exact Hw|]. eapply Forall_impl; [|exact HF]. now intros ht (? & _). }
    clear HTe. cbn [p_fields]. cbv zeta. set (tg := parse_field_tag (f_tag h)).
    pose proof (tolls_nonneg kc fs Hk) as HT. pose proof (toll_pos kc t Hk) as Htp.
    assert (HCe : csum kc ((h, t) :: fs) = toll kc t + csum kc fs) by reflexivity. rewrite HCe.
    pose proof (csum_nonneg kc fs Hk) as [HC1 HC2].
    set (T := toll kc t) in *. set (Ts := tolls kc fs) in *. set (Cs := csum kc fs) in *.
    assert (HWF : Forall (fun ht => all_codecs codec_within (snd ht)) fs).
    { eapply Forall_impl; [|exact HF]. now intros ht (? & _). }
    pose proof (within_p_fields cc E fs HWF) as Hwf.
    set (rec := fun t' o' v' => pdec cc E t' (DStart o') v') in *.
    set (C := match sizes with [] => 0 | _ => T + Cs end).
    set (D := match sizes with [] => B + (T + Cs) | _ => B end).
    assert (HCD : 0 <= C /\ B <= D) by (subst C D; destruct sizes; lia).
    assert (Hkeep : forall x sn, bill N M (1 + Ts) (match sizes with [] => 0 | _ => Cs end) D
              (p_fmap (cons x) (p_fields cc E rec fs ps sizes sn))).
    { intros x sn. apply bill_fmap. specialize (IH N M HG ps sizes sn Hv2).
      eapply bill_le; [exact HM|apply Hwf|..|exact IH]; subst C D; destruct sizes; lia. }
    assert (Hkeep' : forall x sn, bill N M (1 + Ts) C D (p_fmap (cons x) (p_fields cc E rec fs ps sizes sn))).
    { intros x sn. eapply bill_le; [exact HM|apply within_fmap, Hwf|..|apply Hkeep]; subst C; destruct sizes; lia. }
    apply bill_tick.
    destruct (ft_skip tg).
    { eapply bill_le; [exact HM|apply within_fmap, Hwf|..|apply Hkeep']; lia. }
    destruct (negb (ft_ext tg) && seen); [apply bill_const; try lia; within|].
    match goal with |- bill _ _ _ _ _ (if ft_ext tg then _ else ?bd) => set (body := bd) end.
    assert (Hbody : within (prog body) /\ bill N M (2 + T + Ts) C D body).
    { unfold body. destruct (negb (f_exported h)).
      - split; [apply within_fmap, Hwf|].
        eapply bill_le; [exact HM|apply within_fmap, Hwf|..|apply Hkeep']; lia.
      - assert (Hown : forall p0, p_field_unmarshaler cc t = Some p0 ->
          within (prog (p_bind p0 (fun x => p_fmap (cons x) (p_fields cc E rec fs ps sizes (seen || ft_ext tg))))) /\
          bill N M (2 + T + Ts) C D (p_bind p0 (fun x => p_fmap (cons x) (p_fields cc E rec fs ps sizes (seen || ft_ext tg))))).
        { intros p0 Ep. destruct (bill_unmarshaler cc kc t p0 N M Hk HM Hw Hc Ep) as [Hwp Hbp]. specialize (Hwf ps sizes (seen || ft_ext tg)).
          split; [cbn [p_bind p_fmap prog]; within|].
          apply (bill_le N M HM (T + (1 + Ts)) (0 + C) D); try lia; [cbn [p_bind p_fmap prog]; within|].
          apply bill_bind; try lia; auto.
          - intro. cbn [p_fmap prog]. within.
          - eapply bill_le; [exact HM|exact Hwp|..|exact Hbp]; lia. }
        assert (Hrec : forall q, q = p_bind (p_map_err EWrap (rec t (field_opt E tg (f_name h) sizes) p)) (fun x =>
               if String.eqb (ft_sizeof tg) "" then p_fmap (cons x) (p_fields cc E rec fs ps sizes (seen || ft_ext tg))
               else match sizeof_val t x with
                    | None => prim panic
                    | Some n => p_fmap (cons x) (p_fields cc E rec fs ps ((ft_sizeof tg, n) :: sizes) (seen || ft_ext tg))
                    end) -> within (prog q) /\ bill N M (2 + T + Ts) C D q).
        { intros q ->. pose proof (within_pdec cc E t (DStart (field_opt E tg (f_name h) sizes)) p Hw) as Hwr.
          assert (Hwk : forall x, within (prog
              (if String.eqb (ft_sizeof tg) "" then p_fmap (cons x) (p_fields cc E rec fs ps sizes (seen || ft_ext tg))
               else match sizeof_val t x with
                    | None => prim panic
                    | Some n => p_fmap (cons x) (p_fields cc E rec fs ps ((ft_sizeof tg, n) :: sizes) (seen || ft_ext tg))
                    end))).
          { intro x. destruct (String.eqb _ _); [|destruct (sizeof_val t x); [|cbn; within]];
              cbn [p_fmap prog]; apply within_fmap, Hwf. }
          assert (Hwq : within (prog (p_bind (p_map_err EWrap (rec t (field_opt E tg (f_name h) sizes) p)) (fun x =>
               if String.eqb (ft_sizeof tg) "" then p_fmap (cons x) (p_fields cc E rec fs ps sizes (seen || ft_ext tg))
               else match sizeof_val t x with
                    | None => prim panic
                    | Some n => p_fmap (cons x) (p_fields cc E rec fs ps ((ft_sizeof tg, n) :: sizes) (seen || ft_ext tg))
                    end)))) by (cbn [p_bind p_map_err prog]; apply within_bind; [unfold rec; within|exact Hwk]).
          split; [exact Hwq|].
          assert (Hp : bill N M T (match sizes with [] => 0 | _ => T end) B (p_map_err EWrap (rec t (field_opt E tg (f_name h) sizes) p))).
          { apply bill_map_err. eapply bill_le; [exact HM|exact Hwr|..|apply (H1 N M HG (DStart (field_opt E tg (f_name h) sizes)) p Hv1)]; try lia.
            cbn [mode_opt]. unfold sized. cbn [field_opt o_size]. fold T. destruct sizes; [cbn [sm_get]; lia|]. destruct (sm_get _ _); lia. }
          assert (Hwp : within (prog (p_map_err EWrap (rec t (field_opt E tg (f_name h) sizes) p)))) by (cbn [p_map_err prog]; unfold rec; within).
          destruct (String.eqb (ft_sizeof tg) "") eqn:Esz.
          - apply (bill_le N M HM (T + (1 + Ts)) (match sizes with [] => 0 | _ => T end + match sizes with [] => 0 | _ => Cs end) D);
              try lia; [exact Hwq|subst C; destruct sizes; lia|].
            apply bill_bind; try lia; auto; [destruct sizes; lia|]. eapply bill_le; [exact HM|exact Hwp|..|exact Hp]; lia.
          - destruct sizes as [|sz sizes].
            + apply (bill_le N M HM (T + (1 + Ts)) 0 (B + Cs)); try (subst C D; lia); [exact Hwq|].
              apply bill_bind_or; try lia; auto.
              intros s x s' Hs Hx. destruct (sizeof_val t x) eqn:Ez; [|left; apply bill_const; try lia; within].
              right. split; [apply bill_fmap; apply (IH N M HG ps ((ft_sizeof tg, z) :: []) _ Hv2)|].
              cbn [p_map_err prog] in Hx. unfold map_err in Hx. unfold rec in Hx. rewrite same_dec in Hx.
              destruct (dec_val E t (DStart (field_opt E tg (f_name h) [])) p s) as [[y|e| | |] s1] eqn:Ed; try discriminate.
              assert (y = x /\ s1 = s') as [-> ->] by (split; congruence).
              eapply (sizeof_eats cc kc) in Ed; eauto. congruence.
            + apply (bill_le N M HM (T + (1 + Ts)) (T + Cs) B); try (subst C D; lia); [exact Hwq|].
              apply bill_bind; try lia; auto.
              intros x. destruct (sizeof_val t x) eqn:Ez; [|apply bill_const; try lia; within].
              apply bill_fmap; apply (IH N M HG ps ((ft_sizeof tg, z) :: sz :: sizes) _ Hv2). }
        destruct (is_borsh E); [|now apply Hrec]. destruct (p_field_unmarshaler cc t); [now apply Hown|now apply Hrec]. }
    destruct Hbody as [Hwb Hbb].
    destruct (ft_ext tg).
    + apply (bill_le N M HM (1 + (2 + T + Ts)) (0 + C) D); try lia.
      { cbn [p_bind prim prim_by prog]. apply within_bind; [within|]. intros [|z l]; [|exact Hwb]. cbn [p_fmap prog]. apply within_fmap, Hwf. }
      apply bill_bind; try lia; auto; [within| |apply bill_const; try lia; within|].
      * intros [|z l]; [|exact Hwb]. cbn [p_fmap prog]. apply within_fmap, Hwf.
      * intros [|z l]; [|exact Hbb]. eapply bill_le; [exact HM|apply within_fmap, Hwf|..|apply Hkeep']; lia.
    + eapply bill_le; [exact HM|exact Hwb|..|exact Hbb]; lia.
Qed.

Lemma within_p_variant cc E fs : Forall (fun ht => all_codecs codec_within (snd ht)) fs -> forall ps n,
  within (prog (p_variant (fun t' o' v' => pdec cc E t' (DStart o') v') fs ps n)).
Proof.
  intros H ps n. eapply within_same; [apply (same_variant _ (fun t' o' v' => dec_val E t' (DStart o') v'))|].
  - apply Forall_forall. intros ht Hin o v. apply same_dec.
  - apply within_dec_variant. eapply Forall_impl; [|exact H]. cbn beta. intros. now apply within_dec_val.
Qed.
Lemma bill_sealed t N M : 1 <= M -> forall v, fits t v ->
  within (prog (p_sealed t v)) /\ bill N M (seal t) 0 1 (p_sealed t v).
Proof.
  intro HM. induction t as [t IH] using ty_strong_ind. intros v Hv.
  assert (Hw : within (prog (p_sealed t v))) by (eapply within_same; [apply same_sealed|apply within_sealed]).
  split; [exact Hw|]. pose proof (seal_pos t) as Hp.
  destruct t as [|un w|nm w|f| |sg| | |t|n t|t|t1 t2|fs|c t|]; cbn [p_sealed seal] in *;
    try solve [clear IH; apply bill_const; [exact HM|lia|lia|lia|apply within_sealed]].
  - apply (bill_le N M HM (1 + 1) (0 + 0) 1); try lia; [exact Hw|]. apply bill_bind; try lia; [within|intro; within| |].
    + apply bill_gives; [exact HM|within|apply (gives_str Borsh)].
    + intros _. apply bill_const; try lia; within.
  - destruct Hv as (o & -> & Hv). destruct o as [x|]; [|apply bill_const; try lia; within].
    apply bill_tick. apply IH; [cbn; lia|]. now apply Hv.
  - destruct (uint_kind t) eqn:Ek.
    + apply (bill_le N M HM (1 + 1) (0 + 0) 1); try lia; [exact Hw|].
      assert (Hr : within (match n with O => if plain_uint t then panic else ret tt | S _ => panic end : DM unit))
        by (destruct n; [destruct (plain_uint t)|]; clear IH; within).
      apply bill_bind; try lia; [clear IH; within|intro; exact Hr| |].
      * apply bill_gives; [exact HM|clear IH; within|apply gives_uints].
      * intros _. apply bill_const; try lia. exact Hr.
    + destruct Hv as (ps & -> & Hl & Hps). pose proof (seal_pos t) as Hs. rewrite <- Hl. fold (zlen ps). pose proof (zlen_nonneg ps).
      apply (bill_le N M HM ((1 + zlen ps * (2 + (1 + seal t))) + 1) (0 + 0) 1); try lia; [exact Hw|].
      assert (He : Forall (fun x => within (prog (p_sealed t x)) /\ bill N M (seal t) 0 1 (p_sealed t x)) ps).
      { eapply Forall_impl; [|exact Hps]. intros x Hx. apply IH; [cbn; lia|exact Hx]. }
      assert (Hwe : Forall (fun x => within (prog (p_bind (prim (d_set_cur LE)) (fun _ => p_sealed t x)))) ps).
      { eapply Forall_impl; [|exact He]. cbn beta. intros x [Hx _]. clear IH. cbn [p_bind prog prim prim_by]. within. }
      apply bill_bind; try lia; [now apply within_p_each|intro; clear IH; within| |].
      * apply bill_each; try lia; [exact Hwe|]. eapply Forall_impl; [|exact He]. cbn beta. intros x [Hx Hb].
        replace 0 with (0 + 0) by lia. apply bill_bind; try lia; [clear IH; within|intro; exact Hx| |intro; exact Hb].
        apply bill_const; try lia. clear IH; within.
      * intros _. apply bill_const; try lia. clear IH; within.
  - clear IH. apply (bill_le N M HM (1 + (1 + (1 + 1))) (0 + (0 + (0 + 0))) 1); try lia; [exact Hw|].
    assert (H1 : forall l r, within (prog (if r <? l then prim (fail EUnexpectedEOF)
        else match uint_kind t with
             | Some w => p_bind (prim_by zlen (read_uints w l)) (fun _ => prim panic)
             | None => prim panic
             end : priced unit))).
    { intros l r. destruct (r <? l); [within|]. destruct (uint_kind t); cbn [p_bind prog prim prim_by]; within. }
    apply bill_bind; try lia; [within|..].
    + intro l. destruct (l =? 0); [within|]. cbn [p_bind prog]. apply within_bind; [within|intro; apply H1].
    + apply bill_const; try lia; within.
    + intro l. destruct (l =? 0); [apply bill_const; try lia; within|].
      apply bill_bind; try lia; [within|intro; apply H1|apply bill_const; try lia; within|].
      intro r. specialize (H1 l r). destruct (r <? l); [apply bill_const; try lia; within|].
      destruct (uint_kind t); [|apply bill_const; try lia; within].
      apply bill_bind; try lia; [within|intro; within| |].
      * apply bill_gives; [exact HM|within|apply gives_uints].
      * intros _. apply bill_const; try lia; within.
  - clear IH. apply (bill_le N M HM (1 + 1) (0 + 0) 1); try lia; [exact Hw|].
    apply bill_bind; try lia; [within|..].
    + intro l. destruct (l =? 0); within.
    + apply bill_const; try lia; within.
    + intro l. destruct (l =? 0); apply bill_const; try lia; within.
  - clear IH. replace (6 + zlen fs) with (zlen fs + 6) by lia. apply bill_tick. apply bill_const; try lia. apply (within_sealed (TStruct fs) v).
  - apply bill_tick. apply IH; [cbn; lia|]. exact Hv.
Qed.
Lemma bill_variant cc kc E strict fs : (forall c, 0 <= kc c) ->
  Forall (fun ht => all_codecs codec_within (snd ht) /\ billed cc kc E strict (snd ht)) fs ->
  forall N M, gauge strict N M ->
    forall ps n, fits_fields fits fs ps ->
    bill N M (1 + tolls kc fs) 0 (tolls kc fs) (p_variant (fun t' o' v' => pdec cc E t' (DStart o') v') fs ps n).
Proof.
  intros Hk HF. induction HF as [|[h t] fs (Hw & H1) HF IH]; intros N M HG [|p ps] n Hv; try destruct Hv.
  - pose proof HG as [HM _]. cbn [p_variant]. apply bill_const; try (unfold tolls; cbn [map fold_right]; lia); within.
  - rename H into Hv1, H0 into Hv2. cbn [snd] in *. pose proof HG as [HM _].
    assert (HWF : Forall (fun ht => all_codecs codec_within (snd ht)) fs).
    { eapply Forall_impl; [|exact HF]. now intros ht (? & _). }
    pose proof (tolls_nonneg kc fs Hk) as HT. pose proof (toll_pos kc t Hk) as Htp.
    assert (HTe : tolls kc ((h, t) :: fs) = 3 + 2 * toll kc t + (if f_exported h then 0 else seal t) + tolls kc fs) by reflexivity.
    rewrite HTe. set (T := toll kc t) in *. set (Ts := tolls kc fs) in *. pose proof (seal_pos t) as Hsp.
    pose proof (within_p_variant cc E fs HWF) as Hwf. cbn [p_variant].
    destruct n as [|n].
    + destruct (f_exported h); cbn [negb].
      2: { destruct (bill_sealed t N M HM p Hv1) as [Hws Hbs].
           apply (bill_le N M HM (1 + (seal t + 1)) (0 + (0 + 0)) 1); try lia; [cbn [p_bind prog prim prim_by]; within|].
           apply bill_bind; try lia; [within|intro; cbn [p_bind prog prim prim_by]; within|apply bill_const; try lia; within|].
           intros _. apply bill_bind; try lia; [exact Hws|intro; within|exact Hbs|intros _; apply bill_const; try lia; within]. }
      pose proof (within_pdec cc E t (DStart opt0) p Hw) as Hwr.
      apply (bill_le N M HM (T + 1) (0 + 0) T); try lia; [cbn [p_bind prog]; within|].
      apply bill_bind; try lia; auto; [intro; within| |intro; apply bill_const; try lia; within].
      exact (H1 N M HG (DStart opt0) p Hv1).
    + eapply bill_le; [exact HM|apply within_fmap, Hwf|..|apply bill_fmap; apply (IH N M HG _ _ Hv2)]; destruct (f_exported h); lia.
Qed.

(** Elements of a slice. *)
Lemma bill_slice cc kc E strict t : (forall c, 0 <= kc c) ->
  all_codecs codec_within t -> (strict = true -> uint_kind t = None -> solid E t) ->
  billed cc kc E strict t -> forall N M, gauge strict N M -> forall l v,
  within (prog (p_slice cc E t l v)) /\
  bill N M (3 + room t + toll kc t) (2 + room t + toll kc t) (2 + room t + 2 * toll kc t) (p_slice cc E t l v).
Proof.
  intros Hk Hw Hs H N M [HM HN] l v. pose proof (room_pos t) as Hr. pose proof (toll_pos kc t Hk) as Ha. pose proof Ha as Hb. unfold p_slice.
  specialize (H N M (conj HM HN) (DStart opt0) (zero_val t) (fits_zero t)). cbn [mode_opt] in H. unfold sized in H. cbn [opt0 o_size] in H.
  set (a := toll kc t) in *. set (b := a) in H at 2.
  pose proof (within_pdec cc E t (DStart opt0) (zero_val t) Hw) as Hwt.
  assert (Hwrep : within (prog (p_rep (Z.to_nat l) (tick (room t) (pdec cc E t (DStart opt0) (zero_val t)))))) by now apply within_p_rep.
  assert (Hwb : forall r, within (prog (if r <? l then prim (fail EUnexpectedEOF)
        else match uint_kind t with
             | Some w => p_fmap (fun zs => VSlice (Some (map VNum zs))) (prim_by zlen (read_uints w l))
             | None => p_fmap (fun vs => VSlice (Some vs)) (p_rep (Z.to_nat l) (tick (room t) (pdec cc E t (DStart opt0) (zero_val t))))
             end))).
  { intro r. destruct (r <? l); [within|]. destruct (uint_kind t); cbn [p_fmap prim_by prog]; within. }
  destruct (is_borsh E && (l =? 0)); [split; [within|]; apply bill_const; try lia; within|].
  split; [cbn [p_bind prim prim_by prog]; apply within_bind; [within|exact Hwb]|].
  replace (3 + room t + a) with (1 + (2 + room t + a)) by lia.
  apply bill_remaining; try lia. intros r HrN. specialize (Hwb r). destruct (r <? l) eqn:Erl; [apply bill_const; try lia; within|].
  destruct (uint_kind t) as [w|] eqn:Eu.
  { apply bill_fmap. apply (bill_le N M HM 1 0 1); try lia; [exact (within_read_uints w l)|]. apply bill_gives; [exact HM|within|apply gives_uints]. }
  apply bill_fmap.
  destruct strict.
  - assert (He : eats 1 (prog (tick (room t) (pdec cc E t (DStart opt0) (zero_val t))))) by (cbn [tick prog]; apply eats_pdec; auto).
    apply (bill_le N M HM (1 + (room t + a)) 0 (2 + (room t + a) + b)); try lia; [exact Hwrep|].
    apply bill_rep_eats; auto; try lia. now apply bill_tick.
  - specialize (HN eq_refl).
    assert (Hbr : bill N M (1 + Z.of_nat (Z.to_nat l) * (2 + (room t + a))) 0 b
              (p_rep (Z.to_nat l) (tick (room t) (pdec cc E t (DStart opt0) (zero_val t))))).
    { apply bill_rep; auto; try lia. now apply bill_tick. }
    intros s Hi Hre. specialize (Hbr s Hi Hre). pose proof (used_nonneg _ _ Hwrep Hi) as Hn.
    set (u := used (prog (p_rep (Z.to_nat l) (tick (room t) (pdec cc E t (DStart opt0) (zero_val t)))) s) s) in *.
    assert (Z.of_nat (Z.to_nat l) <= M) by lia. assert (0 <= M * u) by nia. nia.
Qed.

Lemma fits_pointee t v : fits (TPtr t) v -> fits t (pointee t v).
Proof. exact (fits_deref t v). Qed.

Lemma billed_dec cc kc E strict t : (forall c, 0 <= kc c) ->
  fed E strict t -> all_codecs codec_within t -> all_codecs (codec_cheap cc kc) t -> billed cc kc E strict t.
Proof.
  intro Hk. induction t as [t IH] using ty_strong_ind. intros Hf Hw Hc N M HG. pose proof HG as [HM _].
  assert (Hwt : forall m v, within (prog (pdec cc E t m v))) by (intros; now apply within_pdec).
  pose proof (room_pos t) as Hroom. pose proof (toll_pos kc t Hk) as Htoll. pose proof (toll_room kc t Hk) as Htr.
  set (T := toll kc t) in *.
  (* walking *)
  assert (Hwalk : forall o pend v, fits t v -> bill N M (T - room t - 3) (sized o T) T (pdec cc E t (DWalk o pend) v)).
  { assert (Hpend : forall a b o pend v core, 0 <= a <= T - 2 * room t - 5 -> 0 <= b <= T -> within (prog core) ->
       pdec cc E t (DWalk o pend) v = p_pend pend t core ->
       bill N M a 0 b core -> bill N M (T - room t - 3) (sized o T) T (pdec cc E t (DWalk o pend) v)).
    { intros a b o pend v core Ha Hb Hwc Heq Hcore. pose proof (Hwt (DWalk o pend) v) as Hwv. rewrite Heq in *.
      pose proof (sized_le o 0 T ltac:(lia)). assert (sized o 0 = 0) by (unfold sized; now destruct (o_size o)).
      apply (bill_le N M HM (2 + room t + a) 0 b); try lia; [exact Hwv|]. apply bill_pend; auto; lia. }
    assert (Hprim : forall o pend v m, 2 * room t + 6 <= T -> within m ->
       pdec cc E t (DWalk o pend) v = p_pend pend t (prim m) ->
       bill N M (T - room t - 3) (sized o T) T (pdec cc E t (DWalk o pend) v)).
    { intros o pend v m Hle Hm Heq. apply (Hpend 1 0 o pend v (prim m)); try lia; auto. now apply bill_prim. }
    assert (Hbulk : forall o pend v (m : DM (list Z)) (f : list Z -> val), 2 * room t + 6 <= T -> within m -> gives m ->
       pdec cc E t (DWalk o pend) v = p_pend pend t (p_fmap f (prim_by zlen m)) ->
       bill N M (T - room t - 3) (sized o T) T (pdec cc E t (DWalk o pend) v)).
    { intros o pend v m f Hle Hm Hg Heq. eapply (Hpend 1 1); [lia|lia| |exact Heq|]; [cbn [p_fmap prim_by prog]; within|].
      apply bill_fmap. now apply bill_gives. }
    intros o pend v Hv.
    destruct t as [|un w|nm w|f| |sg| | |t|n t|t|t1 t2|fs|c t|];
      try (eapply Hprim; [cbn [room toll] in *; lia| |rewrite p_walk_eq; reflexivity]; within).
    - eapply Hbulk; [cbn [room toll] in *; lia| | |rewrite p_walk_eq; reflexivity]; [within|apply gives_str].
    - (* pointers *)
      specialize (IH t ltac:(cbn; lia) Hf Hw Hc N M HG (DWalk o pend) (pointee t v) (fits_pointee _ _ Hv)). cbn [mode_opt] in IH.
      pose proof (room_pos t) as Hrt. pose proof (toll_pos kc t Hk) as Htt. pose proof (sized_le o (toll kc t) T ltac:(subst T; cbn [toll]; lia)) as Hs.
      rewrite p_walk_eq. pose proof (Hwt (DWalk o pend) v) as Hwv. rewrite p_walk_eq in Hwv.
      destruct v as [| | | |[x|]| | | | | |]; (eapply bill_le; [exact HM|exact Hwv|..|apply bill_tick, bill_fmap; exact IH]);
        subst T; cbn [toll room] in *; lia.
    - (* arrays *)
      pose proof (toll_pos kc t Hk) as Htt.
      destruct (uint_kind t) as [w|] eqn:Eu.
      { eapply Hbulk; [subst T; cbn [toll] in *; lia| | |rewrite p_walk_eq, Eu; reflexivity]; [within|apply gives_uints]. }
      specialize (IH t ltac:(cbn; lia) Hf Hw Hc N M HG (DStart opt0)).
      pose proof (fun m v => within_pdec cc E t m v Hw) as Hwe. destruct Hv as (l & -> & <- & Hl).
      eapply (Hpend (1 + zlen l * (2 + toll kc t)) (toll kc t)); [unfold zlen; subst T; cbn [toll]; lia|subst T; cbn [toll]; nia| |rewrite p_walk_eq, Eu; reflexivity|].
      + cbn [p_fmap prog]. apply within_fmap, within_p_each. apply Forall_forall. auto.
      + apply bill_fmap. apply bill_each; auto; try lia; [apply Forall_forall; auto|].
        eapply Forall_impl; [|exact Hl]. intros x Hx. exact (IH x Hx).
    - (* slices *)
      destruct Hf as [Hs Hf]. specialize (IH t ltac:(cbn; lia) Hf Hw Hc).
      pose proof (room_pos t) as Hrt. pose proof (toll_pos kc t Hk) as Htt.
      pose proof (fun l => bill_slice cc kc E strict t Hk Hw Hs IH N M HG l v) as Hsl.
      assert (Hws : forall l, within (prog (p_slice cc E t l v))) by apply Hsl.
      pose proof (Hwt (DWalk o pend) v) as Hwv. rewrite p_walk_eq in *.
      assert (Hwb : within (prog (p_bind (prim match o_size o with Some n => ret n | None => read_count E end) (fun l => p_slice cc E t l v)))).
      { cbn [p_bind prog]. apply within_bind; [destruct (o_size o); within|exact Hws]. }
      apply (bill_le N M HM (2 + room (TSlice t) + (1 + (3 + room t + toll kc t))) (sized o (2 + room t + toll kc t))
               ((2 + room t + 2 * toll kc t) + (2 + room t + toll kc t))); try (subst T; cbn [toll room]; lia); [exact Hwv|unfold sized; subst T; cbn [toll]; destruct (o_size o); lia|].
      apply bill_pend; try lia; [unfold sized; destruct (o_size o); lia|exact Hwb|].
      unfold sized. destruct (o_size o) as [n|] eqn:Eo.
      + apply (bill_le N M HM (1 + (3 + room t + toll kc t)) (0 + (2 + room t + toll kc t)) (2 + room t + 2 * toll kc t)); try lia; [exact Hwb|].
        apply bill_bind; try lia; [within|exact Hws|apply bill_const; try lia; within|]. intro l. apply Hsl.
      + apply bill_bind_eats; try lia; [within|exact Hws|apply eats_read_count|apply bill_const; try lia; within|]. intro l. apply Hsl.
    - (* maps *)
      destruct Hf as (Hs & Hf1 & Hf2). destruct Hw as [Hw1 Hw2]. destruct Hc as [Hc1 Hc2].
      pose proof (IH t1 ltac:(cbn; lia) Hf1 Hw1 Hc1 N M HG (DStart opt0) _ (fits_zero t1)) as H1.
      pose proof (IH t2 ltac:(cbn; lia) Hf2 Hw2 Hc2 N M HG (DStart opt0) _ (fits_zero t2)) as H2.
      cbn [mode_opt] in H1, H2. unfold sized in H1, H2. cbn [opt0 o_size] in H1, H2. clear IH.
      pose proof (room_pos t1) as Hr1. pose proof (room_pos t2) as Hr2. pose proof (toll_pos kc t1 Hk) as Ht1. pose proof (toll_pos kc t2 Hk) as Ht2.
      pose proof (within_pdec cc E t1 (DStart opt0) (zero_val t1) Hw1) as Hwk.
      pose proof (within_pdec cc E t2 (DStart opt0) (zero_val t2) Hw2) as Hwv.
      assert (Hwm : forall l, within (prog (if l =? 0 then prim (ret v) else
             p_fmap (fun es => VMap (Some es))
               (p_map t1 (Z.to_nat l)
                  (tick (room t1) (pdec cc E t1 (DStart opt0) (zero_val t1)))
                  (tick (room t2) (pdec cc E t2 (DStart opt0) (zero_val t2))) [])))).
      { intros l. destruct (l =? 0); [within|]. cbn [p_fmap prog]. apply within_fmap, within_p_map; auto. }
      assert (He : eats 1 (prog (tick (room t1) (pdec cc E t1 (DStart opt0) (zero_val t1)))) \/
                   eats 1 (prog (tick (room t2) (pdec cc E t2 (DStart opt0) (zero_val t2))))).
      { cbn [tick prog]. destruct Hs as [Hs|Hs]; [left|right]; now apply eats_pdec. }
      set (K := 1 + (room t1 + toll kc t1) + (room t2 + toll kc t2)) in *.
      assert (HT : T = K + toll kc t1 + toll kc t2 + 8) by (subst T K; cbn [toll]; lia).
      eapply (Hpend (1 + K) (K + (toll kc t1 + toll kc t2))); [cbn [room]; lia|lia| |rewrite p_walk_eq; reflexivity|].
      { cbn [p_bind prog]. apply within_bind; [within|exact Hwm]. }
      apply (bill_le N M HM (1 + K) (0 + 0) (K + (toll kc t1 + toll kc t2))); try lia.
      { cbn [p_bind prog]. apply within_bind; [within|exact Hwm]. }
      apply bill_bind; try lia; [within|exact Hwm|apply bill_const; try lia; within|].
      intro l. destruct (l =? 0); [apply bill_const; try lia; within|]. apply bill_fmap.
      apply bill_map; auto; try lia; apply bill_tick.
      + eapply bill_le; [exact HM|exact Hwk|..|exact H1]; lia.
      + eapply bill_le; [exact HM|exact Hwv|..|exact H2]; lia.
    - (* structs *)
      apply fed_struct in Hf. pose proof Hw as Hw'. apply all_codecs_struct in Hw'. pose proof Hc as Hc'. apply all_codecs_struct in Hc'.
      assert (HTs : T = tolls kc fs + 2 * room (TStruct fs) + 9) by apply toll_struct.
      pose proof (tolls_nonneg kc fs Hk) as Htn.
      assert (HF : Forall (fun ht => all_codecs codec_within (snd ht) /\ all_codecs (codec_cheap cc kc) (snd ht) /\
                    billed cc kc E strict (snd ht)) fs).
      { apply Forall_forall. intros [h t'] Hin. rewrite Forall_forall in *. cbn [snd].
        specialize (Hf _ Hin). specialize (Hw' _ Hin). specialize (Hc' _ Hin). cbn [snd] in *.
        split; [exact Hw'|]. split; [exact Hc'|]. apply IH; auto. now apply (ty_size_field _ h). }
      destruct Hv as (ps & -> & Hps).
      assert (Hwp : within (prog (p_struct cc E fs ps))).
      { specialize (Hwt (DWalk opt0 false) (VStruct ps)). rewrite p_walk_eq in Hwt. exact Hwt. }
      destruct (is_borsh E && is_enum fs) eqn:Een.
      + destruct fs as [|[h0 t0] fs]; [now destruct (is_borsh E)|]. inversion_clear HF as [|? ? _ HF'].
        destruct ps as [|p ps]; [destruct Hps|]. destruct Hps as [_ Hps].
        assert (HF2 : Forall (fun ht => all_codecs codec_within (snd ht) /\ billed cc kc E strict (snd ht)) fs).
        { eapply Forall_impl; [|exact HF']. cbn beta. intros ht (? & _ & ?). auto. }
        assert (HF3 : Forall (fun ht => all_codecs codec_within (snd ht)) fs).
        { eapply Forall_impl; [|exact HF']. cbn beta. now intros ht (? & _ & ?). }
        pose proof (bill_variant cc kc E strict fs Hk HF2 N M HG) as H. pose proof (tolls_nonneg kc fs Hk) as Htn'.
        assert (HT0 : 3 + 2 * toll kc t0 + tolls kc fs <= tolls kc ((h0, t0) :: fs))
          by (change (tolls kc ((h0, t0) :: fs)) with (fee kc (h0, t0) + tolls kc fs); pose proof (fee_le kc (h0, t0)); cbn [snd] in *; lia). pose proof (toll_pos kc t0 Hk) as Ht0.
        eapply (Hpend (1 + (1 + tolls kc fs + 1)) (tolls kc fs)); [lia|lia|exact Hwp|rewrite p_walk_eq; reflexivity|].
        unfold p_struct in *. rewrite Een in *.
        assert (Hkn : forall n, within (prog (if negb (f_exported h0) then prim panic
            else p_bind (p_variant (fun t' o' v' => pdec cc E t' (DStart o') v') fs ps (Z.to_nat n))
                   (fun rest => prim (ret (VStruct (VNum n :: rest))))))).
        { intro n. destruct (negb (f_exported h0)); [within|]. cbn [p_bind prim prim_by prog].
          apply within_bind; [now apply within_p_variant|]. intro; within. }
        apply (bill_le N M HM (1 + (1 + tolls kc fs + 1)) (0 + 0) (tolls kc fs)); try lia; [exact Hwp|].
        apply bill_bind; try lia; [within|exact Hkn|apply bill_const; try lia; within|].
        intro n. specialize (Hkn n). destruct (negb (f_exported h0)); [apply bill_const; try lia; within|].
        apply (bill_le N M HM (1 + tolls kc fs + 1) (0 + 0) (tolls kc fs)); try lia; [exact Hkn|].
        apply bill_bind; try lia; [now apply within_p_variant|intro; within|now apply H|].
        intro. apply bill_const; try lia; within.
      + assert (Hmax : exists B, 0 <= B /\ B <= csum kc fs /\ Forall (fun ht => toll kc (snd ht) <= B) fs).
        { clear - Hk. induction fs as [|[h t] fs (B & HB & HB2 & HF)]; [exists 0; unfold csum; cbn; repeat split; auto; lia|].
          pose proof (toll_pos kc t Hk) as Ht. exists (toll kc t + B).
          assert (HT0 : csum kc ((h, t) :: fs) = toll kc t + csum kc fs) by reflexivity.
          split; [lia|]. split; [lia|]. constructor; [cbn [snd]; lia|]. eapply Forall_impl; [|exact HF]. cbn beta. intros; lia. }
        destruct Hmax as (B & HB & HB2 & HBF).
        assert (HFB : Forall (fun ht => all_codecs codec_within (snd ht) /\ all_codecs (codec_cheap cc kc) (snd ht) /\
                    billed cc kc E strict (snd ht) /\ toll kc (snd ht) <= B) fs).
        { rewrite Forall_forall in *. intros ht Hin. destruct (HF ht Hin) as (? & ? & ?). auto. }
        pose proof (bill_fields cc kc E strict fs B Hk HFB HB N M HG ps [] false Hps) as H.
        eapply (Hpend (1 + tolls kc fs) (B + csum kc fs)); [lia| |exact Hwp|rewrite p_walk_eq; reflexivity|].
        { pose proof (csum_nonneg kc fs Hk). lia. }
        unfold p_struct. rewrite Een. apply bill_fmap. exact H.
    - (* types with methods *)
      destruct Hw as [Hw1 Hw2]. destruct Hc as [Hc1 Hc2]. cbn [fed] in Hf. pose proof (room_pos t) as Hrt. pose proof (toll_pos kc t Hk) as Htt.
      pose proof (Hwt (DWalk o pend) v) as Hwv. rewrite p_walk_eq in *. subst T. cbn [toll room] in *.
      destruct (c_unmarshal c) as [f|] eqn:Ef.
      + destruct (Hc1 f Ef) as [H _]. pose proof (Hk c) as Hkc. pose proof (sized_le o 0 (kc c + room t + 7) ltac:(lia)) as Hs.
        assert (sized o 0 = 0) by (unfold sized; now destruct (o_size o)).
        apply (bill_le N M HM (1 + kc c) 0 (kc c)); try lia; [exact Hwv|].
        destruct pend; [apply bill_const; try lia; within|]. eapply bill_codec; eauto.
      + specialize (IH t ltac:(cbn; lia) Hf Hw2 Hc2 N M HG (DWalk o pend) v Hv). cbn [mode_opt] in IH.
        pose proof (sized_le o (toll kc t) (toll kc t + room t + 5) ltac:(lia)) as Hs.
        eapply bill_le; [exact HM|exact Hwv|..|apply bill_tick; exact IH]; lia.
    - rewrite p_walk_eq. pose proof (sized_le o 0 T ltac:(lia)) as Hs0. cbn [room] in *. apply bill_const; try lia; within. }
  (* reading a flag first *)
  assert (Hfl : forall o v, fits t v -> bill N M (T - 1) (sized o T) T (p_flagged cc E t o v)).
  { intros o v Hv. pose proof (sized_le o 0 T ltac:(lia)) as Hs0. assert (Hs1 : sized o 0 = 0) by (unfold sized; now destruct (o_size o)).
    assert (Hz : bill N M (T - 2) (sized o T) T (tick (room t) (prim (ret (zero_val t))))).
    { apply (bill_le N M HM (room t + 1) 0 0); try lia; [within|]. apply bill_tick, bill_prim. within. }
    assert (Hz' : forall pend, bill N M (T - 2) (sized o T) T (pdec cc E t (DWalk o pend) v)).
    { intro pend. eapply bill_le; [exact HM|apply Hwt|..|apply (Hwalk o pend v Hv)]; lia. }
    unfold p_flagged. replace (T - 1) with (1 + (T - 2)) by lia. replace (sized o T) with (0 + sized o T) by lia.
    destruct (o_opt o); (apply bill_bind; try lia; [within|intros [|]; [apply Hwt|within]|apply bill_const; try lia; within|]);
      intros [|]; auto. }
  assert (Hnull : forall o v, fits t v -> bill N M (T - 1) (sized o T) T (pdec cc E t (DNull o) v)).
  { intros o v Hv. specialize (Hfl o v Hv). pose proof (Hwt (DNull o) v) as Hwv. rewrite p_null_eq in *.
    pose proof (sized_le o 0 T ltac:(lia)) as Hs0. assert (Hs1 : sized o 0 = 0) by (unfold sized; now destruct (o_size o)).
    destruct t as [|un w|nm w|f| |sg| | |t|n t|t|t1 t2|fs|c0 t|]; try exact Hfl.
    - destruct (is_ptr t) eqn:Ep; [|exact Hfl].
      destruct v as [| | | |[x|]| | | | | |]; try exact Hfl.
      destruct Hv as (q & Hq & Hv). injection Hq as <-. specialize (Hv x eq_refl).
      specialize (IH t ltac:(cbn; lia) Hf Hw Hc N M HG (DNull o) x Hv). cbn [mode_opt] in IH.
      pose proof (room_pos t) as Hrt. pose proof (toll_pos kc t Hk) as Htt. pose proof (sized_le o (toll kc t) T ltac:(subst T; cbn [toll]; lia)) as Hs.
      eapply bill_le; [exact HM|exact Hwv|..|apply bill_tick, bill_fmap; exact IH]; subst T; cbn [toll] in *; lia.
    - destruct (c_unmarshal c0) eqn:Ec; [|exact Hfl]. apply bill_const; try lia; within.
    - apply bill_const; try lia; within. }
  intros [o|o|o pend] v Hv; cbn [mode_opt].
  - pose proof (Hwt (DStart o) v) as Hwv. pose proof (sized_le o 0 T ltac:(lia)) as Hs0. rewrite p_start_eq in *.
    replace T with (1 + (T - 1)) at 1 by lia. replace (sized o T) with (0 + sized o T) by lia.
    apply bill_bind; try lia; [within| |apply bill_const; try lia; within|]; intros _; destruct (o_opt o || _); auto.
    eapply bill_le; [exact HM|apply Hwt|..|apply (Hwalk o false v Hv)]; lia.
  - eapply bill_le; [exact HM|apply Hwt|..|apply (Hnull o v Hv)]; lia.
  - eapply bill_le; [exact HM|apply Hwt|..|apply (Hwalk o pend v Hv)]; lia.
Qed.
