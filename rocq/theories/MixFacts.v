(** Decoding structs that have interfaces holding pointers among their fields
    (C67). *)
From Verif Require Import Types DecPrim Enc Dec Spec TyInd Builtin EncFacts DecWire RoundTrip Dest DestFacts GoEnc GoEncFacts GoDec GoDecFacts IfaceFacts MixSpec.

(** * Actions on several variables *)
Definition acts {A} (R : mem -> A -> Prop) (st : mem) (m : GM unit) (lm : LM A) : Prop :=
  forall d, let '(r, a, d') := lm d in exists st' d1, m (mkG d st) = (r, mkG d1 st') /\ R st' a /\ (r <> Panic -> d1 = d').
Lemma acts_ext {A} (R : mem -> A -> Prop) st m m' lm lm' : (forall s, m s = m' s) -> (forall d, lm d = lm' d) -> acts R st m' lm' -> acts R st m lm.
Proof. intros H1 H2 H d. rewrite H1, H2. apply H. Qed.
Lemma acts_stop {A} (R : mem -> A -> Prop) st m r a : R st a -> (forall s, m s = (r, s)) -> acts R st m (stop r a).
Proof. intros HR H d. exists st, d. now rewrite H. Qed.
Lemma acts_after {A B} (R : mem -> A -> Prop) st (m : DM B) a k kk : R st a -> (forall b, acts R st (k b) (kk b)) ->
  acts R st (x <- lift m ;; k x) (after m a kk).
Proof.
  intros HR H d. unfold bind, lift, after. cbn [g_dec g_mem]. destruct (m d) as [[b|e| | |] d']; [apply H| | | |]; now exists st, d'.
Qed.
Lemma acts_next {A B} (Q : mem -> A -> Prop) (R : mem -> B -> Prop) st m lm bad k kk : acts Q st m lm ->
  (forall x st', Q st' x -> R st' (bad x)) -> (forall x st', Q st' x -> acts R st' k (kk x)) -> acts R st (m ;;; k) (next lm bad kk).
Proof.
  intros H Hb Hk d. specialize (H d). unfold bind, next. destruct (lm d) as [[r x] d']. destruct H as (st' & d1 & -> & HQ & Hd).
  destruct r as [[]|e| | |]; [rewrite Hd by discriminate; now apply Hk| | | |]; exists st', d1; (split; [reflexivity|]); split; auto.
Qed.
Lemma acts_hold {A B} (R : mem -> B -> Prop) st m (f : A -> B) lm : acts (fun st' a => R st' (f a)) st m lm -> acts R st m (hold f lm).
Proof. intros H d. specialize (H d). unfold hold. now destruct (lm d) as [[r a] d']. Qed.
Lemma acts_wrap {A} (R : mem -> A -> Prop) st m lm : acts R st m lm -> acts R st (map_err EWrap m) (wrap lm).
Proof.
  intros H d. specialize (H d). unfold map_err, wrap. destruct (lm d) as [[r a] d']. destruct H as (st' & d1 & -> & HR & Hd).
  destruct r as [[]|e| | |]; exists st', d1; (split; [reflexivity|]); split; auto; intro; apply Hd; discriminate.
Qed.
Lemma acts_mono {A} (R R' : mem -> A -> Prop) st m lm : (forall st' a, R st' a -> R' st' a) -> acts R st m lm -> acts R' st m lm.
Proof. intros H Hm d. specialize (Hm d). destruct (lm d) as [[r a] d']. destruct Hm as (st' & d1 & H1 & H2 & H3). exists st', d1. auto. Qed.
(** From one location to several. *)
Lemma does_acts (R : mem -> val -> Prop) st l m lm : does st l m lm -> (forall v g, R (mset st l v ++ g) v) -> acts R st m lm.
Proof.
  intros H HR d. specialize (H d). unfold same in H. destruct (lm d) as [[r v] d']. destruct H as (g & d1 & -> & Hd).
  exists (mset st l v ++ g), d1. auto.
Qed.

(** * Lists of fields *)
Lemma item_all (P : item -> Prop) : (forall h t v, P (Plain h t v)) -> (forall h z t k w, P (Held h z t k w)) -> (forall h i, P (Alone h i)) ->
  (forall h is, Forall P is -> P (Inner h is)) -> (forall h z k is, Forall P is -> P (Far h z k is)) ->
  (forall h is, Forall P is -> P (Near h is)) -> forall i, P i.
Proof.
  intros H1 H2 H3 H4 H5 H6. fix IH 1. intros [h t v|h z t k w|h i|h is|h z k is|h is]; [apply H1|apply H2|apply H3|apply H4|apply H5|apply H6];
    (induction is as [|i is IHis]; constructor; [apply IH|exact IHis]).
Qed.
Lemma overall_f2 P is : forall xs, overall P is xs <-> Forall2 P is xs.
Proof.
  induction is as [|i is IH]; intros [|x xs]; cbn [overall]; split; intro H; try easy; try (now constructor); try (now inversion H).
  - destruct H. constructor; [assumption|now apply IH].
  - inversion_clear H. split; [assumption|now apply IH].
Qed.
Lemma every_forall Q is : every Q is <-> Forall Q is.
Proof.
  induction is as [|i is IH]; cbn [every]; split; intro H; try easy.
  - destruct H. constructor; [assumption|now apply IH].
  - inversion_clear H. split; [assumption|now apply IH].
Qed.
Lemma shown_all_app is1 : forall dn is2 ps, length dn = length is1 -> shown_all (is1 ++ is2) (dn ++ ps) = shown_all is1 dn ++ shown_all is2 ps.
Proof. unfold shown_all. induction is1 as [|i is1 IH]; intros [|x dn] is2 ps H; try discriminate; [reflexivity|]. cbn [app over]. f_equal. apply IH. now injection H. Qed.
Lemma shown_all_length is1 : forall dn, length dn = length is1 -> length (shown_all is1 dn) = length is1.
Proof. unfold shown_all. induction is1 as [|i is1 IH]; intros [|x dn] H; try discriminate; [reflexivity|]. cbn [over length]. f_equal. apply IH. now injection H. Qed.
Lemma targets_app a b : targets (a ++ b) = targets a ++ targets b.
Proof. apply flat_map_app. Qed.
Lemma in_target i is k : In i is -> In k (target i) -> In k (targets is).
Proof. intros H1 H2. apply in_flat_map. now exists i. Qed.
Lemma overall_frame st st' is xs : Forall (fun i => forall x, (forall k, In k (target i) -> nth_error st' k = nth_error st k) -> behind st i x -> behind st' i x) is ->
  (forall k, In k (flat_map target is) -> nth_error st' k = nth_error st k) -> overall (behind st) is xs -> overall (behind st') is xs.
Proof.
  intros IH Hk H. apply overall_f2. apply overall_f2 in H.
  assert (Hk' : forall i, In i is -> forall k, In k (target i) -> nth_error st' k = nth_error st k) by (intros i Hi k Hik; apply Hk; now apply (in_target i)).
  clear Hk. induction H as [|i x is xs Hx H IHf]; constructor.
  - inversion_clear IH. apply H0; [|exact Hx]. apply Hk'. now left.
  - inversion_clear IH. apply IHf; [assumption|]. intros j Hj. apply Hk'. now right.
Qed.
Lemma behind_frame st st' i : forall x, (forall k, In k (target i) -> nth_error st' k = nth_error st k) -> behind st i x -> behind st' i x.
Proof.
  induction i as [h t v|h z t k w|h i|h is IH|h z k is IH|h is IH] using item_all; intros x Hk H; try exact I.
  - destruct H as (y & Hn & Hx). exists y. split; [|exact Hx]. rewrite Hk; [exact Hn|now left].
  - destruct H as (xs & -> & H). exists xs. split; [reflexivity|]. now apply (overall_frame st).
  - destruct H as (xs & Hn & H & Hx). exists xs. split; [rewrite Hk; [exact Hn|now left]|]. split; [|exact Hx].
    apply (overall_frame st); [exact IH| |exact H]. intros j Hj. apply Hk. now right.
  - destruct H as (xs & H & Hx). exists xs. split; [|exact Hx]. now apply (overall_frame st).
Qed.
Lemma overall_there st is xs k : Forall (fun i => forall x k, behind st i x -> In k (target i) -> exists v, nth_error st k = Some v) is ->
  overall (behind st) is xs -> In k (flat_map target is) -> exists v, nth_error st k = Some v.
Proof.
  intros IH H Hk. apply overall_f2 in H. apply in_flat_map in Hk. destruct Hk as (i & Hi & Hk).
  induction H as [|j x is xs Hx H IHf]; [easy|]. inversion_clear IH as [|? ? Hj Hr]. destruct Hi as [->|Hi]; [now apply (Hj x)|now apply IHf].
Qed.
Lemma behind_there st i : forall x k, behind st i x -> In k (target i) -> exists v, nth_error st k = Some v.
Proof.
  induction i as [h t v|h z t k w|h i|h is IH|h z k is IH|h is IH] using item_all; intros x k' H Hk; try easy.
  - destruct Hk as [<-|[]]. destruct H as (y & Hn & _). eauto.
  - destruct H as (xs & -> & H). now apply (overall_there st is xs).
  - destruct H as (xs & Hn & H & _). destruct Hk as [<-|Hk]; [eauto|]. now apply (overall_there st is xs).
  - destruct H as (xs & H & _). now apply (overall_there st is xs).
Qed.
Lemma behinds_frame st st' is : forall xs, (forall k, In k (targets is) -> nth_error st' k = nth_error st k) ->
  Forall2 (behind st) is xs -> Forall2 (behind st') is xs.
Proof.
  intros xs Hk H. assert (Hb : behind st' (Inner (mkF EmptyString true (mkTag EmptyString EmptyString EmptyString)) is) (VStruct xs)).
  { apply (behind_frame st); [exact Hk|]. exists xs. split; [reflexivity|]. now apply overall_f2. }
  destruct Hb as (xs' & Hx & Hb). injection Hx as <-. now apply overall_f2.
Qed.
Lemma behinds_there st is xs k : Forall2 (behind st) is xs -> In k (targets is) -> exists v, nth_error st k = Some v.
Proof.
  intros H Hk. apply (behind_there st (Inner (mkF EmptyString true (mkTag EmptyString EmptyString EmptyString)) is) (VStruct xs) k); [|exact Hk].
  exists xs. split; [reflexivity|]. now apply overall_f2.
Qed.
Lemma f2_split {A B} (R : A -> B -> Prop) a : forall c b d, length c = length a -> Forall2 R (a ++ b) (c ++ d) -> Forall2 R a c /\ Forall2 R b d.
Proof.
  induction a as [|x a IH]; intros [|y c] b d Hl HF; try discriminate; [now split|]. cbn [app] in HF. inversion_clear HF.
  destruct (IH c b d) as [H1 H2]; [now injection Hl|assumption|]. split; [now constructor|assumption].
Qed.

Lemma nodup_apart {A} (a b : list A) : NoDup (a ++ b) -> (forall k, In k a -> ~ In k b) /\ NoDup a /\ NoDup b.
Proof.
  induction a as [|x a IH]; cbn [app]; intro H; [repeat split; [easy|constructor|exact H]|]. apply NoDup_cons_iff in H. destruct H as [Hn H].
  destruct (IH H) as (H1 & H2 & H3). repeat split; [|constructor; [|exact H2]|exact H3].
  - intros k [<-|Hk]; [|now apply H1]. intro Hb. apply Hn, in_or_app. now right.
  - intro Ha. apply Hn, in_or_app. now left.
Qed.

(** Absent fields. *)
Lemma shown_zero i : shown i (zero_val (snd (like i))) = zero_val (snd (decl i)).
Proof.
  induction i as [h t v|h z t k w|h i|h is IH|h z k is IH|h is IH] using item_all; try reflexivity. cbn [like decl snd zero_val shown]. f_equal.
  induction IH as [|i is Hi H IHf]; [reflexivity|]. cbn [map over]. now rewrite Hi, IHf.
Qed.
Lemma behind_zero st i : behind st i (start i) -> behind st i (zero_val (snd (like i))).
Proof.
  induction i as [h t v|h z t k w|h i|h is IH|h z k is IH|h is IH] using item_all; intro H; try exact I.
  - destruct H as (y & Hn & [Hx|[Hx _]]); [|discriminate]. injection Hx as ->. exists y. split; [exact Hn|now right].
  - destruct H as (xs & Hx & H). cbn [start] in Hx. injection Hx as <-. cbn [like snd zero_val]. eexists. split; [reflexivity|].
    induction IH as [|i is Hi H' IHf]; [exact I|]. cbn [map overall] in H |- *. destruct H. split; [now apply Hi|now apply IHf].
  - destruct H as (xs & Hn & H & [Hx|[Hx _]]); [|discriminate]. cbn [start] in Hx. injection Hx as <-. exists (map start is).
    split; [exact Hn|]. split; [exact H|now right].
  - destruct H as (xs & H & [Hx|[Hx _]]); [|discriminate]. cbn [start] in Hx. injection Hx as <-. exists (map start is). split; [exact H|now right].
Qed.

(** * What is left in the memory *)
Lemma nth_set_other l : forall i j x, i <> j -> nth_error (set_nth l i x) j = nth_error l j.
Proof. induction l as [|y l IH]; intros [|i] [|j] x H; try reflexivity; try easy; cbn [set_nth nth_error]. apply IH. lia. Qed.
Lemma mget_nth a b l : nth_error a (l_var l) = nth_error b (l_var l) -> mget a l = mget b l.
Proof. intro H. unfold mget. now rewrite H. Qed.
Lemma mset_nth a b l v : nth_error a (l_var l) = nth_error b (l_var l) -> nth_error (mset a l v) (l_var l) = nth_error (mset b l v) (l_var l).
Proof.
  intro H. unfold mset. rewrite H. destruct (nth_error b (l_var l)) as [u|] eqn:Eb; [|congruence].
  now rewrite (nth_set_nth _ _ _ _ H), (nth_set_nth _ _ _ _ Eb).
Qed.
Lemma mset_other st l v k : k <> l_var l -> nth_error (mset st l v) k = nth_error st k.
Proof. intro H. unfold mset. destruct (nth_error st (l_var l)); [|reflexivity]. apply nth_set_other. congruence. Qed.
Lemma mset_length st l v : length (mset st l v) = length st.
Proof. unfold mset. destruct (nth_error st (l_var l)); [apply set_nth_length|reflexivity]. Qed.
Lemma mget_lt st l v : mget st l = Some v -> (l_var l < length st)%nat.
Proof. unfold mget. intro H. apply nth_error_Some. destruct (nth_error st (l_var l)); [discriminate|discriminate H]. Qed.
Lemma mget_var st k : mget st (mkLoc k []) = nth_error st k.
Proof. unfold mget. cbn [l_var l_path]. now destruct (nth_error st k). Qed.

Definition left st l i st' x : Prop :=
  nth_error st' (l_var l) = nth_error (mset st l (shown i x)) (l_var l) /\ behind st' i x /\ (length st <= length st')%nat /\
  forall k, (k < length st)%nat -> k <> l_var l -> ~ In k (target i) -> nth_error st' k = nth_error st k.
Definition lefts st l is st' xs : Prop :=
  nth_error st' (l_var l) = nth_error (mset st l (VStruct (shown_all is xs))) (l_var l) /\ Forall2 (behind st') is xs /\ (length st <= length st')%nat /\
  forall k, (k < length st)%nat -> k <> l_var l -> ~ In k (targets is) -> nth_error st' k = nth_error st k.
Lemma lefts_left st l h is st' xs : lefts st l is st' xs -> left st l (Inner h is) st' (VStruct xs).
Proof. intros (H1 & H2 & H3). split; [exact H1|]. split; [|exact H3]. exists xs. split; [reflexivity|]. now apply overall_f2. Qed.
Lemma left_start st l i : mget st l = Some (shown i (start i)) -> behind st i (start i) -> left st l i st (start i).
Proof. intros H1 H2. split; [now rewrite (mset_same _ _ _ H1)|]. auto. Qed.
Lemma left_store st l i u x g : mget st l = Some u -> behind st i (start i) -> ~ In (l_var l) (target i) ->
  (forall st', (forall k, In k (target i) -> nth_error st' k = nth_error st k) -> behind st' i x) ->
  left st l i (mset st l (shown i x) ++ g) x.
Proof.
  intros Hg Hs Hn Hb. pose proof (mget_lt _ _ _ Hg) as Hlt.
  assert (Hfr : forall k, (k < length st)%nat -> k <> l_var l -> nth_error (mset st l (shown i x) ++ g) k = nth_error st k).
  { intros k Hk Hl. rewrite nth_error_app1 by (now rewrite mset_length). now apply mset_other. }
  split; [apply nth_error_app1; now rewrite mset_length|]. split; [|split; [rewrite app_length, mset_length; lia|auto]].
  apply Hb. intros k Hk. apply Hfr; [|intros ->; contradiction]. apply nth_error_Some. destruct (behind_there _ _ _ _ Hs Hk) as [v ->]. discriminate.
Qed.
Lemma left_behind st l h z t k w y g : mget st l = Some (VIface (Some z)) -> nth_error st k = Some w -> k <> l_var l ->
  left st l (Held h z t k w) (mset st (mkLoc k []) y ++ g) (VPtr (Some y)).
Proof.
  intros Hg Hk Hne. pose proof (mget_lt _ _ _ Hg) as Hlt. assert (Hkl : (k < length st)%nat) by (apply nth_error_Some; congruence).
  split; [|split; [|split; [rewrite app_length, mset_length; lia|]]].
  - cbn [shown]. rewrite (mset_same _ _ _ Hg), nth_error_app1 by (now rewrite mset_length). apply mset_other. cbn [l_var]. congruence.
  - exists y. split; [|now left]. rewrite nth_error_app1 by (now rewrite mset_length). rewrite <- mget_var. apply (mget_mset _ _ w). now rewrite mget_var.
  - intros j Hj _ Hn. rewrite nth_error_app1 by (now rewrite mset_length). apply mset_other. cbn [l_var]. intros ->. apply Hn. now left.
Qed.
Lemma lefts_mget st l is st1 xs v0 : mget st l = Some v0 -> lefts st l is st1 xs -> mget st1 l = Some (VStruct (shown_all is xs)).
Proof. intros Hg (H & _). rewrite (mget_nth _ _ _ H). now apply (mget_mset _ _ v0). Qed.
Lemma lefts_more st l is st1 xs g v0 : mget st l = Some v0 -> lefts st l is st1 xs -> lefts st l is (st1 ++ g) xs.
Proof.
  intros Hg (H1 & H2 & H3 & H4). pose proof (mget_lt _ _ _ Hg) as Hlt. split; [rewrite nth_error_app1 by lia; exact H1|]. split; [|split].
  - apply (behinds_frame st1); [|exact H2]. intros k Hk. apply nth_error_app1. apply nth_error_Some. destruct (behinds_there _ _ _ _ H2 Hk) as [v ->]. discriminate.
  - rewrite app_length. lia.
  - intros k Hk Hl Hn. rewrite nth_error_app1 by lia. now apply H4.
Qed.
(** One more field. *)
Lemma lefts_step st l is1 it is2 dn p ps st1 st2 x v0 : NoDup (l_var l :: targets (is1 ++ it :: is2)) -> length dn = length is1 -> mget st l = Some v0 ->
  lefts st l (is1 ++ it :: is2) st1 (dn ++ p :: ps) -> left st1 (into l (Field (length is1))) it st2 x ->
  lefts st l (is1 ++ it :: is2) st2 (dn ++ x :: ps).
Proof.
  intros Hdup Hl Hg HL (G1 & G2 & G3 & G4). pose proof (lefts_mget _ _ _ _ _ _ Hg HL) as Hg1. destruct HL as (L1 & L2 & L3 & L4).
  change (l_var (into l (Field (length is1)))) with (l_var l) in *.
  apply NoDup_cons_iff in Hdup. destruct Hdup as [Hk0 Hdup].
  assert (Hv : forall q, shown_all (is1 ++ it :: is2) (dn ++ q :: ps) = shown_all is1 dn ++ shown it q :: shown_all is2 ps).
  { intro q. rewrite shown_all_app by exact Hl. reflexivity. }
  rewrite Hv in Hg1, L1. pose proof (shown_all_length is1 dn Hl) as Hsl.
  assert (Hp : part (VStruct (shown_all is1 dn ++ shown it p :: shown_all is2 ps)) (Field (length is1)) = Some (shown it p)).
  { cbn [part]. rewrite nth_error_app2 by lia. rewrite Hsl. now rewrite Nat.sub_diag. }
  assert (Ht : targets (is1 ++ it :: is2) = targets is1 ++ target it ++ targets is2) by (rewrite targets_app; reflexivity).
  rewrite Ht in Hdup, Hk0, L4.
  assert (Hfr : forall k, (k < length st1)%nat -> k <> l_var l -> ~ In k (target it) -> nth_error st2 k = nth_error st1 k) by exact G4.
  destruct (nodup_apart _ _ Hdup) as (Ha1 & _ & Hdup2). destruct (nodup_apart _ _ Hdup2) as (Ha2 & _ & _).
  assert (Hd1 : forall k, In k (targets is1) -> ~ In k (target it)).
  { intros k H1 H2. apply (Ha1 k H1). apply in_or_app. now left. }
  assert (Hd2 : forall k, In k (targets is2) -> ~ In k (target it)) by (intros k H1 H2; now apply (Ha2 k H2)).
  unfold lefts. rewrite Ht.
  split; [|split; [|split]].
  - rewrite G1, Hv. rewrite (mset_into _ _ _ _ _ _ Hg1 Hp). cbn [set_part]. rewrite <- Hsl, set_nth_last.
    rewrite (mset_nth _ _ l _ L1). now rewrite (mset_mset _ _ _ _ _ Hg).
  - destruct (f2_split _ _ _ _ _ Hl L2) as [Ha Hb]. inversion_clear Hb as [|? ? ? ? Hb1 Hb2].
    apply Forall2_app; [|constructor; [exact G2|]].
    + apply (behinds_frame st1); [|exact Ha]. intros k Hk. apply Hfr; [|intros ->; apply Hk0, in_or_app; now left|now apply Hd1].
      apply nth_error_Some. destruct (behinds_there _ _ _ _ Ha Hk) as [v ->]. discriminate.
    + apply (behinds_frame st1); [|exact Hb2]. intros k Hk. apply Hfr; [|intros ->; apply Hk0, in_or_app; right; apply in_or_app; now right|now apply Hd2].
      apply nth_error_Some. destruct (behinds_there _ _ _ _ Hb2 Hk) as [v ->]. discriminate.
  - lia.
  - intros k Hk Hne Hn. rewrite Hfr; [apply L4; auto|lia|exact Hne|]. intro Hin. apply Hn, in_or_app. right. apply in_or_app. now left.
Qed.
Lemma nodup_in {A} items (k : A) (it : item) (f : item -> list A) : NoDup (k :: flat_map f items) -> In it items -> NoDup (k :: f it).
Proof.
  intros H Hin. apply NoDup_cons_iff in H. destruct H as [Hn H]. constructor; [intro Hk; apply Hn, in_flat_map; eauto|]. clear Hn.
  induction items as [|i is IH]; [easy|]. cbn [flat_map] in H. destruct (nodup_apart _ _ H) as (_ & H1 & H2). destruct Hin as [->|Hin]; auto.
Qed.
Lemma lefts_behind st l is1 it is2 dn p ps st1 : length dn = length is1 -> lefts st l (is1 ++ it :: is2) st1 (dn ++ p :: ps) -> behind st1 it p.
Proof. intros Hl (_ & H & _). destruct (f2_split _ _ _ _ _ Hl H) as [_ Hb]. now inversion_clear Hb. Qed.

Section Mixed.
  Variables (E : encoding) (W : codec -> ty -> val -> dst -> val) (named : outside).

  (** A flag in front of a value. *)
  Lemma flag_acts {A} (R : mem -> A -> Prop) F t l st m k a kk z : R st a -> R (mset st l (zero_val t)) z ->
    acts R st (x <- indirect named F (RVar t l false) false ;; k x) kk ->
    acts R st (go_flag named F m k (None, RVar t l false)) (after (map_err (fun _ => EMsg) m) a (fun b => if b then kk else done z)).
  Proof.
    intros Ha Hz Hk d. unfold go_flag, after, map_err, catch, lift. unfold bind at 1. cbn [g_dec g_mem].
    destruct (m d) as [[[]|e| | |] d1]; [apply Hk| | | | |]; try (now exists st, d1). now exists (mset st l (zero_val t)), d1.
  Qed.
  Lemma acts_at {A} (R : mem -> A -> Prop) st (m m' : GM unit) lm : (forall d, m (mkG d st) = m' (mkG d st)) -> acts R st m' lm -> acts R st m lm.
  Proof. intros H Hm d. rewrite H. apply Hm. Qed.
  Lemma top_acts {A} (R : mem -> A -> Prop) F t l st o a kk z : o_opt o || (is_borsh E && o_copt o) = true -> R st a -> R (mset st l (zero_val t)) z ->
    acts R st (x <- indirect named F (RVar t l false) false ;; go_coption E W named F o x) (kk (is_borsh E && o_copt o)) ->
    acts R st (x <- indirect named F (RVar t l false) false ;; go_rest E W named F o x) (kk false) ->
    acts R st (go_top E W named F o (None, RVar t l false))
      (if o_opt o then after (read_flag E) a (fun b => if b then kk (is_borsh E && o_copt o) else done z)
       else after read_cflag a (fun b => if b then kk false else done z)).
  Proof.
    intros Ho Ha Hz H1 H2. unfold go_top. destruct (o_opt o).
    - replace (read_flag E) with (map_err (fun _ => EMsg) (raw_flag E)) by now destruct E. now apply flag_acts.
    - cbn [orb] in Ho. unfold go_coption. rewrite Ho. now apply flag_acts.
  Qed.
  (** Values that indirect does not look through. *)
  Lemma final_coption (R : mem -> val -> Prop) F t t' l st o v core :
    (forall null d, indirect named F (RVar t l false) null (mkG d st) = (Ok (None, RVar t l false), mkG d st)) ->
    R st v -> R (mset st l (zero_val t)) (zero_val t') -> acts R st (go_rest E W named F o (None, RVar t l false)) core ->
    acts R st (go_coption E W named F o (None, RVar t l false)) (pend_dest (is_borsh E && o_copt o) t' v core).
  Proof.
    intros Hi Hs Hz Hr. unfold go_coption, pend_dest. destruct (is_borsh E && o_copt o); [|exact Hr].
    apply flag_acts; [exact Hs|exact Hz|]. refine (acts_at _ _ _ _ _ _ Hr). intro d. unfold bind. now rewrite Hi.
  Qed.
  Lemma final_acts (R : mem -> val -> Prop) F t t' l st o v core :
    (forall null d, indirect named F (RVar t l false) null (mkG d st) = (Ok (None, RVar t l false), mkG d st)) ->
    R st v -> R (mset st l (zero_val t)) (zero_val t') -> acts R st (go_rest E W named F o (None, RVar t l false)) core ->
    (forall p, dest_val E W t' (DWalk o p) v = pend_dest p t' v core) -> dest_val E W t' (DNull o) v = dest_flagged E W t' o v ->
    acts R st (goD E W named (S F) (RVar t l false) (Some o)) (dest_val E W t' (DStart o) v).
  Proof.
    intros Hi Hs Hz Hr Hw Hn.
    assert (Hrest : acts R st (x <- indirect named F (RVar t l false) false ;; go_rest E W named F o x) (dest_val E W t' (DWalk o false) v)).
    { rewrite Hw. cbn [pend_dest]. refine (acts_at _ _ _ _ _ _ Hr). intro d. unfold bind. now rewrite Hi. }
    assert (Hco : acts R st (x <- indirect named F (RVar t l false) false ;; go_coption E W named F o x) (dest_val E W t' (DWalk o (is_borsh E && o_copt o)) v)).
    { unfold go_coption. destruct (is_borsh E && o_copt o) eqn:Ec; [|exact Hrest].
      apply (acts_at _ _ _ (go_flag named F read_coption (go_rest E W named F o) (None, RVar t l false))).
      - intro d. unfold bind at 1. now rewrite Hi.
      - rewrite Hw. cbn [pend_dest]. apply flag_acts; [exact Hs|exact Hz|]. rewrite Hw in Hrest. exact Hrest. }
    eapply acts_ext; [intro s; apply goD_eq|reflexivity|]. cbn [or_default]. rewrite dest_start_eq.
    apply acts_after; [exact Hs|]. intros _. destruct (o_opt o || (is_borsh E && o_copt o)) eqn:Eo.
    - rewrite Hn. apply (acts_at _ _ _ (go_top E W named F o (None, RVar t l false))).
      { intro d. unfold bind. now rewrite Hi. }
      unfold dest_flagged. now apply (top_acts _ F t l st o v (fun p => dest_val E W t' (DWalk o p) v) (zero_val t') Eo Hs).
    - apply orb_false_iff in Eo. destruct Eo as [E1 E2]. refine (acts_at _ _ _ _ _ _ Hrest).
      intro d. apply gbind_same. intros ur s'. unfold go_top, go_coption. now rewrite E1, E2.
  Qed.

  (** An interface holding a pointer. *)
  Lemma held_acts h z t k w st l o fuel : good_item named E (Held h z t k w) -> k <> l_var l ->
    mget st l = Some (VIface (Some z)) -> nth_error st k = Some w -> (3 * ty_size (TPtr t) + 4 <= fuel)%nat ->
    acts (left st l (Held h z t k w)) st (goD E W named fuel (RVar TIface l false) (Some o)) (dest_val E W (TPtr t) (DStart o) (VPtr (Some w))).
  Proof.
    intros (Hz & Hg & Hfit & Hb) Hkl Hf Hw Hn. cbn [ty_size] in Hn.
    assert (Hpts : points named st l t (mkLoc k [])) by (exists z; auto).
    assert (Hne : mkLoc k [] <> l) by (intros <-; now apply Hkl).
    assert (Hmk : mget st (mkLoc k []) = Some w) by now rewrite mget_var.
    assert (Hbeh : forall y g, left st l (Held h z t k w) (mset st (mkLoc k []) y ++ g) (VPtr (Some y))) by (intros; now apply left_behind).
    assert (Hst : left st l (Held h z t k w) st (VPtr (Some w))).
    { apply (left_start st l (Held h z t k w)); [exact Hf|]. exists w. split; [exact Hw|now left]. }
    destruct (is_ptr t || negb (o_opt o || (is_borsh E && o_copt o))) eqn:Eo.
    - assert (Hd : forall d, dest_val E W (TPtr t) (DStart o) (VPtr (Some w)) d = hold (fun y => VPtr (Some y)) (dest_val E W t (DStart o) w) d).
      { intro d. rewrite !dest_start_eq. destruct (o_opt o || (is_borsh E && o_copt o)) eqn:En.
        - rewrite orb_false_r in Eo. rewrite (dest_null_eq E W (TPtr t)), Eo. reflexivity.
        - rewrite dest_walk_eq. reflexivity. }
      eapply acts_ext; [reflexivity|exact Hd|]. apply acts_hold. apply does_acts with (l := mkLoc k []).
      + intro d. apply (through E W named t o l (mkLoc k []) st w d); auto; [now left| |lia].
        apply orb_true_iff in Eo. destruct Eo as [Eo|Eo]; [now left|right]. now apply negb_true_iff.
      + exact Hbeh.
    - apply orb_false_iff in Eo. destruct Eo as [Ep Eo]. apply negb_false_iff in Eo.
      destruct fuel as [|[|[|[|f]]]]; try lia. set (F := S (S (S f))) in *.
      assert (HF : (3 * ty_size t + 3 <= F)%nat) by lia.
      eapply acts_ext; [intro s; apply goD_eq|reflexivity|]. cbn [or_default]. rewrite Eo, dest_start_eq, Eo, dest_null_eq, Ep.
      apply acts_after; [exact Hst|]. intros _.
      eapply acts_at with (m' := go_top E W named F o (None, RVar TIface l false)).
      { intro d. destruct (indirect_iface named f l (RVar TIface l false) true t (mkLoc k []) (or_introl eq_refl) Hne) as (f' & _ & Hi).
        unfold bind. fold F in Hi. rewrite (Hi d st Hpts), kind_ptr, Ep by apply Hg. reflexivity. }
      unfold dest_flagged. apply (top_acts _ F TIface l st o (VPtr (Some w)) (fun p => dest_val E W (TPtr t) (DWalk o p) (VPtr (Some w))) (VPtr None) Eo Hst).
      + rewrite <- (app_nil_r (mset st l (zero_val TIface))). apply (left_store st l (Held h z t k w) (VIface (Some z)) (VPtr None)); [exact Hf|apply Hst|intros [->|[]]; now apply Hkl|].
        intros st' Hst'. exists w. split; [|now right]. rewrite Hst'; [exact Hw|now left].
      + rewrite dest_walk_eq. cbn [pointee]. apply acts_hold. apply does_acts with (l := mkLoc k []); [|exact Hbeh].
        apply (iface_cwalk E W named F t o l (mkLoc k []) st w); auto. now left.
      + rewrite dest_walk_eq. cbn [pointee]. apply acts_hold. apply does_acts with (l := mkLoc k []); [|exact Hbeh].
        apply (iface_walk E W named F t o l (mkLoc k []) st w); auto. now left.
  Qed.

  (** Borsh: a field whose type has its own method. *)
  Lemma own_acts items l st v0 is1 h t v is2 dn ps st1 mm : NoDup (l_var l :: targets items) -> mget st l = Some v0 -> items = is1 ++ Plain h t v :: is2 -> length dn = length is1 ->
    borsh_field_unmarshaler t = Some mm -> lefts st l items st1 (dn ++ v :: ps) ->
    exists m, borsh_own W (RVar t (into l (Field (length is1))) false) t = Some m /\
      forall B (R : mem -> B -> Prop) k kk a, (forall g, R (st1 ++ g) a) ->
        (forall x st', lefts st l items st' (dn ++ x :: ps) -> acts R st' k (kk x)) ->
        acts R st1 (m ;;; k) (after mm a kk).
  Proof.
    intros Hdup Hm He Hl Hb Hs. pose proof (lefts_mget _ _ _ _ _ _ Hm Hs) as Hg.
    assert (Hp : part (VStruct (shown_all items (dn ++ v :: ps))) (Field (length is1)) = Some v).
    { cbn [part]. rewrite He, shown_all_app by exact Hl. rewrite nth_error_app2 by (rewrite shown_all_length; auto).
      rewrite shown_all_length by exact Hl. now rewrite Nat.sub_diag. }
    destruct (borsh_own_does W st1 l _ _ v t mm Hb Hg Hp) as (m & Hmm & Hown). exists m. split; [exact Hmm|].
    intros B R k kk a Ha Hk' d.
    specialize (Hown (ret tt) (fun x => done (set_part (VStruct (shown_all items (dn ++ v :: ps))) (Field (length is1)) x))).
    assert (Hown' : does st1 l (m ;;; ret tt) (after mm (VStruct (shown_all items (dn ++ v :: ps)))
      (fun x => done (set_part (VStruct (shown_all items (dn ++ v :: ps))) (Field (length is1)) x)))).
    { apply Hown. intros x g. apply does_ret. apply mget_app. now apply (mget_mset _ _ _ _ Hg). }
    specialize (Hown' d). unfold after, bind, ret, done, stop in *. destruct (mm d) as [[x|e| | |] d'].
    1: { destruct Hown' as (g & d1 & Hrun & Hd1). destruct (m (mkG d st1)) as [[[]|e| | |] s']; try discriminate.
      rewrite <- (mset_into _ _ _ _ v x Hg Hp) in Hrun. rewrite Hd1 in Hrun by discriminate.
      assert (Hs' : s' = mkG d' (mset st1 (into l (Field (length is1))) x ++ g)) by congruence. rewrite Hs'. apply Hk'.
      rewrite He in *. apply (lefts_step st l is1 (Plain h t v) is2 dn v ps st1 _ x v0 Hdup Hl Hm Hs).
      apply (left_store st1 (into l (Field (length is1))) (Plain h t v) v x g); try easy. now rewrite (mget_into _ _ _ _ Hg). }
    all: destruct Hown' as (g & d1 & Hrun & Hd1); cbn [blame] in *; rewrite (mset_same _ _ _ Hg) in Hrun;
      exists (st1 ++ g), d1; (split; [|split; [apply Ha|exact Hd1]]); destruct (m (mkG d st1)) as [[[]| | | |] s']; congruence.
  Qed.

  Definition item_does fuel it : Prop := forall st l o, NoDup (l_var l :: target it) -> mget st l = Some (shown it (start it)) -> behind st it (start it) ->
    acts (left st l it) st (goD E W named fuel (RVar (snd (decl it)) l false) (Some o)) (dest_val E W (snd (like it)) (DStart o) (start it)).

  (** All fields. *)
  Lemma items_act fuel rt items l st v0 : type_fields rt = map decl items -> NoDup (l_var l :: targets items) -> mget st l = Some v0 ->
    (forall it, In it items -> item_does fuel it) -> Forall (good_item named E) items ->
    forall is2 is1 dn sizes seen st1, items = is1 ++ is2 -> length dn = length is1 ->
    lefts st l items st1 (dn ++ map start is2) ->
    acts (fun st' xs => lefts st l items st' (dn ++ xs)) st1
      (fields_loop (go_field E W (fun v o => goD E W named fuel v (Some o))) (RVar rt l false) rt (length is2) (length is1) sizes seen)
      (dest_fields E (fun t' o' v' => dest_val E W t' (DStart o') v') (map like is2) (map start is2) sizes seen).
  Proof.
    intros Hrt Hdup Hm Hitem Hgood. induction is2 as [|it is2 IH]; intros is1 dn sizes seen st1 He Hl Hs.
    { cbn [length fields_loop map dest_fields]. now apply acts_stop. }
    assert (Hin : In it items) by (rewrite He; apply in_or_app; right; now left).
    assert (Hgi : good_item named E it) by (rewrite Forall_forall in Hgood; now apply Hgood).
    assert (Hnth : nth_error (type_fields rt) (length is1) = Some (decl it)).
    { rewrite Hrt, He, map_app. rewrite nth_error_app2 by (now rewrite map_length). rewrite map_length, Nat.sub_diag. reflexivity. }
    cbn [map] in Hs. set (l0 := l).
    assert (IH' : forall x sz sn st1, lefts st l items st1 (dn ++ x :: map start is2) ->
      acts (fun st' xs => lefts st l items st' (dn ++ xs)) st1
        (fields_loop (go_field E W (fun v o => goD E W named fuel v (Some o))) (RVar rt l0 false) rt (length is2) (S (length is1)) sz sn)
        (hold (cons x) (dest_fields E (fun t' o' v' => dest_val E W t' (DStart o') v') (map like is2) (map start is2) sz sn))).
    { intros x sz sn st' Hs'. apply acts_hold. specialize (IH (is1 ++ [it]) (dn ++ [x]) sz sn st').
      rewrite !app_length, !Nat.add_1_r in IH. rewrite <- !app_assoc in IH. cbn [app] in IH.
      eapply acts_mono; [|apply IH; [exact He|lia|exact Hs']]. cbv beta. intros st2 xs. rewrite <- app_assoc. easy. }
    clear IH.
    cbn [length fields_loop map dest_fields]. rewrite Hnth.
    assert (Hh : fst (decl it) = fst (like it)) by now destruct it.
    destruct (decl it) as [h ft] eqn:Ed. destruct (like it) as [h' lt] eqn:El. cbn [fst] in Hh. subst h'. cbv zeta.
    set (tg := parse_field_tag (f_tag h)).
    destruct (ft_skip tg); [now apply IH'|]. destruct (negb (ft_ext tg) && seen); [apply acts_stop; [exact Hs|reflexivity]|].
    match goal with |- acts _ st1 (if _ then _ else ?b) (if _ then _ else ?b') =>
      assert (Hb : acts (fun st' xs => lefts st l items st' (dn ++ xs)) st1 b b') end.
    { cbn [r_field r_can_set r_can_addr orb]. destruct (f_exported h) eqn:Ex; cbn [negb andb].
      2:{ cbn [r_addr r_can_set negb]. now apply IH'. }
      cbn [r_can_set negb].
      assert (Hload : forall st' x, lefts st l items st' (dn ++ x :: map start is2) ->
        mget st' (into l0 (Field (length is1))) = Some (shown it x)).
      { intros st' x G. pose proof (lefts_mget _ _ _ _ _ _ Hm G) as G1. unfold l0. rewrite (mget_into _ _ _ _ G1).
        cbn [part]. rewrite He, shown_all_app by exact Hl. rewrite nth_error_app2 by (rewrite shown_all_length; auto).
        rewrite shown_all_length by exact Hl. now rewrite Nat.sub_diag. }
      assert (Hstep : acts (fun st' x => lefts st l items st' (dn ++ x :: map start is2)) st1
        (goD E W named fuel (RVar ft (into l0 (Field (length is1))) false) (Some (field_opt E tg (f_name h) sizes)))
        (dest_val E W lt (DStart (field_opt E tg (f_name h) sizes)) (start it))).
      { pose proof (Hitem it Hin st1 (into l0 (Field (length is1))) (field_opt E tg (f_name h) sizes)) as H.
        rewrite Ed, El in H. cbn [snd] in H. eapply acts_mono; [|apply H].
        - intros st' x Hx. rewrite He in Hs |- *. apply (lefts_step st l is1 it is2 dn (start it) (map start is2) st1 st' x v0); auto. now rewrite <- He.
        - change (l_var (into l0 (Field (length is1)))) with (l_var l). now apply (nodup_in items).
        - rewrite (Hload st1 (start it) Hs). reflexivity.
        - now apply (lefts_behind st l is1 it is2 dn (start it) (map start is2)); [|rewrite <- He]. }
      assert (Hsz : forall x, sizeof_val ft (shown it x) = sizeof_val lt x).
      { intro x. destruct it; cbn [decl like] in Ed, El; injection Ed as _ <-; injection El as _ <-; reflexivity. }
      set (LOOP := fun sz => fields_loop (go_field E W (fun v o => goD E W named fuel v (Some o))) (RVar rt l0 false) rt (length is2) (S (length is1)) sz (seen || ft_ext tg)) in *.
      assert (Hn : acts (fun st' xs => lefts st l items st' (dn ++ xs)) st1
        (heed <- (map_err EWrap (goD E W named fuel (RVar ft (into l0 (Field (length is1))) false) (Some (field_opt E tg (f_name h) sizes))) ;;; ret true) ;;
         if heed && negb (String.eqb (ft_sizeof tg) "") then
           x <- r_load (RVar ft (into l0 (Field (length is1))) false) ;;
           match sizeof_val ft x with None => panic | Some size => LOOP ((ft_sizeof tg, size) :: sizes) end
         else LOOP sizes)
        (next (wrap (dest_val E W lt (DStart (field_opt E tg (f_name h) sizes)) (start it))) (fun x => x :: map start is2) (fun x =>
           if String.eqb (ft_sizeof tg) "" then hold (cons x) (dest_fields E (fun t' o' v' => dest_val E W t' (DStart o') v') (map like is2) (map start is2) sizes (seen || ft_ext tg))
           else match sizeof_val lt x with
                | None => stop Panic (x :: map start is2)
                | Some n => hold (cons x) (dest_fields E (fun t' o' v' => dest_val E W t' (DStart o') v') (map like is2) (map start is2) ((ft_sizeof tg, n) :: sizes) (seen || ft_ext tg))
                end))).
      { refine (acts_ext _ _ _ (map_err EWrap (goD E W named fuel (RVar ft (into l0 (Field (length is1))) false) (Some (field_opt E tg (f_name h) sizes))) ;;;
          (if negb (String.eqb (ft_sizeof tg) "") then
             y <- r_load (RVar ft (into l0 (Field (length is1))) false) ;;
             match sizeof_val ft y with None => panic | Some size => LOOP ((ft_sizeof tg, size) :: sizes) end
           else LOOP sizes)) _ _ _ (fun d => eq_refl) _).
        { intro s. etransitivity; [apply gassoc|]. apply gbind_same. reflexivity. }
        eapply acts_next; [apply acts_wrap; exact Hstep|easy|].
        intros x st' Hx.
        destruct (String.eqb (ft_sizeof tg) ""); cbn [negb]; [now apply IH'|].
        intro d. unfold bind, r_load, load. cbn [g_mem]. rewrite (Hload st' x Hx). rewrite Hsz.
        destruct (sizeof_val lt x); [now apply (IH' x _ _ st' Hx d)|]. exists st', d. now split. }
      unfold go_field at 1. cbv zeta. change (mkOpt (ft_option tg) (is_borsh E && ft_coption tg) (sm_get sizes (f_name h)) (ft_order tg)) with (field_opt E tg (f_name h) sizes).
      destruct (is_borsh E) eqn:Eb; [|exact Hn].
      assert (Hbu : borsh_field_unmarshaler ft = borsh_field_unmarshaler lt).
      { destruct it; cbn [decl like] in Ed, El; injection Ed as _ <-; injection El as _ <-; try reflexivity.
        cbn [good_item] in Hgi. destruct E; try discriminate. symmetry. tauto. }
      destruct (borsh_field_unmarshaler lt) as [mm|] eqn:Em; [|rewrite (borsh_own_none W _ ft Hbu); exact Hn].
      destruct it as [h1 t1 v1|h1 z1 t1 k1 w1|h1 i1|h1 is3|h1 z1 k1 is3|h1 is3]; cbn [decl like] in Ed, El; injection Ed as E1 E2; injection El as E3 E4; subst h1; try (rewrite <- E2 in Hbu; discriminate).
      subst ft lt. cbn [start] in *.
      unfold l0.
      destruct (own_acts items l st v0 is1 h t1 v1 is2 dn (map start is2) st1 mm Hdup Hm He Hl Em Hs) as (m & -> & Hown).
      eapply acts_ext; [|reflexivity|apply (Hown _ _ (LOOP sizes))].
      - intro s. unfold bind. now destruct (m s) as [[[]| | | |] s'].
      - intro g. now apply (lefts_more _ _ _ _ _ _ v0).
      - intros x st' Hx. now apply IH'. }
    destruct (ft_ext tg) eqn:Ee; [|exact Hb].
    apply acts_after; [exact Hs|]. intros [|b rest]; [now apply IH'|]. exact Hb.
  Qed.


  (** Borsh enums. *)
  Lemma enum_eq fuel rt rv : deserializeComplexEnum W named (S fuel) rt rv =
    (tmp <- lift read_byte ;;
     match nth_error (type_fields rt) 0 with
     | None => stuck
     | Some (h0, t0) =>
         r_set (r_field rv 0 h0 t0) (VNum tmp) ;;;
         if (List.length (type_fields rt) <=? Z.to_nat tmp + 1)%nat then fail EMsg
         else match nth_error (type_fields rt) (Z.to_nat tmp + 1) with
              | None => stuck
              | Some (h, ft) => decodeBorsh W named fuel (r_field rv (Z.to_nat tmp + 1) h ft) None
              end
     end).
  Proof. reflexivity. Qed.
  Lemma enum_acts fuel rt items h0 v0 is l st : E = Borsh -> items = Plain h0 (TUint UBorshEnum W8) v0 :: is -> type_fields rt = map decl items ->
    NoDup (l_var l :: targets items) -> (forall it, In it items -> f_exported (fst (decl it)) = true) ->
    (forall it, In it items -> item_does fuel it) -> shows st l items (map start items) ->
    acts (fun st' v => exists xs, v = VStruct xs /\ lefts st l items st' xs) st
      (deserializeComplexEnum W named (S fuel) rt (RVar rt l false))
      (after read_byte (VStruct (map start items)) (fun n => hold (fun rest => VStruct (VNum n :: rest))
        (dest_variant (fun t' o' v' => dest_val E W t' (DStart o') v') (map like is) (map start is) (Z.to_nat n)))).
  Proof.
    intros HE He Hrt Hdup Hex Hitem [Hm Hbeh]. rewrite enum_eq, Hrt.
    assert (Hst : lefts st l items st (map start items)).
    { split; [now rewrite (mset_same _ _ _ Hm)|]. split; [now apply overall_f2|auto]. }
    assert (Hn0 : nth_error (map decl items) 0 = Some (h0, TUint UBorshEnum W8)) by now rewrite He. rewrite Hn0.
    apply acts_after; [now exists (map start items)|]. intro n.
    assert (H0 : f_exported h0 = true) by (apply (Hex (Plain h0 (TUint UBorshEnum W8) v0)); rewrite He; now left).
    cbn [r_field]. rewrite H0. cbn [negb orb r_set].
    set (st1 := mset st (into l (Field 0)) (VNum n)).
    assert (G : lefts st l items st1 (VNum n :: map start is)).
    { rewrite He in Hdup, Hst |- *. apply (lefts_step st l [] (Plain h0 (TUint UBorshEnum W8) v0) is [] v0 (map start is) st st1 (VNum n) _ Hdup eq_refl Hm Hst).
      unfold st1. rewrite <- (app_nil_r (mset st (into l (Field 0)) (VNum n))).
      apply (left_store st (into l (Field 0)) (Plain h0 (TUint UBorshEnum W8) v0) v0 (VNum n) []); try easy.
      rewrite (mget_into _ _ _ _ Hm), He. reflexivity. }
    set (i := (Z.to_nat n + 1)%nat).
    match goal with |- acts ?R st (_ ;;; ?K) ?L => assert (HK : acts R st1 K L) end.
    2:{ intro d. exact (HK d). }
    eapply acts_ext; [reflexivity|intro d; unfold hold; rewrite variant_eq by (now rewrite !map_length); reflexivity|].
    assert (Hi : nth_error (map decl items) i = nth_error (map decl is) (Z.to_nat n)) by (unfold i; rewrite He, Nat.add_1_r; reflexivity).
    rewrite Hi. assert (Hlen : length (map decl items) = S (length is)) by (rewrite map_length, He; reflexivity). rewrite Hlen.
    rewrite !nth_error_map. destruct (nth_error is (Z.to_nat n)) as [it|] eqn:En; cbn [option_map].
    2:{ apply nth_error_None in En. replace (S (length is) <=? i)%nat with true by (symmetry; apply Nat.leb_le; lia).
      apply (acts_stop _ st1 _ (Err EMsg) (VStruct (VNum n :: map start is))); [|reflexivity]. eexists; eauto. }
    assert (Hlt : (Z.to_nat n < length is)%nat) by (apply nth_error_Some; congruence).
    replace (S (length is) <=? i)%nat with false by (symmetry; apply Nat.leb_gt; lia).
    destruct (nth_error_split _ _ En) as (a & b & Eis & Ea).
    assert (Hin : In it items) by (rewrite He, Eis; right; apply in_or_app; right; now left).
    assert (Hh : fst (decl it) = fst (like it)) by now destruct it. specialize (Hex it Hin).
    assert (Hit : items = (Plain h0 (TUint UBorshEnum W8) v0 :: a) ++ it :: b) by (rewrite He, Eis; reflexivity).
    assert (Hps : map start is = map start a ++ start it :: map start b) by (rewrite Eis, map_app; reflexivity).
    assert (Hl1 : length (Plain h0 (TUint UBorshEnum W8) v0 :: a) = i) by (cbn [length]; unfold i; lia).
    assert (Hl2 : length (VNum n :: map start a) = length (Plain h0 (TUint UBorshEnum W8) v0 :: a)) by (cbn [length]; now rewrite map_length).
    rewrite Hps in G. change (VNum n :: map start a ++ start it :: map start b) with ((VNum n :: map start a) ++ start it :: map start b) in G.
    assert (Hload : mget st1 (into l (Field i)) = Some (shown it (start it))).
    { pose proof (lefts_mget _ _ _ _ _ _ Hm G) as G1. rewrite (mget_into _ _ _ _ G1).
      cbn [part]. rewrite Hit at 1. rewrite shown_all_app by exact Hl2. rewrite nth_error_app2 by (rewrite shown_all_length; lia).
      rewrite shown_all_length by exact Hl2. rewrite Hl1. now rewrite Nat.sub_diag. }
    assert (Hbi : behind st1 it (start it)) by (rewrite Hit in G; exact (lefts_behind _ _ _ _ _ _ _ _ _ Hl2 G)).
    pose proof (Hitem it Hin st1 (into l (Field i)) opt0 ltac:(now apply (nodup_in items)) Hload Hbi) as Hact.
    destruct (decl it) as [h ft] eqn:Ed. destruct (like it) as [h' lt] eqn:El. cbn [fst snd] in *. subst h'. rewrite Hex. cbn [negb orb].
    cbn [r_field]. rewrite ?Hex. cbn [negb orb].
    replace (decodeBorsh W named fuel) with (goD E W named fuel) by (now rewrite HE).
    intro d. specialize (Hact d).
    assert (Hnone : forall rv s, goD E W named fuel rv None s = goD E W named fuel rv (Some opt0) s).
    { intros rv s. destruct fuel; [now destruct E|]. rewrite !goD_eq. reflexivity. }
    rewrite Hnone. unfold hold. destruct (dest_val E W lt (DStart opt0) (start it) d) as [[r x] d'].
    destruct Hact as (st' & d1 & Hrun & Hx & Hd). exists st', d1. split; [exact Hrun|]. split; [|exact Hd].
    eexists. split; [reflexivity|]. rewrite Hps, <- Ea.
    replace (length a) with (length (map start a)) by apply map_length. rewrite set_nth_last.
    rewrite Hit in G, Hdup |- *. rewrite <- Hl1 in Hx.
    exact (lefts_step st l (Plain h0 (TUint UBorshEnum W8) v0 :: a) it b (VNum n :: map start a) (start it) (map start b) st1 st' x _ Hdup Hl2 Hm G Hx).
  Qed.

  Lemma enum_like items : is_enum (map like items) = is_enum (map decl items).
  Proof. destruct items as [|[h t v|h z t k w|h i|h is|h z k is|h is] items]; reflexivity. Qed.
  Lemma struct_loop fuel fs rv : is_borsh E && is_enum fs = false ->
    goDS E W named (S fuel) (TStruct fs) rv =
    fields_loop (go_field E W (fun v o => goD E W named fuel v (Some o))) rv (TStruct fs) (length fs) 0 [] false.
  Proof.
    intro He. destruct E; try reflexivity. cbn [goDS decodeStructBorsh]. change (type_fields (TStruct fs)) with fs. cbn [is_borsh andb] in He. unfold is_enum in He.
    destruct fs as [|[h0 t0] fs]; [reflexivity|]. destruct t0 as [|[] []| | | | | | | | | | | | |]; try reflexivity. now rewrite He.
  Qed.
  Lemma struct_enum fuel h0 fs rv : ft_enum (parse_field_tag (f_tag h0)) = true ->
    goDS Borsh W named (S fuel) (TStruct ((h0, TUint UBorshEnum W8) :: fs)) rv =
    deserializeComplexEnum W named fuel (TStruct ((h0, TUint UBorshEnum W8) :: fs)) rv.
  Proof. intro H. cbn [goDS decodeStructBorsh]. change (type_fields (TStruct ((h0, TUint UBorshEnum W8) :: fs))) with ((h0, TUint UBorshEnum W8) :: fs). cbn iota beta. now rewrite H. Qed.

  (** The struct. *)
  Lemma struct_acts F items st l : NoDup (l_var l :: targets items) -> good_items named E items -> shows st l items (map start items) ->
    (forall it, In it items -> item_does F it) -> (forall it, In it items -> item_does (S F) it) ->
    acts (fun st' v => exists xs, v = VStruct xs /\ lefts st l items st' xs) st
      (goDS E W named (S (S F)) (TStruct (map decl items)) (RVar (TStruct (map decl items)) l false))
      (dest_struct E W (map like items) (map start items)).
  Proof.
    intros Hdup [He Hgood] Hs HF HSF. apply every_forall in Hgood. unfold dest_struct. rewrite enum_like.
    destruct (is_borsh E && is_enum (map decl items)) eqn:Hen.
    - apply andb_true_iff in Hen. destruct Hen as [HB Hen]. assert (HE : E = Borsh) by (destruct E; easy).
      assert (Hex : forall it, In it items -> f_exported (fst (decl it)) = true).
      { apply He. rewrite HE. unfold is_enum in Hen. unfold enum_struct. destruct (map decl items) as [|[h t] r]; [discriminate|]. exact Hen. }
      assert (Hi : exists h0 v0 is, items = Plain h0 (TUint UBorshEnum W8) v0 :: is /\ ft_enum (parse_field_tag (f_tag h0)) = true).
      { destruct items as [|[h t v|h z t k w|h i|h is'|h z k is'|h is'] is]; try discriminate. cbn [map decl is_enum] in Hen.
        destruct t as [|[] []| | | | | | | | | | | | |]; try discriminate. eauto. }
      destruct Hi as (h0 & v0 & is & Hit & Htag).
      pose proof (enum_acts F (TStruct (map decl items)) items h0 v0 is l st HE Hit eq_refl Hdup Hex HF Hs) as HA.
      assert (Hx0 : f_exported h0 = true) by (apply (Hex (Plain h0 (TUint UBorshEnum W8) v0)); rewrite Hit; now left).
      refine (acts_ext _ _ _ _ _ _ _ _ HA).
      + intro s. rewrite HE, Hit. cbn [map decl]. now rewrite struct_enum.
      + intro d0. rewrite Hit. cbn [map like start]. rewrite Hx0. reflexivity.
    - rewrite struct_loop by exact Hen. rewrite map_length. apply acts_hold. destruct Hs as [Hm Hb].
      eapply acts_mono; [|apply (items_act (S F) (TStruct (map decl items)) items l st _ eq_refl Hdup Hm HSF Hgood) with (is1 := []) (dn := [])].
      + cbn [app]. intros st' xs G. eauto.
      + reflexivity.
      + reflexivity.
      + cbn [app]. split; [now rewrite (mset_same _ _ _ Hm)|]. split; [now apply overall_f2|auto].
  Qed.
  Lemma indirect_struct f fs l null d st : indirect named (S (S f)) (RVar (TStruct fs) l false) null (mkG d st) = (Ok (None, RVar (TStruct fs) l false), mkG d st).
  Proof. unfold indirect. cbn [r_kind kind_of under is_kptr]. unfold bind at 1, r_type, ret at 1. destruct (has_name named (TStruct fs)); destruct null; reflexivity. Qed.

  (** A struct as a field, or a variable of its own. *)
  Lemma inner_parts F h is st l o : NoDup (l_var l :: targets is) -> good_items named E is ->
    mget st l = Some (VStruct (shown_all is (map start is))) -> overall (behind st) is (map start is) ->
    (forall it, In it is -> forall fuel, (3 * ty_size (snd (like it)) + 4 <= fuel)%nat -> item_does fuel it) ->
    (3 * ty_size (TStruct (map like is)) + 1 <= F)%nat ->
    left st l (Inner h is) st (VStruct (map start is)) /\
    left st l (Inner h is) (mset st l (zero_val (TStruct (map decl is)))) (zero_val (TStruct (map like is))) /\
    acts (left st l (Inner h is)) st (go_rest E W named (S (S F)) o (None, RVar (TStruct (map decl is)) l false)) (dest_struct E W (map like is) (map start is)).
  Proof.
    intros Hdup Hgood Hm Hb IH HF.
    assert (Hfield : forall it, In it is -> (3 * ty_size (snd (like it)) + 4 <= F)%nat).
    { intros it Hin. assert (Hin' : In (fst (like it), snd (like it)) (map like is)).
      { apply in_map_iff. exists it. split; [now destruct (like it)|exact Hin]. }
      pose proof (ty_size_field _ _ _ Hin'). lia. }
    assert (Hst : left st l (Inner h is) st (VStruct (map start is))).
    { apply (left_start st l (Inner h is)); [exact Hm|]. exists (map start is). auto. }
    split; [exact Hst|]. split.
    - rewrite <- (app_nil_r (mset st l (zero_val (TStruct (map decl is))))).
      change (zero_val (TStruct (map decl is))) with (zero_val (snd (decl (Inner h is)))). rewrite <- shown_zero.
      change (zero_val (TStruct (map like is))) with (zero_val (snd (like (Inner h is)))).
      apply NoDup_cons_iff in Hdup. destruct Hdup as [Hk0 _].
      apply (left_store st l (Inner h is) (VStruct (shown_all is (map start is)))); [exact Hm|apply Hst|exact Hk0|].
      intros st' Hst'. apply behind_zero. apply (behind_frame st); [exact Hst'|]. apply Hst.
    - eapply acts_mono; [|apply (acts_at _ _ _ (goDS E W named (S (S F)) (TStruct (map decl is)) (RVar (TStruct (map decl is)) l false)) _);
        [intro d; reflexivity|apply (struct_acts F is st l)]].
      + intros st' v' (xs & -> & G). now apply lefts_left.
      + exact Hdup.
      + exact Hgood.
      + split; [exact Hm|exact Hb].
      + intros it Hin. apply IH; auto.
      + intros it Hin. apply IH; auto.
  Qed.
  Lemma far_left st l h z k is st' x v0 : mget st l = Some (VIface (Some z)) -> k <> l_var l -> ~ In (l_var l) (targets is) -> mget st (mkLoc k []) = Some v0 ->
    left st (mkLoc k []) (Inner h is) st' x -> left st l (Far h z k is) st' (VPtr (Some x)).
  Proof.
    intros Hm Hkl Hlt Hk (G1 & (xs & -> & G2) & G3 & G4). cbn [l_var] in *. pose proof (mget_lt _ _ _ Hm) as Hl. split; [|split; [|split; [exact G3|]]].
    - cbn [shown]. rewrite (mset_same _ _ _ Hm). apply G4; auto.
    - exists xs. split; [|split; [exact G2|now left]]. rewrite <- (mget_var st'), (mget_nth st' _ (mkLoc k []) G1). now apply (mget_mset _ _ v0).
    - intros j Hj H1 H2. cbn [target In] in H2. apply G4; auto.
  Qed.

  Lemma near_left st l h is st' x v0 : mget st l = Some (VPtr (Some v0)) ->
    left st (into l Elem) (Inner h is) st' x -> left st l (Near h is) st' (VPtr (Some x)).
  Proof.
    intros Hm (G1 & (xs & -> & G2) & G3 & G4). change (l_var (into l Elem)) with (l_var l) in *. split; [|split; [|split; [exact G3|exact G4]]].
    - rewrite G1. now rewrite (mset_into _ _ _ Elem v0 _ Hm eq_refl).
    - exists xs. split; [exact G2|now left].
  Qed.
  Lemma indirect_near f fs l null d st x : mget st l = Some (VPtr (Some x)) ->
    indirect named (S (S (S f))) (RVar (TPtr (TStruct fs)) l false) null (mkG d st) =
      (Ok (None, if null then RVar (TPtr (TStruct fs)) l false else RVar (TStruct fs) (into l Elem) false), mkG d st).
  Proof.
    intro Hm. destruct null; [unfold indirect; cbn -[mget]; unfold bind, ret; cbn -[mget]; unfold r_elem, r_load, load, bind, ret; cbn -[mget]; rewrite ?Hm; reflexivity|].
    unfold indirect. cbn [r_kind kind_of under is_kptr].
    cbn -[mget]. unfold r_elem, r_is_nil, r_load, load, bind, ret. cbn -[mget]. repeat (rewrite Hm; cbn -[mget]). reflexivity.
  Qed.
  (** A pointer to a struct, or an interface holding one. *)
  Lemma ptr_acts it td l lk st o F h is :
    (forall null d, indirect named F (RVar td l false) null (mkG d st) =
      (Ok (None, if null then RVar td l false else RVar (TStruct (map decl is)) lk false), mkG d st)) ->
    (forall null d, indirect named F (RVar (TStruct (map decl is)) lk false) null (mkG d st) = (Ok (None, RVar (TStruct (map decl is)) lk false), mkG d st)) ->
    (forall st' x, left st lk (Inner h is) st' x -> left st l it st' (VPtr (Some x))) ->
    left st l it (mset st l (zero_val td)) (VPtr None) ->
    left st lk (Inner h is) st (VStruct (map start is)) ->
    left st lk (Inner h is) (mset st lk (zero_val (TStruct (map decl is)))) (zero_val (TStruct (map like is))) ->
    acts (left st lk (Inner h is)) st (go_rest E W named F o (None, RVar (TStruct (map decl is)) lk false)) (dest_struct E W (map like is) (map start is)) ->
    acts (left st l it) st (goD E W named (S F) (RVar td l false) (Some o))
      (dest_val E W (TPtr (TStruct (map like is))) (DStart o) (VPtr (Some (VStruct (map start is))))).
  Proof.
    intros Hi Hi2 Hfar Hzero H1 H2 H3. pose proof (Hfar _ _ H1) as Hst.
    assert (Hd : forall p, dest_val E W (TPtr (TStruct (map like is))) (DWalk o p) (VPtr (Some (VStruct (map start is)))) =
      hold (fun x => VPtr (Some x)) (pend_dest p (TStruct (map like is)) (VStruct (map start is)) (dest_struct E W (map like is) (map start is)))).
    { intro p. rewrite dest_walk_eq. cbn [pointee]. now rewrite dest_walk_eq. }
    assert (Hrest : acts (left st l it) st (x <- indirect named F (RVar td l false) false ;; go_rest E W named F o x)
      (dest_val E W (TPtr (TStruct (map like is))) (DWalk o false) (VPtr (Some (VStruct (map start is)))))).
    { rewrite Hd. cbn [pend_dest]. apply acts_hold. eapply acts_mono; [exact Hfar|]. refine (acts_at _ _ _ _ _ _ H3). intro d. unfold bind. now rewrite Hi. }
    assert (Hco : acts (left st l it) st (x <- indirect named F (RVar td l false) false ;; go_coption E W named F o x)
      (dest_val E W (TPtr (TStruct (map like is))) (DWalk o (is_borsh E && o_copt o)) (VPtr (Some (VStruct (map start is)))))).
    { rewrite Hd. apply acts_hold. eapply acts_mono; [exact Hfar|].
      refine (acts_at _ _ _ _ _ _ (final_coption _ F _ _ lk st o _ _ Hi2 H1 H2 H3)). intro d. unfold bind. now rewrite Hi. }
    eapply acts_ext; [intro s; apply goD_eq|reflexivity|]. cbn [or_default]. rewrite dest_start_eq.
    apply acts_after; [exact Hst|]. intros _. destruct (o_opt o || (is_borsh E && o_copt o)) eqn:Eo.
    + rewrite dest_null_eq. cbn [is_ptr]. apply (acts_at _ _ _ (go_top E W named F o (None, RVar td l false))).
      { intro d. unfold bind. now rewrite Hi. }
      unfold dest_flagged. apply (top_acts _ F td l st o _ (fun p => dest_val E W (TPtr (TStruct (map like is))) (DWalk o p) (VPtr (Some (VStruct (map start is))))) (VPtr None) Eo Hst); [|exact Hco|exact Hrest].
      exact Hzero.
    + apply orb_false_iff in Eo. destruct Eo as [E1 E2]. refine (acts_at _ _ _ _ _ _ Hrest).
      intro d. apply gbind_same. intros ur s'. unfold go_top, go_coption. now rewrite E1, E2.
  Qed.

  Theorem items_do it : forall fuel, good_item named E it -> (3 * ty_size (snd (like it)) + 4 <= fuel)%nat -> item_does fuel it.
  Proof.
    induction it as [h t v|h z t k w|h i|h is IH|h z k is IH|h is IH] using item_all; intros fuel Hgood Hn st l o Hdup Hm Hb; cbn [decl like start snd shown] in *;
      apply NoDup_cons_iff in Hdup; destruct Hdup as [Hk0 Hdup].
    - destruct Hgood as [Hg Hfit]. apply does_acts with (l := l).
      + apply (go_decodes E W named t Hg); auto. lia.
      + intros x g. now apply (left_store st l (Plain h t v) v x g).
    - destruct Hb as (y & Hy & [Hx|[Hx _]]); [|discriminate]. injection Hx as <-. apply held_acts; auto. intros ->. apply Hk0. now left.
    - cbn [ty_size] in Hn. destruct fuel as [|[|[|[|f]]]]; try lia.
      assert (Hst : left st l (Alone h i) st (VIface i)) by now apply (left_start st l (Alone h i)).
      apply final_acts with (core := done (VIface i)).
      + intros null d. apply indirect_opaque; [now left|]. exists i. auto.
      + exact Hst.
      + rewrite <- (app_nil_r (mset st l (zero_val TIface))). now apply (left_store st l (Alone h i) (VIface i) (VIface None)).
      + apply (acts_at _ _ _ (ret tt)); [intro d; now destruct E|]. now apply acts_stop.
      + intro p. now rewrite dest_walk_eq.
      + now rewrite dest_null_eq.
    - destruct Hb as (xs & Hx & Hb). injection Hx as <-. assert (Hsz : (1 <= ty_size (TStruct (map like is)))%nat) by (cbn [ty_size]; lia).
      destruct fuel as [|[|[|F]]]; try lia. rewrite Forall_forall in IH. destruct Hgood as [He Hev]. pose proof Hev as Hgood. apply every_forall in Hgood. rewrite Forall_forall in Hgood.
      assert (HIH : forall it, In it is -> forall fuel, (3 * ty_size (snd (like it)) + 4 <= fuel)%nat -> item_does fuel it) by (intros it Hin f' Hf; apply IH; auto).
      assert (HF : (3 * ty_size (TStruct (map like is)) + 1 <= F)%nat) by lia.
      destruct (inner_parts F h is st l o (proj2 (NoDup_cons_iff _ _) (conj Hk0 Hdup)) (conj He Hev) Hm Hb HIH HF) as (H1 & H2 & H3).
      apply final_acts with (core := dest_struct E W (map like is) (map start is)); auto.
      intros null d. apply indirect_struct.
    - destruct Hb as (xs & Hnk & Hb & [Hx|[Hx _]]); [|discriminate]. injection Hx as <-. assert (Hsz : (1 <= ty_size (TStruct (map like is)))%nat) by (cbn [ty_size]; lia).
      assert (Hsp : ty_size (TPtr (TStruct (map like is))) = S (ty_size (TStruct (map like is)))) by reflexivity.
      destruct fuel as [|[|[|[|[|[|f]]]]]]; try lia. set (F0 := S (S (S f))). change (S (S (S (S (S (S f)))))) with (S (S (S F0))).
      rewrite Forall_forall in IH. destruct Hgood as (Hz & He & Hev). pose proof Hev as Hgood. apply every_forall in Hgood. rewrite Forall_forall in Hgood.
      apply NoDup_cons_iff in Hdup. destruct Hdup as [Hk1 Hdup]. fold (targets is) in *. cbn [target In] in Hk0.
      assert (Hkl : k <> l_var l) by tauto. assert (Hlt : ~ In (l_var l) (targets is)) by (unfold targets; tauto).
      set (lk := mkLoc k []). assert (Hmk : mget st lk = Some (VStruct (shown_all is (map start is)))) by (unfold lk; now rewrite mget_var).
      assert (HIH : forall it, In it is -> forall fuel, (3 * ty_size (snd (like it)) + 4 <= fuel)%nat -> item_does fuel it) by (intros it Hin f' Hf; apply IH; auto).
      assert (HF : (3 * ty_size (TStruct (map like is)) + 1 <= F0)%nat) by (unfold F0; lia).
      destruct (inner_parts F0 h is st lk o (proj2 (NoDup_cons_iff _ _) (conj Hk1 Hdup)) (conj He Hev) Hmk Hb HIH HF) as (H1 & H2 & H3).
      assert (Hfar : forall st' x, left st lk (Inner h is) st' x -> left st l (Far h z k is) st' (VPtr (Some x))) by (intros st' x G; exact (far_left st l h z k is st' x _ Hm Hkl Hlt Hmk G)).
      assert (Hst : left st l (Far h z k is) st (VPtr (Some (VStruct (map start is))))) by now apply Hfar.
      assert (Hpts : points named st l (TStruct (map decl is)) lk) by (exists z; auto).
      assert (Hne : lk <> l) by (intro Heq; apply Hkl; now rewrite <- Heq).
      set (F := S (S F0)) in *.
      assert (Hi : forall null d, indirect named F (RVar TIface l false) null (mkG d st) =
        (Ok (None, if null then RVar TIface l false else RVar (TStruct (map decl is)) lk false), mkG d st)).
      { intros null d. destruct (indirect_iface named (S (S f)) l (RVar TIface l false) null (TStruct (map decl is)) lk (or_introl eq_refl) Hne) as (f' & Hf' & Hi).
        unfold F, F0. rewrite (Hi d st Hpts). destruct null; [reflexivity|]. destruct f' as [|[|f']]; try lia. reflexivity. }
      assert (Hi2 : forall null d, indirect named F (RVar (TStruct (map decl is)) lk false) null (mkG d st) = (Ok (None, RVar (TStruct (map decl is)) lk false), mkG d st))
        by (intros; apply indirect_struct).
      apply (ptr_acts (Far h z k is) TIface l lk st o F h is); auto.
      rewrite <- (app_nil_r (mset st l (zero_val TIface))).
      apply (left_store st l (Far h z k is) (VIface (Some z)) (VPtr None)); [exact Hm|apply Hst|cbn [target In]; tauto|].
      intros st' Hst'. apply (behind_zero st' (Far h z k is)). apply (behind_frame st); [exact Hst'|]. apply Hst.
    - destruct Hb as (xs & Hb & [Hx|[Hx _]]); [|discriminate]. injection Hx as <-. assert (Hsz : (1 <= ty_size (TStruct (map like is)))%nat) by (cbn [ty_size]; lia).
      assert (Hsp : ty_size (TPtr (TStruct (map like is))) = S (ty_size (TStruct (map like is)))) by reflexivity.
      destruct fuel as [|[|[|[|[|[|f]]]]]]; try lia. set (F0 := S (S (S f))). change (S (S (S (S (S (S f)))))) with (S (S (S F0))).
      rewrite Forall_forall in IH. destruct Hgood as (He & Hev). pose proof Hev as Hgood. apply every_forall in Hgood. rewrite Forall_forall in Hgood.
      cbn [target] in *. fold (targets is) in *.
      set (lk := into l Elem). assert (Hmk : mget st lk = Some (VStruct (shown_all is (map start is)))) by (unfold lk; now rewrite (mget_into _ _ _ Elem Hm)).
      assert (HIH : forall it, In it is -> forall fuel, (3 * ty_size (snd (like it)) + 4 <= fuel)%nat -> item_does fuel it) by (intros it Hin f' Hf; apply IH; auto).
      assert (HF : (3 * ty_size (TStruct (map like is)) + 1 <= F0)%nat) by (unfold F0; lia).
      destruct (inner_parts F0 h is st lk o (proj2 (NoDup_cons_iff _ _) (conj Hk0 Hdup)) (conj He Hev) Hmk Hb HIH HF) as (H1 & H2 & H3).
      assert (Hnear : forall st' x, left st lk (Inner h is) st' x -> left st l (Near h is) st' (VPtr (Some x))) by (intros st' x G; exact (near_left st l h is st' x _ Hm G)).
      assert (Hst : left st l (Near h is) st (VPtr (Some (VStruct (map start is))))) by now apply Hnear.
      set (F := S (S F0)) in *.
      assert (Hi : forall null d, indirect named F (RVar (TPtr (TStruct (map decl is))) l false) null (mkG d st) =
        (Ok (None, if null then RVar (TPtr (TStruct (map decl is))) l false else RVar (TStruct (map decl is)) lk false), mkG d st)).
      { intros null d. unfold F, F0. apply indirect_near with (x := VStruct (over shown is (map start is))). exact Hm. }
      assert (Hi2 : forall null d, indirect named F (RVar (TStruct (map decl is)) lk false) null (mkG d st) = (Ok (None, RVar (TStruct (map decl is)) lk false), mkG d st))
        by (intros; apply indirect_struct).
      apply (ptr_acts (Near h is) (TPtr (TStruct (map decl is))) l lk st o F h is); auto.
      rewrite <- (app_nil_r (mset st l (zero_val (TPtr (TStruct (map decl is)))))).
      apply (left_store st l (Near h is) (VPtr (Some (VStruct (over shown is (map start is))))) (VPtr None)); [exact Hm|apply Hst|exact Hk0|].
      intros st' Hst'. apply (behind_zero st' (Near h is)). apply (behind_frame st); [exact Hst'|]. apply Hst.
  Qed.
End Mixed.

(** * Decode *)
Lemma indirect_addr named f fs l d st : indirect named (S (S f)) (RAddr (TStruct fs) l) false (mkG d st) = (Ok (None, RVar (TStruct fs) l false), mkG d st).
Proof. reflexivity. Qed.
Theorem dest_mixed W named items l st d fuel : NoDup (l_var l :: targets items) -> good_items named (d_enc d) items ->
  shows st l items (map start items) -> (3 * ty_size (TStruct (map like items)) + 4 <= fuel)%nat ->
  let '(r, v', d') := dest_val (d_enc d) W (TStruct (map like items)) (DStart opt0) (VStruct (map start items)) d in
  exists xs st' d1, go_decode W named fuel (RAddr (TStruct (map decl items)) l) (mkG d st) = (r, mkG d1 st') /\
    v' = VStruct xs /\ filled st st' l items xs /\ (r <> Panic -> d1 = d').
Proof.
  intros Hdup Hgood Hs Hf. set (E := d_enc d) in *. assert (Hsz : (1 <= ty_size (TStruct (map like items)))%nat) by (cbn [ty_size]; lia).
  destruct fuel as [|[|[|F]]]; try lia.
  assert (Hfield : forall it, In it items -> (3 * ty_size (snd (like it)) + 7 <= F + 3)%nat).
  { intros it Hin. assert (Hin' : In (fst (like it), snd (like it)) (map like items)).
    { apply in_map_iff. exists it. split; [now destruct (like it)|exact Hin]. }
    pose proof (ty_size_field _ _ _ Hin'). lia. }
  assert (Hg : forall it, In it items -> good_item named E it).
  { destruct Hgood as [_ Hev]. apply every_forall in Hev. now rewrite Forall_forall in Hev. }
  assert (Hact := struct_acts E W named F items st l Hdup Hgood Hs).
  assert (HF : forall it, In it items -> item_does E W named F it) by (intros it Hin; apply items_do; auto; specialize (Hfield it Hin); lia).
  assert (HSF : forall it, In it items -> item_does E W named (S F) it) by (intros it Hin; apply items_do; auto; specialize (Hfield it Hin); lia).
  specialize (Hact HF HSF).
  rewrite go_decode_goD by reflexivity. cbn [g_dec]. fold E. rewrite goD_eq. cbn [or_default].
  replace (o_opt opt0 || (is_borsh E && o_copt opt0)) with false by now destruct E.
  rewrite dest_start_eq. replace (o_opt opt0 || (is_borsh E && o_copt opt0)) with false by now destruct E.
  rewrite dest_walk_eq. cbn [pend_dest dest_core].
  set (d0 := snd (d_set_cur (o_order opt0) d)).
  assert (Hgo : (lift (d_set_cur (o_order opt0)) ;;;
     ur <- indirect named (S (S F)) (RAddr (TStruct (map decl items)) l) false ;; go_top E W named (S (S F)) opt0 ur) (mkG d st) =
     goDS E W named (S (S F)) (TStruct (map decl items)) (RVar (TStruct (map decl items)) l false) (mkG d0 st)).
  { unfold bind, lift, d_set_cur, d0. cbn [g_dec g_mem snd d_set_cur]. rewrite indirect_addr.
    unfold go_top, go_coption. cbn [o_opt opt0 o_copt]. rewrite andb_false_r. reflexivity. }
  rewrite Hgo.
  assert (Ha : forall A (k : unit -> LM A) a, after (d_set_cur (o_order opt0)) a k d = k tt d0) by reflexivity.
  rewrite Ha. specialize (Hact d0). destruct (dest_struct E W (map like items) (map start items) d0) as [[r v'] d'].
  destruct Hact as (st' & d1 & Hrun & (xs & -> & G) & H3). exists xs, st', d1. split; [exact Hrun|]. split; [reflexivity|]. split; [|exact H3].
  destruct Hs as [Hm _]. pose proof (lefts_mget _ _ _ _ _ _ Hm G) as G1. destruct G as (G2 & G3 & G4 & G5).
  split; [split; [exact G1|now apply overall_f2]|]. auto.
Qed.
Theorem decode_mixed W named items l st d fuel : NoDup (l_var l :: targets items) -> good_items named (d_enc d) items ->
  shows st l items (map start items) -> (3 * ty_size (TStruct (map like items)) + 4 <= fuel)%nat ->
  let '(r, d') := decode (TStruct (map like items)) (VStruct (map start items)) d in
  exists xs st' d1, go_decode W named fuel (RAddr (TStruct (map decl items)) l) (mkG d st) = (blame r, mkG d1 st') /\
    filled st st' l items xs /\ (r <> Panic -> d1 = d') /\ (forall y, r = Ok y -> y = VStruct xs).
Proof.
  intros Hdup Hgood Hs Hf. pose proof (dest_mixed W named items l st d fuel Hdup Hgood Hs Hf) as H.
  unfold decode, decode_target, bind at 1, d_get_enc. rewrite (dest_agrees (d_enc d) W _ (DStart opt0) _ d).
  destruct (dest_val (d_enc d) W (TStruct (map like items)) (DStart opt0) (VStruct (map start items)) d) as [[r v'] d'].
  destruct H as (xs & st' & d1 & Hrun & -> & H1 & H3).
  destruct r as [[]|e| | |]; cbn [view]; exists xs, st', d1; rewrite Hrun; cbn [blame];
    (split; [reflexivity|]); (split; [exact H1|]); (split; [intro; apply H3; try discriminate; congruence|]); congruence.
Qed.

(** * What was written for the struct with pointers *)
Lemma start_fits named E it : good_item named E it -> fits (snd (like it)) (start it).
Proof.
  assert (Hs : forall is, Forall (fun i => good_item named E i -> fits (snd (like i)) (start i)) is -> every (good_item named E) is ->
    fits (TStruct (map like is)) (VStruct (map start is))).
  { intros is IH Hg. cbn [fits]. eexists. split; [reflexivity|]. induction IH as [|i is Hi IH IHf]; [exact I|].
    cbn [every] in Hg. destruct Hg as [H1 H2]. cbn [map fits_fields]. split; [now apply Hi|now apply IHf]. }
  induction it as [h t v|h z t k w|h i|h is IH|h z k is IH|h is IH] using item_all; cbn [good_item like start snd]; intro Hg.
  - now destruct Hg.
  - destruct Hg as (_ & _ & Hf & _). eexists. split; [reflexivity|]. now intros x [= <-].
  - eexists. reflexivity.
  - apply Hs; [exact IH|now destruct Hg].
  - eexists. split; [reflexivity|]. intros x [= <-]. apply Hs; [exact IH|now destruct Hg as (_ & _ & Hg)].
  - eexists. split; [reflexivity|]. intros x [= <-]. apply Hs; [exact IH|now destruct Hg].
Qed.
Theorem mixed_reads W named E items l st fuel v : NoDup (l_var l :: targets items) -> good_items named E items ->
  shows st l items (map start items) -> (3 * ty_size (TStruct (map like items)) + 4 <= fuel)%nat ->
  ok E (TStruct (map like items)) None LE v ->
  exists b xs st' d', marshal E (TStruct (map like items)) v = (Ok tt, b) /\
    go_decode W named fuel (RAddr (TStruct (map decl items)) l) (mkG (new_decoder E b) st) = (Ok tt, mkG d' st') /\
    d_pos d' = zlen b /\ filled st st' l items xs /\
    (fits (TStruct (map like items)) v -> canon E (TStruct (map like items)) None LE v -> fills E (TStruct (map like items)) None LE v -> v = VStruct xs).
Proof.
  intros Hdup Hgood Hs Hf Hok.
  assert (Hfit : fits (TStruct (map like items)) (VStruct (map start items))).
  { apply (start_fits named E (Inner (mkF "" true notag) items)). exact Hgood. }
  pose proof (decode_mixed W named items l st (new_decoder E (wire E (TStruct (map like items)) None LE v)) fuel Hdup Hgood Hs Hf) as H.
  destruct (decode_run E _ v (VStruct (map start items)) [] [] None Hok Hfit) as (c & Hd).
  cbn [app] in Hd. rewrite app_nil_r in Hd. change (zlen []) with 0 in Hd. cbn [Z.add] in Hd.
  unfold new_decoder in H |- *. rewrite Hd in H. destruct H as (xs & st' & d1 & H1 & H2 & H3 & H4).
  exists (wire E (TStruct (map like items)) None LE v), xs, st', d1. split; [now apply marshal_wire|]. split; [exact H1|].
  split; [rewrite H3 by discriminate; reflexivity|]. split; [exact H2|].
  intros Hv Hc Hfl. rewrite <- (H4 _ eq_refl). rewrite (back_fills E _ _ _ v _ (zero_val (TStruct (map like items))) Hfl Hv Hfit (fits_zero _)).
  symmetry. now apply back_canon.
Qed.
