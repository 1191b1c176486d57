(** Decoded slices and strings are bounded by the input (C16): a program logic
    for the results of reads. *)
From Verif Require Import Types DecPrim Enc Dec Utf8 Builtin Spec NumFacts TyInd EncFacts DecWire
  DecEq DecWithin.

(** All slices inside [v] have at most [n] elements, all strings at most [3*n]
    bytes (SafeString replaces an invalid byte by a rune of three bytes). *)
Fixpoint small (n : Z) (v : val) : Prop :=
  match v with
  | VStr s => zlen s <= 3 * n
  | VPtr (Some x) => small n x
  | VSeq l | VStruct l | VSlice (Some l) =>
      (match v with VSlice _ => zlen l <= n | _ => True end) /\
      fold_right and True (map (small n) l)
  | VMap (Some m) =>
      fold_right and True (map (fun e => match e with (k, x) => small n k /\ small n x end) m)
  | _ => True
  end.

Lemma fold_and {A} (P : A -> Prop) l : fold_right and True (map P l) <-> Forall P l.
Proof.
  induction l as [|a l IH]; cbn; [split; auto|]. rewrite IH. split.
  - intros []. now constructor.
  - intro H. inversion_clear H. auto.
Qed.

Lemma small_seq n l : small n (VSeq l) <-> Forall (small n) l.
Proof. cbn. rewrite fold_and. tauto. Qed.
Lemma small_struct n l : small n (VStruct l) <-> Forall (small n) l.
Proof. cbn. rewrite fold_and. tauto. Qed.
Lemma small_slice n l : small n (VSlice (Some l)) <-> zlen l <= n /\ Forall (small n) l.
Proof. cbn. rewrite fold_and. tauto. Qed.
Lemma small_map n m : small n (VMap (Some m)) <->
  Forall (fun e => small n (fst e) /\ small n (snd e)) m.
Proof.
  cbn. rewrite fold_and. split; intro H; (eapply Forall_impl; [|exact H]); intros [k x]; auto.
Qed.

Lemma small_zero n t : 0 <= n -> small n (zero_val t).
Proof.
  intro Hn. induction t as [t IH] using ty_strong_ind. destruct t; try exact I.
  - cbn [zero_val small]. change (zlen (@nil Z)) with 0. lia.
  - cbn [zero_val]. apply small_seq. apply Forall_forall. intros x Hx. apply repeat_spec in Hx.
    subst. apply IH. cbn; lia.
  - cbn [zero_val]. apply small_struct. apply Forall_forall. intros x Hx. apply in_map_iff in Hx.
    destruct Hx as ([h t] & <- & Hin). apply IH. now apply (ty_size_field _ h).
  - apply (IH t). cbn; lia.
Qed.

(** Every result of [m] on at most [n] unread bytes satisfies [P]. *)
Definition yields {A} (n : Z) (P : A -> Prop) (m : DM A) : Prop :=
  forall s x s', inside s -> remaining_of s <= n -> m s = (Ok x, s') -> P x.

Lemma yields_ret {A} n (P : A -> Prop) a : P a -> yields n P (ret a).
Proof. intros H s x s' _ _ [= <- _]. exact H. Qed.
Lemma yields_never {A} n (P : A -> Prop) m : (forall s x s', m s <> (Ok x, s')) -> yields n P m.
Proof. intros H s x s' _ _ E. now apply H in E. Qed.
Lemma yields_weaken {A} n (P Q : A -> Prop) m : (forall a, P a -> Q a) -> yields n P m -> yields n Q m.
Proof. intros H Hm s x s' Hi Hr E. apply H. eapply Hm; eauto. Qed.
Lemma yields_any {A} n (m : DM A) : yields n (fun _ => True) m.
Proof. easy. Qed.

Lemma yields_bind {A B} n (Q : A -> Prop) (P : B -> Prop) m k :
  within m -> yields n Q m -> (forall a, Q a -> yields n P (k a)) -> yields n P (bind m k).
Proof.
  intros Hw Hm Hk s x s' Hi Hr E. unfold bind in E. specialize (Hw s Hi).
  destruct (m s) as [[a|e| | |] s1] eqn:Em; try discriminate. cbn [snd] in Hw.
  destruct Hw as (Hd & _ & Hp & Hi'). apply (Hk a) in E; auto.
  - eapply Hm; eauto.
  - open_rem. rewrite Hd. lia.
Qed.
Lemma yields_then {A B} n (P : B -> Prop) (m : DM A) k :
  within m -> (forall a, yields n P (k a)) -> yields n P (bind m k).
Proof. intros Hw Hk. apply (yields_bind n (fun _ => True)); auto. apply yields_any. Qed.
Lemma yields_fmap {A B} n (P : B -> Prop) (f : A -> B) m :
  yields n (fun a => P (f a)) m -> yields n P (fmap f m).
Proof.
  intros Hm s x s' Hi Hr E. unfold fmap, bind in E.
  destruct (m s) as [[a|e| | |] s1] eqn:Em; try discriminate. injection E as <- _.
  exact (Hm s a s1 Hi Hr Em).
Qed.
Lemma yields_map_err {A} n (P : A -> Prop) f m : yields n P m -> yields n P (map_err f m).
Proof.
  intros Hm s x s' Hi Hr E. unfold map_err in E.
  destruct (m s) as [[a|e| | |] s1] eqn:Em; try discriminate. injection E as <- _.
  exact (Hm s a s1 Hi Hr Em).
Qed.

Lemma yields_take n k : yields n (fun l => zlen l <= n) (d_take k).
Proof.
  intros s x s' Hi Hr E. unfold d_take, d_get, bind, slice_n in E.
  destruct ((0 <=? d_pos s) && (0 <=? k) && (d_pos s + k <=? zlen (d_data s))) eqn:Ec; [|discriminate].
  injection E as <- _. (unfold inside in *; open_rem).
  unfold zlen in *. rewrite firstn_length, skipn_length. lia.
Qed.
Lemma yields_read_n n k : 0 <= n -> yields n (fun l => zlen l <= n) (read_n_bytes k).
Proof.
  intro Hn. unfold read_n_bytes. destruct (k =? 0); [apply yields_ret; exact Hn|].
  destruct ((k <? 0) || (0x7FFFFFFF <? k)); [now apply yields_never|].
  apply yields_then; [within|]. intro s. destruct (_ <? _); [now apply yields_never|].
  apply yields_take.
Qed.
Lemma yields_byte_slice n : yields n (fun l => zlen l <= n) read_byte_slice.
Proof.
  unfold read_byte_slice. apply yields_then; [within|]. intro. apply yields_then; [within|].
  intro s. destruct (_ <? _); [now apply yields_never|]. apply yields_take.
Qed.
Lemma yields_str n E : 0 <= n -> yields n (fun l => zlen l <= n) (read_str E).
Proof.
  intro Hn. unfold read_str.
  assert (H : yields n (fun l => zlen l <= n) read_rust_string).
  { unfold read_rust_string. apply yields_then; [within|]. intro.
    destruct (_ <? _); [now apply yields_never|]. now apply yields_read_n. }
  destruct E; [exact H| |]; apply yields_byte_slice.
Qed.

Lemma yields_rep {A} n k (P : A -> Prop) m : within m -> yields n P m ->
  yields n (fun l => length l = k /\ Forall P l) (read_rep k m).
Proof.
  intros Hw Hm. induction k as [|k IH]; cbn [read_rep]; [now apply yields_ret|].
  eapply yields_bind; [exact Hw|exact Hm|]. intros a Ha.
  eapply yields_bind; [within|exact IH|]. intros l [Hl Hf].
  apply yields_ret. cbn [length]. split; [lia|now constructor].
Qed.
Lemma yields_each {A B} n (P : B -> Prop) (f : A -> DM B) l :
  Forall (fun a => within (f a) /\ yields n P (f a)) l -> yields n (Forall P) (each_dec f l).
Proof.
  induction l as [|a l IH]; intro H; cbn [each_dec]; [now apply yields_ret|].
  inversion_clear H as [|? ? [Hw Hm] Hr].
  assert (Hwr : within (each_dec f l)).
  { clear IH Hm. induction l as [|b l IHl]; cbn [each_dec]; [within|]. inversion_clear Hr as [|? ? [? ?] ?].
    apply within_bind; [auto|]. intro. apply within_bind; [auto|]. intro. within. }
  eapply yields_bind; [exact Hw|exact Hm|]. intros b Hb.
  eapply yields_bind; [exact Hwr|apply IH; exact Hr|]. intros bs Hbs. apply yields_ret. now constructor.
Qed.

Lemma uints_le n w l s zs s' : inside s -> remaining_of s <= n ->
  read_uints w l s = (Ok zs, s') -> zlen zs <= n.
Proof.
  intros Hi Hr E. assert (0 <= n) by ((unfold inside in *; open_rem); lia).
  unfold read_uints in E. unfold bind at 1 in E. unfold d_remaining in E.
  destruct (remaining_of s <? (if l <? 0 then _ else _)) eqn:Ec; [discriminate|].
  destruct w.
  - eapply (yields_read_n n l); eauto.
  - destruct (l <? 0) eqn:El; [discriminate|].
    apply (yields_rep n (Z.to_nat l) (fun _ => True)) in E; [|within|easy|exact Hi|exact Hr].
    unfold zlen. cbn [wbytes] in *. lia.
  - destruct (l <? 0) eqn:El; [discriminate|].
    apply (yields_rep n (Z.to_nat l) (fun _ => True)) in E; [|within|easy|exact Hi|exact Hr].
    unfold zlen. cbn [wbytes] in *. lia.
  - destruct (l <? 0) eqn:El; [discriminate|].
    apply (yields_rep n (Z.to_nat l) (fun _ => True)) in E; [|within|easy|exact Hi|exact Hr].
    unfold zlen. cbn [wbytes] in *. lia.
Qed.
Lemma yields_uints n w l : yields n (fun zs => zlen zs <= n) (read_uints w l).
Proof. intros s x s' Hi Hr E. eapply uints_le; eauto. Qed.

Lemma small_nums n zs : Forall (small n) (map VNum zs).
Proof. apply Forall_forall. intros x Hx. apply in_map_iff in Hx. now destruct Hx as (z & <- & _). Qed.

(** * The reflection decoder *)

Lemma all_codecs_impl (P Q : codec -> ty -> Prop) t :
  (forall c u, P c u -> Q c u) -> all_codecs P t -> all_codecs Q t.
Proof.
  intro H. induction t as [t IH] using ty_strong_ind.
  destruct t as [|un w|nm w|f| |sg| | |t|k t|t|t1 t2|fs|c t|]; try exact (fun x => x).
  - apply (IH t). cbn; lia.
  - apply (IH t). cbn; lia.
  - apply (IH t). cbn; lia.
  - intros [H1 H2]. split; [revert H1; apply (IH t1)|revert H2; apply (IH t2)]; cbn; lia.
  - intro Hc. apply all_codecs_struct in Hc. apply all_codecs_struct. rewrite Forall_forall in *.
    intros [h u] Hin. apply IH; [now apply (ty_size_field _ h)|exact (Hc _ Hin)].
  - intros [H1 H2]. split; [now apply H|]. revert H2. apply (IH t). cbn; lia.
Qed.

(** Custom types keep the bound. *)
Definition codec_small (c : codec) (_ : ty) : Prop :=
  forall f v, c_unmarshal c = Some f ->
    within (f v) /\ forall n, 0 <= n -> small n v -> yields n (small n) (f v).

Lemma codec_small_within t : all_codecs codec_small t -> all_codecs codec_within t.
Proof.
  apply all_codecs_impl. intros c u H f v Hf. now apply H.
Qed.

Section Bound.
  Variables (n : Z).
  Hypothesis Hn : 0 <= n.

  Lemma yields_pend p t core : within core -> yields n (small n) core -> yields n (small n) (with_pend p t core).
  Proof.
    intros Hw H. unfold with_pend. destruct p; [|exact H]. apply yields_then; [within|].
    intros []; [exact H|]. apply yields_ret. now apply small_zero.
  Qed.

  Lemma small_pointee t v : small n v -> small n (pointee t v).
  Proof. intro H. destruct v as [| | | |[x|]| | | | | |]; cbn [pointee]; try now apply small_zero. exact H. Qed.

  Lemma yields_dec_map kt k deck decv : within deck -> within decv ->
    yields n (small n) deck -> yields n (small n) decv ->
    forall m, Forall (fun e => small n (fst e) /\ small n (snd e)) m ->
    yields n (Forall (fun e => small n (fst e) /\ small n (snd e))) (dec_map kt k deck decv m).
  Proof.
    intros Hwk Hwv Hk Hv. induction k as [|k IH]; intros m Hm; cbn [dec_map]; [now apply yields_ret|].
    eapply yields_bind; [exact Hwk|exact Hk|]. intros a Ha.
    eapply yields_bind; [exact Hwv|exact Hv|]. intros b Hb.
    apply IH. clear -Ha Hb Hm. induction m as [|[k0 x0] m IHm]; cbn [map_set]; [now repeat constructor|].
    inversion_clear Hm as [|? ? H1 H2]. destruct (key_eqb kt k0 a).
    - constructor; [|exact H2]. cbn [fst snd] in *. tauto.
    - constructor; [exact H1|]. now apply IHm.
  Qed.

  Lemma yields_unmarshaler t m : all_codecs codec_small t -> borsh_field_unmarshaler t = Some m ->
    yields n (small n) m.
  Proof.
    intros Hc H. destruct t; try discriminate.
    - destruct t; try discriminate. cbn [borsh_field_unmarshaler] in H.
      destruct (c_unmarshal c) as [f|] eqn:Ef; inversion H; subst. destruct Hc as [Hc _].
      apply yields_fmap. apply (Hc f (zero_val t) Ef); [exact Hn|now apply small_zero].
    - cbn [borsh_field_unmarshaler] in H.
      destruct (c_unmarshal c) as [f|] eqn:Ef; inversion H; subst. destruct Hc as [Hc _].
      apply (Hc f (zero_val t) Ef); [exact Hn|now apply small_zero].
  Qed.

  Lemma yields_dec_fields E rec fs : forall ps sizes seen,
    Forall (fun ht => all_codecs codec_small (snd ht) /\
                      (forall o v, within (rec (snd ht) o v)) /\
                      (forall o v, small n v -> yields n (small n) (rec (snd ht) o v))) fs ->
    Forall (small n) ps ->
    yields n (Forall (small n)) (dec_fields E rec fs ps sizes seen).
  Proof.
    induction fs as [|[h t] fs IH]; intros ps sizes seen H Hps; cbn [dec_fields].
    - destruct ps; [now apply yields_ret|now apply yields_never].
    - destruct ps as [|p ps]; [now apply yields_never|]. inversion_clear H as [|? ? [Hc [Hw Hy]] Hr].
      inversion_clear Hps as [|? ? Hp Hps']. cbn [snd] in Hc, Hw, Hy.
      assert (Hkeep : forall x sizes seen, small n x ->
        yields n (Forall (small n)) (fmap (cons x) (dec_fields E rec fs ps sizes seen))).
      { intros y sz sn Hx. apply yields_fmap. eapply yields_weaken; [|now apply IH]. intros l0 Hl.
        now constructor. }
      destruct (ft_skip _); [now apply Hkeep|].
      destruct (negb _ && seen); [now apply yields_never|].
      set (tg := parse_field_tag (f_tag h)).
      assert (Hd : forall sn, yields n (Forall (small n))
        (x <- map_err EWrap (rec t (field_opt E tg (f_name h) sizes) p) ;;
         if String.eqb (ft_sizeof tg) "" then fmap (cons x) (dec_fields E rec fs ps sizes sn)
         else match sizeof_val t x with
              | None => panic
              | Some k => fmap (cons x) (dec_fields E rec fs ps ((ft_sizeof tg, k) :: sizes) sn)
              end)).
      { intro sn. eapply yields_bind; [apply within_map_err, Hw|apply yields_map_err, Hy, Hp|].
        intros y Hy'. destruct (String.eqb _ _); [now apply Hkeep|].
        destruct (sizeof_val t y); [now apply Hkeep|now apply yields_never]. }
      assert (Hbody : forall sn, yields n (Forall (small n))
        (if negb (f_exported h) then fmap (cons p) (dec_fields E rec fs ps sizes sn)
         else match is_borsh E, borsh_field_unmarshaler t with
              | true, Some m => x <- m ;; fmap (cons x) (dec_fields E rec fs ps sizes sn)
              | _, _ =>
                  x <- map_err EWrap (rec t (field_opt E tg (f_name h) sizes) p) ;;
                  if String.eqb (ft_sizeof tg) "" then fmap (cons x) (dec_fields E rec fs ps sizes sn)
                  else match sizeof_val t x with
                       | None => panic
                       | Some k => fmap (cons x) (dec_fields E rec fs ps ((ft_sizeof tg, k) :: sizes) sn)
                       end
              end)).
      { intro sn. destruct (negb (f_exported h)); [now apply Hkeep|].
        destruct (is_borsh E); [|apply Hd]. destruct (borsh_field_unmarshaler t) as [m|] eqn:Em; [|apply Hd].
        eapply yields_bind; [eapply within_unmarshaler; [apply codec_small_within, Hc|exact Em]
                            |eapply yields_unmarshaler; eauto|]. intros y Hy'. now apply Hkeep. }
      destruct (ft_ext tg); [|apply Hbody].
      apply yields_then; [within|]. intros [|? ?]; [now apply Hkeep|apply Hbody].
  Qed.

  Lemma yields_dec_variant rec fs : forall ps k,
    Forall (fun ht => (forall o v, small n v -> yields n (small n) (rec (snd ht) o v)) /\
                      (forall o v, within (rec (snd ht) o v))) fs ->
    Forall (small n) ps ->
    yields n (Forall (small n)) (dec_variant rec fs ps k).
  Proof.
    induction fs as [|[h t] fs IH]; intros ps k H Hps; cbn [dec_variant].
    - destruct ps; now apply yields_never.
    - destruct ps as [|p ps]; [now apply yields_never|]. inversion_clear H as [|? ? [Hy Hw] Hr].
      inversion_clear Hps as [|? ? Hp Hps']. cbn [snd] in Hy, Hw. destruct k as [|k].
      + destruct (negb _).
        { apply yields_then; [within|]. intros _. apply yields_then; [within|]. intros _. apply yields_ret. now constructor. }
        eapply yields_bind; [apply Hw|apply Hy, Hp|]. intros y Hy'. apply yields_ret. now constructor.
      + apply yields_fmap. eapply yields_weaken; [|now apply IH]. intros l0 Hl. now constructor.
  Qed.

  Lemma yields_dec_val E t : all_codecs codec_small t ->
    forall m v, small n v -> yields n (small n) (dec_val E t m v).
  Proof.
    induction t as [t IH] using ty_strong_ind. intros Hc.
    pose proof (within_dec_val t (codec_small_within t Hc) E) as Hwt.
    assert (Hwalk : forall o pend v, small n v -> yields n (small n) (dec_val E t (DWalk o pend) v)).
    { intros o pend v Hv. pose proof (Hwt (DWalk o false) v) as Hw. rewrite dec_walk_eq in Hw |- *.
      destruct t as [|un w|nm w|f| |sg| | |t|k t|t|t1 t2|fs|c t|].
      - apply yields_pend; [exact Hw|]. apply yields_fmap. apply yields_any.
      - apply yields_pend; [exact Hw|]. apply yields_fmap. apply yields_any.
      - apply yields_pend; [exact Hw|]. apply yields_fmap. apply yields_any.
      - apply yields_pend; [exact Hw|]. apply yields_fmap. apply yields_any.
      - apply yields_pend; [exact Hw|]. apply yields_fmap.
        eapply yields_weaken; [|now apply yields_str]. cbn [small]. intros; lia.
      - apply yields_pend; [exact Hw|]. now apply yields_never.
      - apply yields_pend; [exact Hw|]. now apply yields_never.
      - apply yields_pend; [exact Hw|]. now apply yields_ret.
      - apply yields_fmap. apply (IH t); [cbn; lia|exact Hc|now apply small_pointee].
      - apply yields_pend; [exact Hw|]. destruct (uint_kind t) as [w|].
        + apply yields_fmap. eapply yields_weaken; [|apply yields_uints]. intros zs _.
          apply small_seq, small_nums.
        + destruct v; try now apply yields_never. apply small_seq in Hv.
          apply yields_fmap. eapply yields_weaken; [intros l' Hl; apply small_seq; exact Hl|].
          apply yields_each. eapply Forall_impl; [|exact Hv]. intros x Hx.
          split; [apply within_dec_val, codec_small_within, Hc|].
          apply IH; [cbn; lia|exact Hc|exact Hx].
      - apply yields_pend; [exact Hw|]. apply yields_then; [destruct (o_size o); within|].
        intro l. destruct (is_borsh E && (l =? 0)); [now apply yields_ret|].
        intros s x s' Hi Hr Ex. unfold bind, d_remaining in Ex.
        destruct (remaining_of s <? l) eqn:El; [discriminate|].
        assert (Hwu : within (dec_val E t (DStart opt0) (zero_val t)))
          by apply within_dec_val, codec_small_within, Hc.
        destruct (uint_kind t) as [w|].
        + refine (yields_fmap n (small n) _ (read_uints w l) _ s x s' Hi Hr Ex).
          eapply yields_weaken; [|apply yields_uints]. intros zs Hz.
          apply small_slice. rewrite zlen_map. split; [exact Hz|apply small_nums].
        + refine (yields_fmap n (small n) _ _ _ s x s' Hi Hr Ex).
          eapply yields_weaken; [|apply (yields_rep n (Z.to_nat l) (small n)); [exact Hwu|]].
          * intros vs [H1 H2]. apply small_slice. split; [unfold zlen; lia|exact H2].
          * apply IH; [cbn; lia|exact Hc|now apply small_zero].
      - apply yields_pend; [exact Hw|]. apply yields_then; [within|].
        intro l. destruct (l =? 0); [now apply yields_ret|]. destruct Hc as [Hc1 Hc2].
        apply yields_fmap. eapply yields_weaken; [intros es Hes; apply small_map; exact Hes|].
        apply yields_dec_map; [apply within_dec_val, codec_small_within, Hc1
          |apply within_dec_val, codec_small_within, Hc2| | |constructor].
        + apply IH; [cbn; lia|exact Hc1|now apply small_zero].
        + apply IH; [cbn; lia|exact Hc2|now apply small_zero].
      - apply yields_pend; [exact Hw|]. destruct v; try now apply yields_never.
        apply small_struct in Hv. apply all_codecs_struct in Hc. rewrite Forall_forall in Hc.
        assert (Hy : forall ht, In ht fs -> forall m v, small n v -> yields n (small n) (dec_val E (snd ht) m v)).
        { intros [h u] Hin. apply IH; [now apply (ty_size_field _ h)|exact (Hc _ Hin)]. }
        assert (Hwf : forall ht, In ht fs -> forall m v, within (dec_val E (snd ht) m v)).
        { intros ht Hin. apply within_dec_val, codec_small_within. now apply Hc. }
        unfold dec_struct. destruct (is_borsh E && is_enum fs).
        + apply yields_then; [within|]. intro k. destruct fs as [|[h u] fs]; [now apply yields_never|].
          destruct l as [|p ps]; [now apply yields_never|]. destruct (negb _); [now apply yields_never|].
          inversion_clear Hv as [|? ? Hp Hps].
          eapply yields_bind; [|apply yields_dec_variant|].
          * apply within_dec_variant. apply Forall_forall. intros ht Hin o' v'.
            apply Hwf. now right.
          * apply Forall_forall. intros ht Hin. split; intros; [|apply Hwf; now right].
            apply Hy; [now right|assumption].
          * exact Hps.
          * intros rest Hrest. apply yields_ret. apply small_struct. constructor; [exact I|exact Hrest].
        + apply yields_fmap. eapply yields_weaken; [intros l' Hl; apply small_struct; exact Hl|].
          apply yields_dec_fields; [|exact Hv]. apply Forall_forall. intros ht Hin.
          split; [now apply Hc|]. split; intros; [now apply Hwf|now apply Hy].
      - destruct Hc as [Hf Hc]. destruct (c_unmarshal c) as [f|] eqn:Ef.
        + destruct pend; [now apply yields_never|]. now apply (Hf f v Ef).
        + apply IH; [cbn; lia|exact Hc|exact Hv].
      - now apply yields_never. }
    assert (Hfl : forall o v, small n v -> yields n (small n) (dec_flagged E t o v)).
    { intros o v Hv. unfold dec_flagged.
      destruct (o_opt o); (apply yields_then; [within|]; intros []; [now apply Hwalk|]);
        apply yields_ret; now apply small_zero. }
    assert (Hnull : forall o v, small n v -> yields n (small n) (dec_val E t (DNull o) v)).
    { intros o v Hv. specialize (Hfl o v Hv). rewrite dec_null_eq.
      destruct t; try exact Hfl; try now apply yields_never.
      - destruct (is_ptr t); [|exact Hfl]. destruct v; try exact Hfl. destruct p; [|exact Hfl].
        apply yields_fmap. apply (IH t); [cbn; lia|exact Hc|exact Hv].
      - destruct (c_unmarshal c); [now apply yields_never|exact Hfl]. }
    intros [o|o|o pend] v Hv; [|now apply Hnull|now apply Hwalk].
    rewrite dec_start_eq. apply yields_then; [within|]. intros _.
    destruct (o_opt o || _); [now apply Hnull|now apply Hwalk].
  Qed.
End Bound.

Lemma bounded t v s x s' :
  all_codecs codec_small t -> inside s -> small (remaining_of s) v ->
  decode t v s = (Ok x, s') -> small (remaining_of s) x.
Proof.
  intros Hc Hi Hv E. unfold decode, decode_target, bind, d_get_enc in E.
  eapply (yields_dec_val (remaining_of s)); eauto; [(unfold inside in *; open_rem); lia|].
  open_rem. lia.
Qed.
