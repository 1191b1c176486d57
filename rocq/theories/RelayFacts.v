(** Facts for C87. *)
From Coq Require Import String.
From Verif Require Import Types EncPrim DecPrim Enc Dec Builtin Spec NumFacts TyInd KeyEq EncFacts EncProps DecEq DecWithin DecLocal DecBound WriteSpec WriteFacts
  Cost CostSpec CostFacts CostBound MemSpec MemFacts MemLib BulkSpec BulkFacts BulkLib RelaySpec.
Notation length := Datatypes.length.

(** * Results of programs *)
Definition yields {A} (P : A -> Prop) (m : DM A) : Prop := forall s a s', m s = (Ok a, s') -> P a.
Lemma yields_ret {A} (P : A -> Prop) a : P a -> yields P (ret a).
Proof. intros H s b s' Hm. unfold ret in Hm. assert (b = a) as -> by congruence. exact H. Qed.
Lemma yields_never {A} (P : A -> Prop) m : (forall s a s', m s <> (Ok a, s')) -> yields P m.
Proof. intros H s a s' Hm. now apply H in Hm. Qed.
Lemma yields_any {A} (m : DM A) : yields (fun _ => True) m. Proof. now intros s a s' _. Qed.
Lemma yields_bind {A B} (P : A -> Prop) (Q : B -> Prop) m k : yields P m -> (forall a, P a -> yields Q (k a)) -> yields Q (bind m k).
Proof. intros Hm Hk s b s' H. unfold bind in H. destruct (m s) as [[a|e| | |] s1] eqn:Em; try discriminate. exact (Hk a (Hm s a s1 Em) s1 b s' H). Qed.
Lemma yields_then {A B} (Q : B -> Prop) (m : DM A) k : (forall a, yields Q (k a)) -> yields Q (bind m k).
Proof. intro H. apply (yields_bind (fun _ => True)); [apply yields_any|auto]. Qed.
Lemma yields_fmap {A B} (Q : B -> Prop) (f : A -> B) m : yields (fun a => Q (f a)) m -> yields Q (fmap f m).
Proof. intros H s b s' Hm. unfold fmap, bind in Hm. destruct (m s) as [[a|e| | |] s1] eqn:Em; try discriminate. unfold ret in Hm. assert (b = f a) as -> by congruence. exact (H s a s1 Em). Qed.
Lemma yields_map_err {A} (Q : A -> Prop) f (m : DM A) : yields Q m -> yields Q (map_err f m).
Proof. intros H s b s' Hm. unfold map_err in Hm. destruct (m s) as [[a|e| | |] s1] eqn:Em; try discriminate. assert (b = a) as -> by congruence. exact (H s a s1 Em). Qed.
Lemma yields_weaken {A} (P Q : A -> Prop) m : (forall a, P a -> Q a) -> yields P m -> yields Q m.
Proof. intros H Hm s a s' E. exact (H a (Hm s a s' E)). Qed.

(** * Keys *)
Lemma key_sym t a b : key_eqb t a b = key_eqb t b a.
Proof.
  assert (H : forall a b, key_eqb t a b = true -> key_eqb t b a = true).
  { clear. intros a b H. pose proof (key_eqb_same t a b H) as S. destruct (S a) as [S1 S2]. rewrite <- S1, S2. exact H. }
  destruct (key_eqb t a b) eqn:E1; [symmetry; now apply H|]. destruct (key_eqb t b a) eqn:E2; [|reflexivity]. apply H in E2. congruence.
Qed.
Lemma set_keys kt m k v k0 : In k0 (map fst (map_set kt m k v)) -> k0 = k \/ In k0 (map fst m).
Proof.
  induction m as [|[k' v'] m IH]; cbn [map_set map In fst]; [intros [H|[]]; auto|]. destruct (key_eqb kt k' k); cbn [map In fst].
  - intros [H|H]; auto.
  - intros [H|H]; auto. destruct (IH H); auto.
Qed.
Lemma set_distinct kt m k v : distinct kt (map fst m) -> distinct kt (map fst (map_set kt m k v)).
Proof.
  unfold distinct. induction m as [|[k' v'] m IH]; cbn [map_set map fst]; intro H; [repeat constructor|].
  inversion_clear H as [|? ? H1 H2]. destruct (key_eqb kt k' k) eqn:E; cbn [map fst].
  - constructor; [|exact H2]. rewrite Forall_forall in *. intros c Hc. destruct (H1 c Hc) as [A B].
    destruct (key_eqb_same kt k' k E c) as [S1 S2]. rewrite <- S1, <- S2. auto.
  - constructor; [|now apply IH]. rewrite Forall_forall in *. intros c Hc. destruct (set_keys kt m k v c Hc) as [->|Hin]; [|now apply H1].
    split; [exact E|now rewrite key_sym].
Qed.

Lemma keyed_zero t : keyed t (zero_val t).
Proof.
  induction t as [t IH] using ty_strong_ind.
  destruct t as [|un w|nm w|f| |sg| | |t|n t|t|t1 t2|fs|cd t|]; cbn [zero_val keyed]; auto.
  - apply Forall_forall. intros x Hx. apply repeat_spec in Hx. subst x. apply IH. cbn. lia.
  - assert (H : forall h t, In (h, t) fs -> keyed t (zero_val t)) by (intros h t Hin; apply IH; now apply (ty_size_field _ h)).
    clear IH. induction fs as [|[h t] fs IHf]; [exact I|]. cbn [map each_field snd]. split; [apply (H h); now left|].
    apply IHf. intros h' t' Hin. apply (H h'). now right.
Qed.
Lemma keyed_nums t w l : uint_kind t = Some w -> Forall (keyed t) (map VNum l).
Proof.
  intro Hk. apply Forall_forall. intros x Hx. apply in_map_iff in Hx. destruct Hx as (z & <- & _). revert w Hk.
  induction t as [t IH] using ty_strong_ind. intros w Hk. destruct t; try exact I. cbn [uint_kind keyed] in *. apply (IH t ltac:(cbn; lia) w Hk).
Qed.

(** * The decoder *)
Definition tidy (E : encoding) (t : ty) : Prop := forall m v, keyed t v -> yields (keyed t) (dec_val E t m v).

Lemma yields_each t f l : (forall x, keyed t x -> yields (keyed t) (f x)) -> Forall (keyed t) l -> yields (Forall (keyed t)) (each_dec f l).
Proof.
  intros Hf. induction 1 as [|x l Hx Hl IH]; cbn [each_dec]; [now apply yields_ret|].
  apply (yields_bind (keyed t)); [now apply Hf|]. intros y Hy. apply (yields_bind (Forall (keyed t))); [exact IH|]. intros ys Hys. apply yields_ret. now constructor.
Qed.
Lemma yields_rep (P : val -> Prop) n m : yields P m -> yields (Forall P) (read_rep n m).
Proof.
  intro Hm. induction n as [|n IH]; cbn [read_rep]; [now apply yields_ret|].
  apply (yields_bind P); [exact Hm|]. intros y Hy. apply (yields_bind (Forall P)); [exact IH|]. intros ys Hys. apply yields_ret. now constructor.
Qed.
Definition entries_ok (kt vt : ty) (m : list (val * val)) : Prop :=
  distinct kt (map fst m) /\ Forall (fun e => keyed kt (fst e) /\ keyed vt (snd e)) m.
Lemma yields_dec_map kt vt n mk mv : yields (keyed kt) mk -> yields (keyed vt) mv -> forall m, entries_ok kt vt m ->
  yields (entries_ok kt vt) (dec_map kt n mk mv m).
Proof.
  intros Hk Hv. induction n as [|n IH]; intros m [H1 H2]; cbn [dec_map]; [now apply yields_ret|].
  apply (yields_bind (keyed kt)); [exact Hk|]. intros k Kk. apply (yields_bind (keyed vt)); [exact Hv|]. intros v Vv.
  apply IH. split; [now apply set_distinct|]. clear H1.
  induction H2 as [|[k' v'] m Ha Hm IHm]; cbn [map_set]; [constructor; [now split|constructor]|].
  cbn [fst snd] in Ha. destruct (key_eqb kt k' k); constructor; cbn [fst snd]; tauto.
Qed.

Definition codec_tidy (t : ty) : Prop := all_codecs codec_keyed t.
Lemma yields_unmarshaler t p : codec_tidy t -> borsh_field_unmarshaler t = Some p -> yields (keyed t) p.
Proof.
  unfold codec_tidy. destruct t as [|un w|nm w|f| |sg| | |t|n t|t|t1 t2|fs|c t|]; try discriminate; cbn [borsh_field_unmarshaler].
  - destruct t as [| | | | | | | | | | | | |c u|]; try discriminate. cbn [all_codecs]. intros [Hc _]. destruct (c_unmarshal c) as [f|] eqn:Ec; [|discriminate].
    intro H. assert (p = fmap (fun x => VPtr (Some x)) (f (zero_val u))) as -> by congruence.
    apply yields_fmap. intros s x s' Hx. cbn [keyed]. exact (Hc f Ec _ _ _ _ (keyed_zero u) Hx).
  - cbn [all_codecs]. intros [Hc _]. destruct (c_unmarshal c) as [f|] eqn:Ec; [|discriminate].
    intro H. assert (p = f (zero_val t)) as -> by congruence. intros s x s' Hx. cbn [keyed]. exact (Hc f Ec _ _ _ _ (keyed_zero t) Hx).
Qed.

Lemma yields_fields E fs : Forall (fun ht => codec_tidy (snd ht)) fs -> Forall (fun ht => tidy E (snd ht)) fs ->
  forall ps sizes seen, each_field keyed fs ps ->
  yields (each_field keyed fs) (dec_fields E (fun t' o' v' => dec_val E t' (DStart o') v') fs ps sizes seen).
Proof.
  induction fs as [|[h t] fs IH]; intros Hc Ht ps sizes seen Hp; destruct ps as [|p ps]; cbn [dec_fields];
    try (apply yields_never; discriminate); [now apply yields_ret|].
  inversion_clear Hc as [|? ? Hc1 Hc2]. inversion_clear Ht as [|? ? Ht1 Ht2]. cbn [snd] in *. cbn [each_field] in Hp. destruct Hp as [Hp1 Hp2]. cbv zeta.
  assert (K : forall x z sn, keyed t x -> yields (each_field keyed ((h, t) :: fs))
    (fmap (cons x) (dec_fields E (fun t' o' v' => dec_val E t' (DStart o') v') fs ps z sn))).
  { intros x z sn Hx. apply yields_fmap. eapply yields_weaken; [|exact (IH Hc2 Ht2 ps z sn Hp2)]. intros l Hl. now split. }
  destruct (ft_skip (parse_field_tag (f_tag h))); [now apply K|].
  destruct (negb (ft_ext (parse_field_tag (f_tag h))) && seen); [now apply yields_never|].
  match goal with |- yields _ (if _ then _ else ?B) => assert (HB : yields (each_field keyed ((h, t) :: fs)) B) end.
  { destruct (negb (f_exported h)); [now apply K|].
    assert (R : yields (each_field keyed ((h, t) :: fs)) (x <- map_err EWrap (dec_val E t (DStart (field_opt E (parse_field_tag (f_tag h)) (f_name h) sizes)) p) ;;
      if String.eqb (ft_sizeof (parse_field_tag (f_tag h))) "" then
        fmap (cons x) (dec_fields E (fun t' o' v' => dec_val E t' (DStart o') v') fs ps sizes (seen || ft_ext (parse_field_tag (f_tag h))))
      else match sizeof_val t x with
           | None => panic
           | Some n => fmap (cons x) (dec_fields E (fun t' o' v' => dec_val E t' (DStart o') v') fs ps ((ft_sizeof (parse_field_tag (f_tag h)), n) :: sizes) (seen || ft_ext (parse_field_tag (f_tag h))))
           end)).
    { apply (yields_bind (keyed t)); [apply yields_map_err; now apply Ht1|]. intros x Hx.
      destruct (String.eqb _ _); [now apply K|]. destruct (sizeof_val t x); [now apply K|now apply yields_never]. }
    destruct (is_borsh E); [|exact R]. destruct (borsh_field_unmarshaler t) as [m|] eqn:Eb; [|exact R].
    apply (yields_bind (keyed t)); [now apply yields_unmarshaler|]. intros x Hx. now apply K. }
  destruct (ft_ext (parse_field_tag (f_tag h))); [|exact HB]. apply yields_then. intros [|b rest]; [now apply K|exact HB].
Qed.

Lemma yields_variant E fs : Forall (fun ht => tidy E (snd ht)) fs -> forall ps n, each_field keyed fs ps ->
  yields (each_field keyed fs) (dec_variant (fun t' o' v' => dec_val E t' (DStart o') v') fs ps n).
Proof.
  induction 1 as [|[h t] fs Ht Hf IH]; intros ps n Hp; destruct ps as [|p ps]; cbn [dec_variant]; try (apply yields_never; discriminate).
  cbn [snd] in Ht. pose proof Hp as [Hp1 Hp2]. destruct n as [|n].
  - destruct (negb (f_exported h)).
    + apply yields_then. intro. apply yields_then. intro. now apply yields_ret.
    + apply (yields_bind (keyed t)); [now apply Ht|]. intros x Hx. apply yields_ret. now split.
  - apply yields_fmap. eapply yields_weaken; [|exact (IH ps n Hp2)]. intros l Hl. now split.
Qed.

Lemma yields_pend pend t (m : DM val) : yields (keyed t) m -> yields (keyed t) (with_pend pend t m).
Proof.
  intro H. unfold with_pend. destruct pend; [|exact H]. apply yields_then. intros []; [exact H|]. apply yields_ret, keyed_zero.
Qed.
Lemma yields_fmap_all {A B} (Q : B -> Prop) (f : A -> B) m : (forall a, Q (f a)) -> yields Q (fmap f m).
Proof. intro H. apply yields_fmap. intros s a s' _. apply H. Qed.

Theorem tidy_dec E t : codec_tidy t -> tidy E t.
Proof.
  induction t as [t IH] using ty_strong_ind. intro Hc.
  assert (Hwalk : forall o pend v, keyed t v -> yields (keyed t) (dec_val E t (DWalk o pend) v)).
  { intros o pend v Hv. rewrite dec_walk_eq. unfold codec_tidy in Hc.
    destruct t as [|un w|nm w|f| |sg| | |t|n t|t|t1 t2|fs|c t|]; try apply yields_pend; try (apply yields_fmap_all; intro; exact I); try (now apply yields_never).
    - now apply yields_ret.
    - apply yields_fmap. cbn [keyed]. apply (IH t ltac:(cbn; lia) Hc (DWalk o pend)). destruct v as [| | | |[x|]| | | | | |]; cbn [pointee]; try apply keyed_zero. exact Hv.
    - cbn [all_codecs] in Hc. destruct (uint_kind t) as [w|] eqn:Ek.
      + apply yields_fmap_all. intro l. exact (keyed_nums t w l Ek).
      + destruct v as [| | | | |l| | | | |]; try (now apply yields_never). apply yields_fmap.
        apply yields_each; [|exact Hv]. intros x Hx. now apply (IH t ltac:(cbn; lia) Hc).
    - cbn [all_codecs] in Hc. apply yields_then. intro l. destruct (is_borsh E && (l =? 0)); [now apply yields_ret|]. apply yields_then. intro r.
      destruct (r <? l); [now apply yields_never|]. destruct (uint_kind t) as [w|] eqn:Ek.
      + apply yields_fmap_all. intro zs. exact (keyed_nums t w zs Ek).
      + apply yields_fmap. apply (yields_rep (keyed t)). apply (IH t ltac:(cbn; lia) Hc). apply keyed_zero.
    - cbn [all_codecs] in Hc. destruct Hc as [Hc1 Hc2]. apply yields_then. intro l. destruct (l =? 0); [now apply yields_ret|]. apply yields_fmap.
      apply (yields_dec_map t1 t2).
      + apply (IH t1 ltac:(cbn; lia) Hc1). apply keyed_zero.
      + apply (IH t2 ltac:(cbn; lia) Hc2). apply keyed_zero.
      + split; constructor.
    - destruct v as [| | | | | | | |ps| |]; try (now apply yields_never). apply all_codecs_struct in Hc.
      assert (Ht : Forall (fun ht => tidy E (snd ht)) fs).
      { rewrite Forall_forall in *. intros [h t] Hin. apply IH; [now apply (ty_size_field _ h)|]. exact (Hc _ Hin). }
      unfold dec_struct. destruct (is_borsh E && is_enum fs).
      + apply yields_then. intro n. destruct fs as [|[h t0] fs]; [now apply yields_never|]. destruct ps as [|p ps]; [now apply yields_never|].
        destruct (negb (f_exported h)) eqn:Ex; [now apply yields_never|].
        cbn [keyed each_field] in Hv. destruct Hv as [Hv1 Hv2]. inversion_clear Ht as [|? ? Ht1 Ht2].
        apply (yields_bind (each_field keyed fs)); [now apply yields_variant|]. intros rest Hr. apply yields_ret. cbn [keyed each_field]. split; [|exact Hr].
        clear. induction t0 as [t0 IH] using ty_strong_ind. destruct t0; try exact I. cbn [keyed]. apply IH. cbn. lia.
      + apply yields_fmap. cbn [keyed]. now apply yields_fields.
    - cbn [all_codecs] in Hc. destruct Hc as [Hc1 Hc2]. destruct (c_unmarshal c) as [f|] eqn:Ec.
      + destruct pend; [now apply yields_never|]. intros s x s' Hx. exact (Hc1 f Ec v s x s' Hv Hx).
      + exact (IH t ltac:(cbn; lia) Hc2 (DWalk o pend) v Hv). }
  assert (Hflag : forall o v, keyed t v -> yields (keyed t) (dec_flagged E t o v)).
  { intros o v Hv. unfold dec_flagged. destruct (o_opt o); apply yields_then; intros []; try (now apply Hwalk); apply yields_ret, keyed_zero. }
  assert (Hnull : forall o v, keyed t v -> yields (keyed t) (dec_val E t (DNull o) v)).
  { intros o v Hv. rewrite dec_null_eq. destruct t as [|un w|nm w|f| |sg| | |t|n t|t|t1 t2|fs|c t|]; try (now apply Hflag); try (now apply yields_never).
    - destruct (is_ptr t); [|now apply Hflag]. destruct v as [| | | |[x|]| | | | | |]; try (now apply Hflag).
      apply yields_fmap. cbn [keyed]. exact (IH t ltac:(cbn; lia) Hc (DNull o) x Hv).
    - destruct (c_unmarshal c); [now apply yields_never|now apply Hflag]. }
  intros [o|o|o pend] v Hv; [|now apply Hnull|now apply Hwalk].
  rewrite dec_start_eq. apply yields_then. intros _. destruct (o_opt o || (is_borsh E && o_copt o)); [now apply Hnull|now apply Hwalk].
Qed.

Theorem decode_keyed E t v data x s' : all_codecs codec_keyed t -> keyed t v ->
  decode t v (new_decoder E data) = (Ok x, s') -> keyed t x.
Proof. intros Hc Hv H. exact (tidy_dec E t Hc (DStart opt0) v Hv _ _ _ H). Qed.

(** * Lengths *)
Lemma slots_in l x : In x l -> slots x <= sum l.
Proof. induction l as [|y l IH]; [intros []|]. rewrite sum_cons. pose proof (slots_pos y). pose proof (sum_nonneg l). intros [->|H1]; [lia|]. apply IH in H1. lia. Qed.
Lemma sum_len l : zlen l <= sum l.
Proof. induction l as [|y l IH]; [reflexivity|]. rewrite sum_cons, zlen_cons. pose proof (slots_pos y). lia. Qed.
Lemma entries_len m : zlen m <= MemFacts.entries m.
Proof. induction m as [|[k v] m IH]; [reflexivity|]. change (MemFacts.entries ((k, v) :: m)) with (slots k + slots v + MemFacts.entries m). rewrite zlen_cons. pose proof (slots_pos k). pose proof (slots_pos v). lia. Qed.
Lemma entries_in m e : In e m -> slots (fst e) + slots (snd e) <= MemFacts.entries m.
Proof.
  induction m as [|[k v] m IH]; [intros []|]. change (MemFacts.entries ((k, v) :: m)) with (slots k + slots v + MemFacts.entries m). pose proof (slots_pos k). pose proof (slots_pos v).
  pose proof (entries_len m). pose proof (zlen_nonneg m). intros [<-|H']; [cbn [fst snd]; lia|]. apply IH in H'. lia.
Qed.
Lemma keyed_real lim t v : keyed t v -> slots v < lim -> real lim t v.
Proof.
  revert v. induction t as [t IH] using ty_strong_ind. intros v Hk Hs.
  destruct t as [|un w|nm w|f| |sg| | |t|n t|t|t1 t2|fs|c t|]; cbn [real keyed] in *; auto.
  - destruct v; auto. cbn [slots] in Hs. lia.
  - destruct v as [| | | |[x|]| | | | | |]; auto. apply IH; [cbn; lia|exact Hk|]. cbn [slots] in Hs. lia.
  - destruct v as [| | | | |l| | | | |]; auto. rewrite Forall_forall in *. intros x Hx. apply IH; [cbn; lia|now apply Hk|].
    first [rewrite slots_seq in Hs|rewrite slots_slice in Hs]. pose proof (slots_in l x Hx). lia.
  - destruct v as [| | | | | |[l|]| | | |]; auto. first [rewrite slots_seq in Hs|rewrite slots_slice in Hs]. pose proof (sum_len l). split; [lia|].
    rewrite Forall_forall in *. intros x Hx. apply IH; [cbn; lia|now apply Hk|]. pose proof (slots_in l x Hx). lia.
  - destruct v as [| | | | | | |[m|]| | |]; auto. rewrite slots_map in Hs. pose proof (entries_len m). destruct Hk as [Hk1 Hk2].
    split; [lia|]. split; [exact Hk1|]. rewrite Forall_forall in *. intros e He. destruct (Hk2 e He). pose proof (entries_in m e He).
    pose proof (slots_pos (fst e)). pose proof (slots_pos (snd e)). split; apply IH; try assumption; try lia; cbn; lia.
  - destruct v as [| | | | | | | |vs| |]; auto. rewrite slots_struct in Hs.
    assert (H : forall h t, In (h, t) fs -> forall v, keyed t v -> slots v < lim -> real lim t v) by (intros h t Hin; apply IH; now apply (ty_size_field _ h)).
    clear IH. revert vs Hk Hs. induction fs as [|[h t] fs IHf]; intros vs Hk Hs; [exact I|]. destruct vs as [|v vs]; [exact I|].
    cbn [each_field] in *. destruct Hk as [Hk1 Hk2]. rewrite sum_cons in Hs. pose proof (slots_pos v). pose proof (sum_nonneg vs).
    split; [apply (H h); [now left|exact Hk1|lia]|]. apply IHf; [|exact Hk2|lia]. intros h' t' Hin. apply (H h'). now right.
Qed.
Lemma real_keyed lim t v : real lim t v -> keyed t v.
Proof.
  revert v. induction t as [t IH] using ty_strong_ind. intros v Hk.
  destruct t as [|un w|nm w|f| |sg| | |t|n t|t|t1 t2|fs|c t|]; cbn [real keyed] in *; try exact I.
  - destruct v as [| | | |[x|]| | | | | |]; try exact I. apply IH; [cbn; lia|exact Hk].
  - destruct v as [| | | | |l| | | | |]; try exact I. rewrite Forall_forall in *. intros x Hx. apply IH; [cbn; lia|now apply Hk].
  - destruct v as [| | | | | |[l|]| | | |]; try exact I. destruct Hk as [_ Hk]. rewrite Forall_forall in *. intros x Hx. apply IH; [cbn; lia|now apply Hk].
  - destruct v as [| | | | | | |[m|]| | |]; try exact I. destruct Hk as (_ & Hk1 & Hk2). split; [exact Hk1|].
    rewrite Forall_forall in *. intros e He. destruct (Hk2 e He). split; apply IH; try assumption; cbn; lia.
  - destruct v as [| | | | | | | |vs| |]; auto.
    assert (H : forall h t, In (h, t) fs -> forall v, real lim t v -> keyed t v) by (intros h t Hin; apply IH; now apply (ty_size_field _ h)).
    clear IH. revert vs Hk. induction fs as [|[h t] fs IHf]; intros vs Hk; [exact I|]. destruct vs as [|v vs]; [exact I|].
    cbn [each_field] in *. destruct Hk as [Hk1 Hk2]. split; [apply (H h); [now left|exact Hk1]|]. apply IHf; [|exact Hk2]. intros h' t' Hin. apply (H h'). now right.
  - apply IH; [cbn; lia|exact Hk].
Qed.

(** * The library *)
Lemma mapless_keyed t : mapless t = true -> forall v, keyed t v.
Proof.
  induction t as [t IH] using ty_strong_ind. intros Hm v.
  destruct t as [|un w|nm w|f| |sg| | |t|n t|t|t1 t2|fs|c t|]; cbn [mapless keyed] in *; try exact I; try discriminate.
  - destruct v as [| | | |[x|]| | | | | |]; try exact I. apply IH; [cbn; lia|exact Hm].
  - destruct v as [| | | | |l| | | | |]; try exact I. apply Forall_forall. intros x Hx. apply IH; [cbn; lia|exact Hm].
  - destruct v as [| | | | | |[l|]| | | |]; try exact I. apply Forall_forall. intros x Hx. apply IH; [cbn; lia|exact Hm].
  - destruct v as [| | | | | | | |vs| |]; auto.
    assert (H : forall h t, In (h, t) fs -> forall v, keyed t v).
    { intros h t Hin. apply IH; [now apply (ty_size_field _ h)|]. rewrite forallb_forall in Hm. exact (Hm _ Hin). }
    clear IH Hm. revert vs. induction fs as [|[h t] fs IHf]; intros vs; [exact I|]. destruct vs as [|v vs]; [exact I|].
    cbn [each_field]. split; [apply (H h); now left|]. apply IHf. intros h' t' Hin. apply (H h'). now right.
  - apply IH; [cbn; lia|exact Hm].
Qed.
Lemma library_mapless : forallb mapless library_types = true. Proof. reflexivity. Qed.
Lemma library_keyed : Forall (all_codecs codec_keyed) library_types.
Proof.
  unfold library_types.
  repeat first [apply Forall_nil | apply Forall_cons];
  lazymatch goal with
  | |- all_codecs _ ?t => let t' := eval hnf in t in change t with t'
  end;
  lazymatch goal with
  | |- all_codecs _ (TCodec _ _) => split; [|cbn; tauto]
  | |- _ => exact I
  end; intros f _ v s x s' _ _; now apply mapless_keyed.
Qed.
