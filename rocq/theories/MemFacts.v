(** The slots of a decoded value are paid for. *)
From Coq Require Import String.
From Verif Require Import Types DecPrim Enc Dec Builtin Spec NumFacts TyInd EncFacts DecWithin DecLocal DecWire Cost CostSpec CostFacts CostBound CostReach MemSpec.
Notation length := Datatypes.length.

Definition sum (l : list val) : Z := fold_right (fun x n => slots x + n) 0 l.
Definition entries (l : list (val * val)) : Z := fold_right (fun e n => slots (fst e) + slots (snd e) + n) 0 l.
Lemma go_sum l : (fix go l := match l with [] => 0 | x :: l' => slots x + go l' end) l = sum l.
Proof. induction l as [|x l IH]; [reflexivity|]. cbn [sum fold_right]. now rewrite IH. Qed.
Lemma go_entries l : (fix go l := match l with [] => 0 | (k, x) :: l' => slots k + slots x + go l' end) l = entries l.
Proof. induction l as [|[k x] l IH]; [reflexivity|]. cbn [entries fold_right fst snd]. now rewrite IH. Qed.
Lemma slots_seq l : slots (VSeq l) = 1 + sum l. Proof. cbn [slots]. now rewrite go_sum. Qed.
Lemma slots_slice l : slots (VSlice (Some l)) = 1 + sum l. Proof. cbn [slots]. now rewrite go_sum. Qed.
Lemma slots_struct l : slots (VStruct l) = 1 + sum l. Proof. cbn [slots]. now rewrite go_sum. Qed.
Lemma slots_map l : slots (VMap (Some l)) = 1 + entries l. Proof. cbn [slots]. now rewrite go_entries. Qed.

Lemma sum_cons x l : sum (x :: l) = slots x + sum l. Proof. reflexivity. Qed.
Lemma slots_pos : forall v, 1 <= slots v.
Proof.
  fix IH 1. intro v.
  assert (Hs : forall l, 0 <= sum l).
  { fix IHl 1. intros [|x l]; [apply Z.le_refl|]. rewrite sum_cons. specialize (IH x). specialize (IHl l). lia. }
  destruct v as [b|z|z|s|p|l|p|p|l|d|]; try (cbn [slots]; lia).
  - cbn [slots]. pose proof (zlen_nonneg s). lia.
  - destruct p as [x|]; [|cbn [slots]; lia]. cbn [slots]. specialize (IH x). lia.
  - rewrite slots_seq. specialize (Hs l). lia.
  - destruct p as [l|]; [|cbn [slots]; lia]. rewrite slots_slice. specialize (Hs l). lia.
  - destruct p as [l|]; [|cbn [slots]; lia]. rewrite slots_map. enough (0 <= entries l) by lia. clear Hs. revert l.
    fix IHl 1. intros [|[k x] l]; [apply Z.le_refl|]. cbn [entries fold_right fst snd].
    pose proof (IH k). pose proof (IH x). specialize (IHl l). unfold entries in IHl. lia.
  - rewrite slots_struct. specialize (Hs l). lia.
Qed.
Lemma sum_nonneg l : 0 <= sum l.
Proof. induction l as [|x l IH]; cbn [sum fold_right]; [lia|]. pose proof (slots_pos x). unfold sum in IH. lia. Qed.
Lemma sum_nums l : sum (map VNum l) = zlen l.
Proof. induction l as [|x l IH]; [reflexivity|]. cbn [map sum fold_right slots]. unfold sum in IH. rewrite IH, zlen_cons. reflexivity. Qed.

Lemma slots_zero t : slots (zero_val t) = room t.
Proof.
  induction t as [t IH] using ty_strong_ind. destruct t as [|un w|nm w|f| |sg| | |t|n t|t|t1 t2|fs|c t|]; try reflexivity.
  - cbn [zero_val room]. rewrite slots_seq. f_equal. assert (Ht : slots (zero_val t) = room t) by (apply IH; cbn; lia).
    induction n as [|n IHn]; [reflexivity|]. cbn [repeat]. rewrite sum_cons, IHn; [lia|]. intros; apply IH; cbn in *; lia.
  - cbn [zero_val room]. rewrite slots_struct. f_equal.
    assert (H : forall h t', In (h, t') fs -> slots (zero_val t') = room t') by (intros h t' Hin; apply IH; now apply (ty_size_field _ h)).
    clear IH. induction fs as [|[h t] fs IHf]; [reflexivity|]. cbn [map fold_right]. rewrite sum_cons.
    cbn [snd]. rewrite (H h t (or_introl eq_refl)). f_equal. apply IHf. intros h' t' Hin. apply (H h' t'). now right.
  - cbn [zero_val room]. apply IH. cbn. lia.
Qed.

(** [p] pays for what it yields: [f] of it is at most [g] and the price. *)
Definition pays {A} (f : A -> Z) (g : Z) (p : priced A) : Prop :=
  forall s, inside s -> 0 <= price p s /\ forall a s', prog p s = (Ok a, s') -> inside s' /\ f a <= g + price p s.

Lemma pays_prim_by {A} (f : A -> Z) g h (m : DM A) : within m -> (forall a, 0 <= h a) -> (forall s a s', inside s -> m s = (Ok a, s') -> f a <= g + 1 + h a) -> pays f g (prim_by h m).
Proof.
  intros Hw Hh H s Hs. cbn [prim_by price prog]. split.
  - destruct (m s) as [r s1]. destruct r as [a|e| | |]; [specialize (Hh a); lia|lia..].
  - intros a s' Hm. specialize (Hw s Hs). rewrite Hm in *. split; [exact (onward_inside _ _ Hw)|]. specialize (H s a s' Hs Hm). lia.
Qed.
Lemma pays_prim {A} (f : A -> Z) g (m : DM A) : within m -> (forall s a s', inside s -> m s = (Ok a, s') -> f a <= g + 1) -> pays f g (prim m).
Proof. intros Hw H. apply pays_prim_by; [exact Hw|lia|]. intros s a s' Hs Hm. specialize (H s a s' Hs Hm). lia. Qed.
Lemma pays_plain {A} (m : DM A) : within m -> pays (fun _ => 0) 0 (prim m).
Proof. intro H. apply pays_prim; [exact H|lia]. Qed.
Lemma pays_never {A} (f : A -> Z) g (m : DM A) : within m -> (forall s a s', m s <> (Ok a, s')) -> pays f g (prim m).
Proof. intros Hw H. apply pays_prim; [exact Hw|]. intros s a s' _ Hm. now apply H in Hm. Qed.
Lemma pays_tick {A} (f : A -> Z) g n p : 0 <= n -> pays f (g + n) p -> pays f g (tick n p).
Proof.
  intros Hn H s Hs. destruct (H s Hs) as [H1 H2]. cbn [tick price prog]. split; [lia|]. intros a s' Hm.
  destruct (H2 a s' Hm). split; [assumption|lia].
Qed.
Lemma pays_bind {A B} (f1 : A -> Z) (f : B -> Z) g1 g2 p k : pays f1 g1 p -> (forall a, pays f (g2 + f1 a) (k a)) -> pays f (g1 + g2) (p_bind p k).
Proof.
  intros H1 H2 s Hs. destruct (H1 s Hs) as [P1 Q1]. cbn [p_bind price prog]. unfold bind.
  destruct (prog p s) as [[a|e| | |] s1]; try (split; [lia|discriminate]).
  destruct (Q1 a s1 eq_refl) as [Q2 Q3]. destruct (H2 a s1 Q2) as [P2 P3]. split; [lia|].
  intros b s' Hm. destruct (P3 b s' Hm). split; [assumption|lia].
Qed.
Lemma pays_then {A B} (f : B -> Z) g (p : priced A) k : pays (fun _ => 0) 0 p -> (forall a, pays f g (k a)) -> pays f g (p_bind p k).
Proof. intros H1 H2. apply (pays_bind (fun _ => 0) f 0 g); [exact H1|]. intro a. replace (g + 0) with g by lia. apply H2. Qed.
Lemma pays_fmap {A B} (f : B -> Z) g (h : A -> B) p : pays (fun a => f (h a)) g p -> pays f g (p_fmap h p).
Proof.
  intros H s Hs. destruct (H s Hs) as [H1 H2]. cbn [p_fmap price prog]. split; [exact H1|]. intros b s' Hm. unfold fmap, bind in Hm.
  destruct (prog p s) as [[a|e| | |] s1]; try discriminate Hm. injection Hm as <- <-. now apply H2.
Qed.
Lemma pays_map_err {A} (f : A -> Z) g h p : pays f g p -> pays f g (p_map_err h p).
Proof.
  intros H s Hs. destruct (H s Hs) as [H1 H2]. cbn [p_map_err price prog]. split; [exact H1|]. intros b s' Hm. unfold map_err in Hm.
  destruct (prog p s) as [[a|e| | |] s1]; try discriminate Hm. injection Hm as <- <-. now apply H2.
Qed.
Lemma pays_le {A} (f f' : A -> Z) g g' p : (forall a, f' a <= f a) -> g <= g' -> pays f g p -> pays f' g' p.
Proof.
  intros Hf Hg H s Hs. destruct (H s Hs) as [H1 H2]. split; [exact H1|]. intros a s' Hm. destruct (H2 a s' Hm). specialize (Hf a). split; [assumption|lia].
Qed.
Lemma pays_more {A} (f : A -> Z) g g' p : g <= g' -> pays f g p -> pays f g' p.
Proof. apply pays_le. lia. Qed.
Lemma pays_cons x g p : pays sum g p -> pays sum (slots x + g) (p_fmap (cons x) p).
Proof. intro H. apply pays_fmap. intros s Hs. destruct (H s Hs) as [H1 H2]. split; [exact H1|]. intros a s' Hm. destruct (H2 a s' Hm). rewrite sum_cons. split; [assumption|lia]. Qed.

Lemma pays_each {A} (f : A -> priced val) (g : A -> Z) l : Forall (fun a => pays slots (g a) (f a)) l ->
  pays sum (fold_right (fun a n => g a + n) 0 l) (p_each f l).
Proof.
  induction 1 as [|a l H _ IH]; cbn [p_each fold_right].
  - apply pays_prim; [within|]. intros s a s' _ Hm. injection Hm as <- _. cbn. lia.
  - apply pays_tick; [lia|]. apply (pays_le sum sum (g a + fold_right (fun a n => g a + n) 0 l)); [lia..|]. apply (pays_bind slots); [exact H|]. intro x.
    apply (pays_le sum sum (fold_right (fun a n => g a + n) 0 l + slots x)); [lia..|]. apply (pays_bind sum); [exact IH|]. intro xs.
    apply pays_prim; [within|]. intros s b s' _ Hm. injection Hm as <- _. rewrite sum_cons. lia.
Qed.
Lemma pays_rep n p : pays slots 0 p -> pays sum 0 (p_rep n p).
Proof.
  intro H. induction n as [|n IH]; cbn [p_rep].
  - apply pays_prim; [within|]. intros s a s' _ Hm. injection Hm as <- _. cbn. lia.
  - apply pays_tick; [lia|]. apply (pays_le sum sum (0 + 0)); [lia..|]. apply (pays_bind slots); [exact H|]. intro x.
    apply (pays_le sum sum (0 + slots x)); [lia..|]. apply (pays_bind sum); [exact IH|]. intro xs.
    apply pays_prim; [within|]. intros s b s' _ Hm. injection Hm as <- _. rewrite sum_cons. lia.
Qed.
Lemma entries_set kt m k v : entries (map_set kt m k v) <= entries m + slots k + slots v.
Proof.
  induction m as [|[k' v'] m IH]; cbn [map_set]; [cbn; lia|]. pose proof (slots_pos k'). pose proof (slots_pos v').
  destruct (key_eqb kt k' k); cbn [entries fold_right fst snd]; unfold entries in *; lia.
Qed.
Lemma pays_map kt n pk pv : pays slots 0 pk -> pays slots 0 pv -> forall m, pays entries (entries m) (p_map kt n pk pv m).
Proof.
  intros Hk Hv. induction n as [|n IH]; intro m; cbn [p_map].
  - apply pays_prim; [within|]. intros s a s' _ Hm. injection Hm as <- _. lia.
  - apply pays_tick; [lia|]. apply (pays_le entries entries (0 + entries m)); [lia..|]. apply (pays_bind slots); [exact Hk|]. intro k.
    apply (pays_le entries entries (0 + (entries m + slots k))); [lia..|]. apply (pays_bind slots); [exact Hv|]. intro v.
    eapply pays_more; [|apply IH]. pose proof (entries_set kt m k v). lia.
Qed.

(** ** Structs *)
Lemma pays_codec cc c u f v : all_codecs codec_within (TCodec c u) -> all_codecs (codec_modest cc) (TCodec c u) ->
  c_unmarshal c = Some f -> fits u v -> pays slots (slots v) (p_codec cc c f v).
Proof.
  intros [Hw _] [Hc _] Hf Hv s Hs. destruct (Hc f Hf v s Hs Hv) as [H1 H2]. cbn [p_codec price prog]. split; [lia|].
  intros x s' Hm. specialize (H2 x s' Hm). split; [|lia].
  pose proof (Hw f v Hf s Hs) as Ho. rewrite Hm in Ho. exact (onward_inside _ _ Ho).
Qed.
Lemma pays_unmarshaler cc t p : all_codecs codec_within t -> all_codecs (codec_modest cc) t -> p_field_unmarshaler cc t = Some p -> pays slots 1 p.
Proof.
  intros Hw Hc Hp.
  destruct t as [|un w|nm w|f| |sg| | |t|n t|t|t1 t2|fs|c t|]; try discriminate.
  - destruct t; try discriminate. cbn [p_field_unmarshaler] in Hp.
    destruct (c_unmarshal c) as [f|] eqn:Ef; [|discriminate]. injection Hp as <-. pose proof (room_pos t).
    apply pays_tick; [lia|]. apply pays_fmap. 
    intros s Hs. destruct (pays_codec cc c t f (zero_val t) Hw Hc Ef (fits_zero t) s Hs) as [P1 P2]. split; [exact P1|].
    intros a s' Hm. destruct (P2 a s' Hm). rewrite slots_zero in *. cbn [slots]. split; [assumption|lia].
  - cbn [p_field_unmarshaler] in Hp. destruct (c_unmarshal c) as [f|] eqn:Ef; [|discriminate]. injection Hp as <-. pose proof (room_pos t).
    apply pays_tick; [lia|]. eapply pays_more; [|apply (pays_codec cc c t f (zero_val t) Hw Hc Ef (fits_zero t))]. rewrite slots_zero. lia.
Qed.

Definition paid (cc : codec -> val -> dst -> Z) (E : encoding) (t : ty) : Prop :=
  forall m v, fits t v -> pays slots (slots v) (pdec cc E t m v).

Lemma pays_fields cc E fs : Forall (fun ht => all_codecs codec_within (snd ht)) fs -> Forall (fun ht => all_codecs (codec_modest cc) (snd ht)) fs ->
  Forall (fun ht => paid cc E (snd ht)) fs -> forall ps sizes seen, fits_fields fits fs ps ->
  pays sum (sum ps) (p_fields cc E (fun t' o' v' => pdec cc E t' (DStart o') v') fs ps sizes seen).
Proof.
  induction fs as [|[h t] fs IH]; intros Hw Hc Hp ps sizes seen Hf.
  - destruct ps as [|p ps]; [|destruct Hf]. cbn [p_fields]. apply pays_prim; [within|]. intros s a s' _ Hm. injection Hm as <- _. cbn. lia.
  - destruct ps as [|p ps]; [destruct Hf|]. cbn [fits_fields snd] in Hf. destruct Hf as [Hf1 Hf2].
    inversion_clear Hw as [|? ? Hw1 Hw2]. inversion_clear Hc as [|? ? Hc1 Hc2]. inversion_clear Hp as [|? ? Hp1 Hp2]. cbn [snd] in *.
    cbn [p_fields]. rewrite sum_cons.
    assert (Hkeep : forall sizes sn, pays sum (slots p + sum ps) (p_fmap (cons p) (p_fields cc E (fun t' o' v' => pdec cc E t' (DStart o') v') fs ps sizes sn))).
    { intros sizes' sn. apply pays_cons. now apply IH. }
    assert (Hnext : forall x sizes sn, pays sum (sum ps + slots x) (p_fmap (cons x) (p_fields cc E (fun t' o' v' => pdec cc E t' (DStart o') v') fs ps sizes sn))).
    { intros x sizes' sn. rewrite Z.add_comm. apply pays_cons. now apply IH. }
    apply pays_tick; [lia|]. apply (pays_le sum sum (slots p + sum ps)); [lia..|].
    destruct (ft_skip _); [apply Hkeep|]. destruct (negb _ && seen); [apply pays_never; [within|discriminate]|]. cbv zeta.
    assert (Hb : forall sn, pays sum (slots p + sum ps)
      (if negb (f_exported h) then p_fmap (cons p) (p_fields cc E (fun t' o' v' => pdec cc E t' (DStart o') v') fs ps sizes sn)
       else match is_borsh E, p_field_unmarshaler cc t with
          | true, Some m => p_bind m (fun x => p_fmap (cons x) (p_fields cc E (fun t' o' v' => pdec cc E t' (DStart o') v') fs ps sizes sn))
          | _, _ =>
              p_bind (p_map_err EWrap (pdec cc E t (DStart (field_opt E (parse_field_tag (f_tag h)) (f_name h) sizes)) p)) (fun x =>
              if String.eqb (ft_sizeof (parse_field_tag (f_tag h))) "" then p_fmap (cons x) (p_fields cc E (fun t' o' v' => pdec cc E t' (DStart o') v') fs ps sizes sn)
              else match sizeof_val t x with
                   | None => prim panic
                   | Some n => p_fmap (cons x) (p_fields cc E (fun t' o' v' => pdec cc E t' (DStart o') v') fs ps ((ft_sizeof (parse_field_tag (f_tag h)), n) :: sizes) sn)
                   end)
          end)).
    { intro sn. destruct (negb (f_exported h)); [apply Hkeep|].
      assert (Hrec : pays sum (slots p + sum ps) (p_bind (p_map_err EWrap (pdec cc E t (DStart (field_opt E (parse_field_tag (f_tag h)) (f_name h) sizes)) p)) (fun x =>
              if String.eqb (ft_sizeof (parse_field_tag (f_tag h))) "" then p_fmap (cons x) (p_fields cc E (fun t' o' v' => pdec cc E t' (DStart o') v') fs ps sizes sn)
              else match sizeof_val t x with
                   | None => prim panic
                   | Some n => p_fmap (cons x) (p_fields cc E (fun t' o' v' => pdec cc E t' (DStart o') v') fs ps ((ft_sizeof (parse_field_tag (f_tag h)), n) :: sizes) sn)
                   end))).
      { apply (pays_bind slots); [apply pays_map_err, Hp1; exact Hf1|]. intro x. destruct (String.eqb _ _); [apply Hnext|].
        destruct (sizeof_val t x); [apply Hnext|apply pays_never; [within|discriminate]]. }
      destruct (is_borsh E); [|exact Hrec]. destruct (p_field_unmarshaler cc t) as [q|] eqn:Eq; [|exact Hrec].
      pose proof (slots_pos p). apply (pays_le sum sum (1 + sum ps)); [lia..|].
      apply (pays_bind slots); [now apply (pays_unmarshaler cc t)|]. intro x. apply Hnext. }
    destruct (ft_ext _); [|apply Hb]. apply pays_then; [apply pays_plain; within|]. intros [|z l]; [apply Hkeep|apply Hb].
Qed.

Lemma pays_sealed t : forall v, pays (fun _ => 0) 0 (p_sealed t v).
Proof.
  induction t as [t IH] using ty_strong_ind. intro v.
  assert (Hp : forall (m : DM unit), within m -> pays (fun _ => 0) 0 (prim m)) by (intros; now apply pays_plain).
  assert (Hq : forall A (f : A -> Z) (m : DM A) k, within m -> (forall a, 0 <= f a) -> (forall a : A, pays (fun _ : unit => 0) 0 (k a)) -> pays (fun _ => 0) 0 (p_bind (prim_by f m) k)).
  { intros A f m k Hw Hf Hk. apply pays_then; [|exact Hk]. apply pays_prim_by; [exact Hw|exact Hf|]. intros s a s' _ _. specialize (Hf a). lia. }
  destruct t as [|un w|nm w|f| |sg| | |t|n t|t|t1 t2|fs|c t|]; cbn [p_sealed];
    try solve [clear IH; apply Hp; apply within_sealed].
  - clear IH. apply Hq; [within|apply zlen_nonneg|]. intro. apply Hp. within.
  - destruct v as [| | | |[x|]| | | | | |]; try solve [clear IH; apply Hp; within]. apply pays_tick; [lia|].
    eapply pays_more; [|apply IH; cbn; lia]. lia.
  - destruct (uint_kind t).
    + clear IH. apply Hq; [within|apply zlen_nonneg|]. intro. apply Hp. destruct n; [destruct (plain_uint t)|]; within.
    + destruct v; try solve [clear IH; apply Hp; within]. apply pays_then; [|intro; clear IH; apply Hp; within].
      assert (He : forall a, pays (fun _ => 0) 0 (p_bind (prim (d_set_cur LE)) (fun _ => p_sealed t a))).
      { intro a. apply pays_then; [clear IH; apply Hp; within|]. intros _. apply IH. cbn. lia. }
      clear -He. induction l as [|a l IHl]; cbn [p_each]; [apply pays_plain; within|].
      apply pays_tick; [lia|]. apply pays_then; [eapply pays_more; [|apply He]; lia|]. intro.
      apply (pays_then _ (0 + 1)); [exact IHl|]. intro. eapply pays_more; [|apply pays_plain]; [lia|within].
  - clear IH. apply Hq; [within|lia|]. intro l. destruct (l =? 0); [apply Hp; within|].
    apply Hq; [within|lia|]. intro r. destruct (r <? l); [apply Hp; within|].
    destruct (uint_kind t); [|apply Hp; within]. apply Hq; [within|apply zlen_nonneg|]. intro. apply Hp. within.
  - clear IH. apply Hq; [within|lia|]. intro l. destruct (l =? 0); apply Hp; within.
  - clear IH. apply pays_tick; [apply zlen_nonneg|]. eapply pays_more; [|apply Hp, (within_sealed (TStruct fs) v)].
    pose proof (zlen_nonneg fs). lia.
  - apply pays_tick; [lia|]. eapply pays_more; [|apply IH; cbn; lia]. lia.
Qed.
Lemma pays_variant cc E fs : Forall (fun ht => paid cc E (snd ht)) fs -> forall ps n, fits_fields fits fs ps ->
  pays sum (sum ps) (p_variant (fun t' o' v' => pdec cc E t' (DStart o') v') fs ps n).
Proof.
  induction 1 as [|[h t] fs H1 H2 IH]; intros [|p ps] n Hf; cbn [fits_fields snd] in Hf; try tauto.
  - cbn [p_variant]. apply pays_never; [within|discriminate].
  - destruct Hf as [Hf1 Hf2]. cbn [p_variant]. cbn [snd] in H1. destruct n as [|n].
    + destruct (negb (f_exported h)).
      * apply pays_then; [apply pays_plain; within|]. intros _. apply pays_then; [apply pays_sealed|]. intros _.
        apply pays_prim; [within|]. intros s a s' _ Hm. injection Hm as <- _. lia.
      * rewrite sum_cons. apply (pays_bind slots); [now apply H1|]. intro x. apply pays_prim; [within|].
        intros s a s' _ Hm. injection Hm as <- _. rewrite sum_cons. lia.
    + rewrite sum_cons. apply pays_cons. now apply IH.
Qed.

(** ** Everything *)
Lemma pays_zero t : pays slots 0 (tick (room t) (prim (ret (zero_val t)))).
Proof.
  pose proof (room_pos t). apply pays_tick; [lia|]. apply pays_prim; [within|]. intros s a s' _ Hm. injection Hm as <- _. rewrite slots_zero. lia.
Qed.
Lemma pays_pend pend t g p : 0 <= g -> pays slots g p -> pays slots g (p_pend pend t p).
Proof.
  intros Hg H. unfold p_pend. destruct pend; [|exact H]. apply pays_then; [apply pays_plain; within|].
  intros []; [exact H|]. eapply pays_more; [|apply pays_zero]. exact Hg.
Qed.
Lemma pays_one {A} g (m : DM A) (h : A -> val) : within m -> 1 <= g -> (forall a, slots (h a) = 1) -> pays slots g (prim (fmap h m)).
Proof.
  intros Hw Hg Hh. apply pays_prim; [within|]. intros s a s' _ Hm. unfold fmap, bind in Hm. destruct (m s) as [[b|e| | |] s1]; try discriminate Hm.
  injection Hm as <- _. rewrite Hh. lia.
Qed.

Theorem paid_dec cc E t : all_codecs codec_within t -> all_codecs (codec_modest cc) t -> paid cc E t.
Proof.
  induction t as [t IH] using ty_strong_ind. intros Hw Hc.
  assert (Hnew : forall t', (ty_size t' < ty_size t)%nat -> all_codecs codec_within t' -> all_codecs (codec_modest cc) t' ->
    pays slots 0 (tick (room t') (pdec cc E t' (DStart opt0) (zero_val t')))).
  { intros t' Hs Hw' Hc'. pose proof (room_pos t'). apply pays_tick; [lia|]. eapply pays_more; [|apply IH; auto; apply fits_zero].
    rewrite slots_zero. lia. }
  assert (Hwalk : forall o pend v, fits t v -> pays slots (slots v) (pdec cc E t (DWalk o pend) v)).
  { intros o pend v Hv. pose proof (slots_pos v) as Hp. rewrite p_walk_eq.
    destruct t as [|un w|nm w|f| |sg| | |t|n t|t|t1 t2|fs|c t|]; try (apply pays_pend; [lia|]).
    - apply pays_one; [clear IH; within|lia|reflexivity].
    - apply pays_one; [clear IH; within|lia|reflexivity].
    - apply pays_one; [clear IH; within|lia|reflexivity].
    - apply pays_one; [clear IH; within|lia|reflexivity].
    - apply pays_fmap. apply pays_prim_by; [clear IH; within|apply zlen_nonneg|]. intros s a s' _ _. cbn [slots]. lia.
    - apply pays_never; [clear IH; within|discriminate].
    - apply pays_never; [clear IH; within|discriminate].
    - apply pays_prim; [clear IH; within|]. intros s a s' _ Hm. injection Hm as <- _. lia.
    - destruct Hv as (p & -> & Hv). 
      assert (H : forall x, fits t x -> pays slots (1 + slots x) (p_fmap (fun x => VPtr (Some x)) (pdec cc E t (DWalk o pend) x))).
      { intros x Hx. apply pays_fmap. intros s Hs. destruct (IH t ltac:(cbn; lia) Hw Hc (DWalk o pend) x Hx s Hs) as [P1 P2].
        split; [exact P1|]. intros a s' Hm. destruct (P2 a s' Hm). cbn [slots]. split; [assumption|lia]. }
      destruct p as [x|]; cbn [pointee].
      + apply pays_tick; [lia|]. eapply pays_more; [|apply H; now apply Hv]. cbn [slots]. lia.
      + pose proof (room_pos t). apply pays_tick; [lia|]. eapply pays_more; [|apply H, fits_zero]. rewrite slots_zero. cbn [slots]. lia.
    - destruct (uint_kind t) eqn:Ek.
      + apply pays_fmap. apply pays_prim_by; [clear IH; within|apply zlen_nonneg|]. intros s a s' _ _. rewrite slots_seq, sum_nums. lia.
      + destruct Hv as (l & -> & _ & Hv). rewrite slots_seq. apply pays_fmap.
        intros s Hs. destruct (pays_each (pdec cc E t (DStart opt0)) slots l) with (s := s) as [P1 P2]; [|exact Hs|].
        { eapply Forall_impl; [|exact Hv]. intros x Hx. apply IH; auto; cbn; lia. }
        split; [exact P1|]. intros a s' Hm. destruct (P2 a s' Hm). rewrite slots_seq. split; [assumption|]. unfold sum at 2. lia.
    - apply pays_then; [destruct (o_size o); apply pays_plain; clear IH; within|]. intro l. unfold p_slice.
      destruct (is_borsh E && (l =? 0)); [apply pays_prim; [clear IH; within|]; intros s a s' _ Hm; injection Hm as <- _; lia|].
      apply pays_then; [apply pays_plain; clear IH; within|]. intro r. destruct (r <? l); [apply pays_never; [clear IH; within|discriminate]|].
      destruct (uint_kind t).
      + apply pays_fmap. apply pays_prim_by; [clear IH; within|apply zlen_nonneg|]. intros s a s' _ _. rewrite slots_slice, sum_nums. lia.
      + apply pays_fmap. intros s Hs. destruct (pays_rep (Z.to_nat l) (tick (room t) (pdec cc E t (DStart opt0) (zero_val t)))) with (s := s) as [P1 P2]; [|exact Hs|].
        { apply Hnew; auto; cbn; lia. }
        split; [exact P1|]. intros a s' Hm. destruct (P2 a s' Hm). rewrite slots_slice. split; [assumption|lia].
    - destruct Hw as [Hw1 Hw2]. destruct Hc as [Hc1 Hc2].
      apply pays_then; [apply pays_plain; clear IH; within|]. intro l.
      destruct (l =? 0); [apply pays_prim; [clear IH; within|]; intros s a s' _ Hm; injection Hm as <- _; lia|].
      apply pays_fmap. intros s Hs.
      destruct (pays_map t1 (Z.to_nat l) (tick (room t1) (pdec cc E t1 (DStart opt0) (zero_val t1))) (tick (room t2) (pdec cc E t2 (DStart opt0) (zero_val t2)))) with (m := @nil (val * val)) (s := s) as [P1 P2];
        [apply Hnew; auto; cbn; lia..|exact Hs|].
      split; [exact P1|]. intros a s' Hm. destruct (P2 a s' Hm). rewrite slots_map. cbn [entries fold_right] in *. split; [assumption|lia].
    - destruct Hv as (vs & -> & Hv). apply all_codecs_struct in Hw. apply all_codecs_struct in Hc. rewrite slots_struct. unfold p_struct.
      assert (IHf : Forall (fun ht => paid cc E (snd ht)) fs).
      { rewrite Forall_forall in *. intros [h t'] Hin. apply IH; [now apply (ty_size_field _ h)|exact (Hw _ Hin)|exact (Hc _ Hin)]. }
      destruct (is_borsh E && is_enum fs).
      + apply pays_then; [apply pays_plain; clear IH; within|]. intro n. destruct fs as [|[h t] fs]; [apply pays_never; [clear IH; within|discriminate]|].
        destruct vs as [|p ps]; [apply pays_never; [clear IH; within|discriminate]|]. destruct (negb (f_exported h)); [apply pays_never; [clear IH; within|discriminate]|].
        rewrite sum_cons. pose proof (slots_pos p). apply (pays_le slots slots (sum ps + 2)); [lia..|].
        destruct Hv as [_ Hv]. inversion_clear IHf. apply (pays_bind sum); [now apply pays_variant|]. intro rest.
        apply pays_prim; [clear IH; within|]. intros s a s' _ Hm. injection Hm as <- _. rewrite slots_struct, sum_cons. cbn [slots]. lia.
      + apply pays_fmap. intros s Hs. destruct (pays_fields cc E fs Hw Hc IHf vs [] false Hv s Hs) as [P1 P2].
        split; [exact P1|]. intros a s' Hm. destruct (P2 a s' Hm). rewrite slots_struct. split; [assumption|lia].
    - destruct (c_unmarshal c) as [f|] eqn:Ef.
      + destruct pend; [apply pays_never; [clear IH; within|discriminate]|]. now apply (pays_codec cc c t).
      + apply pays_tick; [lia|]. destruct Hw as [_ Hw]. destruct Hc as [_ Hc].
        eapply pays_more; [|apply IH; auto; cbn; lia]. lia.
    - apply pays_never; [clear IH; within|discriminate]. }
  assert (Hfl : forall o v, fits t v -> pays slots (slots v) (p_flagged cc E t o v)).
  { intros o v Hv. pose proof (slots_pos v).
    assert (Hz : pays slots (slots v) (tick (room t) (prim (ret (zero_val t))))) by (eapply pays_more; [|apply pays_zero]; lia).
    unfold p_flagged. destruct (o_opt o); (apply pays_then; [apply pays_plain; clear IH; within|]; intros []; [now apply Hwalk|exact Hz]). }
  assert (Hnull : forall o v, fits t v -> pays slots (slots v) (pdec cc E t (DNull o) v)).
  { intros o v Hv. rewrite p_null_eq. destruct t as [|un w|nm w|f| |sg| | |t|n t|t|t1 t2|fs|c t|]; try (now apply Hfl).
    - destruct (is_ptr t); [|now apply Hfl]. destruct Hv as (p & -> & Hv). destruct p as [x|]; [|apply Hfl; now exists None].
      apply pays_tick; [lia|]. apply pays_fmap. intros s Hs. destruct (IH t ltac:(cbn; lia) Hw Hc (DNull o) x (Hv x eq_refl) s Hs) as [P1 P2].
      split; [exact P1|]. intros a s' Hm. destruct (P2 a s' Hm). cbn [slots]. split; [assumption|lia].
    - destruct (c_unmarshal c); [apply pays_never; [clear IH; within|discriminate]|now apply Hfl].
    - apply pays_never; [clear IH; within|discriminate]. }
  intros [o|o|o pend] v Hv; [|now apply Hnull|now apply Hwalk].
  rewrite p_start_eq. apply pays_then; [apply pays_plain; clear IH; within|]. intros _. destruct (_ || _); [now apply Hnull|now apply Hwalk].
Qed.
