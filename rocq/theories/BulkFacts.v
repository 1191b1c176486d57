(** What encoding hands to the writer is in proportion to the value. *)
From Coq Require Import String Permutation.
From Verif Require Import Types EncPrim Enc Builtin Spec Compact NumFacts TyInd EncFacts EncWire DecLocal DecWire Cost MemSpec MemFacts WriteSpec WriteFacts BulkSpec.
Notation length := Datatypes.length.
Notation concat := List.concat.

(** [m] hands over at most [n]. *)
Definition sends {A} (m : EM A) (n : Z) : Prop := forall s, load (snd (m s)) <= load s + n.

Lemma sends_le {A} (m : EM A) n n' : sends m n -> n <= n' -> sends m n'.
Proof. intros H Hn s. specialize (H s). lia. Qed.
Lemma sends_ret {A} (a : A) : sends (ret a) 0. Proof. intro s. cbn. lia. Qed.
Lemma sends_fail {A} e : sends (@fail est A e) 0. Proof. intro s. cbn. lia. Qed.
Lemma sends_panic {A} : sends (@panic est A) 0. Proof. intro s. cbn. lia. Qed.
Lemma sends_stuck {A} : sends (@stuck est A) 0. Proof. intro s. cbn. lia. Qed.
Lemma sends_deep {A} : sends (@deep est A) 0. Proof. intro s. cbn. lia. Qed.
Lemma sends_bind {A B} (m : EM A) (k : A -> EM B) n n' : 0 <= n' -> sends m n -> (forall a, sends (k a) n') -> sends (bind m k) (n + n').
Proof.
  intros H0 Hm Hk s. specialize (Hm s). unfold bind. destruct (m s) as [[a|e| | |] s1]; cbn [snd] in *; try lia.
  specialize (Hk a s1). lia.
Qed.
Lemma sends_bind_free {A B} (m : EM A) (k : A -> EM B) n : (forall s, load (snd (m s)) = load s) -> (forall a, sends (k a) n) -> 0 <= n -> sends (bind m k) n.
Proof. intros Hm Hk Hn. replace n with (0 + n) by lia. apply sends_bind; [exact Hn| |exact Hk]. intro s. rewrite Hm. lia. Qed.
Lemma sends_map_err {A} g (m : EM A) n : sends m n -> sends (map_err g m) n.
Proof. intros H s. specialize (H s). unfold map_err. destruct (m s) as [[a|e| | |] s1]; cbn [snd] in *; exact H. Qed.
Lemma sends_writer b : sends (to_writer b) (1 + zlen b).
Proof.
  intro s. unfold to_writer. destruct (e_w s _) as [[k n]|]; cbn [snd]; unfold load; cbn [e_hist];
    rewrite concat_app, !zlen_app; cbn [concat]; rewrite app_nil_r, zlen_cons; change (zlen (@nil (list Z))) with 0; lia.
Qed.
Lemma sends_get_enc {A} (k : encoding -> EM A) n : 0 <= n -> (forall E, sends (k E) n) -> sends (bind e_get_enc k) n.
Proof. intros Hn H. apply sends_bind_free; auto. Qed.
Lemma sends_set_cur {A} o (m : EM A) n : 0 <= n -> sends m n -> sends (e_set_cur o ;;; m) n.
Proof. intros Hn H. apply sends_bind_free; auto. Qed.

(** * Primitives *)
Lemma zlen_put o n z : zlen (put_uint o n z) = Z.of_nat n.
Proof. rewrite put_uint_fixed. apply fixed_zlen. Qed.
Lemma sends_uint n z o : sends (write_uint n z o) (1 + Z.of_nat n).
Proof. unfold write_uint. rewrite <- (zlen_put o n z). apply sends_writer. Qed.
Lemma sends_byte z : sends (write_byte z) 2. Proof. apply (sends_writer [z mod 256]). Qed.
Lemma sends_bool b : sends (write_bool b) 2. Proof. apply sends_byte. Qed.
Lemma sends_uvarint z : sends (write_uvarint z) 9.
Proof.
  unfold write_uvarint, put_uvarint. destruct (_ <=? 8) eqn:Ez; [|eapply sends_le; [apply sends_panic|lia]].
  eapply sends_le; [apply sends_writer|lia].
Qed.
Lemma sends_varint z : sends (write_varint z) 9.
Proof.
  unfold write_varint, put_varint, put_uvarint. destruct (_ <=? 8) eqn:Ez; [|eapply sends_le; [apply sends_panic|lia]].
  eapply sends_le; [apply sends_writer|lia].
Qed.
Lemma cu16_loop_short n : forall z, zlen (cu16_loop n z) <= Z.of_nat n.
Proof.
  induction n as [|n IH]; intro z; [cbn; lia|]. cbn [cu16_loop]. cbv zeta.
  destruct (_ =? 0); rewrite zlen_cons; [change (zlen (@nil Z)) with 0; lia|]. specialize (IH (Z.shiftr z 7)). lia.
Qed.
Lemma cu16_short ln : zlen (fst (encode_compact_u16 [] ln)) <= 3.
Proof.
  unfold encode_compact_u16. destruct (_ || _); cbn [fst app]; [cbn; lia|]. apply (cu16_loop_short 3).
Qed.
Lemma sends_cu16 ln : sends (write_compact_u16 ln) 4.
Proof. eapply sends_le; [apply sends_writer|]. pose proof (cu16_short ln). lia. Qed.
Lemma sends_nolen b : sends (write_bytes_nolen b) (1 + zlen b).
Proof.
  destruct b as [|x b]; [|apply sends_writer]. eapply sends_le; [apply sends_ret|]. change (zlen (@nil Z)) with 0. lia.
Qed.
Lemma sends_length ln : sends (write_length ln) 9.
Proof.
  unfold write_length. apply sends_get_enc; [lia|]. intros [| |].
  - apply sends_uvarint.
  - eapply sends_le; [apply sends_nolen|]. pose proof (cu16_short ln). lia.
  - eapply sends_le; [apply sends_uint|lia].
Qed.
Lemma sends_count E ln : sends (write_count E ln) 9.
Proof.
  destruct E; cbn [write_count]; [apply sends_uvarint|eapply sends_le; [apply sends_cu16|lia]|eapply sends_le; [apply sends_uint|lia]].
Qed.
Lemma sends_bytes b : sends (write_bytes b) (10 + zlen b).
Proof.
  unfold write_bytes. pose proof (zlen_nonneg b).
  eapply sends_le; [apply sends_bind; [|apply sends_length|intro; apply sends_nolen]; lia|lia].
Qed.
Lemma sends_str E s : sends (write_str E s) (10 + zlen s).
Proof.
  pose proof (zlen_nonneg s). destruct E; cbn [write_str]; [|apply sends_bytes..]. unfold write_rust_string.
  eapply sends_le; [apply sends_bind; [|apply sends_uint|intro; apply sends_nolen]; lia|lia].
Qed.
Lemma wbytes_8 w : (wbytes w <= 8)%nat. Proof. destruct w; cbn; lia. Qed.
Lemma sends_int E w z o : sends (write_int E w z o) 9.
Proof.
  pose proof (wbytes_8 w). destruct w; cbn [write_int]; [eapply sends_le; [apply sends_byte|lia]|..];
    (eapply sends_le; [apply sends_uint|lia]).
Qed.
Lemma sends_float f b o : sends (write_float f b o) 9.
Proof.
  unfold write_float. apply sends_get_enc; [lia|]. intro E. destruct (_ && _); [eapply sends_le; [apply sends_fail|lia]|].
  eapply sends_le; [apply sends_writer|]. rewrite zlen_put. destruct f; cbn; lia.
Qed.
Lemma sends_flag E b : sends (write_flag E b) 5.
Proof. destruct E; cbn [write_flag]; [apply (sends_uint 4)|eapply sends_le; [apply sends_bool|lia]..]. Qed.
Lemma sends_coption b : sends (write_coption b) 5.
Proof. apply (sends_uint 4). Qed.
Lemma flat_put_len w zs : zlen (flat_map (fun z => put_uint LE (wbytes w) z) zs) <= 8 * zlen zs.
Proof.
  induction zs as [|z zs IH]; [cbn; lia|]. cbn [flat_map]. rewrite zlen_app, zlen_put, zlen_cons. pose proof (wbytes_8 w). lia.
Qed.
Lemma nums_len l : forall zs, nums l = Some zs -> zlen zs = zlen l.
Proof.
  induction l as [|x l IH]; cbn [nums]; [intros zs H; now injection H as <-|]. destruct x; try discriminate. destruct (nums l) as [zs'|]; [|discriminate].
  intros zs H. injection H as <-. rewrite !zlen_cons. now rewrite (IH zs').
Qed.
Lemma sum_len l : zlen l <= sum l.
Proof. induction l as [|x l IH]; [cbn; lia|]. rewrite sum_cons, zlen_cons. pose proof (slots_pos x). lia. Qed.
Lemma firstn_zlen {A} n (l : list A) : zlen (firstn n l) <= zlen l.
Proof. unfold zlen. rewrite firstn_length. lia. Qed.
Lemma sends_uints w n l : sends (write_uints w n l) (1 + 8 * sum l).
Proof.
  pose proof (sum_nonneg l). unfold write_uints. destruct (_ || _); [eapply sends_le; [apply sends_panic|lia]|].
  destruct (nums l) as [zs|] eqn:En; [|eapply sends_le; [apply sends_stuck|lia]]. eapply sends_le; [apply sends_nolen|].
  pose proof (flat_put_len w (firstn (Z.to_nat n) zs)). pose proof (firstn_zlen (Z.to_nat n) zs). pose proof (nums_len l zs En).
  pose proof (sum_len l). lia.
Qed.

Lemma sends_each {A} (f : A -> EM unit) (g : A -> Z) l : (forall a, In a l -> 0 <= g a /\ sends (f a) (g a)) ->
  sends (each f l) (fold_right (fun a n => g a + n) 0 l).
Proof.
  intro H. induction l as [|a l IH]; [apply sends_ret|]. cbn [each fold_right].
  assert (Hl : forall b, In b l -> 0 <= g b /\ sends (f b) (g b)) by (intros b Hb; apply H; now right).
  apply sends_bind; [|apply H; now left|intro; now apply IH].
  clear - Hl. induction l as [|b l IH]; cbn [fold_right]; [lia|]. destruct (Hl b (or_introl eq_refl)).
  assert (0 <= fold_right (fun a n => g a + n) 0 l) by (apply IH; intros c Hc; apply Hl; now right). lia.
Qed.

(** * Weights *)
Section Weight.
Variable kc : codec -> Z.
Variable E : encoding.
Notation W := (weight kc E).

Lemma room_pos t : 1 <= room t.
Proof. rewrite <- slots_zero. apply slots_pos. Qed.
Lemma weight_pos t : 24 <= W t.
Proof.
  induction t as [| | | | | | | |t IH|n t IH|t IH|k v IHk IHv|fs IH|c u IH|] using ty_ind'; cbn [weight]; try lia.
  - pose proof (room_pos t). destruct (is_borsh E); nia.
  - clear IH. induction fs as [|f fs IH]; cbn [fold_right]; lia.
Qed.
Lemma weight_field fs h t : In (h, t) fs -> W t <= W (TStruct fs).
Proof.
  cbn [weight]. induction fs as [|f fs IH]; [easy|]. cbn [fold_right]. intros [->|Hin]; cbn [snd]; [lia|]. specialize (IH Hin). lia.
Qed.
Lemma weight_ptr t : W t <= W (TPtr t).
Proof. cbn [weight]. pose proof (room_pos t). pose proof (weight_pos t). destruct (is_borsh E); nia. Qed.

(** * Structs *)
Lemma sends_fields rec k fs : 0 <= k -> forall vs sizes,
  each_field (fun t v => forall o, sends (rec t o v) (k * slots v)) fs vs -> sends (enc_fields E rec fs vs sizes) (k * sum vs).
Proof.
  intro Hk. induction fs as [|[h t] fs IH]; intros [|v vs] sizes H; cbn [enc_fields].
  - eapply sends_le; [apply sends_ret|]. cbn. lia.
  - eapply sends_le; [apply sends_stuck|]. pose proof (sum_nonneg (v :: vs)). nia.
  - eapply sends_le; [apply sends_stuck|]. cbn. lia.
  - cbn [each_field] in H. destruct H as [Hv Hvs].
    rewrite sum_cons. pose proof (slots_pos v). pose proof (sum_nonneg vs). cbv zeta.
    destruct (ft_skip _); [eapply sends_le; [now apply IH|nia]|].
    match goal with |- sends (match ?x with _ => _ end) _ => destruct x as [sizes'|] end; [|eapply sends_le; [apply sends_panic|nia]].
    destruct (negb _); [eapply sends_le; [now apply IH|nia]|].
    eapply sends_le; [apply sends_bind; [|apply sends_map_err, Hv|intro; now apply IH]; nia|nia].
Qed.
Lemma each_field_map (P Q : ty -> val -> Prop) fs : (forall h t v, In (h, t) fs -> P t v -> Q t v) ->
  forall vs, each_field P fs vs -> each_field Q fs vs.
Proof.
  induction fs as [|[h t] fs IH]; intros H [|v vs]; cbn [each_field]; try easy. intros [Hv Hvs]. split.
  - apply (H h); [now left|exact Hv].
  - apply IH; [|exact Hvs]. intros h' t' v' Hin. apply (H h'). now right.
Qed.
Lemma sends_nth (f : fhdr -> ty -> val -> EM unit) d b k fs : 0 <= k -> sends d 0 -> sends b 0 -> forall vs n,
  each_field (fun t v => forall h, sends (f h t v) (k * slots v)) fs vs -> sends (nth_field f d b fs vs n) (k * sum vs).
Proof.
  intros Hk Hd Hb. induction fs as [|[h t] fs IH]; intros [|v vs] n H; cbn [nth_field].
  - eapply sends_le; [exact Hd|]. cbn. lia.
  - eapply sends_le; [exact Hb|]. pose proof (sum_nonneg (v :: vs)). nia.
  - eapply sends_le; [exact Hb|]. cbn. lia.
  - cbn [each_field] in H. destruct H as [Hv Hvs]. rewrite sum_cons. pose proof (slots_pos v). pose proof (sum_nonneg vs).
    destruct n as [|n]; [eapply sends_le; [apply Hv|nia]|]. eapply sends_le; [apply IH, Hvs|nia].
Qed.
Lemma each_field_any (Q : ty -> val -> Prop) fs : (forall h t v, In (h, t) fs -> Q t v) -> forall vs, each_field Q fs vs.
Proof.
  intros H vs. apply (each_field_map (fun _ _ => True)); [intros h t v Hin _; now apply (H h)|].
  clear H. revert vs. induction fs as [|[h t] fs IH]; intros [|v vs]; cbn [each_field]; auto.
Qed.

(** Unexported variants. *)
Lemma sends_hidden fs vs sizes : sends (enc_fields Borsh (fun _ _ _ => ret tt) (hide fs) vs sizes) 0.
Proof.
  revert vs sizes. unfold hide. induction fs as [|[h t] fs IH]; intros [|v vs] sizes; cbn [map fst snd enc_fields];
    try apply sends_ret; try apply sends_stuck. cbv zeta. cbn [f_tag f_exported f_name negb].
  destruct (ft_skip _); [apply IH|]. match goal with |- sends (match ?x with _ => _ end) _ => destruct x as [sizes'|] end; [apply IH|apply sends_panic].
Qed.
Ltac cheap lem := eapply sends_le; [apply lem|lia].
Lemma sends_sealed t : forall v, sends (enc_sealed t v) (24 * slots v).
Proof.
  induction t as [t IH] using ty_strong_ind. intro v. pose proof (slots_pos v).
  destruct t as [|un w|nm w|f| |sg| | |t|n t|t|t1 t2|fs|c t|]; cbn [enc_sealed]; try (cheap @sends_ret); try (cheap @sends_deep).
  - destruct v; try (cheap @sends_stuck). cheap sends_bool.
  - destruct v; try (cheap @sends_stuck). cheap sends_int.
  - destruct v; try (cheap @sends_stuck). cheap sends_int.
  - destruct v; try (cheap @sends_stuck). cheap sends_float.
  - destruct v; try (cheap @sends_stuck). eapply sends_le; [apply sends_bytes|]. cbn [slots]. pose proof (zlen_nonneg s). lia.
  - destruct v as [| | | | | | | |vs| |]; try (cheap @sends_stuck). rewrite slots_struct. pose proof (sum_nonneg vs).
    destruct (is_enum fs); [|cheap sends_hidden]. destruct vs as [|[] vs]; try (eapply sends_le; [apply sends_stuck|lia]).
    eapply sends_le; [apply sends_bind; [|apply sends_byte|intro; apply (sends_nth _ _ _ 24); [lia|apply sends_fail|apply sends_stuck|]]; [lia|]|lia].
    apply each_field_any. intros h t x Hin _. assert (Ht : forall v, sends (enc_sealed t v) (24 * slots v)) by (apply IH; now apply (ty_size_field _ h)).
    pose proof (slots_pos x). destruct t; try apply Ht.
    assert (Ht' : forall v, sends (enc_sealed t v) (24 * slots v)) by (apply IH; apply (ty_size_field _ h) in Hin; cbn [ty_size] in *; lia).
    destruct x as [| | | |[x|]| | | | | |]; try (cheap @sends_stuck); [|cheap @sends_ret]. cbn [slots]. cheap Ht'.
  - apply IH. cbn. lia.
Qed.
Lemma sends_sealed_payload t v : sends (sealed_payload t v) (24 * slots v).
Proof.
  pose proof (slots_pos v). destruct t; try apply sends_sealed. cbn [sealed_payload].
  destruct v as [| | | |[x|]| | | | | |]; try (cheap @sends_stuck); [|cheap @sends_ret]. cbn [slots]. cheap sends_sealed.
Qed.

(** * Maps *)
Lemma entries_perm_sum m m' : Permutation m m' -> MemFacts.entries m = MemFacts.entries m'.
Proof. unfold MemFacts.entries. induction 1; cbn [fold_right]; lia. Qed.
Lemma keys_perm kt (m : list (val * val)) keys : ordered_keys E kt (map fst m) = Some keys -> exists m', keys = map fst m' /\ Permutation m' m.
Proof.
  intro H. destruct E; cbn [ordered_keys] in H; try (injection H as <-; exists m; split; [reflexivity|apply Permutation_refl]).
  destruct m as [|e1 [|e2 m]].
  - injection H as <-. exists []. split; [reflexivity|apply Permutation_refl].
  - injection H as <-. exists [e1]. split; [reflexivity|apply Permutation_refl].
  - set (l := e1 :: e2 :: m) in *. change (match key_ltb kt with Some lt => Some (isort lt (map fst l)) | None => None end = Some keys) in H.
    destruct (key_ltb kt) as [lt|]; [|discriminate]. assert (Hk : keys = isort lt (map fst l)) by congruence. rewrite Hk.
    exists (sort (fun a b => lt (fst a) (fst b)) l). split; [rewrite isort_sort, sort_map; reflexivity|]. apply sort_perm.
Qed.
Lemma sends_map kt vt enck encv k m : 0 <= k -> distinct kt (map fst m) ->
  Forall (fun e => sends (enck (fst e)) (k * slots (fst e)) /\ sends (encv (snd e)) (k * slots (snd e))) m ->
  sends (match ordered_keys E kt (map fst m) with
         | None => unsortable kt
         | Some keys => write_count E (zlen m) ;;; enc_map kt vt enck encv m keys
         end) (9 + k * MemFacts.entries m).
Proof.
  intros Hk Hd Hall.
  assert (Hp : forall l, 0 <= MemFacts.entries l).
  { unfold MemFacts.entries. induction l as [|e l IH]; cbn [fold_right]; [lia|]. pose proof (slots_pos (fst e)). pose proof (slots_pos (snd e)). lia. }
  pose proof (Hp m) as Hm. destruct (ordered_keys E kt (map fst m)) as [keys|] eqn:Ek.
  - destruct (keys_perm kt m keys Ek) as (m' & -> & Hperm). apply sends_bind; [nia|apply sends_count|]. intros _.
    rewrite <- (entries_perm_sum m' m Hperm).
    assert (He : forall e, In e m' -> sends (if negb (iface_elem kt (fst e)) then stuck else enck (fst e) ;;;
      match map_index kt m (fst e) with None => panic | Some v => if negb (iface_elem vt v) then stuck else encv v end)
      (k * (slots (fst e) + slots (snd e)))).
    { intros e He. apply (Permutation_in _ Hperm) in He. rewrite Forall_forall in Hall. destruct (Hall e He) as [H1 H2].
      pose proof (slots_pos (fst e)). pose proof (slots_pos (snd e)).
      destruct (negb _); [eapply sends_le; [apply sends_stuck|nia]|]. rewrite Z.mul_add_distr_l. apply sends_bind; [nia|exact H1|]. intros _.
      destruct (key_eqb kt (fst e) (fst e)) eqn:Eq.
      - rewrite (find_distinct kt m e Hd He Eq). destruct (negb _); [eapply sends_le; [apply sends_stuck|nia]|exact H2].
      - rewrite (find_none_distinct kt m e Hd He Eq). eapply sends_le; [apply sends_panic|nia]. }
    clear - He Hp Hk. unfold enc_map. induction m' as [|e l IH]; cbn [map each].
    + eapply sends_le; [apply sends_ret|]. cbn. lia.
    + cbn [MemFacts.entries fold_right]. specialize (Hp l). unfold MemFacts.entries in Hp.
      eapply sends_le; [apply sends_bind; [|apply He; now left|intros _; apply IH; intros e' He'; apply He; now right]|]; unfold MemFacts.entries; nia.
  - unfold unsortable. destruct kt; try (eapply sends_le; [apply sends_panic|nia]). eapply sends_le; [apply sends_stuck|nia].
Qed.

(** * Values *)
Lemma sum_firstn n l : sum (firstn n l) <= sum l.
Proof.
  revert l. induction n as [|n IH]; intros [|x l]; cbn [firstn]; try lia; try apply sum_nonneg. rewrite !sum_cons. specialize (IH l). lia.
Qed.
Lemma sends_all (f : val -> EM unit) k l : 0 <= k -> Forall (fun v => sends (f v) (k * slots v)) l -> sends (each f l) (k * sum l).
Proof.
  intros Hk H. induction H as [|x l Hx Hl IH]; cbn [each].
  - eapply sends_le; [apply sends_ret|]. cbn. lia.
  - rewrite sum_cons. pose proof (sum_nonneg l). eapply sends_le; [apply sends_bind; [|exact Hx|intros _; exact IH]; nia|lia].
Qed.
Lemma sends_elems lim t l : (forall v, real lim t v -> forall m, sends (enc_val E t m v) (W t * slots v)) -> Forall (real lim t) l ->
  sends (each (enc_val E t (EFull opt0)) l) (W t * sum l).
Proof.
  intros IH H. apply sends_all; [pose proof (weight_pos t); lia|]. eapply Forall_impl; [|exact H]. intros v Hv. now apply IH.
Qed.
(** The flags of a field. *)
Lemma sends_flags (o : fopt) v core n : sends core (n - 10) -> 10 <= n ->
  sends (let rest : EM unit :=
        if is_borsh E && o_copt o then
          if is_zero v then write_coption false
          else write_coption true ;;; core
        else core in
      if o_opt o then
        if is_zero v then write_flag E false
        else write_flag E true ;;; rest
      else rest) n.
Proof.
  intros Hc Hn. cbv zeta. set (rest := if is_borsh E && o_copt o then _ else _).
  assert (Hr : sends rest (n - 5)).
  { unfold rest. destruct (_ && _); [|eapply sends_le; [exact Hc|lia]].
    destruct (is_zero v); [eapply sends_le; [apply sends_coption|lia]|].
    eapply sends_le; [apply sends_bind; [|apply sends_coption|intros _; exact Hc]; lia|lia]. }
  destruct (o_opt o); [|eapply sends_le; [exact Hr|lia]].
  destruct (is_zero v); [eapply sends_le; [apply sends_flag|lia]|].
  eapply sends_le; [apply sends_bind; [|apply sends_flag|intros _; exact Hr]; lia|lia].
Qed.
Lemma sends_full (o : fopt) v core n : sends core (n - 10) -> 10 <= n ->
  sends (e_set_cur (o_order o) ;;; (let rest : EM unit :=
        if is_borsh E && o_copt o then
          if is_zero v then write_coption false
          else write_coption true ;;; core
        else core in
      if o_opt o then
        if is_zero v then write_flag E false
        else write_flag E true ;;; rest
      else rest)) n.
Proof. intros. apply sends_set_cur; [lia|]. now apply sends_flags. Qed.

Theorem sends_val lim t : 0 < lim -> all_codecs (codec_terse kc) t -> forall v, real lim t v -> forall m, sends (enc_val E t m v) (W t * slots v).
Proof.
  intro Hlim. induction t as [t IH] using ty_strong_ind. intros Hc v Hv.
  assert (IH' : forall t', (ty_size t' < ty_size t)%nat -> all_codecs (codec_terse kc) t' -> forall v, real lim t' v -> forall m, sends (enc_val E t' m v) (W t' * slots v)) by auto.
  clear IH. pose proof (slots_pos v) as Hs. pose proof (weight_pos t) as Hw.
  assert (Hws : W t <= W t * slots v) by nia.
  assert (Hst : forall fs, t = TStruct fs -> sends
    match v with
    | VStruct vs =>
       if is_borsh E && is_enum fs
       then
        match vs with
        | VNum z :: _ =>
            write_byte z;;;
            nth_field
              (fun (h : fhdr) (t' : ty) (v' : val) =>
               if negb (f_exported h)
               then sealed_payload t' v'
               else
                match t' with
                | TPtr t'' =>
                    match v' with
                    | VPtr (Some x) => enc_val E t'' EPayload x
                    | VPtr None => ret tt
                    | _ => stuck
                    end
                | _ => enc_val E t' EPayload v'
                end) (fail EMsg) stuck fs vs (S (Z.to_nat (z mod 256)))
        | _ => stuck
        end
       else
        enc_fields E
          (fun (t' : ty) (o' : fopt) (v' : val) => enc_val E t' (EFull o') v')
          fs vs []
    | _ => stuck
    end (W t * slots v - 10)).
  { intros fs ->. apply all_codecs_struct in Hc. rewrite Forall_forall in Hc.
    destruct v as [| | | | | | | |vs| |]; try (eapply sends_le; [apply sends_stuck|lia]). rewrite slots_struct in *. pose proof (sum_nonneg vs).
    change (each_field (real lim) fs vs) in Hv.
    assert (Hf : forall h t', In (h, t') fs -> W t' <= W (TStruct fs) /\ forall v, real lim t' v -> forall m, sends (enc_val E t' m v) (W (TStruct fs) * slots v)).
    { intros h t' Hin. pose proof (weight_field fs h t' Hin). split; [assumption|]. intros x Hx m. pose proof (slots_pos x).
      eapply sends_le; [apply IH'; [now apply (ty_size_field _ h)|exact (Hc (h, t') Hin)|exact Hx]|nia]. }
    destruct (is_borsh E && is_enum fs).
    - destruct vs as [|[] vs]; try (eapply sends_le; [apply sends_stuck|lia]).
      eapply sends_le; [apply sends_bind; [|apply sends_byte|intros _; apply (sends_nth _ _ _ (W (TStruct fs))); [lia|apply sends_fail|apply sends_stuck|]]|]; [nia| |lia].
      revert Hv. apply each_field_map. intros h t x Hin Hx h'. destruct (Hf h t Hin) as [Hle Hft]. pose proof (slots_pos x).
      destruct (negb _); [eapply sends_le; [apply sends_sealed_payload|nia]|].
      destruct t as [| | | | | | | |t| | | | | |]; try (apply Hft; exact Hx).
      destruct x as [| | | |[x|]| | | | | |]; try (eapply sends_le; [apply sends_stuck|nia]); [|eapply sends_le; [apply sends_ret|nia]].
      cbn [slots]. pose proof (slots_pos x). pose proof (weight_ptr t). pose proof (weight_pos t). eapply sends_le; [apply IH'|nia].
      + pose proof (ty_size_field fs h (TPtr t) Hin). cbn [ty_size] in *. lia.
      + exact (Hc (h, TPtr t) Hin).
      + exact Hx.
    - eapply sends_le; [apply (sends_fields _ (W (TStruct fs))); [lia|]|lia].
      revert Hv. apply each_field_map. intros h t x Hin Hx o. now apply (proj2 (Hf h t Hin)). }
  destruct t as [|un w|nm w|f| |sg| | |t|n t|t|t1 t2|fs|c t|]; try (specialize (Hst _ eq_refl)); intros [o|]; cbn [enc_val]; try (apply sends_full; [|lia]).
  all: try (eapply sends_le; [apply sends_ret|lia]).
  all: try (eapply sends_le; [apply sends_deep|lia]).
  all: try (eapply sends_le; [apply sends_fail|lia]).
  all: try (destruct v; try (eapply sends_le; [apply sends_stuck|lia]);
    first [eapply sends_le; [apply sends_bool|lia]|eapply sends_le; [apply sends_int|lia]|eapply sends_le; [apply sends_float|lia]
     |eapply sends_le; [apply sends_str|cbn [slots weight] in *; pose proof (zlen_nonneg s); lia]
     |eapply sends_le; [apply sends_ret|lia]]).
  - (* pointers *)
    cbn [all_codecs] in Hc. pose proof (weight_ptr t) as Hp. pose proof (weight_pos t) as Hwt. cbn [ty_size] in IH'.
    assert (It : forall v, real lim t v -> forall m, sends (enc_val E t m v) (W t * slots v)) by (apply IH'; [lia|exact Hc]).
    assert (Hno : forall (p : option val), v = VPtr p -> sends
      match v with
      | VPtr (Some x) => match E with Borsh => enc_val E t (EFull opt0) x | _ => enc_val E t (EFull (cut_opt o)) x end
      | VPtr None => match E with Borsh => enc_val E t (EFull opt0) (zero_val t) | _ => ret tt end
      | _ => stuck
      end (W (TPtr t) * slots v - 10)).
    { intros [x|] ->; cbn [real slots] in *.
      - pose proof (slots_pos x). assert (W t * slots x <= W (TPtr t) * (1 + slots x) - 10) by nia.
        destruct E; (eapply sends_le; [apply It, Hv|lia]).
      - destruct E eqn:EE; try (eapply sends_le; [apply sends_ret|lia]). eapply sends_le; [apply It; now apply real_zero|].
        cbn [weight is_borsh]. rewrite slots_zero. lia. }
    assert (Hstuck : sends (@stuck est unit) (W (TPtr t) * slots v - 10)) by (eapply sends_le; [apply sends_stuck|lia]).
    destruct (codec_of t) as [c|] eqn:Ec; [|destruct v; try exact Hstuck; now apply (Hno p)].
    destruct (c_marshal c) as [f|] eqn:Ef; [|destruct v; try exact Hstuck; now apply (Hno p)].
    clear Hno. destruct t; try discriminate. injection Ec as ->. cbn [all_codecs] in Hc. destruct Hc as [[Hf Hn] _]. specialize (Hf f Ef).
    assert (kc c + 10 <= W (TCodec c t)) by (cbn [weight]; lia).
    destruct v as [| | | |[x|]| | | | | |]; try exact Hstuck.
    + cbn [slots]. pose proof (slots_pos x). eapply sends_le; [exact (Hf x)|]. nia.
    + cbn [slots]. destruct E; try (eapply sends_le; [apply sends_ret|lia]);
      (destruct (c_byval c); [eapply sends_le; [apply sends_panic|lia]|]; eapply sends_le; [exact Hn|lia]).
  - (* arrays *)
    destruct v; try (eapply sends_le; [apply sends_stuck|lia]). rewrite slots_seq in *. pose proof (sum_nonneg l). cbn [weight real all_codecs ty_size] in *.
    destruct (uint_kind t); [eapply sends_le; [apply sends_uints|nia]|].
    eapply sends_le; [apply (sends_elems lim); [apply IH'; [lia|exact Hc]|exact Hv]|nia].
  - (* slices *)
    destruct v as [| | | | | |ol| | | |]; try (eapply sends_le; [apply sends_stuck|lia]). cbn [weight all_codecs ty_size] in *.
    set (l := match ol with Some l => l | None => [] end) in *.
    assert (Hl : slots (VSlice ol) = 1 + sum l) by (destruct ol; [apply slots_slice|reflexivity]). rewrite Hl in *.
    assert (Hr : Forall (real lim t) l) by (destruct ol; [apply Hv|constructor]). pose proof (sum_nonneg l).
    apply (sends_le _ (9 + (W t * (1 + sum l) - 19))); [|lia]. apply sends_bind; [nia| |].
    + destruct (o_size o); [eapply sends_le; [apply sends_ret|lia]|apply sends_count].
    + intros _. destruct (uint_kind t); [eapply sends_le; [apply sends_uints|nia]|].
      set (k := Z.to_nat _). pose proof (sum_firstn k l).
      eapply sends_le; [apply (sends_bind _ _ (W t * sum (firstn k l)) 0); [lia|apply (sends_elems lim); [apply IH'; [lia|exact Hc]|]|]|].
      * rewrite Forall_forall in *. intros x Hx. apply Hr. rewrite <- (firstn_skipn k l). apply in_or_app. now left.
      * intros _. destruct (_ <? _); [apply sends_panic|apply sends_ret].
      * nia.
  - (* maps *)
    destruct v as [| | | | | | |om| | |]; try (eapply sends_le; [apply sends_stuck|lia]). cbn [weight all_codecs ty_size] in *.
    set (l := match om with Some l => l | None => [] end) in *.
    assert (Hl : slots (VMap om) = 1 + MemFacts.entries l) by (destruct om; [apply slots_map|reflexivity]). rewrite Hl in *.
    assert (Hr : distinct t1 (map fst l) /\ Forall (fun e => real lim t1 (fst e) /\ real lim t2 (snd e)) l)
      by (destruct om; [apply Hv|split; constructor]). destruct Hr as [Hd Hr].
    eapply sends_le; [apply (sends_map _ _ _ _ (Z.max (W t1) (W t2))); [lia|exact Hd|]|lia].
    eapply Forall_impl; [|exact Hr]. intros e [H1 H2]. pose proof (slots_pos (fst e)). pose proof (slots_pos (snd e)).
    split; (eapply sends_le; [apply IH'; [lia|apply Hc|assumption]|nia]).
  - eapply sends_le; [exact Hst|lia].
  - eapply sends_le; [exact Hst|lia].
  - cbn [all_codecs weight ty_size real] in *. destruct Hc as [[Hf _] Hc].
    assert (It : forall m, sends (enc_val E t m v) (W t * slots v)) by (apply IH'; [lia|exact Hc|exact Hv]).
    destruct (c_marshal c) as [f|]; [|eapply sends_le; [apply It|nia]].
    destruct (c_byval c); [|eapply sends_le; [apply It|nia]]. eapply sends_le; [exact (Hf f eq_refl v)|nia].
  - cbn [all_codecs weight ty_size real] in *. eapply sends_le; [apply IH'; [lia|apply Hc|exact Hv]|nia].
Qed.
End Weight.

(** * From the start *)
Lemma load_new E w : load (new_encoder E w) = 0. Proof. reflexivity. Qed.
Lemma encode_load kc E w lim t v : 0 < lim -> all_codecs (codec_terse kc) t -> real lim t v ->
  load (snd (encode t v (new_encoder E w))) <= weight kc E t * slots v.
Proof.
  intros Hl Hc Hv. pose proof (sends_val kc E lim t Hl Hc v Hv (EFull opt0) (new_encoder E w)) as H.
  rewrite load_new in H. exact H.
Qed.
