(** The bounds for the work of the decoders, and inputs that come close to them. *)
From Verif Require Import Types DecPrim Enc Dec Utf8 Builtin Spec NumFacts TyInd EncFacts EncProps DecWire DecEq DecWithin DecLocal BuiltinFacts Cost CostSpec CostFacts CostBound.
Notation length := Datatypes.length.

Lemma used_le {A} (m : DM A) s : within m -> inside s -> 0 <= used (m s) s <= remaining_of s.
Proof.
  intros Hw Hs. split; [now apply used_nonneg|]. specialize (Hw s Hs). (unfold used, onward, inside in *; open_rem).
  destruct Hw as (Hd & _ & Hp & Hi). destruct (fst (m s)); try lia. rewrite Hd in Hi. lia.
Qed.

Lemma work_linear cc kc E t v data : (forall c, 0 <= kc c) ->
  fed E true t -> all_codecs codec_within t -> all_codecs (codec_cheap cc kc) t -> fits t v ->
  work cc E t v data <= toll kc t * (1 + used (decode t v (new_decoder E data)) (new_decoder E data)).
Proof.
  intros Hk Hf Hw Hc Hv. assert (Hg : gauge true (zlen data) 1) by (split; [lia|discriminate]).
  pose proof (zlen_nonneg data).
  pose proof (billed_dec cc kc E true t Hk Hf Hw Hc _ _ Hg (DStart opt0) v Hv (new_decoder E data)
    ltac:(unfold inside; cbn [new_decoder d_pos d_data]; lia) ltac:(open_rem; cbn [new_decoder d_pos d_data]; lia)) as H1.
  rewrite same_dec in H1. rewrite decode_run. cbn [new_decoder d_enc].
  unfold work, new_decoder in *. cbn [mode_opt] in H1. unfold sized in H1. cbn [opt0 o_size] in H1. lia.
Qed.
Lemma work_quadratic cc kc E t v data : (forall c, 0 <= kc c) ->
  fed E false t -> all_codecs codec_within t -> all_codecs (codec_cheap cc kc) t -> fits t v ->
  work cc E t v data <= toll kc t * (1 + (1 + zlen data) * used (decode t v (new_decoder E data)) (new_decoder E data)).
Proof.
  intros Hk Hf Hw Hc Hv. pose proof (zlen_nonneg data). assert (Hg : gauge false (zlen data) (zlen data + 1)) by (split; lia).
  pose proof (billed_dec cc kc E false t Hk Hf Hw Hc _ _ Hg (DStart opt0) v Hv (new_decoder E data)
    ltac:(unfold inside; cbn [new_decoder d_pos d_data]; lia) ltac:(open_rem; cbn [new_decoder d_pos d_data]; lia)) as H1.
  rewrite same_dec in H1. rewrite decode_run. cbn [new_decoder d_enc].
  unfold work, new_decoder in *. cbn [mode_opt] in H1. unfold sized in H1. cbn [opt0 o_size] in H1.
  replace (1 + zlen data) with (zlen data + 1) by lia. lia.
Qed.

(** * Elements without bytes *)

Definition Unit : ty := TStruct [].

Lemma unit_run cc E r s : exists c, prog (tick r (pdec cc E Unit (DStart opt0) (VStruct []))) s =
  (Ok (VStruct []), mkD (d_data s) (d_pos s) c (d_enc s)).
Proof. cbn [tick prog]. rewrite same_dec. destruct s as [data pos c e]. exists (Some LE). destruct E; reflexivity. Qed.
Lemma unit_price cc E r s : r <= price (tick r (pdec cc E Unit (DStart opt0) (VStruct []))) s.
Proof. destruct s as [data pos c e]. destruct E; cbn -[Z.add]; lia. Qed.

Lemma bind_price {A B} (p : priced A) (k : A -> priced B) s x s' : prog p s = (Ok x, s') ->
  price (p_bind p k) s = price p s + price (k x) s'.
Proof. intro H. cbn [p_bind price]. now rewrite H. Qed.
Lemma bind_prog {A B} (p : priced A) (k : A -> priced B) s x s' : prog p s = (Ok x, s') ->
  prog (p_bind p k) s = prog (k x) s'.
Proof. intro H. cbn [p_bind prog]. unfold bind. now rewrite H. Qed.
Lemma prim_price {A} (m : DM A) s : price (prim m) s = 1.
Proof. unfold prim, prim_by. cbn [price]. destruct (m s) as [[x|e| | |] s']; reflexivity. Qed.

Lemma rep_work {A} n k (p : priced A) (I : nat -> dst -> Prop) : 0 <= k ->
  (forall m s, I (S m) s -> k <= price p s /\ exists x s', prog p s = (Ok x, s') /\ I m s') ->
  forall s, I n s -> Z.of_nat n * k <= price (p_rep n p) s /\ exists xs s', prog (p_rep n p) s = (Ok xs, s') /\ I O s' /\ length xs = n.
Proof.
  intros Hk H. induction n as [|n IH]; intros s Hs; cbn [p_rep].
  - split; [cbn; lia|]. exists [], s. split; [reflexivity|]. split; [exact Hs|reflexivity].
  - destruct (H n s Hs) as (Hp & x & s' & Hr & Hi). destruct (IH s' Hi) as (Hpn & xs & s2 & Hr2 & Hi2 & Hl).
    split.
    + cbn [tick p_bind price prog]. rewrite Hr. cbn [prim prim_by price]. rewrite Hr2. unfold ret. lia.
    + exists (x :: xs), s2. cbn [tick p_bind prog prim prim_by]. unfold bind. rewrite Hr, Hr2. split; [reflexivity|].
      split; [exact Hi2|]. cbn [length]. lia.
Qed.
Lemma map_work cc E n s m : exists c es,
  prog (p_map Unit n (tick 1 (pdec cc E Unit (DStart opt0) (VStruct []))) (tick 1 (pdec cc E Unit (DStart opt0) (VStruct []))) m) s =
    (Ok es, mkD (d_data s) (d_pos s) c (d_enc s)) /\
  Z.of_nat n <= price (p_map Unit n (tick 1 (pdec cc E Unit (DStart opt0) (VStruct []))) (tick 1 (pdec cc E Unit (DStart opt0) (VStruct []))) m) s.
Proof.
  set (p := tick 1 (pdec cc E Unit (DStart opt0) (VStruct []))).
  assert (Hp : forall s, exists c, prog p s = (Ok (VStruct []), mkD (d_data s) (d_pos s) c (d_enc s))) by apply unit_run.
  assert (Hq : forall s, 1 <= price p s) by apply unit_price. clearbody p.
  revert s m. induction n as [|n IH]; intros s m; cbn [p_map].
  - exists (d_cur s), m. split; [now destruct s|]. cbn; lia.
  - destruct (Hp s) as (c1 & H1). set (s1 := mkD (d_data s) (d_pos s) c1 (d_enc s)) in *.
    destruct (Hp s1) as (c2 & H2). set (s2 := mkD (d_data s1) (d_pos s1) c2 (d_enc s1)) in *.
    destruct (IH s2 (map_set Unit m (VStruct []) (VStruct []))) as (c & es & Hr & Hpr).
    exists c, es. split.
    + cbn [tick p_bind prog]. unfold bind. rewrite H1, H2. exact Hr.
    + cbn [tick p_bind price]. rewrite H1, H2. pose proof (Hq s). pose proof (Hq s1). lia.
Qed.

Lemma inner_slice cc E n m s : 0 < n <= count_max E ->
  (exists pre c, s = mkD (pre ++ List.concat (repeat (count E n) (S m)) ++ repeat 0 (Z.to_nat n)) (zlen pre) c E) ->
  n <= price (tick 1 (pdec cc E (TSlice Unit) (DStart opt0) (VSlice None))) s /\
  exists x s', prog (tick 1 (pdec cc E (TSlice Unit) (DStart opt0) (VSlice None))) s = (Ok x, s') /\
    exists pre c, s' = mkD (pre ++ List.concat (repeat (count E n) m) ++ repeat 0 (Z.to_nat n)) (zlen pre) c E.
Proof.
  intros Hn (pre & c & ->). cbn [tick price prog]. rewrite p_start_eq, p_walk_eq. cbn [opt0 o_opt o_copt o_size o_order p_pend].
  replace (false || is_borsh E && false) with false by now destruct E. cbn [repeat List.concat].
  set (post := List.concat (repeat (count E n) m) ++ repeat 0 (Z.to_nat n)).
  replace (pre ++ (count E n ++ List.concat (repeat (count E n) m)) ++ repeat 0 (Z.to_nat n)) with (pre ++ count E n ++ post) by (unfold post; now rewrite <- !app_assoc).
  pose proof (keeps_read_count E n ltac:(lia) pre post (Some LE)) as Hrc.
  set (data := pre ++ count E n ++ post) in *.
  set (s1 := mkD data (zlen pre + zlen (count E n)) (Some LE) E) in *.
  assert (Hrem : n <= remaining_of s1).
  { unfold s1, data, post. rewrite remaining_pos by (cbn [d_pos]; rewrite ?zlen_app; repeat match goal with |- context [zlen ?l] => pose proof (zlen_nonneg l); generalize dependent (zlen l); intros end; lia). cbn [d_data d_pos]. rewrite !zlen_app. pose proof (zlen_nonneg (List.concat (repeat (count E n) m))).
    assert (zlen (repeat 0 (Z.to_nat n)) = n) by (unfold zlen; rewrite repeat_length; lia). lia. }
  assert (Hstep : forall (k : nat) s, (exists c, s = mkD data (zlen pre + zlen (count E n)) c E) ->
     1 <= price (tick 1 (pdec cc E Unit (DStart opt0) (VStruct []))) s /\
     exists x s', prog (tick 1 (pdec cc E Unit (DStart opt0) (VStruct []))) s = (Ok x, s') /\
       exists c, s' = mkD data (zlen pre + zlen (count E n)) c E).
  { intros k s (c0 & ->). split; [apply unit_price|].
    destruct (unit_run cc E 1 (mkD data (zlen pre + zlen (count E n)) c0 E)) as (c' & Hc').
    exists (VStruct []). eexists. split; [exact Hc'|]. now exists c'. }
  destruct (rep_work (Z.to_nat n) 1 (tick 1 (pdec cc E Unit (DStart opt0) (VStruct [])))
      (fun _ s => exists c, s = mkD data (zlen pre + zlen (count E n)) c E) ltac:(lia) Hstep s1 (ex_intro _ (Some LE) eq_refl)) as (Hw & xs & s2 & Hr & (c2 & ->) & _).
  assert (Hsl : p_slice cc E Unit n (VSlice None) = p_bind (prim d_remaining) (fun r =>
      if r <? n then prim (fail EUnexpectedEOF) else p_fmap (fun vs => VSlice (Some vs)) (p_rep (Z.to_nat n) (tick 1 (pdec cc E Unit (DStart opt0) (VStruct [])))))).
  { unfold p_slice. replace (is_borsh E && (n =? 0)) with false; [reflexivity|]. destruct E; cbn; lia. }
  assert (Hset : prog (prim (d_set_cur LE)) (mkD data (zlen pre) c E) = (Ok tt, mkD data (zlen pre) (Some LE) E)) by reflexivity.
  assert (Hcnt : prog (prim (read_count E)) (mkD data (zlen pre) (Some LE) E) = (Ok n, s1)) by exact Hrc.
  assert (Hre : prog (prim d_remaining) s1 = (Ok (remaining_of s1), s1)) by reflexivity.
  split.
  - rewrite (bind_price _ _ _ _ _ Hset), (bind_price _ _ _ _ _ Hcnt), Hsl, (bind_price _ _ _ _ _ Hre), !prim_price.
    replace (remaining_of s1 <? n) with false by lia. cbn [p_fmap price]. lia.
  - rewrite (bind_prog _ _ _ _ _ Hset), (bind_prog _ _ _ _ _ Hcnt), Hsl, (bind_prog _ _ _ _ _ Hre).
    replace (remaining_of s1 <? n) with false by lia. cbn [prog p_fmap]. unfold fmap, bind. rewrite Hr. eexists _, _. split; [reflexivity|].
    exists (pre ++ count E n), c2. rewrite zlen_app. f_equal. unfold data, post. now rewrite <- app_assoc.
Qed.

Definition thick (E : encoding) (n : Z) : list Z :=
  count E n ++ List.concat (repeat (count E n) (Z.to_nat n)) ++ repeat 0 (Z.to_nat n).

Lemma count_len E n : 0 <= n <= count_max E -> zlen (count E n) <= 5.
Proof.
  intro Hn. unfold zlen. destruct E; cbn [count count_max] in *.
  - pose proof (leb128_len 5 n ltac:(lia) ltac:(lia) ltac:(lia)). lia.
  - pose proof (leb128_len 5 n ltac:(lia) ltac:(lia) ltac:(lia)). lia.
  - cbn. lia.
Qed.
Lemma concat_repeat_len {A} (l : list A) n : zlen (List.concat (repeat l n)) = Z.of_nat n * zlen l.
Proof. induction n as [|n IH]; [reflexivity|]. cbn [repeat List.concat]. rewrite zlen_app, IH. lia. Qed.
Lemma thick_len E n : 0 <= n <= count_max E -> zlen (thick E n) <= 6 * n + 5.
Proof.
  intro Hn. unfold thick. rewrite !zlen_app, concat_repeat_len. pose proof (count_len E n Hn).
  assert (zlen (repeat 0 (Z.to_nat n)) = n) by (unfold zlen; rewrite repeat_length; lia). nia.
Qed.

Lemma thick_work cc E n : 0 < n <= count_max E ->
  n * n <= work cc E (TSlice (TSlice Unit)) (VSlice None) (thick E n) /\
  exists vs s', decode (TSlice (TSlice Unit)) (VSlice None) (new_decoder E (thick E n)) = (Ok (VSlice (Some vs)), s') /\ zlen vs = n.
Proof.
  intro Hn. unfold work. rewrite decode_run, <- (same_dec cc). cbn [new_decoder d_enc].
  change (mkD (thick E n) 0 None E) with (mkD ([] ++ thick E n) (zlen (@nil Z)) None E). unfold thick.
  rewrite p_start_eq, p_walk_eq. cbn [opt0 o_opt o_copt o_size o_order p_pend].
  replace (false || is_borsh E && false) with false by now destruct E.
  set (post := List.concat (repeat (count E n) (Z.to_nat n)) ++ repeat 0 (Z.to_nat n)).
  pose proof (keeps_read_count E n ltac:(lia) [] post (Some LE)) as Hrc.
  set (data := [] ++ count E n ++ post) in *.
  set (s1 := mkD data (zlen (@nil Z) + zlen (count E n)) (Some LE) E) in *.
  assert (Hrem : n <= remaining_of s1).
  { unfold s1, data, post. rewrite remaining_pos by (cbn [d_pos]; rewrite ?zlen_app; repeat match goal with |- context [zlen ?l] => pose proof (zlen_nonneg l); generalize dependent (zlen l); intros end; lia). cbn [d_data d_pos]. rewrite !zlen_app. pose proof (zlen_nonneg (List.concat (repeat (count E n) (Z.to_nat n)))).
    assert (zlen (repeat 0 (Z.to_nat n)) = n) by (unfold zlen; rewrite repeat_length; lia). lia. }
  destruct (rep_work (Z.to_nat n) n (tick 1 (pdec cc E (TSlice Unit) (DStart opt0) (VSlice None)))
      (fun m s => exists pre c, s = mkD (pre ++ List.concat (repeat (count E n) m) ++ repeat 0 (Z.to_nat n)) (zlen pre) c E)
      ltac:(lia) (fun m s => inner_slice cc E n m s Hn) s1) as (Hw & xs & s2 & Hr & _ & Hl).
  { exists (count E n), (Some LE). reflexivity. }
  assert (Hsl : p_slice cc E (TSlice Unit) n (VSlice None) = p_bind (prim d_remaining) (fun r =>
      if r <? n then prim (fail EUnexpectedEOF) else p_fmap (fun vs => VSlice (Some vs))
        (p_rep (Z.to_nat n) (tick 1 (pdec cc E (TSlice Unit) (DStart opt0) (VSlice None)))))).
  { unfold p_slice. replace (is_borsh E && (n =? 0)) with false; [reflexivity|]. destruct E; cbn; lia. }
  assert (Hset : prog (prim (d_set_cur LE)) (mkD data (zlen (@nil Z)) None E) = (Ok tt, mkD data (zlen (@nil Z)) (Some LE) E)) by reflexivity.
  assert (Hcnt : prog (prim (read_count E)) (mkD data (zlen (@nil Z)) (Some LE) E) = (Ok n, s1)) by exact Hrc.
  assert (Hre : prog (prim d_remaining) s1 = (Ok (remaining_of s1), s1)) by reflexivity.
  split.
  - rewrite (bind_price _ _ _ _ _ Hset), (bind_price _ _ _ _ _ Hcnt), Hsl, (bind_price _ _ _ _ _ Hre), !prim_price.
    replace (remaining_of s1 <? n) with false by lia. cbn [p_fmap price]. rewrite Z2Nat.id in Hw by lia. lia.
  - rewrite (bind_prog _ _ _ _ _ Hset), (bind_prog _ _ _ _ _ Hcnt), Hsl, (bind_prog _ _ _ _ _ Hre).
    replace (remaining_of s1 <? n) with false by lia. cbn [prog p_fmap]. unfold fmap, bind. rewrite Hr.
    exists xs, s2. split; [reflexivity|]. unfold zlen. lia.
Qed.

Lemma map_count_work cc E n : 0 < n <= count_max E ->
  n <= work cc E (TMap Unit Unit) (VMap None) (count E n) /\
  exists es s', decode (TMap Unit Unit) (VMap None) (new_decoder E (count E n)) = (Ok (VMap (Some es)), s').
Proof.
  intro Hn. unfold work. rewrite decode_run, <- (same_dec cc). cbn [new_decoder d_enc].
  replace (mkD (count E n) 0 None E) with (mkD ([] ++ count E n ++ []) (zlen (@nil Z)) None E) by (cbn [app]; now rewrite app_nil_r).
  unfold new_decoder. replace (mkD (count E n) 0 None E) with (mkD ([] ++ count E n ++ []) (zlen (@nil Z)) None E) by (cbn [app]; now rewrite app_nil_r).
  rewrite p_start_eq, p_walk_eq. cbn [opt0 o_opt o_copt o_size o_order p_pend].
  replace (false || is_borsh E && false) with false by now destruct E.
  pose proof (keeps_read_count E n ltac:(lia) [] [] (Some LE)) as Hrc.
  set (data := [] ++ count E n ++ []) in *.
  set (s1 := mkD data (zlen (@nil Z) + zlen (count E n)) (Some LE) E) in *.
  assert (Hset : prog (prim (d_set_cur LE)) (mkD data (zlen (@nil Z)) None E) = (Ok tt, mkD data (zlen (@nil Z)) (Some LE) E)) by reflexivity.
  assert (Hcnt : prog (prim (read_count E)) (mkD data (zlen (@nil Z)) (Some LE) E) = (Ok n, s1)) by exact Hrc.
  destruct (map_work cc E (Z.to_nat n) s1 []) as (c & es & Hr & Hp).
  split.
  - rewrite (bind_price _ _ _ _ _ Hset), (bind_price _ _ _ _ _ Hcnt), !prim_price.
    replace (n =? 0) with false by lia. cbn [p_fmap price]. change (room Unit) with 1. cbn [zero_val Unit map] in *. lia.
  - rewrite (bind_prog _ _ _ _ _ Hset), (bind_prog _ _ _ _ _ Hcnt).
    replace (n =? 0) with false by lia. cbn [p_fmap prog]. change (room Unit) with 1. cbn [zero_val Unit map] in *.
    unfold fmap, bind. change (TStruct []) with Unit. rewrite Hr. eexists _, _. reflexivity.
Qed.

(** * The methods of the library *)

Lemma cheap_size cc c t f : c_unmarshal c = Some f ->
  (forall v s, cc c v s = 1 + used (f v s) s) ->
  (forall v, eats 1 (f v)) \/ (forall x, sizeof_val t x = None) -> codec_cheap cc (fun _ => 1) c t.
Proof.
  intros Hf Hcc Hor g Hg. assert (g = f) as -> by congruence. split.
  - intros v s _ _. rewrite Hcc. lia.
  - intros v s x s' Hs Hr Hz. destruct Hor as [He|Hn]; [|congruence]. specialize (He v s x s' Hs Hr). lia.
Qed.
Lemma library_cheap : Forall (all_codecs (codec_cheap byte_cost (fun _ => 1))) library_types.
Proof.
  assert (H : forall c t f, c_unmarshal c = Some f -> (forall v, eats 1 (f v)) \/ (forall x, sizeof_val t x = None) ->
            codec_cheap byte_cost (fun _ => 1) c t).
  { intros c t f Hf. apply (cheap_size byte_cost c t f Hf). intros v s. unfold byte_cost. now rewrite Hf. }
  unfold library_types.
  repeat first [apply Forall_nil | apply Forall_cons];
  lazymatch goal with
  | |- all_codecs _ ?t => let t' := eval hnf in t in change t with t'
  end;
  lazymatch goal with
  | |- all_codecs _ (TCodec _ _) => split; [eapply H; [reflexivity|]|cbn; tauto]
  | |- _ => exact I
  end; try (right; reflexivity); left; intros _; unfold emsg.
  - apply eats_fmap; [within|]. apply eats_map_err, eats_fmap; [within|apply eats_varint].
  - apply eats_fmap; [within|]. apply eats_map_err, eats_fmap; [within|apply eats_uvarint].
  - apply eats_fmap; [within|]. apply eats_map_err, eats_uvarint.
  - apply eats_fmap; [within|]. apply eats_fmap; [within|apply eats_varint].
  - apply eats_bind_r; [within|]. intro o. apply eats_fmap; [within|]. apply eats_fmap; [within|].
    apply (eats_le 8); [lia|]. exact (eats_read_uintw W64 o).
  - apply eats_bind_r; [within|]. intro o. apply eats_fmap; [within|].
    apply (eats_le 8); [lia|]. exact (eats_read_uintw W64 o).
Qed.
