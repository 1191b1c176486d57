(** Facts on AliasEnc.v. *)
From Verif Require Import Types Num EncPrim Compact Enc Ops Builtin NumFacts DecWithin DecSafe DecProps Spec Alias AliasFacts AliasEnc.
Notation length := Datatypes.length.

(** * Arrays that are new *)
Lemma set_nth_app {A} (l k : list A) : forall n x, (length l <= n)%nat -> set_nth (l ++ k) n x = l ++ set_nth k (n - length l) x.
Proof.
  induction l as [|a l IH]; intros n x Hn; cbn [app length] in *; [now rewrite Nat.sub_0_r|].
  destruct n as [|n]; [lia|]. cbn [set_nth Nat.sub]. now rewrite IH by lia.
Qed.
Lemma set_nth_front {A} (l k : list A) : forall n x, (n < length l)%nat -> set_nth (l ++ k) n x = set_nth l n x ++ k.
Proof. induction l as [|a l IH]; intros [|n] x Hn; cbn [app length set_nth] in *; try lia; [reflexivity|]. now rewrite IH by lia. Qed.
Lemma write_new h y a i bs : (length h <= a)%nat -> write_array (h ++ y) a i bs = h ++ write_array y (a - length h) i bs.
Proof. intro H. unfold write_array. rewrite app_nth2 by exact H. now apply set_nth_app. Qed.
Lemma write_old h y a i bs : (a < length h)%nat -> write_array (h ++ y) a i bs = write_array h a i bs ++ y.
Proof. intro H. unfold write_array. rewrite app_nth1 by exact H. now apply set_nth_front. Qed.
Lemma append_new grow h y s bs h' s' : (length h <= s_arr s)%nat -> append grow (h ++ y) s bs = (h', s') ->
  (exists y', h' = h ++ y') /\ (length h <= s_arr s')%nat.
Proof.
  intros Hs H. unfold append in H. cbv zeta in H. destruct (s_len s + zlen bs <=? s_cap s).
  - assert (h' = write_array (h ++ y) (s_arr s) (s_off s + s_len s) bs) as -> by congruence.
    assert (s' = mkS (s_arr s) (s_off s) (s_len s + zlen bs) (s_cap s)) as -> by congruence. split; [|exact Hs].
    eexists. now apply write_new.
  - match type of H with (?a, ?b) = _ => assert (h' = a) as -> by congruence; assert (s' = b) as -> by congruence end. split.
    + eexists. now rewrite <- app_assoc.
    + cbn [s_arr]. rewrite app_length. lia.
Qed.
Lemma cu16_loop_new grow fuel : forall h y s rem h' s', (length h <= s_arr s)%nat -> h_cu16_loop grow fuel (h ++ y) s rem = (h', s') ->
  (exists y', h' = h ++ y') /\ (length h <= s_arr s')%nat.
Proof.
  induction fuel as [|f IH]; intros h y s rem h' s' Hs H; cbn [h_cu16_loop] in H; cbv zeta in H.
  - assert (h' = h ++ y) as -> by congruence. assert (s' = s) as -> by congruence. eauto.
  - destruct (Z.shiftr rem 7 =? 0); [exact (append_new grow h y s _ h' s' Hs H)|].
    destruct (append grow (h ++ y) s [Z.lor (Z.land rem 127) 128]) as [h1 s1] eqn:E.
    destruct (append_new grow h y s _ h1 s1 Hs E) as [[y1 ->] Hs1]. exact (IH h y1 s1 _ h' s' Hs1 H).
Qed.
Lemma make_spec h bs : let s := mkS (length h) 0 (zlen bs) (zlen bs) in
  make_slice h bs = (h ++ [bs], s) /\ valid (h ++ [bs]) s /\ view (h ++ [bs]) s = bs.
Proof.
  cbv zeta. split; [reflexivity|]. pose proof (zlen_nonneg bs).
  assert (A : array_of (h ++ [bs]) (mkS (length h) 0 (zlen bs) (zlen bs)) = bs).
  { unfold array_of. cbn [s_arr]. rewrite app_nth2 by lia. now rewrite Nat.sub_diag. }
  split.
  - unfold valid. rewrite A. cbn [s_arr s_off s_len s_cap]. rewrite app_length. cbn [length]. lia.
  - unfold view. rewrite A. cbn [s_off s_len Z.to_nat skipn]. apply firstn_all2. unfold zlen. lia.
Qed.

(** * Programs of the encoder *)

(** A slice of the record and what it stands for. *)
Definition piece_of (h0 h1 : heap) (s : gslice) (p : piece) : Prop :=
  match p with
  | Own bs => (length h0 <= s_arr s)%nat /\ valid h1 s /\ view h1 s = bs
  | Theirs b => s = b
  end.
Definition total (h : heap) (ps : list piece) : Z := zlen (List.concat (map (now h) ps)).
(** From any heap that extends [h], [m] ends with [r], extends the heap and hands
    over the pieces [ps]. *)
Definition does (E : encoding) (h : heap) (m : HEM unit) (r : outcome unit) (ps : list piece) : Prop :=
  forall st x, he_enc st = E -> he_heap st = h ++ x ->
  exists y news, m st = (r, mkHE (he_heap st ++ y) E (he_count st + total h ps) (he_rec st ++ news)) /\
    Forall2 (piece_of (he_heap st) (he_heap st ++ y)) news ps.
(** In the model without sharing. *)
Definition says (E : encoding) (p : EM unit) (r : outcome unit) (cs : list (list Z)) : Prop :=
  forall s, e_enc s = E -> e_w s = buffer ->
  exists c, p s = (r, mkE E buffer c (e_count s + zlen (List.concat cs)) (e_hist s ++ cs) (e_acc s ++ List.concat cs)).
Definition twin (E : encoding) (h : heap) (m : HEM unit) (p : EM unit) (r : outcome unit) (ps : list piece) : Prop :=
  does E h m r ps /\ says E p r (map (now h) ps).

Lemma total_app h ps qs : total h (ps ++ qs) = total h ps + total h qs.
Proof. unfold total. now rewrite map_app, concat_app, zlen_app. Qed.
Lemma piece_later h0 h1 y s p : piece_of h0 h1 s p -> piece_of h0 (h1 ++ y) s p.
Proof.
  destruct p as [bs|b]; cbn [piece_of]; [|auto]. intros (H1 & H2 & H3). split; [exact H1|]. split; [now apply valid_app|].
  destruct H2. now rewrite view_app.
Qed.
Lemma piece_earlier h0 x h1 s p : piece_of (h0 ++ x) h1 s p -> piece_of h0 h1 s p.
Proof. destruct p as [bs|b]; cbn [piece_of]; [|auto]. rewrite app_length. intros (H1 & H2). split; [lia|exact H2]. Qed.

Lemma F2_weaken {A B} (P Q : A -> B -> Prop) l k : (forall a b, P a b -> Q a b) -> Forall2 P l k -> Forall2 Q l k.
Proof. intro H. induction 1; constructor; auto. Qed.

Lemma does_ret E h : does E h (ret tt) (Ok tt) [].
Proof.
  intros st x <- Hh. exists [], []. split; [|constructor]. unfold ret, total. cbn. rewrite Z.add_0_r, !app_nil_r. now destruct st.
Qed.
Lemma does_bind E h m k r ps qs : does E h m (Ok tt) ps -> does E h k r qs -> does E h (m ;;; k) r (ps ++ qs).
Proof.
  intros Hm Hk st x He Hh. destruct (Hm st x He Hh) as (y & news & H1 & H2).
  destruct (Hk (mkHE (he_heap st ++ y) E (he_count st + total h ps) (he_rec st ++ news)) (x ++ y)) as (y2 & news2 & H3 & H4).
  - reflexivity.
  - cbn [he_heap]. now rewrite Hh, app_assoc.
  - cbn [he_heap he_count he_rec] in *. exists (y ++ y2), (news ++ news2). split.
    + unfold bind. rewrite H1, H3, total_app, !app_assoc, Z.add_assoc. reflexivity.
    + rewrite app_assoc. apply Forall2_app.
      * revert H2. apply F2_weaken. intros. now apply piece_later.
      * revert H4. apply F2_weaken. intros a p. apply piece_earlier.
Qed.
Lemma does_stop E h m k ps r : r <> Ok tt -> does E h m r ps -> does E h (m ;;; k) r ps.
Proof.
  intros Hr Hm st x He Hh. destruct (Hm st x He Hh) as (y & news & H1 & H2). exists y, news. split; [|exact H2].
  unfold bind. rewrite H1. destruct r as [[]| | | |]; congruence.
Qed.
Lemma does_panic E h r : (match r with Ok _ => False | _ => True end) -> does E h (fun s => (r, s)) r [].
Proof.
  intros Hr st x <- Hh. exists [], []. split; [|constructor]. unfold total. cbn. rewrite Z.add_0_r, !app_nil_r. now destruct st.
Qed.
Lemma does_enc E h k r ps : does E h (k E) r ps -> does E h (e <- he_get_enc ;; k e) r ps.
Proof. intros H st x He Hh. destruct (H st x He Hh) as (y & news & H1 & H2). exists y, news. split; [|exact H2]. unfold bind, he_get_enc. now rewrite He. Qed.
Lemma does_ext E h m m' r ps : (forall st, m st = m' st) -> does E h m r ps -> does E h m' r ps.
Proof. intros Hm H st x He Hh. destruct (H st x He Hh) as (y & news & H1 & H2). exists y, news. now rewrite <- Hm. Qed.

Lemma does_hand E h b : valid h b -> does E h (h_to_writer b) (Ok tt) [Theirs b].
Proof.
  intros Hv st x He Hh. exists [], [b]. split; [|repeat constructor].
  unfold h_to_writer, h_wbw_write, total. cbn [map now List.concat]. rewrite !app_nil_r, (view_length h b Hv), He. reflexivity.
Qed.
Lemma does_nolen E h b : valid h b -> does E h (h_write_bytes_nolen b) (Ok tt) (if s_len b =? 0 then [] else [Theirs b]).
Proof. intro Hv. unfold h_write_bytes_nolen. destruct (s_len b =? 0); [apply does_ret|now apply does_hand]. Qed.

(** [mk] makes a new slice with the bytes [bs]. *)
Definition makes (E : encoding) (h : heap) (mk : HEM gslice) (bs : list Z) : Prop :=
  forall st x, he_enc st = E -> he_heap st = h ++ x ->
  exists y b, mk st = (Ok b, mkHE (he_heap st ++ y) E (he_count st) (he_rec st)) /\
    (length (he_heap st) <= s_arr b)%nat /\ valid (he_heap st ++ y) b /\ view (he_heap st ++ y) b = bs.
Lemma makes_make E h bs : makes E h (he_make bs) bs.
Proof.
  intros st x He Hh. destruct (make_spec (he_heap st) bs) as (_ & H2 & H3). exists [bs], (mkS (length (he_heap st)) 0 (zlen bs) (zlen bs)).
  split; [|split; [cbn [s_arr]; lia|auto]]. unfold he_make, bind, he_get_heap, make_slice, he_set_heap, ret. now rewrite He.
Qed.
Lemma makes_compact grow E h ln : makes E h (he_compact grow ln) (fst (encode_compact_u16 [] ln)).
Proof.
  intros st x He Hh. destruct (make_spec (he_heap st) []) as (_ & H2 & H3). set (b0 := mkS (length (he_heap st)) 0 0 0) in *.
  unfold he_compact, he_make, bind, he_get_heap, make_slice, he_set_heap, ret. cbn [he_heap he_enc he_count he_rec]. fold b0.
  change (zlen (@nil Z)) with 0 in *. fold b0 in H2, H3 |- *.
  unfold h_encode_compact_u16, encode_compact_u16. destruct ((ln <? 0) || (65535 <? ln)).
  - exists [[]], b0. rewrite He. split; [reflexivity|]. split; [cbn; lia|]. auto.
  - destruct (h_cu16_loop grow 3 (he_heap st ++ [[]]) b0 ln) as [h' b] eqn:E1.
    destruct (cu16_loop_spec grow 3 _ b0 ln h' b H2 E1) as (A1 & A2 & _).
    destruct (cu16_loop_new grow 3 _ _ b0 ln h' b (le_n _) E1) as [[y ->] A3]. exists y, b. rewrite He. split; [reflexivity|].
    split; [exact A3|]. split; [exact A1|]. now rewrite A2, H3.
Qed.
Lemma does_give E h mk bs : makes E h mk bs -> does E h (b <- mk ;; h_to_writer b) (Ok tt) [Own bs].
Proof.
  intros Hm st x He Hh. destruct (Hm st x He Hh) as (y & b & H1 & H2 & H3 & H4). exists y, [b]. split.
  - unfold bind. rewrite H1. unfold h_to_writer, h_wbw_write, total. cbn [he_heap he_enc he_count he_rec map now List.concat].
    rewrite app_nil_r, <- H4, (view_length _ b H3). reflexivity.
  - constructor; [|constructor]. cbn [piece_of]. auto.
Qed.
Lemma does_give_nolen E h mk bs : makes E h mk bs ->
  does E h (b <- mk ;; h_write_bytes_nolen b) (Ok tt) (match bs with [] => [] | _ => [Own bs] end).
Proof.
  intros Hm st x He Hh. destruct (Hm st x He Hh) as (y & b & H1 & H2 & H3 & H4). pose proof (view_length _ b H3) as L. rewrite H4 in L.
  destruct bs as [|z bs].
  - exists y, []. split; [|constructor]. unfold bind. rewrite H1. unfold h_write_bytes_nolen, total. rewrite <- L. cbn.
    now rewrite Z.add_0_r, app_nil_r.
  - exists y, [b]. split; [|constructor; [cbn [piece_of]; auto|constructor]]. unfold bind. rewrite H1. unfold h_write_bytes_nolen.
    replace (s_len b =? 0) with false by (rewrite <- L, zlen_cons; pose proof (zlen_nonneg bs); lia).
    unfold h_to_writer, h_wbw_write, total. cbn [he_heap he_enc he_count he_rec map now List.concat]. rewrite app_nil_r, <- L. reflexivity.
Qed.
Lemma does_put E h ob : match ob with Some bs => zlen bs <= 8 | None => True end ->
  does E h (h_put ob) (match ob with Some _ => Ok tt | None => Panic end) (match ob with Some bs => [Own bs] | None => [] end).
Proof.
  intros Hb st x He Hh. destruct (make_spec (he_heap st) (repeat 0 8)) as (_ & H2 & H3). change (zlen (repeat 0 8)) with 8 in *.
  set (b0 := mkS (length (he_heap st)) 0 8 8) in *. unfold h_put, he_make, bind, he_get_heap, make_slice, he_set_heap, ret.
  cbn [he_heap he_enc he_count he_rec]. change (zlen (repeat 0 8)) with 8. fold b0. destruct ob as [bs|].
  - assert (Hw : write_array (he_heap st ++ [repeat 0 8]) (s_arr b0) (s_off b0) bs = he_heap st ++ [overwrite (repeat 0 8) 0 bs]).
    { rewrite write_new by (cbn; lia). cbn [b0 s_arr s_off]. rewrite Nat.sub_diag. reflexivity. }
    cbv beta iota. cbn [he_heap he_enc he_count he_rec]. change (zlen (repeat 0 8)) with 8. fold b0. rewrite Hw. unfold reslice. cbn [b0 s_cap s_arr s_off]. pose proof (zlen_nonneg bs).
    replace ((0 <=? 0) && (0 <=? zlen bs) && (zlen bs <=? 8)) with true by lia. replace (zlen bs - 0) with (zlen bs) by lia.
    change (0 + 0) with 0. change (8 - 0) with 8. set (b := mkS (length (he_heap st)) 0 (zlen bs) 8).
    assert (A : array_of (he_heap st ++ [overwrite (repeat 0 8) 0 bs]) b = overwrite (repeat 0 8) 0 bs).
    { unfold array_of. cbn [b s_arr]. rewrite app_nth2 by lia. now rewrite Nat.sub_diag. }
    exists [overwrite (repeat 0 8) 0 bs], [b]. unfold h_to_writer, h_wbw_write, total. cbn [he_heap he_enc he_count he_rec map now List.concat].
    rewrite app_nil_r. split; [now rewrite He|]. constructor; [|constructor]. cbn [piece_of]. split; [cbn [b s_arr]; lia|]. split.
    + assert (L : zlen (overwrite (repeat 0 8) 0 bs) = 8).
      { unfold zlen. rewrite overwrite_length; [reflexivity|lia|change (zlen (repeat 0 8)) with 8; lia]. }
      unfold valid. rewrite A, L, app_length. cbn [b s_arr s_off s_len s_cap length repeat]. lia.
    + unfold view. rewrite A. unfold overwrite. cbn [b s_off s_len Z.to_nat skipn firstn app]. rewrite firstn_app.
      replace (Z.to_nat (zlen bs) - length bs)%nat with O by (unfold zlen; lia). cbn [firstn]. rewrite app_nil_r.
      apply firstn_all2. unfold zlen. lia.
  - exists [repeat 0 8], []. split; [|constructor]. unfold panic, total. cbn. now rewrite He, Z.add_0_r, app_nil_r.
Qed.

(** * The model without sharing *)
Lemma says_ret E : says E (ret tt) (Ok tt) [].
Proof. intros s <- <-. exists (e_cur s). cbn. rewrite Z.add_0_r, !app_nil_r. now destruct s. Qed.
Lemma says_stop E r : (match r with Ok _ => False | _ => True end) -> says E (fun s => (r, s)) r [].
Proof. intros Hr s <- <-. exists (e_cur s). cbn. rewrite Z.add_0_r, !app_nil_r. now destruct s. Qed.
Lemma says_write E bs : says E (to_writer bs) (Ok tt) [bs].
Proof. intros s <- Hw. exists (e_cur s). unfold to_writer. rewrite Hw. cbn. now rewrite app_nil_r. Qed.
Lemma says_nolen E bs : says E (write_bytes_nolen bs) (Ok tt) (match bs with [] => [] | _ => [bs] end).
Proof. destruct bs; [apply says_ret|apply says_write]. Qed.
Lemma says_bind E m k r cs ds : says E m (Ok tt) cs -> says E k r ds -> says E (m ;;; k) r (cs ++ ds).
Proof.
  intros Hm Hk s He Hw. destruct (Hm s He Hw) as [c H1]. unfold bind. rewrite H1.
  destruct (Hk (mkE E buffer c (e_count s + zlen (List.concat cs)) (e_hist s ++ cs) (e_acc s ++ List.concat cs)) eq_refl eq_refl) as [c2 H2].
  exists c2. rewrite H2. cbn [e_count e_hist e_acc]. now rewrite concat_app, zlen_app, !app_assoc, Z.add_assoc.
Qed.
Lemma says_halt E m k r cs : r <> Ok tt -> says E m r cs -> says E (m ;;; k) r cs.
Proof. intros Hr Hm s He Hw. destruct (Hm s He Hw) as [c H1]. exists c. unfold bind. rewrite H1. destruct r as [[]| | | |]; congruence. Qed.
Lemma says_enc E k r cs : says E (k E) r cs -> says E (e <- e_get_enc ;; k e) r cs.
Proof. intros H s He Hw. destruct (H s He Hw) as [c H1]. exists c. unfold bind, e_get_enc. now rewrite He. Qed.
Lemma says_cur E o m r cs : says E m r cs -> says E (e_set_cur o ;;; m) r cs.
Proof.
  intros H s He Hw. destruct (H (mkE (e_enc s) (e_w s) (Some o) (e_count s) (e_hist s) (e_acc s)) He Hw) as [c H1].
  exists c. unfold bind, e_set_cur. now rewrite H1.
Qed.

(** * Both *)
Lemma map_own h cs : map (now h) (map Own cs) = cs.
Proof. rewrite map_map. cbn. apply map_id. Qed.
Definition own (E : encoding) (h : heap) (m : HEM unit) (p : EM unit) (r : outcome unit) (cs : list (list Z)) : Prop :=
  twin E h m p r (map Own cs).
Lemma own_fresh E h bs : own E h (h_fresh bs) (to_writer bs) (Ok tt) [bs].
Proof. split; [apply does_give, makes_make|apply says_write]. Qed.
Lemma own_put E h ob : match ob with Some bs => zlen bs <= 8 | None => True end ->
  own E h (h_put ob) (match ob with Some bs => to_writer bs | None => panic end)
    (match ob with Some _ => Ok tt | None => Panic end) (match ob with Some bs => [bs] | None => [] end).
Proof.
  intro Hb. split; [destruct ob; now apply does_put|]. rewrite map_own. destruct ob; [apply says_write|]. now apply says_stop.
Qed.
Lemma put_small x : match put_uvarint 8 x with Some bs => zlen bs <= 8 | None => True end.
Proof. unfold put_uvarint. destruct (zlen (uvarint_bytes x) <=? 8) eqn:E; [lia|exact I]. Qed.
Definition quiet (r : outcome unit) : Prop := r = Ok tt \/ r = Panic.
Lemma own_uvarint E h v : exists r cs, quiet r /\ own E h (h_write_uvarint v) (write_uvarint v) r cs.
Proof. do 2 eexists. split; [|apply own_put, put_small]. destruct (put_uvarint 8 (uwrap 64 v)); [now left|now right]. Qed.
Lemma own_varint E h v : exists r cs, quiet r /\ own E h (h_write_varint v) (write_varint v) r cs.
Proof. do 2 eexists. split; [|apply own_put, put_small]. destruct (put_varint 8 v); [now left|now right]. Qed.
Lemma own_compact grow E h n : own E h (h_write_compact_u16 grow n) (write_compact_u16 n) (Ok tt) [fst (encode_compact_u16 [] n)].
Proof. split; [apply does_give, makes_compact|apply says_write]. Qed.
Lemma own_enc E h k q r cs : own E h (k E) (q E) r cs -> own E h (e <- he_get_enc ;; k e) (e <- e_get_enc ;; q e) r cs.
Proof. intros [H1 H2]. split; [now apply does_enc|now apply says_enc]. Qed.
Lemma own_nolen E h mk bs : makes E h mk bs -> own E h (b <- mk ;; h_write_bytes_nolen b) (write_bytes_nolen bs) (Ok tt) (match bs with [] => [] | _ => [bs] end).
Proof.
  intro H. split; [|rewrite map_own; apply says_nolen]. apply does_give_nolen in H. destruct bs; exact H.
Qed.
Lemma own_length grow E h n : exists r cs, quiet r /\ own E h (h_write_length grow n) (write_length n) r cs.
Proof.
  unfold h_write_length, write_length. destruct E.
  - destruct (own_uvarint Bin h n) as (r & cs & Hq & H). exists r, cs. split; [exact Hq|]. now apply (own_enc Bin).
  - do 2 eexists. split; [now left|]. apply (own_enc CompactU16). apply own_nolen, makes_compact.
  - do 2 eexists. split; [now left|]. apply (own_enc Borsh). apply own_fresh.
Qed.
Lemma own_count grow E h n : exists r cs, quiet r /\ own E h (h_write_count grow n) (write_count E n) r cs.
Proof.
  unfold h_write_count, write_count. destruct E.
  - destruct (own_uvarint Bin h n) as (r & cs & Hq & [H1 H2]). exists r, cs. split; [exact Hq|]. split; [now apply does_enc|exact H2].
  - do 2 eexists. split; [now left|]. split; [apply does_enc, (proj1 (own_compact grow CompactU16 h n))|exact (proj2 (own_compact grow CompactU16 h n))].
  - do 2 eexists. split; [now left|]. split; [apply does_enc, (proj1 (own_fresh Borsh h _))|exact (proj2 (own_fresh Borsh h _))].
Qed.
Lemma own_seq E h m p k q r cs r' ds : quiet r -> own E h m p r cs -> own E h k q r' ds ->
  exists r'' es, own E h (m ;;; k) (p ;;; q) r'' es.
Proof.
  intros [->| ->] [H1 H2] [H3 H4].
  - exists r', (cs ++ ds). unfold own. rewrite map_app. split; [now apply does_bind|]. rewrite map_app. now apply says_bind.
  - exists Panic, cs. split; [now apply does_stop|now apply says_halt].
Qed.

(** A slice of the caller behind a length. *)
Lemma both_bytes grow E h b : valid h b -> exists r cs,
  twin E h (h_write_bytes grow b) (write_bytes (view h b)) r
    (map Own cs ++ match r with Ok _ => if s_len b =? 0 then [] else [Theirs b] | _ => [] end).
Proof.
  intro Hv. pose proof (view_length h b Hv) as L. unfold h_write_bytes, write_bytes. rewrite L.
  destruct (own_length grow E h (s_len b)) as (r & cs & [->| ->] & H1 & H2).
  - exists (Ok tt), cs. split; [apply does_bind; [exact H1|now apply does_nolen]|]. rewrite map_app. apply says_bind; [exact H2|].
    pose proof (says_nolen E (view h b)) as N. destruct (view h b) as [|z l] eqn:Eb.
    + replace (s_len b =? 0) with true by (rewrite <- L; reflexivity). exact N.
    + replace (s_len b =? 0) with false by (rewrite <- L, zlen_cons; pose proof (zlen_nonneg l); lia). cbn [map now]. now rewrite Eb.
  - exists Panic, cs. rewrite app_nil_r. split; [now apply does_stop|now apply says_halt].
Qed.
Lemma own_string grow E h s : exists r cs, own E h (h_write_string grow s) (write_string s) r cs.
Proof.
  (* the result and the pieces do not depend on the heap: those of a slice with these bytes *)
  destruct (make_spec [] s) as (_ & Hv & Hw). cbn [length app] in Hv, Hw. set (b0 := mkS 0 0 (zlen s) (zlen s)) in *.
  destruct (own_length grow E [s] (zlen s)) as (r & cs & Hq & _ & Hl). rewrite map_own in Hl.
  exists r, (cs ++ match r with Ok _ => match s with [] => [] | _ => [s] end | _ => [] end). split.
  - intros st x He Hh. destruct (makes_make E h s st x He Hh) as (y & b & M1 & M2 & M3 & M4).
    unfold h_write_string, bind. rewrite M1. destruct (both_bytes grow E (he_heap st ++ y) b M3) as (r' & cs' & D & S).
    assert (Er : r' = r /\ cs' = cs).
    { rewrite M4 in S. destruct (S (mkE E buffer None 0 [] []) eq_refl eq_refl) as [c1 S1].
      destruct (own_length grow E (he_heap st ++ y) (zlen s)) as (r2 & cs2 & _ & _ & Hl2). rewrite map_own in Hl2.
      destruct (Hl (mkE E buffer None 0 [] []) eq_refl eq_refl) as [c2 S2].
      destruct Hq as [->| ->].
      - pose proof (says_bind _ _ _ _ _ _ Hl (says_nolen E s)) as S3. destruct (S3 (mkE E buffer None 0 [] []) eq_refl eq_refl) as [c3 S3'].
        fold (write_bytes s) in S3'. rewrite S1 in S3'. cbn [e_hist e_count e_acc app] in S3'.
        assert (r' = Ok tt) as -> by congruence. split; [reflexivity|].
        match type of S3' with (_, ?p) = (_, ?q) => assert (Hh1 : e_hist p = e_hist q) by (f_equal; congruence) end.
        cbn [e_hist] in Hh1. rewrite map_app, map_own in Hh1. pose proof (view_length _ b M3) as L. rewrite M4 in L.
        destruct s as [|z l].
        + replace (s_len b =? 0) with true in Hh1 by (rewrite <- L; reflexivity). cbn [map] in Hh1. now rewrite !app_nil_r in Hh1.
        + replace (s_len b =? 0) with false in Hh1 by (rewrite <- L, zlen_cons; pose proof (zlen_nonneg l); lia). cbn [map now] in Hh1. rewrite M4 in Hh1.
          now apply app_inj_tail in Hh1.
      - assert (Hd : Panic <> Ok tt) by discriminate. pose proof (says_halt _ _ (write_bytes_nolen s) _ _ Hd Hl) as S3.
        destruct (S3 (mkE E buffer None 0 [] []) eq_refl eq_refl) as [c3 S3'].
        fold (write_bytes s) in S3'. rewrite S1 in S3'. cbn [e_hist e_count e_acc app] in S3'.
        assert (r' = Panic) as -> by congruence. split; [reflexivity|].
        match type of S3' with (_, ?p) = (_, ?q) => assert (Hh1 : e_hist p = e_hist q) by (f_equal; congruence) end.
        cbn [e_hist] in Hh1. now rewrite map_app, map_own, app_nil_r in Hh1. }
    destruct Er as [-> ->]. destruct (D (mkHE (he_heap st ++ y) E (he_count st) (he_rec st)) [] eq_refl) as (y2 & news & D1 & D2).
    { cbn. now rewrite app_nil_r. }
    cbn [he_heap he_count he_rec] in D1, D2. exists (y ++ y2), news. rewrite app_assoc. pose proof (view_length _ b M3) as L. rewrite M4 in L.
    assert (T : total (he_heap st ++ y) (map Own cs ++ match r with Ok _ => if s_len b =? 0 then [] else [Theirs b] | _ => [] end)
                = total h (map Own (cs ++ match r with Ok _ => match s with [] => [] | _ => [s] end | _ => [] end))).
    { rewrite map_app, !total_app. unfold total at 1 3. rewrite !map_own. f_equal. destruct r as [[]| | | |]; try reflexivity.
      destruct s as [|z l].
      - replace (s_len b =? 0) with true by (rewrite <- L; reflexivity). reflexivity.
      - replace (s_len b =? 0) with false by (rewrite <- L, zlen_cons; pose proof (zlen_nonneg l); lia). unfold total. cbn [map now]. now rewrite M4. }
    split; [rewrite <- T; exact D1|]. rewrite map_app. apply Forall2_app_inv_r in D2. destruct D2 as (n1 & n2 & F1 & F2 & ->).
    apply Forall2_app; [revert F1; apply F2_weaken; intros a p; apply piece_earlier|].
    destruct r as [[]| | | |]; try (inversion_clear F2; constructor). destruct s as [|z l].
    + replace (s_len b =? 0) with true in F2 by (rewrite <- L; reflexivity). inversion_clear F2. constructor.
    + replace (s_len b =? 0) with false in F2 by (rewrite <- L, zlen_cons; pose proof (zlen_nonneg l); lia).
      inversion_clear F2 as [|? ? ? ? F3 F4]. inversion_clear F4. cbn [piece_of] in F3. subst. constructor; [|constructor].
      cbn [piece_of]. split; [exact M2|]. split; [now apply valid_app|]. destruct M3. now rewrite view_app.
  - rewrite map_own. unfold write_string, write_bytes. destruct Hq as [->| ->].
    + apply says_bind; [exact Hl|apply says_nolen].
    + rewrite app_nil_r. apply says_halt; [discriminate|exact Hl].
Qed.
(** Encode of the two kinds of byte slices. *)
Lemma nums_map bs : nums (map VNum bs) = Some bs.
Proof. induction bs as [|z bs IH]; cbn [map nums]; [reflexivity|]. now rewrite IH. Qed.
Lemma flat_bytes bs : flat_map (fun z => put_uint LE 1 z) bs = map (fun z => z mod 256) bs.
Proof. induction bs as [|z bs IH]; cbn [map flat_map]; [reflexivity|]. now rewrite IH. Qed.
Lemma encode_slice_is bs s : encode (TSlice (TUint UPlain W8)) (VSlice (Some (map VNum bs))) s =
  (e_set_cur LE ;;; write_count (e_enc s) (zlen bs) ;;; write_bytes_nolen (map (fun z => z mod 256) bs)) s.
Proof.
  unfold encode, bind at 1, e_get_enc. cbn [enc_val o_order o_size o_opt o_copt opt0 uint_kind]. cbv zeta.
  rewrite andb_false_r. unfold bind at 1 3. destruct (e_set_cur LE s) as [[[]|e| | |] s1]; try reflexivity.
  unfold zlen at 1. rewrite map_length. fold (zlen bs). unfold bind at 1 2. destruct (write_count (e_enc s) (zlen bs) s1) as [[[]|e| | |] s2]; try reflexivity.
  unfold write_uints. pose proof (zlen_nonneg bs).
  replace (zlen (map VNum bs)) with (zlen bs) by (unfold zlen; now rewrite map_length).
  replace ((zlen bs <? 0) || (zlen bs <? zlen bs)) with false by lia. rewrite nums_map. cbn [wbytes].
  rewrite firstn_all2 by (unfold zlen; lia). now rewrite flat_bytes.
Qed.
Lemma encode_hex_is bs s : encode HexBytes (VSlice (Some (map VNum bs))) s = (e_set_cur LE ;;; write_bytes bs) s.
Proof.
  unfold encode, bind at 1, e_get_enc, HexBytes, simple_codec. cbn [enc_val o_order o_size o_opt o_copt opt0 c_marshal c_byval]. cbv zeta.
  rewrite andb_false_r. unfold bytes_val. now rewrite nums_map.
Qed.
Lemma says_ext E p q r cs : (forall s, e_enc s = E -> p s = q s) -> says E q r cs -> says E p r cs.
Proof. intros H Hq s He Hw. rewrite (H s He). now apply Hq. Qed.
Lemma own_encode grow E h b : valid h b ->
  exists r cs, own E h (h_encode_bytes grow b) (encode (TSlice (TUint UPlain W8)) (VSlice (Some (map VNum (view h b))))) r cs.
Proof.
  intro Hv. pose proof (view_length h b Hv) as L. destruct (own_count grow E h (s_len b)) as (r & cs & Hq & H).
  set (bs := map (fun z => z mod 256) (view h b)).
  assert (M : makes E h (h0 <- he_get_heap ;; he_make (map (fun z => z mod 256) (view h0 b))) bs).
  { intros st x He Hh. unfold bind at 1, he_get_heap. replace (view (he_heap st) b) with (view h b) by (rewrite Hh; symmetry; apply view_app; destruct Hv; assumption). exact (makes_make E h _ st x He Hh). }
  destruct (own_seq _ _ _ _ _ _ _ _ _ _ Hq H (own_nolen E h _ bs M)) as (r2 & es & D & S). exists r2, es. split.
  - revert D. apply does_ext. intro st. unfold h_encode_bytes, bind, he_get_heap. reflexivity.
  - revert S. rewrite map_own. intro S. apply says_ext with (q := e_set_cur LE ;;; write_count E (s_len b) ;;; write_bytes_nolen bs).
    + intros s <-. rewrite encode_slice_is. unfold bs. now rewrite L.
    + now apply says_cur.
Qed.

(** * The calls *)
Definition tail_of (op : hop) (r : outcome unit) : list piece :=
  match handed op, r with Some b, Ok _ => [Theirs b] | _, _ => [] end.
Lemma own_both E h op m p r cs : handed op = None -> own E h m p r cs -> exists r cs, twin E h m p r (map Own cs ++ tail_of op r).
Proof. intros Ho H. exists r, cs. unfold tail_of. rewrite Ho, app_nil_r. exact H. Qed.
Lemma op_shape grow E h op eo : hop_ok h op -> plain_op h op = Some eo ->
  exists r cs, twin E h (hop_run grow op) (eop_run eo) r (map Own cs ++ tail_of op r).
Proof.
  intros Hok Hp. destruct op; cbn [plain_op hop_ok] in *; try discriminate Hp;
    match type of Hp with Some ?x = _ => assert (eo = x) as -> by congruence end; cbn [hop_run eop_run].
  - exists (Ok tt), []. split; [now apply does_hand|]. apply says_write.
  - destruct length.
    + destruct (both_bytes grow E h b Hok) as (r & cs & H). exists r, cs. replace (tail_of (HWriteBytes b true) r) with (match r with Ok _ => if s_len b =? 0 then [] else [Theirs b] | _ => [] end); [exact H|].
      unfold tail_of. cbn [handed]. destruct (s_len b =? 0), r; reflexivity.
    + exists (Ok tt), []. unfold tail_of. cbn [handed map app]. pose proof (does_nolen E h b Hok) as D. pose proof (says_nolen E (view h b)) as S.
      pose proof (view_length h b Hok) as L. destruct (view h b) as [|z l] eqn:Eb.
      * replace (s_len b =? 0) with true in * by (rewrite <- L; reflexivity). split; [exact D|exact S].
      * replace (s_len b =? 0) with false in * by (rewrite <- L, zlen_cons; pose proof (zlen_nonneg l); lia). split; [exact D|]. cbn [map now]. now rewrite Eb.
  - destruct (own_length grow E h n) as (r & cs & _ & H). eapply own_both; [reflexivity|exact H].
  - destruct (own_uvarint E h z) as (r & cs & _ & H). eapply own_both; [reflexivity|exact H].
  - destruct (own_varint E h z) as (r & cs & _ & H). eapply own_both; [reflexivity|exact H].
  - eapply own_both; [reflexivity|apply own_fresh].
  - eapply own_both; [reflexivity|apply own_fresh].
  - eapply own_both; [reflexivity|apply own_fresh].
  - eapply own_both; [reflexivity|apply own_fresh].
  - destruct (is_borsh E && f_isnan f bits) eqn:Ef.
    + eapply own_both with (r := Err EMsg) (cs := []); [reflexivity|]. apply own_enc. rewrite Ef. split; [now apply does_panic|now apply says_stop].
    + eapply own_both with (r := Ok tt) (cs := [put_uint o (fbytes f) bits]); [reflexivity|]. apply own_enc. rewrite Ef. apply own_fresh.
  - destruct o; (eapply own_both; [reflexivity|apply own_fresh]).
  - destruct (own_string grow E h s) as (r & cs & H). eapply own_both; [reflexivity|exact H].
  - assert (H : exists r cs, own E h (h_write_rust_string s) (write_rust_string s) r cs).
    { eapply own_seq; [left; reflexivity|apply own_fresh|]. apply own_nolen, makes_make. }
    destruct H as (r & cs & H). eapply own_both; [reflexivity|exact H].
  - eapply own_both; [reflexivity|apply own_compact].
  - destruct (own_encode grow E h b Hok) as (r & cs & H). eapply own_both; [reflexivity|exact H].
  - destruct (both_bytes grow E h b Hok) as (r & cs & D & S). exists r, cs. replace (tail_of (HEncodeHex b) r) with (match r with Ok _ => if s_len b =? 0 then [] else [Theirs b] | _ => [] end).
    + split; [exact D|]. apply says_ext with (q := e_set_cur LE ;;; write_bytes (view h b)); [intros; apply encode_hex_is|]. now apply says_cur.
    + unfold tail_of. cbn [handed]. destruct (s_len b =? 0), r; reflexivity.
Qed.
Lemma op_pieces grow E h op eo : hop_ok h op -> plain_op h op = Some eo ->
  let '(r, ps) := pieces E h op eo in twin E h (hop_run grow op) (eop_run eo) r ps.
Proof.
  intros Hok Hp. destruct (op_shape grow E h op eo Hok Hp) as (r & cs & D & S). unfold pieces.
  destruct (S (mkE E buffer None 0 [] []) eq_refl eq_refl) as [c S1]. rewrite S1. cbn [e_hist app].
  assert (Hs : match handed op with Some b => match r with Ok _ => map Own (removelast (map (now h) (map Own cs ++ tail_of op r))) ++ [Theirs b] | _ => map Own (map (now h) (map Own cs ++ tail_of op r)) end
               | None => map Own (map (now h) (map Own cs ++ tail_of op r)) end = map Own cs ++ tail_of op r).
  { unfold tail_of. destruct (handed op) as [b|]; [destruct r|]; rewrite ?app_nil_r, ?map_app, ?map_own; try reflexivity.
    cbn [map now]. now rewrite removelast_last. }
  rewrite Hs. split; [exact D|exact S].
Qed.

(** * Programs *)
Lemma store_app h y s i b : valid h s -> store (h ++ y) s i b =
  match store h s i b with Ok h' => Ok (h' ++ y) | Err e => Err e | Panic => Panic | Deep => Deep | Stuck => Stuck end.
Proof. intros (Hv & _). unfold store. destruct ((0 <=? i) && (i <? s_len s)); [|reflexivity]. now rewrite write_old. Qed.
Lemma store_keeps h s i b h' : valid h s -> store h s i b = Ok h' -> length h' = length h /\ (forall t, valid h t -> valid h' t).
Proof.
  intros (V1 & V2 & V3 & V4) H. unfold store in H. destruct ((0 <=? i) && (i <? s_len s)) eqn:E; [|discriminate].
  assert (h' = write_array h (s_arr s) (s_off s + i) [b]) as -> by congruence. split; [apply set_nth_length|].
  intros t (T1 & T2 & T3 & T4). unfold valid, array_of, write_array in *. rewrite set_nth_length. split; [exact T1|]. split; [exact T2|]. split; [exact T3|].
  destruct (Nat.eq_dec (s_arr s) (s_arr t)) as [Ea|Ea]; [|now rewrite nth_set_other].
  rewrite Ea, nth_set_same by exact T1. unfold zlen. rewrite overwrite_length; [unfold zlen in T4; lia|lia|]. rewrite <- Ea. change (zlen [b]) with 1. lia.
Qed.
(** The record so far: the pieces are kept by what follows. *)
Definition kept (n : nat) (h : heap) (s : gslice) (p : piece) : Prop :=
  match p with
  | Own bs => (n <= s_arr s)%nat /\ valid h s /\ view h s = bs
  | Theirs b => s = b /\ (s_arr b < n)%nat /\ valid h b
  end.
Lemma kept_view n h y s p : length h = n -> kept n (h ++ y) s p -> view (h ++ y) s = now h p /\ valid (h ++ y) s.
Proof. intros Hn. destruct p as [bs|b]; cbn [kept now]; [tauto|]. intros (-> & H1 & H2). split; [apply view_app; lia|exact H2]. Qed.
Lemma kept_len n h h' y s p : length h = n -> length h' = n -> (forall t, valid h t -> valid h' t) -> kept n (h ++ y) s p -> kept n (h' ++ y) s p.
Proof.
  intros Hn Hn' Hv. destruct p as [bs|b]; cbn [kept].
  - intros (H1 & H2 & H3). unfold valid, view, array_of in *. rewrite app_length, app_nth2 in * by lia. rewrite Hn in *. rewrite Hn'. tauto.
  - intros (-> & H1 & H2). split; [reflexivity|]. split; [exact H1|]. apply valid_app. apply Hv.
    unfold valid, array_of in *. rewrite app_nth1 in H2 by lia. rewrite Hn. tauto.
Qed.
Lemma pieces_valid E h op eo b : plain_op h op = Some eo -> hop_ok h op -> In (Theirs b) (snd (pieces E h op eo)) -> valid h b.
Proof.
  intros Hp Hok. unfold pieces. destruct (eop_run eo (mkE E buffer None 0 [] [])) as [r s]. cbn [snd].
  assert (N : forall l, In (Theirs b) (map Own l) -> False) by (intros l H; apply in_map_iff in H; destruct H as (? & H & _); discriminate).
  assert (K : forall c, handed op = Some c -> valid h c).
  { intros c Hc. destruct op; cbn [handed hop_ok] in *; try discriminate; try (destruct (s_len b0 =? 0); [discriminate|]); assert (c = b0) as -> by congruence; exact Hok. }
  destruct (handed op) as [c|]; [destruct r|]; intro H; try (now apply N in H). apply in_app_or in H. destruct H as [H|[H|[]]]; [now apply N in H|].
  assert (b = c) as -> by congruence. now apply K.
Qed.
Lemma total_stores h h' ps : (forall p b, In p ps -> p = Theirs b -> valid h b /\ valid h' b) -> total h ps = total h' ps.
Proof.
  unfold total. induction ps as [|p ps IH]; intro H; cbn [map List.concat]; [reflexivity|]. rewrite !zlen_app, IH by (intros q b Hq; apply H; now right).
  f_equal. destruct p as [bs|b]; cbn [now]; [reflexivity|]. destruct (H (Theirs b) b (or_introl eq_refl) eq_refl). now rewrite !view_length.
Qed.
Lemma pieces_kept h x y news ps : (forall b, In (Theirs b) ps -> valid h b) -> Forall2 (piece_of (h ++ x) ((h ++ x) ++ y)) news ps ->
  Forall2 (kept (length h) ((h ++ x) ++ y)) news ps.
Proof.
  intros Hv H. induction H as [|s p news ps H1 H2 IH]; constructor.
  - destruct p as [bs|b]; cbn [piece_of kept] in *; [rewrite app_length in H1; split; [lia|tauto]|]. subst s.
    assert (V : valid h b) by (apply Hv; now left). split; [reflexivity|]. split; [destruct V; assumption|]. now do 2 apply valid_app.
  - apply IH. intros b Hb. apply Hv. now right.
Qed.
Lemma kept_more n h y s p : kept n h s p -> kept n (h ++ y) s p.
Proof.
  destruct p as [bs|b]; cbn [kept].
  - intros (H1 & H2 & H3). split; [exact H1|]. split; [now apply valid_app|]. destruct H2. now rewrite view_app.
  - intros (-> & H1 & H2). split; [reflexivity|]. split; [exact H1|now apply valid_app].
Qed.
Lemma hop_ok_later h h' op : (forall t, valid h t -> valid h' t) -> hop_ok h op -> hop_ok h' op.
Proof. intro H. destruct op; cbn [hop_ok]; auto. Qed.
Lemma run_program grow E ops : forall h st y ps0, Forall (hop_ok h) ops -> he_enc st = E -> he_heap st = h ++ y ->
  Forall2 (kept (length h) (h ++ y)) (he_rec st) ps0 ->
  let '(rs, st') := hops_run grow ops st in let '(rs', ps, h') := expected E ops h in
  rs = rs' /\ (exists y', he_heap st' = h' ++ y') /\ length h' = length h /\ (forall t, valid h t -> valid h' t) /\
  Forall2 (kept (length h) (he_heap st')) (he_rec st') (ps0 ++ ps) /\ he_count st' = he_count st + total h' ps.
Proof.
  induction ops as [|op ops IH]; intros h st y ps0 Hok He Hh Hk; cbn [hops_run expected].
  - rewrite app_nil_r, Hh. unfold total. cbn. rewrite Z.add_0_r. eauto 10.
  - inversion_clear Hok as [|? ? Ho Hr]. destruct (plain_op h op) as [eo|] eqn:Ep.
    + pose proof (op_pieces grow E h op eo Ho Ep) as T. pose proof (pieces_valid E h op eo) as V. destruct (pieces E h op eo) as [r ps].
      cbn [snd] in V. destruct T as [D _]. destruct (D st y He Hh) as (y2 & news & H1 & H2). rewrite H1. rewrite Hh in *.
      specialize (IH h (mkHE ((h ++ y) ++ y2) E (he_count st + total h ps) (he_rec st ++ news)) (y ++ y2) (ps0 ++ ps) Hr eq_refl).
      destruct (hops_run grow ops _) as [rs st']. destruct (expected E ops h) as [[rs' qs] h'].
      destruct IH as (-> & Hy & Hl & Hv & Hf & Hc).
      * cbn [he_heap]. now rewrite app_assoc.
      * cbn [he_rec]. rewrite app_assoc. apply Forall2_app.
        -- revert Hk. apply F2_weaken. intros. now apply kept_more.
        -- apply pieces_kept; [|exact H2]. intros b Hb. now apply V.
      * split; [reflexivity|]. split; [exact Hy|]. split; [exact Hl|]. split; [exact Hv|]. split; [now rewrite app_assoc|].
        rewrite Hc. cbn [he_count]. rewrite total_app, Z.add_assoc. do 2 f_equal. apply total_stores.
        intros p b Hp ->. assert (valid h b) by (now apply V). split; [assumption|now apply Hv].
    + destruct op; try discriminate Ep. cbn [hop_ok] in Ho. cbn [hop_run]. rewrite Hh, (store_app h y s i b Ho).
      destruct (store h s i b) as [h1|e| | |] eqn:Es;
        [|specialize (IH h st y ps0 Hr He Hh Hk); destruct (hops_run grow ops st) as [rs st']; destruct (expected E ops h) as [[rs' qs] h']; destruct IH as (-> & IH); auto..].
      destruct (store_keeps h s i b h1 Ho Es) as [K1 K2].
      specialize (IH h1 (mkHE (h1 ++ y) (he_enc st) (he_count st) (he_rec st)) y ps0).
      destruct (hops_run grow ops _) as [rs st']. destruct (expected E ops h1) as [[rs' qs] h'].
      rewrite K1 in IH. destruct IH as (-> & Hy & Hl & Hv & Hf & Hc).
      * revert Hr. apply Forall_impl. intros op. now apply hop_ok_later.
      * exact He.
      * reflexivity.
      * revert Hk. apply F2_weaken. intros a p. now apply kept_len.
      * split; [reflexivity|]. split; [exact Hy|]. split; [exact Hl|]. split; [auto|]. split; [exact Hf|exact Hc].
Qed.
Theorem program_bytes grow E ops h : Forall (hop_ok h) ops ->
  let '(rs, st) := hops_run grow ops (mkHE h E 0 []) in let '(rs', ps, h') := expected E ops h in
  rs = rs' /\ (exists y, he_heap st = h' ++ y) /\
  (let '(h'', out) := h_wbw_bytes grow (he_heap st) (he_rec st) in view h'' out) = List.concat (map (now h') ps) /\
  he_count st = zlen (List.concat (map (now h') ps)).
Proof.
  intro Hok. pose proof (run_program grow E ops h (mkHE h E 0 []) [] [] Hok eq_refl) as H. cbn [he_heap he_rec he_count app] in H.
  rewrite app_nil_r in H. specialize (H eq_refl (Forall2_nil _)).
  destruct (hops_run grow ops _) as [rs st]. destruct (expected E ops h) as [[rs' ps] h']. destruct H as (-> & (y & Hy) & Hl & Hv & Hf & Hc).
  split; [reflexivity|]. split; [eauto|]. split; [|exact Hc]. rewrite Hy in *. rewrite <- Hl in Hf.
  assert (A : Forall (valid (h' ++ y)) (he_rec st) /\ map (view (h' ++ y)) (he_rec st) = map (now h') ps).
  { clear - Hf. induction Hf as [|s p l ps H1 H2 [IH1 IH2]]; [split; constructor|].
    destruct (kept_view _ h' y s p eq_refl H1) as [K1 K2]. split; [now constructor|]. cbn [map]. now rewrite K1, IH2. }
  destruct A as [A1 A2]. pose proof (wbw_views grow (h' ++ y) (he_rec st) A1) as W.
  destruct (h_wbw_bytes grow (h' ++ y) (he_rec st)) as [h'' out]. destruct W as [-> _]. now rewrite A2.
Qed.

(** Without assignments: what the model without sharing writes. *)
Definition is_store (op : hop) : Prop := match op with HStore _ _ _ => True | _ => False end.
Lemma expected_plain E ops : forall h s c, Forall (hop_ok h) ops -> Forall (fun op => ~ is_store op) ops -> e_enc s = E -> e_w s = buffer ->
  let '(rs, ps, h') := expected E ops h in
  h' = h /\ exists eos s', map (plain_op h) ops = map Some eos /\ eops_run eos (mkE E buffer c (e_count s) (e_hist s) (e_acc s)) = (rs, s') /\
    e_count s' = e_count s + total h ps /\ e_acc s' = e_acc s ++ List.concat (map (now h) ps).
Proof.
  induction ops as [|op ops IH]; intros h s c Hok Hn He Hw; cbn [expected].
  - split; [reflexivity|]. exists [], (mkE E buffer c (e_count s) (e_hist s) (e_acc s)). unfold total. cbn. rewrite Z.add_0_r, app_nil_r. auto.
  - inversion_clear Hok as [|? ? Ho Hr]. inversion_clear Hn as [|? ? Hs Hn']. destruct (plain_op h op) as [eo|] eqn:Ep;
      [|destruct op; try discriminate Ep; exfalso; apply Hs; exact I].
    pose proof (op_pieces (fun _ _ => O) E h op eo Ho Ep) as T. destruct (pieces E h op eo) as [r ps]. destruct T as [_ S].
    destruct (S (mkE E buffer c (e_count s) (e_hist s) (e_acc s)) eq_refl eq_refl) as [c1 S1]. cbn [e_count e_hist e_acc] in S1.
    specialize (IH h (mkE E buffer c1 (e_count s + zlen (List.concat (map (now h) ps))) (e_hist s ++ map (now h) ps) (e_acc s ++ List.concat (map (now h) ps))) c1 Hr Hn' eq_refl eq_refl).
    destruct (expected E ops h) as [[rs qs] h']. destruct IH as (-> & eos & s' & I1 & I2 & I3 & I4). split; [reflexivity|].
    exists (eo :: eos), s'. cbn [map]. rewrite I1, Ep. split; [reflexivity|]. cbn [eops_run]. rewrite S1. cbn [e_count e_hist e_acc] in *. rewrite I2.
    split; [reflexivity|]. rewrite I3, I4, total_app, map_app, concat_app, app_assoc. unfold total at 2. split; [lia|reflexivity].
Qed.
Theorem program_plain grow E ops h : Forall (hop_ok h) ops -> Forall (fun op => ~ is_store op) ops ->
  exists eos, map (plain_op h) ops = map Some eos /\
  let '(rs, st) := hops_run grow ops (mkHE h E 0 []) in let '(rs', s) := eops_run eos (new_encoder E buffer) in
  rs = rs' /\ (let '(h'', out) := h_wbw_bytes grow (he_heap st) (he_rec st) in view h'' out) = e_acc s /\ he_count st = e_count s.
Proof.
  intros Hok Hn. pose proof (program_bytes grow E ops h Hok) as H. pose proof (expected_plain E ops h (mkE E buffer None 0 [] []) None Hok Hn eq_refl eq_refl) as P.
  destruct (hops_run grow ops _) as [rs st]. destruct (expected E ops h) as [[rs' ps] h']. destruct H as (-> & _ & Hb & Hc).
  destruct P as (-> & eos & s' & P1 & P2 & P3 & P4). exists eos. split; [exact P1|]. cbn [e_count e_hist e_acc app] in P2, P3, P4.
  unfold new_encoder. rewrite P2. split; [reflexivity|]. rewrite Hb, P4, Hc, P3. split; [reflexivity|]. unfold total. lia.
Qed.

(** Calls that hand over no slice of the caller. *)
Lemma expected_app E ops : forall ops2 h, expected E (ops ++ ops2) h =
  let '(rs, ps, h1) := expected E ops h in let '(rs2, ps2, h2) := expected E ops2 h1 in (rs ++ rs2, ps ++ ps2, h2).
Proof.
  induction ops as [|op ops IH]; intros ops2 h; cbn [app expected].
  - now destruct (expected E ops2 h) as [[? ?] ?].
  - destruct (plain_op h op) as [eo|].
    + destruct (pieces E h op eo) as [r ps]. rewrite IH. destruct (expected E ops h) as [[rs qs] h1].
      destruct (expected E ops2 h1) as [[rs2 ps2] h2]. cbn [app]. now rewrite app_assoc.
    + destruct (match op with HStore s i b => _ | _ => _ end) as [o h0]. rewrite IH. destruct (expected E ops h0) as [[rs qs] h1].
      now destruct (expected E ops2 h1) as [[rs2 ps2] h2].
Qed.
Lemma expected_stores E ops : forall h, Forall is_store ops -> snd (fst (expected E ops h)) = [].
Proof.
  induction ops as [|op ops IH]; intros h H; [reflexivity|]. inversion_clear H as [|? ? H1 H2]. destruct op; try contradiction.
  cbn [expected plain_op]. destruct (match store h s i b with Ok h1 => _ | _ => _ end) as [o h1]. specialize (IH h1 H2).
  destruct (expected E ops h1) as [[rs qs] h2]. exact IH.
Qed.
Lemma expected_own E ops : forall h h1 h2, Forall (fun op => handed op = None) ops ->
  map (now h1) (snd (fst (expected E ops h))) = map (now h2) (snd (fst (expected E ops h))).
Proof.
  induction ops as [|op ops IH]; intros h h1 h2 H; [reflexivity|]. inversion_clear H as [|? ? H3 H4]. cbn [expected].
  destruct (plain_op h op) as [eo|].
  - unfold pieces. destruct (eop_run eo _) as [r s]. rewrite H3. specialize (IH h h1 h2 H4). destruct (expected E ops h) as [[rs qs] h'].
    cbn [fst snd] in *. now rewrite !map_app, !map_own, IH.
  - destruct (match op with HStore s i b => _ | _ => _ end) as [o h0]. specialize (IH h0 h1 h2 H4). destruct (expected E ops h0) as [[rs qs] h']. exact IH.
Qed.
Theorem program_copied grow grow' E ops stores h : Forall (hop_ok h) ops -> Forall (hop_ok h) stores ->
  Forall (fun op => handed op = None) ops -> Forall is_store stores ->
  let '(_, st) := hops_run grow ops (mkHE h E 0 []) in let '(_, st') := hops_run grow' (ops ++ stores) (mkHE h E 0 []) in
  (let '(h1, out) := h_wbw_bytes grow (he_heap st) (he_rec st) in view h1 out) =
  (let '(h1, out) := h_wbw_bytes grow' (he_heap st') (he_rec st') in view h1 out).
Proof.
  intros H1 H2 H3 H4. pose proof (program_bytes grow E ops h H1) as P. pose proof (program_bytes grow' E (ops ++ stores) h (proj2 (Forall_app _ _ _) (conj H1 H2))) as Q.
  rewrite expected_app in Q. pose proof (fun a b => expected_own E ops h a b H3) as K.
  destruct (hops_run grow ops _) as [rs st]. destruct (hops_run grow' (ops ++ stores) _) as [rs' st']. destruct (expected E ops h) as [[os ps] h1].
  pose proof (expected_stores E stores h1 H4) as S. destruct (expected E stores h1) as [[os2 ps2] h2]. cbn [fst snd] in S, K. subst ps2. rewrite app_nil_r in Q.
  destruct P as (_ & _ & -> & _), Q as (_ & _ & -> & _). now rewrite (K h1 h2).
Qed.
