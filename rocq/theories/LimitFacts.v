(** Where sending a value and getting it back part (lemmas for C61). *)
From Verif Require Import Types EncPrim DecPrim Enc Dec Builtin Spec NumFacts TyInd EncFacts EncWire DecWire DecWithin RoundTrip.
Notation length := Datatypes.length.

Lemma marshal_emits E t v bs c' : emits E (Some LE)
    (match enc_val E t (EFull opt0) v with m => m end) bs c' ->
  marshal E t v = (Ok tt, bs).
Proof.
  intros (cs & H & <-). unfold marshal, encode, new_encoder, bind at 1, e_get_enc. cbn [e_enc].
  pose proof (H buffer 0 [] []) as K. rewrite play_buffer in K.
  assert (Hc : forall c n h a, enc_val E t (EFull opt0) v (mkE E buffer c n h a) =
                          enc_val E t (EFull opt0) v (mkE E buffer (Some LE) n h a)).
  { intros. destruct t; reflexivity. }
  rewrite Hc, K. reflexivity.
Qed.

(** * Elements without bytes *)
Lemma blank_flat E t l : Forall (fun x => wire E t None LE x = []) l ->
  flat_map (wire E t None LE) l = [].
Proof. induction 1 as [|x l Hx _ IH]; [reflexivity|]. cbn [flat_map]. now rewrite Hx, IH. Qed.

Lemma blank_written E t l : uint_kind t = None -> zlen l <= count_max E ->
  Forall (fun x => ok E t None LE x /\ wire E t None LE x = []) l ->
  marshal E (TSlice t) (VSlice (Some l)) = (Ok tt, count E (zlen l)).
Proof.
  intros Hk Hl Hall. pose proof (zlen_nonneg l).
  assert (Hok : Forall (fun x => forall c, exists c', emits E c (enc_val E t (EFull opt0) x) (wire E t None LE x) c') l).
  { eapply Forall_impl; [|exact Hall]. intros x [Hx _] c. exact (enc_wire E t None LE x c Hx). }
  destruct (emits_each E (enc_val E t (EFull opt0)) (wire E t None LE) l (Some LE) Hok) as [c' Hc'].
  rewrite blank_flat in Hc' by (eapply Forall_impl; [|exact Hall]; now intros ? []).
  apply (marshal_emits _ _ _ _ c'). cbn [enc_val opt0 o_opt o_copt o_size o_order].
  rewrite andb_false_r. apply emits_set_cur. rewrite <- (app_nil_r (count E _)).
  eapply emits_bind; [apply emits_write_count; lia|]. rewrite Hk.
  unfold zlen at 1. rewrite Nat2Z.id, firstn_all, Z.ltb_irrefl.
  rewrite <- (app_nil_r []). eapply emits_bind; [exact Hc'|apply emits_ret].
Qed.

Lemma unmarshal_keeps E t (p : val) (m : Z -> DM val) n post :
  (forall s, dec_val E t (DStart opt0) p s = (d_set_cur LE ;;; (l <- read_count E ;; m l)) s) ->
  0 <= n <= count_max E ->
  unmarshal E t p (count E n ++ post) =
    fst (m n (mkD (count E n ++ post) (zlen (count E n)) (Some LE) E)).
Proof.
  intros Hm Hn. unfold unmarshal, decode, decode_target, new_decoder, bind at 1, d_get_enc. cbn [d_enc].
  rewrite Hm. unfold bind at 1, d_set_cur. cbn [d_data d_pos d_enc]. unfold bind.
  pose proof (keeps_read_count E n Hn [] post (Some LE)) as K. cbn [app] in K. change (zlen []) with 0 in K.
  rewrite K. reflexivity.
Qed.

Lemma slice_count_eq E t p s : dec_val E (TSlice t) (DStart opt0) p s =
  (d_set_cur LE ;;; (l <- read_count E ;;
     if is_borsh E && (l =? 0) then ret p
     else r <- d_remaining ;;
          if r <? l then fail EUnexpectedEOF
          else match uint_kind t with
               | Some w => fmap (fun zs => VSlice (Some (map VNum zs))) (read_uints w l)
               | None => fmap (fun vs => VSlice (Some vs))
                           (read_rep (Z.to_nat l) (dec_val E t (DStart opt0) (zero_val t)))
               end)) s.
Proof. cbn [dec_val mode_opt opt0 o_opt o_copt o_size o_order]. now rewrite andb_false_r. Qed.

Lemma blank_read E t l p post : uint_kind t = None -> l <> [] -> zlen l <= count_max E ->
  Forall (fun x => ok E t None LE x /\ wire E t None LE x = []) l ->
  unmarshal E (TSlice t) p (count E (zlen l) ++ post) =
    if zlen post <? zlen l then Err EUnexpectedEOF
    else Ok (VSlice (Some (map (back E t None LE (zero_val t)) l))).
Proof.
  intros Hk Hne Hl Hall. pose proof (zlen_nonneg l).
  assert (0 < zlen l). { destruct l; [easy|]. rewrite zlen_cons. pose proof (zlen_nonneg l). lia. }
  rewrite (unmarshal_keeps _ _ _ _ _ _ (slice_count_eq E t p)) by lia.
  destruct (zlen l =? 0) eqn:Z0; [lia|]. rewrite andb_false_r.
  (unfold bind, d_remaining; open_rem). cbn [d_data d_pos]. rewrite zlen_app, Z.add_simpl_l.
  destruct (zlen post <? zlen l); [reflexivity|]. rewrite Hk.
  pose proof (reads_read_rep E (fun _ => True) (dec_val E t (DStart opt0) (zero_val t))
    (fun _ _ => I) (map (fun x => (wire E t None LE x, back E t None LE (zero_val t) x)) l)) as K.
  rewrite map_length, map_map in K. cbn [snd] in K.
  replace (flat_map fst _) with (flat_map (wire E t None LE) l) in K
    by (clear; induction l as [|x l IHl]; [reflexivity|]; cbn; now rewrite IHl).
  rewrite blank_flat in K by (eapply Forall_impl; [|exact Hall]; now intros ? []).
  unfold zlen at 1. rewrite Nat2Z.id.
  destruct (K ltac:(rewrite Forall_map; eapply Forall_impl; [|exact Hall]; cbn [fst snd];
      intros x [Hx _]; apply dec_ok_start; auto using fits_zero, dec_wire)
    (count E (zlen l)) post (Some LE) (fun _ => eq_refl)) as (c' & E1 & _).
  cbn [app] in E1. unfold fmap. unfold bind. rewrite E1. reflexivity.
Qed.

(** * Old contents *)
Lemma empty_slice_kept t p post : unmarshal Borsh (TSlice t) p (count Borsh 0 ++ post) = Ok p.
Proof. now rewrite (unmarshal_keeps _ _ _ _ _ _ (slice_count_eq Borsh t p)) by (cbn; lia). Qed.
Lemma empty_slice_new E t p post : E <> Borsh -> unmarshal E (TSlice t) p (count E 0 ++ post) = Ok (VSlice (Some [])).
Proof.
  intro HE. rewrite (unmarshal_keeps _ _ _ _ _ _ (slice_count_eq E t p)) by (destruct E; cbn; lia).
  pose proof (zlen_nonneg post).
  assert (G : forall r : DM val, E <> Borsh -> fst ((r0 <- d_remaining ;;
      if r0 <? 0 then fail EUnexpectedEOF else r) (mkD (count E 0 ++ post) (zlen (count E 0)) (Some LE) E)) =
    fst (r (mkD (count E 0 ++ post) (zlen (count E 0)) (Some LE) E))).
  { intros r _. (unfold bind, d_remaining; open_rem). cbn [d_data d_pos]. rewrite zlen_app, Z.add_simpl_l.
    destruct (zlen post <? 0) eqn:Hp; [lia|reflexivity]. }
  replace (is_borsh E && (0 =? 0)) with false by (now destruct E). rewrite G by exact HE.
  destruct (uint_kind t) as [w|]; [|reflexivity].
  pose proof (keeps_read_uints E w [] (Forall_nil _) (fun _ => ltac:(cbn; lia)) (count E 0) post (Some LE)) as K.
  cbn [app flat_map] in K. change (zlen []) with 0 in K. unfold fmap, bind. rewrite K. reflexivity.
Qed.

Lemma map_count_eq E kt vt p s : dec_val E (TMap kt vt) (DStart opt0) p s =
  (d_set_cur LE ;;; (l <- read_count E ;;
     if l =? 0 then ret p
     else fmap (fun es => VMap (Some es))
            (dec_map kt (Z.to_nat l)
               (dec_val E kt (DStart opt0) (zero_val kt))
               (dec_val E vt (DStart opt0) (zero_val vt)) []))) s.
Proof. cbn [dec_val mode_opt opt0 o_opt o_copt o_size o_order]. now rewrite andb_false_r. Qed.
Lemma empty_map_kept E kt vt p post : unmarshal E (TMap kt vt) p (count E 0 ++ post) = Ok p.
Proof. now rewrite (unmarshal_keeps _ _ _ _ _ _ (map_count_eq E kt vt p)) by (destruct E; cbn; lia). Qed.

(** * Nil pointers *)
Lemma nil_silent E t : E <> Borsh -> ptr_marshal t = None ->
  marshal E (TPtr t) (VPtr None) = (Ok tt, []).
Proof.
  intros HE Ht. apply (marshal_emits _ _ _ _ (Some LE)). cbn [enc_val opt0 o_opt o_copt o_size o_order].
  rewrite andb_false_r. apply emits_set_cur.
  destruct (codec_of t) as [c|] eqn:Ec.
  - destruct t; try discriminate. injection Ec as ->. cbn [ptr_marshal] in Ht. rewrite Ht.
    destruct E; [| |easy]; apply emits_ret.
  - destruct E; [| |easy]; apply emits_ret.
Qed.
Lemma nil_zero t : ptr_marshal t = None -> ok Borsh t None LE (zero_val t) ->
  marshal Borsh (TPtr t) (VPtr None) = (Ok tt, wire Borsh t None LE (zero_val t)) /\
  marshal Borsh (TPtr t) (VPtr (Some (zero_val t))) = (Ok tt, wire Borsh t None LE (zero_val t)).
Proof.
  intros Ht Hok. split.
  - rewrite marshal_wire; [cbn [wire]; now rewrite Ht|]. cbn [ok]. exists None. rewrite Ht. auto.
  - rewrite marshal_wire; [cbn [wire]; now rewrite Ht|]. cbn [ok]. eexists. rewrite Ht. split; [reflexivity|auto].
Qed.

(** * Long texts *)
Lemma long_text_written s : zlen s < 2 ^ 32 ->
  marshal Borsh TString (VStr s) = (Ok tt, fixed LE 4 (zlen s) ++ s).
Proof.
  intro H. apply (marshal_emits _ _ _ _ (Some LE)). cbn [enc_val opt0 o_opt o_copt o_size o_order].
  cbn [is_borsh andb]. apply emits_set_cur. unfold write_str, write_string.
  apply (emits_write_bytes Borsh). cbn [count_max]. lia.
Qed.
Lemma long_text_written_bin s : marshal Bin TString (VStr s) = (Ok tt, fixed LE 8 (zlen s) ++ s).
Proof.
  apply (marshal_emits _ _ _ _ (Some LE)). cbn [enc_val opt0 o_opt o_copt o_size o_order].
  cbn [is_borsh andb]. apply emits_set_cur. unfold write_str, write_rust_string.
  eapply emits_bind; [apply emits_write_uint|apply emits_bytes_nolen].
Qed.
Lemma long_text_unread p s post : 2 ^ 31 <= zlen s < 2 ^ 32 ->
  unmarshal Borsh TString p (fixed LE 4 (zlen s) ++ s ++ post) = Err EUnexpectedEOF.
Proof.
  intro H. unfold unmarshal, decode, decode_target, new_decoder, bind at 1, d_get_enc. cbn [d_enc].
  cbn [dec_val mode_opt opt0 o_opt o_copt o_size o_order is_borsh andb orb].
  unfold bind at 1, d_set_cur. cbn [d_data d_pos d_enc].
  unfold fmap, read_str, read_string, read_byte_slice, read_length, bind, d_get_enc. cbn [d_enc].
  assert (K : keeps Borsh (read_uint 4 LE) (fixed LE 4 (zlen s)) (zlen s)) by (apply keeps_uint_fixed; cbn; lia).
  specialize (K [] (s ++ post) (Some LE)). cbn [app] in K. change (zlen []) with 0 in K. rewrite K.
  destruct (0x7FFFFFFF <? zlen s) eqn:E'; [reflexivity|lia].
Qed.
Lemma long_text_unread_bin p s post : 2 ^ 31 <= zlen s < 2 ^ 64 ->
  unmarshal Bin TString p (fixed LE 8 (zlen s) ++ s ++ post) = Err EUnexpectedEOF.
Proof.
  intro H. unfold unmarshal, decode, decode_target, new_decoder, bind at 1, d_get_enc. cbn [d_enc].
  cbn [dec_val mode_opt opt0 o_opt o_copt o_size o_order is_borsh andb orb].
  unfold bind at 1, d_set_cur. cbn [d_data d_pos d_enc].
  unfold fmap, read_str, read_rust_string, bind.
  assert (K : keeps Bin (read_uint64 LE) (fixed LE 8 (zlen s)) (zlen s)).
  { pose proof (keeps_uintw_fixed Bin W64 LE (zlen s)) as K'. apply K'. cbn. lia. }
  specialize (K [] (s ++ post) (Some LE)). cbn [app] in K. change (zlen []) with 0 in K. rewrite K.
  destruct (0x7FFFFFFF <? zlen s) eqn:E'; [reflexivity|lia].
Qed.

(** * NaN keys *)
Lemma each_app {A} (f : A -> EM unit) l1 l2 s : each f (l1 ++ l2) s = (each f l1 ;;; each f l2) s.
Proof.
  revert s. induction l1 as [|a l1 IH]; intro s; [reflexivity|]. cbn [app each]. unfold bind.
  destruct (f a s) as [[[]| | | |] s']; try reflexivity. rewrite IH. reflexivity.
Qed.

Lemma find_none kt m k : (forall x, key_eqb kt x k = false) -> map_index kt m k = None.
Proof.
  intro H. unfold map_index. induction m as [|e m IH]; [reflexivity|]. cbn [find]. rewrite H. exact IH.
Qed.
Lemma find_front kt m1 m2 e : distinct kt (map fst m1) -> In e m1 -> key_eqb kt (fst e) (fst e) = true ->
  map_index kt (m1 ++ m2) (fst e) = Some (snd e).
Proof.
  intros Hd Hin He. unfold map_index.
  induction m1 as [|x m IH]; [destruct Hin|]. cbn [find app].
  inversion_clear Hd as [|? ? Hx Hm].
  destruct Hin as [->|Hin]; [now rewrite He|].
  rewrite Forall_forall in Hx. specialize (Hx (fst e) (in_map fst _ _ Hin)).
  destruct Hx as [-> _]. now apply IH.
Qed.

Lemma enc_map_eq E kt vt m s : enc_val E (TMap kt vt) (EFull opt0) (VMap (Some m)) s =
  (e_set_cur LE ;;;
   match ordered_keys E kt (map fst m) with
   | None => unsortable kt
   | Some keys =>
       write_count E (zlen m) ;;;
       enc_map kt vt (enc_val E kt (EFull opt0)) (enc_val E vt (EFull opt0)) m keys
   end) s.
Proof. cbn [enc_val opt0 o_opt o_copt o_size o_order]. now rewrite andb_false_r. Qed.

Lemma nan_key E f vt m1 b x m2 : E <> Borsh ->
  f_isnan f b = true -> zlen (m1 ++ (VFloat b, x) :: m2) <= count_max E -> ok E (TMap (TFloat f) vt) None LE (VMap (Some m1)) ->
  marshal E (TMap (TFloat f) vt) (VMap (Some (m1 ++ (VFloat b, x) :: m2))) =
  (Panic, count E (zlen (m1 ++ (VFloat b, x) :: m2)) ++
     flat_map (fun e => wire E (TFloat f) None LE (fst e) ++ wire E vt None LE (snd e)) m1 ++
     fixed LE (fbytes f) (quiet f b)).
Proof.
  intros HE Hn Hl Hok. set (m := m1 ++ (VFloat b, x) :: m2) in *.
  cbn [ok] in Hok. destruct Hok as (om & H0 & Hok). injection H0 as <-. destruct Hok as (_ & Hall & Hd & _).
  unfold marshal, encode, new_encoder, bind at 1, e_get_enc. cbn [e_enc].
  rewrite enc_map_eq. unfold bind at 1, e_set_cur. cbn [e_enc e_w e_cur e_count e_hist e_acc].
  replace (ordered_keys E (TFloat f) (map fst m)) with (Some (map fst m)) by (destruct E; easy).
  destruct (emits_buffer E (Some LE) _ _ _ (emits_write_count E (Some LE) (zlen m) ltac:(pose proof (zlen_nonneg m); lia)) 0 [] [])
    as (cs & _ & E1). change buffer with (fun _ : list (list Z) => @None (nat * Z)). unfold bind at 1. rewrite E1.
  replace (map fst m) with (map fst m1 ++ map fst ((VFloat b, x) :: m2)) by (unfold m; now rewrite map_app).
  unfold enc_map. rewrite each_app.
  destruct (emits_enc_map E (TFloat f) vt m m1 (Some LE) (enc_wire E _) (enc_wire E _) Hall) as [c1 Hc1].
  { intros e He. apply find_front; auto. rewrite Forall_forall in Hall. now apply Hall. }
  match type of E1 with _ = (_, mkE _ _ _ ?n ?h ?a) =>
    destruct (emits_buffer _ _ _ _ _ Hc1 n h a) as (cs1 & _ & E2) end.
  unfold bind at 1. unfold enc_map in E2. rewrite E2. cbn [map each fst].
  cbn [iface_elem negb].
  assert (Hk : exists c2, emits E c1 (enc_val E (TFloat f) (EFull opt0) (VFloat b)) (fixed LE (fbytes f) (quiet f b)) c2).
  { exists (Some LE). cbn [enc_val opt0 o_opt o_copt o_size o_order]. rewrite andb_false_r. apply emits_set_cur.
    replace (scalar_order E LE) with LE by (destruct E; reflexivity). apply emits_write_float. easy. }
  destruct Hk as [c2 Hk].
  match type of E2 with _ = (_, mkE _ _ _ ?n ?h ?a) =>
    destruct (emits_buffer _ _ _ _ _ Hk n h a) as (cs2 & _ & E3) end.
  unfold bind. rewrite E3. rewrite find_none.
  - cbn [panic e_acc app]. now rewrite <- app_assoc.
  - intros [| |y| | | | | | | |]; try reflexivity. cbn [key_eqb]. rewrite Hn. now rewrite andb_false_r.
Qed.
