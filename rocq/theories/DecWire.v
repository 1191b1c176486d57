(** The decoder reads the bytes of the specification. *)
From Verif Require Import Types DecPrim Enc Dec Spec NumFacts TyInd EncWire.

(** [keeps]: reads the bytes, leaves the current order alone. *)
Definition keeps {A} (E : encoding) (m : DM A) (bs : list Z) (x : A) : Prop :=
  forall pre post c,
    m (mkD (pre ++ bs ++ post) (zlen pre) c E) =
    (Ok x, mkD (pre ++ bs ++ post) (zlen pre + zlen bs) c E).

Lemma keeps_reads {A} E m bs (x : A) : keeps E m bs x -> reads E (good_cur E) m bs x.
Proof. intros H pre post c Hc. exists c. split; [apply H|exact Hc]. Qed.

Lemma reads_weaken {A} E (P P' : option order -> Prop) m bs (x : A) :
  (forall c, P' c -> P c) -> reads E P m bs x -> reads E P' m bs x.
Proof. intros HP H pre post c Hc. apply H, HP, Hc. Qed.

Lemma keeps_ret {A} E (x : A) : keeps E (ret x) [] x.
Proof. intros pre post c. unfold ret. now rewrite zlen_nil, Z.add_0_r. Qed.
Lemma reads_ret {A} E (x : A) : reads E (good_cur E) (ret x) [] x.
Proof. apply keeps_reads, keeps_ret. Qed.

Lemma keeps_bind {A B} E (m : DM A) b1 a (k : A -> DM B) b2 y :
  keeps E m b1 a -> keeps E (k a) b2 y -> keeps E (bind m k) (b1 ++ b2) y.
Proof.
  intros H1 H2 pre post c. unfold bind.
  rewrite <- (app_assoc b1 b2 post), H1.
  specialize (H2 (pre ++ b1) post c). rewrite zlen_app, <- (app_assoc pre b1) in H2.
  rewrite H2, zlen_app, Z.add_assoc. reflexivity.
Qed.
Lemma reads_bind_keep {A B} E P (m : DM A) b1 a (k : A -> DM B) b2 y :
  keeps E m b1 a -> reads E P (k a) b2 y -> reads E P (bind m k) (b1 ++ b2) y.
Proof.
  intros H1 H2 pre post c Hc. unfold bind.
  rewrite <- (app_assoc b1 b2 post), H1.
  destruct (H2 (pre ++ b1) post c Hc) as (c2 & E2 & G2).
  rewrite zlen_app, <- (app_assoc pre b1) in E2.
  exists c2. split; [|exact G2]. rewrite E2, zlen_app, Z.add_assoc. reflexivity.
Qed.
Lemma reads_bind {A B} E P (m : DM A) b1 a (k : A -> DM B) b2 y :
  reads E P m b1 a -> reads E (good_cur E) (k a) b2 y -> reads E P (bind m k) (b1 ++ b2) y.
Proof.
  intros H1 H2 pre post c Hc. unfold bind.
  destruct (H1 pre (b2 ++ post) c Hc) as (c1 & E1 & G1).
  rewrite <- (app_assoc b1 b2 post), E1.
  destruct (H2 (pre ++ b1) post c1 G1) as (c2 & E2 & G2).
  rewrite zlen_app, <- (app_assoc pre b1) in E2.
  exists c2. split; [|exact G2]. rewrite E2, zlen_app, Z.add_assoc. reflexivity.
Qed.
Lemma reads_fmap {A B} E P (f : A -> B) m bs x :
  reads E P m bs x -> reads E P (fmap f m) bs (f x).
Proof.
  intro H. rewrite <- (app_nil_r bs). eapply reads_bind; [exact H|apply reads_ret].
Qed.
Lemma keeps_fmap {A B} E (f : A -> B) m bs x : keeps E m bs x -> keeps E (fmap f m) bs (f x).
Proof.
  intro H. rewrite <- (app_nil_r bs). eapply keeps_bind; [exact H|apply keeps_ret].
Qed.
Lemma keeps_map_err {A} E g (m : DM A) bs x : keeps E m bs x -> keeps E (map_err g m) bs x.
Proof. intros H pre post c. unfold map_err. now rewrite H. Qed.
Lemma reads_map_err {A} E P g (m : DM A) bs x : reads E P m bs x -> reads E P (map_err g m) bs x.
Proof.
  intros H pre post c Hc. destruct (H pre post c Hc) as (c' & E1 & G).
  exists c'. split; [|exact G]. unfold map_err. now rewrite E1.
Qed.
Lemma reads_set_cur {A} E o (m : DM A) bs x :
  reads E (at_order o) m bs x -> reads E (fun _ => True) (d_set_cur o ;;; m) bs x.
Proof. intros H pre post c _. exact (H pre post (Some o) eq_refl). Qed.
Lemma reads_get_enc {A} E P (k : encoding -> DM A) bs x :
  reads E P (k E) bs x -> reads E P (bind d_get_enc k) bs x.
Proof. intros H pre post c Hc. exact (H pre post c Hc). Qed.
Lemma keeps_get_enc {A} E (k : encoding -> DM A) bs x :
  keeps E (k E) bs x -> keeps E (bind d_get_enc k) bs x.
Proof. intros H pre post c. exact (H pre post c). Qed.
Lemma reads_cur_order {A} E o (k : order -> DM A) bs x :
  reads E (at_order o) (k o) bs x -> reads E (at_order o) (bind d_cur_order k) bs x.
Proof. intros H pre post c Hc. pose proof Hc as Hc'. unfold at_order in Hc'. subst c. exact (H pre post _ Hc). Qed.

(** * Slicing *)
Lemma slice_n_mid pre bs post :
  slice_n (pre ++ bs ++ post) (zlen pre) (zlen bs) = Some bs.
Proof.
  unfold slice_n. pose proof (zlen_nonneg pre). pose proof (zlen_nonneg bs).
  pose proof (zlen_nonneg post). rewrite !zlen_app.
  destruct ((0 <=? zlen pre) && (0 <=? zlen bs) &&
            (zlen pre + zlen bs <=? zlen pre + (zlen bs + zlen post))) eqn:E'; [|lia].
  unfold zlen. rewrite !Nat2Z.id, skipn_app, skipn_all, Nat.sub_diag. cbn [app skipn].
  rewrite firstn_app, Nat.sub_diag, firstn_all, app_nil_r. reflexivity.
Qed.
Lemma slice_from_mid pre post : slice_from (pre ++ post) (zlen pre) = Some post.
Proof.
  unfold slice_from. rewrite zlen_app. pose proof (zlen_nonneg pre). pose proof (zlen_nonneg post).
  destruct ((0 <=? zlen pre) && (zlen pre <=? zlen pre + zlen post)) eqn:E'; [|lia].
  unfold zlen. rewrite Nat2Z.id, skipn_app, skipn_all, Nat.sub_diag. reflexivity.
Qed.

Lemma keeps_take E n bs : n = zlen bs -> keeps E (d_take n) bs bs.
Proof.
  intros -> pre post c. unfold d_take, d_get, bind. cbn [d_data d_pos].
  rewrite slice_n_mid. reflexivity.
Qed.
Lemma keeps_remaining {A} E l (m : DM A) e bs x :
  l <= zlen bs -> keeps E m bs x ->
  keeps E (r <- d_remaining ;; if r <? l then fail e else m) bs x.
Proof.
  intros Hl H pre post c. (unfold bind, d_remaining; rewrite ?remaining_pos by (cbn [d_pos]; try assumption; apply zlen_nonneg)). cbn [d_data d_pos].
  rewrite !zlen_app. pose proof (zlen_nonneg post).
  destruct (zlen pre + (zlen bs + zlen post) - zlen pre <? l) eqn:E'; [lia|].
  apply H.
Qed.
Lemma reads_remaining {A} E P l (m : DM A) e bs x :
  l <= zlen bs -> reads E P m bs x ->
  reads E P (r <- d_remaining ;; if r <? l then fail e else m) bs x.
Proof.
  intros Hl H pre post c Hc. destruct (H pre post c Hc) as (c' & E1 & G).
  exists c'. split; [|exact G]. (unfold bind, d_remaining; rewrite ?remaining_pos by (cbn [d_pos]; try assumption; apply zlen_nonneg)). cbn [d_data d_pos].
  rewrite !zlen_app. pose proof (zlen_nonneg post).
  destruct (zlen pre + (zlen bs + zlen post) - zlen pre <? l) eqn:E'; [lia|].
  exact E1.
Qed.
Lemma keeps_within {A} E n (m : DM A) e bs x :
  n <= zlen bs -> keeps E m bs x ->
  keeps E (s <- d_get ;; if zlen (d_data s) <? d_pos s + n then fail e else m) bs x.
Proof.
  intros Hl H pre post c. unfold bind, d_get. cbn [d_data d_pos].
  rewrite !zlen_app. pose proof (zlen_nonneg post).
  destruct (zlen pre + (zlen bs + zlen post) <? zlen pre + n) eqn:E'; [lia|].
  apply H.
Qed.
Lemma reads_rest {A} E P (k m : DM A) bs x :
  bs <> [] -> reads E P m bs x ->
  reads E P (rest <- d_rest ;; match rest with [] => k | _ => m end) bs x.
Proof.
  intros Hb H pre post c Hc. destruct (H pre post c Hc) as (c' & E1 & G).
  exists c'. split; [|exact G]. unfold bind at 1, d_rest, d_get, bind. cbn [d_data d_pos].
  rewrite slice_from_mid. destruct bs as [|b bs]; [easy|]. cbn [app ret]. exact E1.
Qed.

(** * Primitives *)
Lemma keeps_read_byte E z : keeps E read_byte [z] z.
Proof.
  unfold read_byte. apply keeps_remaining; [cbn; lia|].
  change [z] with ([z] ++ []) at 1. eapply keeps_bind; [now apply keeps_take|apply keeps_ret].
Qed.
Lemma keeps_read_uint E n o bs : length bs = n -> keeps E (read_uint n o) bs (get_uint o bs).
Proof.
  intro Hn. unfold read_uint. apply keeps_remaining; [unfold zlen; lia|].
  rewrite <- (app_nil_r bs) at 1.
  eapply keeps_bind; [apply keeps_take; unfold zlen; lia|apply keeps_ret].
Qed.
Lemma keeps_read_n_bytes E n bs : n = zlen bs -> n <= 0x7FFFFFFF -> keeps E (read_n_bytes n) bs bs.
Proof.
  intros Hn Hm. unfold read_n_bytes. destruct (n =? 0) eqn:E0.
  - rewrite (zlen_0 bs) by lia. apply keeps_ret.
  - pose proof (zlen_nonneg bs).
    destruct ((n <? 0) || (0x7FFFFFFF <? n)) eqn:E1; [lia|].
    apply keeps_within; [lia|]. now apply keeps_take.
Qed.
Lemma keeps_read_uint64 E o bs : length bs = 8%nat -> keeps E (read_uint64 o) bs (get_uint o bs).
Proof.
  intro Hn. unfold read_uint64. apply keeps_remaining; [unfold zlen; lia|].
  rewrite <- (app_nil_r bs) at 1.
  eapply keeps_bind; [apply keeps_read_n_bytes; unfold zlen; lia|apply keeps_ret].
Qed.
Lemma keeps_read_uintw E w o bs : length bs = wbytes w -> keeps E (read_uintw w o) bs (get_uint o bs).
Proof.
  intro H. destruct w; cbn [wbytes read_uintw] in *.
  - destruct bs as [|b [|? ?]]; try discriminate.
    replace (get_uint o [b]) with b by (destruct o; cbn; lia). apply keeps_read_byte.
  - now apply keeps_read_uint.
  - now apply keeps_read_uint.
  - now apply keeps_read_uint64.
Qed.
Lemma keeps_uintw_fixed E w o z : 0 <= z < 2 ^ wbits w ->
  keeps E (read_uintw w o) (fixed o (wbytes w) z) z.
Proof.
  intro H. pose proof (keeps_read_uintw E w o _ (fixed_length o (wbytes w) z)) as K.
  rewrite get_fixed, wbytes_pow, Z.mod_small in K by exact H. exact K.
Qed.
Lemma keeps_uint_fixed E n o z : 0 <= z < 256 ^ Z.of_nat n ->
  keeps E (read_uint n o) (fixed o n z) z.
Proof.
  intro H. pose proof (keeps_read_uint E n o _ (fixed_length o n z)) as K.
  rewrite get_fixed, Z.mod_small in K by exact H. exact K.
Qed.
Lemma wbits_pos w : 0 < wbits w.
Proof. destruct w; reflexivity. Qed.
Lemma keeps_intw_fixed E w o z : - 2 ^ (wbits w - 1) <= z < 2 ^ (wbits w - 1) ->
  keeps E (read_intw w o) (fixed o (wbytes w) z) z.
Proof.
  intro H. pose proof (keeps_read_uintw E w o _ (fixed_length o (wbytes w) z)) as K.
  rewrite get_fixed, wbytes_pow in K.
  apply (keeps_fmap E (swrap (wbits w))) in K.
  rewrite swrap_mod in K by apply wbits_pos.
  rewrite swrap_small in K by (exact H || apply wbits_pos). exact K.
Qed.

Lemma num_order_dec E w o z : 0 <= z < 2 ^ wbits w ->
  keeps E (read_uintw w (scalar_order E o)) (fixed (num_order E o) (wbytes w) z) z.
Proof. apply keeps_uintw_fixed. Qed.

Lemma keeps_pos {A} E (f : list Z -> A * Z) bs (v : A) :
  (forall post, f (bs ++ post) = (v, zlen bs)) -> 0 < zlen bs ->
  keeps E (buf <- d_rest ;;
           let '(v, n) := f buf in
           if n <=? 0 then fail EVarint
           else s <- d_get ;; d_set_pos (d_pos s + n) ;;; ret v) bs v.
Proof.
  intros Hf Hp pre post c. unfold bind at 1, d_rest, d_get, bind. cbn [d_data d_pos].
  rewrite slice_from_mid. cbn [ret]. rewrite Hf.
  destruct (zlen bs <=? 0) eqn:E'; [lia|]. reflexivity.
Qed.
Lemma zlen_leb128 x : 0 <= x -> 0 < zlen (leb128 x).
Proof.
  intro H. pose proof (leb128_nonempty x H). destruct (leb128 x); [easy|].
  rewrite zlen_cons. pose proof (zlen_nonneg l). lia.
Qed.
Lemma keeps_uvarint E x : 0 <= x < 2 ^ 64 -> keeps E read_uvarint64 (leb128 x) x.
Proof.
  intro H. apply keeps_pos.
  - intro post. now rewrite uvarint_leb.
  - apply zlen_leb128. lia.
Qed.
Lemma keeps_varint E x : - 2 ^ 63 <= x < 2 ^ 63 -> keeps E read_varint64 (leb128 (zz x)) x.
Proof.
  intro H. apply keeps_pos.
  - intro post. now rewrite varint_leb.
  - apply zlen_leb128. pose proof (zz_range x H). lia.
Qed.
Lemma keeps_compact E x : 0 <= x <= 65535 -> keeps E read_compact_u16 (leb128 x) x.
Proof.
  intros H pre post c. unfold read_compact_u16, bind at 1, d_rest, d_get, bind. cbn [d_data d_pos].
  rewrite slice_from_mid. cbn [ret]. rewrite decode_cu16_leb by lia. reflexivity.
Qed.

Lemma keeps_read_length E n : 0 <= n <= count_max E -> n <= bulk_max ->
  keeps E read_length (count E n) n.
Proof.
  intros H Hb. unfold bulk_max in Hb.
  unfold read_length. apply keeps_get_enc. destruct E; cbn [count_max count] in *.
  - rewrite <- (app_nil_r (leb128 n)). eapply keeps_bind; [apply keeps_uvarint; lia|].
    destruct (0x7FFFFFFF <? n) eqn:E'; [lia|]. apply keeps_ret.
  - apply keeps_compact. lia.
  - rewrite <- (app_nil_r (fixed LE 4 n)).
    eapply keeps_bind; [apply keeps_uint_fixed; cbn; lia|].
    destruct (0x7FFFFFFF <? n) eqn:E'; [lia|]. apply keeps_ret.
Qed.
Lemma keeps_read_count E n : 0 <= n <= count_max E -> keeps E (read_count E) (count E n) n.
Proof.
  intro H. destruct E.
  - apply keeps_read_length; [exact H|]. unfold bulk_max. cbn in H. lia.
  - apply keeps_compact. cbn in H. lia.
  - apply keeps_uint_fixed. cbn in *. lia.
Qed.

Lemma keeps_byte_slice E s : zlen s <= count_max E -> zlen s <= bulk_max ->
  keeps E read_byte_slice (count E (zlen s) ++ s) s.
Proof.
  intros H1 H2. unfold read_byte_slice. pose proof (zlen_nonneg s).
  eapply keeps_bind; [apply keeps_read_length; lia|].
  apply keeps_within; [lia|]. now apply keeps_take.
Qed.
Lemma text_max_bulk E : text_max E <= bulk_max.
Proof. destruct E; cbn; lia. Qed.
Lemma keeps_read_str E s : zlen s <= text_max E -> keeps E (read_str E) (text E s) s.
Proof.
  intro H. pose proof (text_max_bulk E) as Hb. pose proof (text_max_count E).
  pose proof (zlen_nonneg s).
  assert (K : keeps E read_byte_slice (count E (zlen s) ++ s) s)
    by (apply keeps_byte_slice; lia).
  destruct E; unfold read_str, text; try exact K.
  unfold read_rust_string. eapply keeps_bind.
  - pose proof (keeps_uintw_fixed Bin W64 LE (zlen s)) as K'. apply K'. cbn in *. lia.
  - cbn in Hb, H. destruct (0x7FFFFFFF <? zlen s) eqn:E'; [lia|]. apply keeps_read_n_bytes; lia.
Qed.

Lemma keeps_flag E b : keeps E (read_flag E) (flag E b) b.
Proof.
  unfold read_flag, flag. apply keeps_map_err. destruct E.
  - pose proof (keeps_fmap Bin (fun n => negb (n =? 0)) _ _ _
      (keeps_uint_fixed Bin 4 LE (if b then 1 else 0) ltac:(destruct b; cbn; lia))) as K.
    destruct b; exact K.
  - rewrite fixed_1. replace ((if b then 1 else 0) mod 256) with (if b then 1 else 0)
      by (destruct b; reflexivity).
    pose proof (keeps_fmap CompactU16 (fun n => negb (n =? 0)) _ _ _
      (keeps_read_byte CompactU16 (if b then 1 else 0))) as K. destruct b; exact K.
  - rewrite fixed_1. replace ((if b then 1 else 0) mod 256) with (if b then 1 else 0)
      by (destruct b; reflexivity).
    pose proof (keeps_fmap Borsh (fun n => negb (n =? 0)) _ _ _
      (keeps_map_err Borsh EWrap _ _ _ (keeps_read_byte Borsh (if b then 1 else 0)))) as K.
    destruct b; exact K.
Qed.
Lemma keeps_coption E b : keeps E read_coption (cflag b) b.
Proof.
  unfold read_coption, cflag. rewrite <- (app_nil_r (fixed _ _ _)).
  eapply keeps_bind.
  - apply keeps_map_err. apply keeps_uint_fixed. destruct b; cbn; lia.
  - destruct b; apply keeps_ret.
Qed.
Lemma keeps_cflag E b : keeps E read_cflag (cflag b) b.
Proof. apply keeps_map_err, keeps_coption. Qed.
Lemma keeps_bool E (b : bool) : keeps E read_bool [if b then 1 else 0] b.
Proof.
  unfold read_bool. apply keeps_remaining; [cbn; lia|].
  change ([if b then 1 else 0]) with ([if b then 1 else 0] ++ []).
  eapply keeps_bind; [apply keeps_map_err, keeps_read_byte|]. destruct b; apply keeps_ret.
Qed.

Lemma quiet_range f b : 0 <= b < 2 ^ fbits f -> 0 <= quiet f b < 2 ^ fbits f.
Proof.
  intro H. destruct f; cbn [quiet fbits] in *; [|exact H].
  destruct (f_isnan F32 b && negb (Z.testbit b 22)) eqn:E; [|exact H].
  apply andb_true_iff in E. destruct E as [_ E]. apply negb_true_iff in E.
  rewrite <- lor_pow2 by (lia || exact E). split.
  - apply Z.lor_nonneg. split; lia.
  - destruct (Z.eq_dec b 0) as [->|]; [reflexivity|].
    assert (0 < Z.lor b (2 ^ 22)).
    { assert (0 <= Z.lor b (2^22)) by (apply Z.lor_nonneg; lia).
      destruct (Z.eq_dec (Z.lor b (2 ^ 22)) 0) as [Hz|]; [|lia].
      apply Z.lor_eq_0_iff in Hz. lia. }
    apply Z.log2_lt_pow2; [easy|]. rewrite Z.log2_lor by lia.
    apply Z.max_lub_lt; [|reflexivity]. apply Z.log2_lt_pow2; lia.
Qed.
Lemma quiet_idem f b : 0 <= b < 2 ^ fbits f -> quiet f (quiet f b) = quiet f b.
Proof.
  intro H. destruct f; [|reflexivity]. unfold quiet at 2 3.
  destruct (f_isnan F32 b && negb (Z.testbit b 22)) eqn:E.
  - unfold quiet. apply andb_true_iff in E. destruct E as [_ E]. apply negb_true_iff in E.
    rewrite <- lor_pow2 by (lia || exact E).
    rewrite Z.lor_spec, Z.pow2_bits_true by lia. rewrite orb_true_r, andb_false_r. reflexivity.
  - unfold quiet. rewrite E. reflexivity.
Qed.

Lemma keeps_read_float E f o b : 0 <= b < 2 ^ fbits f -> (E = Borsh -> f_isnan f b = false) ->
  keeps E (read_float f o) (fixed o (fbytes f) b) b.
Proof.
  intros Hb Hn. unfold read_float. apply keeps_remaining; [rewrite fixed_zlen; lia|].
  rewrite <- (app_nil_r (fixed o (fbytes f) b)). eapply keeps_bind.
  - apply keeps_take. now rewrite fixed_zlen.
  - apply keeps_get_enc. rewrite get_fixed, fbytes_pow, Z.mod_small by exact Hb.
    destruct (is_borsh E && f_isnan f b) eqn:E'.
    + destruct E; try discriminate. rewrite (Hn eq_refl) in E'. discriminate.
    + apply keeps_ret.
Qed.

Lemma keeps_read_rep {A} E (m : DM A) : forall (l : list (list Z * A)),
  Forall (fun e => keeps E m (fst e) (snd e)) l ->
  keeps E (read_rep (length l) m) (flat_map fst l) (map snd l).
Proof.
  induction l as [|[b a] l IH]; intro H; [apply keeps_ret|].
  inversion_clear H as [|? ? H1 H2]. cbn [length read_rep flat_map map fst snd] in *.
  eapply keeps_bind; [exact H1|].
  rewrite <- (app_nil_r (flat_map fst l)).
  eapply keeps_bind; [exact (IH H2)|apply keeps_ret].
Qed.
Lemma reads_read_rep {A} E (P : option order -> Prop) (m : DM A) : (forall c, good_cur E c -> P c) -> forall (l : list (list Z * A)),
  Forall (fun e => reads E P m (fst e) (snd e)) l ->
  reads E (good_cur E) (read_rep (length l) m) (flat_map fst l) (map snd l).
Proof.
  intro HP. induction l as [|[b a] l IH]; intro H; [apply reads_ret|].
  inversion_clear H as [|? ? H1 H2]. cbn [length read_rep flat_map map fst snd] in *.
  eapply reads_bind; [eapply reads_weaken; [exact HP|exact H1]|].
  rewrite <- (app_nil_r (flat_map fst l)).
  eapply reads_bind; [exact (IH H2)|apply reads_ret].
Qed.

Lemma keeps_read_uints E w zs :
  Forall (fun z => 0 <= z < 2 ^ wbits w) zs -> (w = W8 -> zlen zs <= bulk_max) ->
  keeps E (read_uints w (zlen zs)) (flat_map (fixed LE (wbytes w)) zs) zs.
Proof.
  intros H Hm. unfold read_uints.
  assert (Hlen : zlen (flat_map (fixed LE (wbytes w)) zs) = zlen zs * Z.of_nat (wbytes w)).
  { clear. induction zs as [|z zs IH]; [reflexivity|]. cbn [flat_map].
    rewrite zlen_app, IH, fixed_zlen, zlen_cons. lia. }
  pose proof (zlen_nonneg zs).
  destruct (zlen zs <? 0) eqn:E'; [lia|].
  apply keeps_remaining; [lia|].
  assert (Hrep : keeps E (read_rep (Z.to_nat (zlen zs)) (read_uintw w LE))
                   (flat_map (fixed LE (wbytes w)) zs) zs).
  { pose proof (keeps_read_rep E (read_uintw w LE) (map (fun z => (fixed LE (wbytes w) z, z)) zs)) as K.
    rewrite map_length, map_map in K. cbn [snd] in K. rewrite map_id in K.
    unfold zlen. rewrite Nat2Z.id.
    replace (flat_map fst (map (fun z => (fixed LE (wbytes w) z, z)) zs))
      with (flat_map (fixed LE (wbytes w)) zs) in K.
    - apply K. rewrite Forall_map. eapply Forall_impl; [|exact H].
      intros z Hz. now apply keeps_uintw_fixed.
    - clear. induction zs as [|z zs IH]; [reflexivity|]. cbn. now rewrite IH. }
  destruct w; try exact Hrep.
  assert (Hid : flat_map (fixed LE 1) zs = zs).
  { clear -H. induction H as [|z zs Hz _ IH]; [reflexivity|]. cbn [flat_map].
    rewrite IH, fixed_1, Z.mod_small by (cbn in Hz; lia). reflexivity. }
  cbn [wbytes]. rewrite Hid. apply keeps_read_n_bytes; [reflexivity|].
  specialize (Hm eq_refl). unfold bulk_max in Hm. lia.
Qed.

(** * Typed zero values *)
Lemma fits_zero t : fits t (zero_val t).
Proof.
  induction t as [t IH] using ty_strong_ind. destruct t; cbn [fits zero_val]; try now eexists.
  - exists 0. split; [reflexivity|]. destruct w; cbn; lia.
  - exists 0. split; [reflexivity|]. destruct w; cbn; lia.
  - exists 0. split; [reflexivity|]. destruct f; cbn; lia.
  - exists []. split; [reflexivity|constructor].
  - exists 0. split; [reflexivity|]. destruct signed; cbn; lia.
  - exists (repeat (zero_val t) n). split; [reflexivity|]. split; [apply repeat_length|].
    apply Forall_forall. intros x Hx. apply repeat_spec in Hx. subst. apply IH. cbn. lia.
  - eexists. split; [reflexivity|].
    assert (Hsz : forall h t, In (h, t) fs -> fits t (zero_val t)).
    { intros h t Hin. apply IH. exact (ty_size_field _ _ _ Hin). }
    clear IH. induction fs as [|[h t] fs IH]; [exact I|]. cbn [fits_fields map snd]. split.
    + apply (Hsz h). now left.
    + apply IH. intros. apply (Hsz h0). now right.
  - apply IH. cbn. lia.
Qed.
Lemma fits_deref t p : fits (TPtr t) p -> fits t (deref t p).
Proof.
  intros (q & -> & H). destruct q as [x|]; cbn [deref]; [now apply H|apply fits_zero].
Qed.

(** * Values *)

Definition dec_ok (E : encoding) (t : ty) : Prop :=
  forall sz o v p, ok E t sz o v -> fits t p -> (E = Borsh -> o = LE) ->
  forall f1 f2, reads E (at_order o) (dec_val E t (DWalk (mkOpt f1 f2 sz o) false) p)
    (wire E t sz o v) (back E t sz o p v).

Lemma dec_start E t sz o p :
  dec_val E t (DStart (mkOpt false false sz o)) p =
  (d_set_cur o ;;; dec_val E t (DWalk (mkOpt false false sz o) false) p).
Proof.
  assert (Hflag : is_borsh E && false = false) by apply andb_false_r.
  destruct t; cbn [dec_val mode_opt o_opt o_copt o_order o_size]; rewrite ?Hflag; reflexivity.
Qed.

Lemma dec_ok_start E t sz o v p : dec_ok E t ->
  ok E t sz o v -> fits t p -> (E = Borsh -> o = LE) ->
  reads E (fun _ => True) (dec_val E t (DStart (mkOpt false false sz o)) p)
    (wire E t sz o v) (back E t sz o p v).
Proof. intros Hd Hok Hp Ho. rewrite dec_start. now apply reads_set_cur, Hd. Qed.

(** The COption flag of a doubly optional field is read last. *)
Lemma reads_fmap_inv {A B} E P (f : A -> B) m bs x :
  (forall a b, f a = f b -> a = b) -> (exists c, P c) ->
  reads E P (fmap f m) bs x -> exists y, x = f y /\ reads E P m bs y.
Proof.
  intros Hinj [c0 Hc0] H.
  assert (Hinv : forall pre post c, P c -> exists y c', x = f y /\
     m (mkD (pre ++ bs ++ post) (zlen pre) c E) =
       (Ok y, mkD (pre ++ bs ++ post) (zlen pre + zlen bs) c' E) /\ good_cur E c').
  { intros pre post c Hc. destruct (H pre post c Hc) as (c' & E1 & G).
    unfold fmap, bind in E1.
    destruct (m (mkD (pre ++ bs ++ post) (zlen pre) c E)) as [[y| | | |] s'] eqn:Em;
      try discriminate. cbn [ret] in E1. inversion E1; subst. exists y, c'. auto. }
  destruct (Hinv [] [] c0 Hc0) as (y & _ & -> & _). exists y. split; [reflexivity|].
  intros pre post c Hc. destruct (Hinv pre post c Hc) as (y' & c' & Hy & E1 & G).
  apply Hinj in Hy. subst y'. exists c'. auto.
Qed.

Lemma dec_walk_pend E t o : bare t = true -> forall p bs x,
  reads E (at_order (o_order o)) (dec_val E t (DWalk o false) p) bs x ->
  reads E (at_order (o_order o)) (dec_val E t (DWalk o true) p) (cflag true ++ bs) x.
Proof.
  induction t; intros Hb p bs x H;
    try (cbn [dec_val mode_opt]; eapply reads_bind_keep; [apply keeps_cflag|]; exact H).
  - cbn [bare] in Hb. cbn [dec_val mode_opt] in *.
    apply reads_fmap_inv in H; [|intros; congruence|now exists (Some (o_order o))].
    destruct H as (y & -> & H). apply (reads_fmap _ _ (fun x => VPtr (Some x))).
    now apply IHt.
  - cbn [bare] in Hb. cbn [dec_val mode_opt] in *.
    destruct (c_unmarshal c); [discriminate|]. now apply IHt.
  - cbn [dec_val] in H. destruct (H [] [] _ eq_refl) as (c & E1 & _). discriminate.
Qed.

Lemma codec_back_reads f E o p bs x : (E = Borsh -> o = LE) ->
  reads E (at_order o) (f p) bs x -> codec_back f E o p bs = x.
Proof.
  intros Ho H. destruct (H [] [] (Some o) eq_refl) as (c' & E1 & _).
  cbn [app] in E1. rewrite app_nil_r in E1. unfold codec_back.
  change (zlen []) with 0 in E1. rewrite E1. reflexivity.
Qed.
Lemma codec_reads_back f u E o bs p : (E = Borsh -> o = LE) ->
  codec_reads f u E o bs -> fits u p ->
  reads E (at_order o) (f p) bs (codec_back f E o p bs).
Proof.
  intros Ho H Hp. destruct (H p Hp) as [x Hx].
  now rewrite (codec_back_reads f E o p bs x Ho Hx).
Qed.

Lemma dec_start_flagged E t o p :
  has_unmarshal t = None -> match t with TPtr (TPtr _) | TDeep => False | _ => True end ->
  o_opt o || (is_borsh E && o_copt o) = true ->
  dec_val E t (DStart o) p =
  (d_set_cur (o_order o) ;;;
   if o_opt o then
     b <- read_flag E ;;
     if b then dec_val E t (DWalk o (is_borsh E && o_copt o)) p else ret (zero_val t)
   else
     b <- read_cflag ;;
     if b then dec_val E t (DWalk o false) p else ret (zero_val t)).
Proof.
  intros Hu Ht Hf.
  destruct t; try contradiction; try (cbn [dec_val mode_opt]; rewrite Hf; reflexivity).
  - destruct t; try contradiction; cbn [dec_val mode_opt]; rewrite Hf; reflexivity.
  - cbn [has_unmarshal] in Hu. cbn [dec_val mode_opt]. rewrite Hf, Hu. reflexivity.
Qed.

(** One field, decoded by the general function. *)
Lemma dec_field_reads E t tg name sizes s v p :
  dec_ok E t -> ok_field E (ok E) t tg (s name) v -> sm_get sizes name = s name ->
  fits t p -> (E = Borsh -> borsh_field_unmarshaler t = None) ->
  reads E (fun _ => True) (dec_val E t (DStart (field_opt E tg name sizes)) p)
    (with_flags E tg v (wire E t (s name) (ft_order tg) v))
    (back_field E (back E) t tg (s name) p v).
Proof.
  intros Hd (Ho & Hfl & Hok & Hfit) Hsz Hp Hun.
  assert (Hp' : (match E, t with
                 | Borsh, TCodec c _ | Borsh, TPtr (TCodec c _) =>
                     match c_unmarshal c with Some _ => zero_val t | None => p end
                 | _, _ => p
                 end) = p).
  { destruct E; try reflexivity. specialize (Hun eq_refl).
    destruct t; try reflexivity.
    - destruct t; try reflexivity. cbn [borsh_field_unmarshaler] in Hun.
      destruct (c_unmarshal c); [discriminate|reflexivity].
    - cbn [borsh_field_unmarshaler] in Hun.
      destruct (c_unmarshal c); [discriminate|reflexivity]. }
  unfold back_field. rewrite Hp'. clear Hp'.
  assert (Hopt : field_opt E tg name sizes =
    mkOpt (ft_option tg) (is_borsh E && ft_coption tg) (s name) (ft_order tg)).
  { unfold field_opt. now rewrite Hsz. }
  rewrite Hopt. clear Hopt Hsz.
  assert (Hwalk : ok E t (s name) (ft_order tg) v -> forall f1 f2,
     reads E (at_order (ft_order tg))
       (dec_val E t (DWalk (mkOpt f1 f2 (s name) (ft_order tg)) false) p)
       (wire E t (s name) (ft_order tg) v) (back E t (s name) (ft_order tg) p v)).
  { intro H. now apply Hd. }
  assert (Hret : forall x : val, reads E (at_order (ft_order tg)) (ret x) [] x).
  { intro x. eapply reads_weaken; [|apply reads_ret]. intros c Hc HE.
    rewrite <- (Ho HE). exact Hc. }
  unfold flagged_field, with_flags in *.
  set (co := is_borsh E && ft_coption tg) in *.
  assert (Hco : co = true -> E = Borsh) by (unfold co; destruct E; easy).
  assert (Hco' : is_borsh E && co = co) by (unfold co; destruct (is_borsh E); reflexivity).
  clearbody co.
  destruct (ft_option tg || co) eqn:Efl.
  - destruct (Hfl eq_refl) as (Hu & Hpp & Hbare).
    rewrite dec_start_flagged; [|exact Hu|exact Hpp|cbn [o_opt o_copt]; now rewrite Hco'].
    cbn [o_opt o_copt o_order]. apply reads_set_cur. rewrite Hco'. cbn [andb] in *.
    destruct (ft_option tg) eqn:Eo; destruct co eqn:Ec; destruct (is_zero v) eqn:Ez;
      cbn [andb orb app] in *; try discriminate.
    + rewrite <- (app_nil_r (flag E false)).
      eapply reads_bind_keep; [apply keeps_flag|apply Hret].
    + destruct Hok as [?|Hok]; [discriminate|].
      eapply reads_bind_keep; [apply keeps_flag|].
      apply (dec_walk_pend E t (mkOpt true true (s name) (ft_order tg))); auto.
    + rewrite <- (app_nil_r (flag E false)).
      eapply reads_bind_keep; [apply keeps_flag|apply Hret].
    + destruct Hok as [?|Hok]; [discriminate|].
      eapply reads_bind_keep; [apply keeps_flag|]. now apply Hwalk.
    + rewrite <- (app_nil_r (cflag false)).
      eapply reads_bind_keep; [apply keeps_cflag|apply Hret].
    + destruct Hok as [?|Hok]; [discriminate|].
      eapply reads_bind_keep; [apply keeps_cflag|]. now apply Hwalk.
  - apply orb_false_iff in Efl. destruct Efl as [-> ->]. cbn [andb app] in *.
    destruct Hok as [?|Hok]; [discriminate|]. now apply dec_ok_start.
Qed.

(** A Borsh field with its own codec. *)
Lemma dec_field_codec t tg (s : sizes) name v m p :
  ok_field Borsh (ok Borsh) t tg (s name) v ->
  borsh_field_unmarshaler t = Some m ->
  reads Borsh (good_cur Borsh) m
    (with_flags Borsh tg v (wire Borsh t (s name) (ft_order tg) v))
    (back_field Borsh (back Borsh) t tg (s name) p v).
Proof.
  intros (Ho & Hfl & Hok & _) Hm. specialize (Ho eq_refl). rewrite Ho in *.
  assert (Hnf : flagged_field Borsh tg = false).
  { destruct (flagged_field Borsh tg) eqn:E; [|reflexivity].
    destruct (Hfl eq_refl) as (_ & _ & Hb). specialize (Hb eq_refl). exfalso.
    destruct t; try discriminate.
    - destruct t; try discriminate. cbn [bare borsh_field_unmarshaler] in *.
      destruct (c_unmarshal c); discriminate.
    - cbn [bare borsh_field_unmarshaler] in *. destruct (c_unmarshal c); discriminate. }
  unfold back_field. rewrite Hnf in *. cbn [andb] in *.
  destruct Hok as [?|Hok]; [discriminate|].
  unfold flagged_field in Hnf. apply orb_false_iff in Hnf. destruct Hnf as [Hn1 Hn2].
  unfold with_flags. rewrite Hn1, Hn2. cbn [andb app]. rewrite Ho.
  eapply (reads_weaken Borsh (at_order LE)); [intros c Hc; exact (Hc eq_refl)|].
  destruct t; try discriminate.
  - destruct t; try discriminate. cbn [borsh_field_unmarshaler] in Hm.
    destruct (c_unmarshal c) as [f|] eqn:Ef; [|discriminate]. inversion Hm; subst m; clear Hm.
    cbn [ok] in Hok. destruct Hok as (q & -> & Hok). cbn [wire back].
    destruct (ptr_marshal (TCodec c t)) as [fm|] eqn:Efm.
    + destruct Hok as (x & u & fu & -> & Hfu & (c' & Heq) & _ & Hr).
      inversion Heq; subst c' u. cbn [has_unmarshal] in *. rewrite Ef in *.
      inversion Hfu; subst fu.
      apply (reads_fmap _ _ (fun x => VPtr (Some x))).
      apply (codec_reads_back f t); auto. exact (fits_zero t).
    + destruct Hok as (_ & Hok). cbn [ptr_marshal] in Efm. unfold val_marshal in *.
      rewrite Efm in *.
      replace (if c_byval c then None else None) with (@None (val -> EM unit)) in *
        by (destruct (c_byval c); reflexivity).
      rewrite Ef in *. destruct Hok as [Hok Hr].
      apply (reads_fmap _ _ (fun x => VPtr (Some x))).
      assert (K : reads Borsh (at_order LE) (f (zero_val t))
        (wire Borsh t None LE match q with Some x => x | None => zero_val (TCodec c t) end)
        (codec_back f Borsh LE (zero_val t)
          (wire Borsh t None LE match q with Some x => x | None => zero_val (TCodec c t) end))).
      { apply (codec_reads_back f t); auto. exact (fits_zero t). }
      destruct q; exact K.
  - cbn [borsh_field_unmarshaler] in Hm.
    destruct (c_unmarshal c) as [f|] eqn:Ef; [|discriminate]. inversion Hm; subst m; clear Hm.
    cbn [ok wire back] in *. rewrite Ef in *. destruct (val_marshal c) as [fm|].
    + destruct Hok as [_ Hr]. apply (codec_reads_back f t); auto. exact (fits_zero t).
    + destruct Hok as [_ Hr]. apply (codec_reads_back f t); auto. exact (fits_zero t).
Qed.

Lemma dec_fields_reads E fs : forall vs ps sizes s seen,
  Forall (fun ht => dec_ok E (snd ht)) fs ->
  agrees sizes s ->
  ok_fields E (ok E) (back E) (wire E) fs vs s seen ->
  fits_fields fits fs ps ->
  reads E (good_cur E)
    (dec_fields E (fun t o v => dec_val E t (DStart o) v) fs ps sizes seen)
    (wire_fields E (wire E) fs vs s) (back_fields E (back E) fs ps vs s).
Proof.
  induction fs as [|[h t] fs IH]; intros vs ps sizes s seen Hf Ha Hok Hp.
  - destruct vs; [|destruct Hok]. destruct ps; [|destruct Hp]. apply reads_ret.
  - destruct vs as [|v vs]; [destruct Hok|]. destruct ps as [|p ps]; [destruct Hp|].
    inversion_clear Hf as [|? ? Ht Hfs]. cbn [snd fits_fields] in *. destruct Hp as [Hp Hps].
    cbn [dec_fields wire_fields ok_fields back_fields] in *. unfold live.
    set (tg := parse_field_tag (f_tag h)) in *.
    destruct (ft_skip tg) eqn:Esk; cbn [negb andb].
    { apply (reads_fmap _ _ (cons p)). now apply IH. }
    destruct Hok as [Hext Hok].
    assert (Hpan : negb (ft_ext tg) && seen = false).
    { destruct seen; [now rewrite Hext|apply andb_false_r]. }
    rewrite Hpan.
    destruct (f_exported h) eqn:Eex; cbn [negb].
    + destruct Hok as (Hfld & Hsz & Hne & Hrest).
      assert (Hbody : reads E (good_cur E)
        (match is_borsh E, borsh_field_unmarshaler t with
         | true, Some m =>
             x <- m ;; fmap (cons x) (dec_fields E (fun t o v => dec_val E t (DStart o) v) fs ps sizes (seen || ft_ext tg))
         | _, _ =>
             x <- map_err EWrap (dec_val E t (DStart (field_opt E tg (f_name h) sizes)) p) ;;
             if String.eqb (ft_sizeof tg) "" then
               fmap (cons x) (dec_fields E (fun t o v => dec_val E t (DStart o) v) fs ps sizes (seen || ft_ext tg))
             else match sizeof_val t x with
                  | None => panic
                  | Some n =>
                      fmap (cons x)
                        (dec_fields E (fun t o v => dec_val E t (DStart o) v) fs ps ((ft_sizeof tg, n) :: sizes) (seen || ft_ext tg))
                  end
         end)
        (with_flags E tg v (wire E t (s (f_name h)) (ft_order tg) v) ++
         wire_fields E (wire E) fs vs (bind_size tg v s))
        (back_field E (back E) t tg (s (f_name h)) p v ::
         back_fields E (back E) fs ps vs (bind_size tg v s))).
      { assert (Hcase : (E = Borsh /\ exists m, borsh_field_unmarshaler t = Some m) \/
                        (E = Borsh -> borsh_field_unmarshaler t = None)).
        { destruct E; [now right|now right|].
          destruct (borsh_field_unmarshaler t); [left|right]; eauto. }
        destruct Hcase as [(-> & m & Hm)|Hun].
        - cbn [is_borsh]. rewrite Hm.
          eapply reads_bind; [exact (dec_field_codec t tg s (f_name h) v m p Hfld Hm)|].
          apply (reads_fmap _ _ (cons _)). apply IH; auto.
          destruct Hsz as [Hsz|(Hint & _ & Hu & _)]; [now rewrite bind_size_none|exfalso].
          specialize (Hu eq_refl). destruct t; try discriminate. cbn in Hm, Hu.
          rewrite Hu in Hm. discriminate.
        - assert (Hgen : reads E (good_cur E)
             (x <- map_err EWrap (dec_val E t (DStart (field_opt E tg (f_name h) sizes)) p) ;;
             if String.eqb (ft_sizeof tg) "" then
               fmap (cons x) (dec_fields E (fun t o v => dec_val E t (DStart o) v) fs ps sizes (seen || ft_ext tg))
             else match sizeof_val t x with
                  | None => panic
                  | Some n =>
                      fmap (cons x)
                        (dec_fields E (fun t o v => dec_val E t (DStart o) v) fs ps ((ft_sizeof tg, n) :: sizes) (seen || ft_ext tg))
                  end)
            (with_flags E tg v (wire E t (s (f_name h)) (ft_order tg) v) ++
             wire_fields E (wire E) fs vs (bind_size tg v s))
            (back_field E (back E) t tg (s (f_name h)) p v ::
             back_fields E (back E) fs ps vs (bind_size tg v s))).
          { eapply reads_bind.
            - eapply reads_weaken; [intros c _; exact I|].
              apply reads_map_err. apply dec_field_reads; auto.
            - destruct Hsz as [Hsz|(Hint & Hnn & _ & z & -> & Hz & Hbk)].
              + rewrite Hsz. cbn [String.eqb]. apply (reads_fmap _ _ (cons _)).
                rewrite bind_size_none in * by easy. now apply IH.
              + destruct (String.eqb_spec (ft_sizeof tg) "") as [He|He].
                * apply (reads_fmap _ _ (cons _)).
                  rewrite bind_size_none in * by easy. now apply IH.
                * rewrite Hbk by exact Hp.
                  destruct Hfld as (_ & _ & _ & Hfit).
                  rewrite (sizeof_int_like t z) by easy.
                  apply (reads_fmap _ _ (cons _)). apply IH; auto.
                  intro n. rewrite bind_size_num by easy. cbn [sm_get].
                  destruct (String.eqb (ft_sizeof tg) n); [reflexivity|apply Ha]. }
          destruct E; cbn [is_borsh]; try exact Hgen. rewrite (Hun eq_refl). exact Hgen. }
      destruct (ft_ext tg) eqn:Eext.
      * apply reads_rest; [|exact Hbody]. intro Happ. apply app_eq_nil in Happ. now apply Hne.
      * exact Hbody.
    + destruct Hok as [_ Hok].
      assert (K : forall sn, ok_fields E (ok E) (back E) (wire E) fs vs s sn ->
        reads E (good_cur E)
        (fmap (cons p) (dec_fields E (fun t o v => dec_val E t (DStart o) v) fs ps sizes sn))
        (wire_fields E (wire E) fs vs s)
        (p :: back_fields E (back E) fs ps vs s)).
      { intros sn Hs. apply (reads_fmap _ _ (cons p)). now apply IH. }
      specialize (K _ Hok). destruct (ft_ext tg) eqn:Eext; [|exact K].
      (* an extension marker on an unexported field changes nothing *)
      intros pre post c Hc. destruct (K pre post c Hc) as (c' & E1 & G).
      exists c'. split; [|exact G].
      unfold bind at 1, d_rest, d_get, bind. cbn [d_data d_pos].
      rewrite slice_from_mid. cbn [ret].
      destruct (wire_fields E (wire E) fs vs s ++ post); exact E1.
Qed.

Lemma each_dec_reads E (f : val -> DM val) (g : val -> list Z) (h : val -> val -> val) :
  forall ps l, length l = length ps ->
  Forall (fun p => Forall (fun x => reads E (good_cur E) (f p) (g x) (h p x)) l) ps ->
  reads E (good_cur E) (each_dec f ps) (flat_map g l) (zip_with h ps l).
Proof.
  induction ps as [|p ps IH]; intros [|x l] Hlen H; try discriminate; [apply reads_ret|].
  inversion_clear H as [|? ? H1 H2]. cbn [each_dec flat_map zip_with].
  inversion_clear H1 as [|? ? Hx _].
  eapply reads_bind; [exact Hx|]. rewrite <- (app_nil_r (flat_map g l)).
  eapply reads_bind; [|apply reads_ret]. apply IH; [cbn in Hlen; lia|].
  eapply Forall_impl; [|exact H2]. intros q Hq. now inversion_clear Hq.
Qed.

(** Maps. *)
Lemma map_set_fresh kt m k v :
  Forall (fun e => key_eqb kt (fst e) k = false) m -> map_set kt m k v = m ++ [(k, v)].
Proof.
  induction 1 as [|[k' v'] m H _ IH]; [reflexivity|]. cbn [map_set fst] in *.
  now rewrite H, IH.
Qed.

Lemma dec_map_reads E kt deck decv (gk gv : val -> list Z) (hk hv : val -> val) :
  forall l acc,
  Forall (fun e => reads E (fun _ => True) deck (gk (fst e)) (hk (fst e)) /\
                   reads E (fun _ => True) decv (gv (snd e)) (hv (snd e))) l ->
  distinct kt (map fst acc ++ map (fun e => hk (fst e)) l) ->
  reads E (good_cur E) (dec_map kt (length l) deck decv acc)
    (flat_map (fun e => gk (fst e) ++ gv (snd e)) l)
    (acc ++ map (fun e => (hk (fst e), hv (snd e))) l).
Proof.
  induction l as [|e l IH]; intros acc H Hd; cbn [length dec_map flat_map map].
  - rewrite app_nil_r. apply reads_ret.
  - inversion_clear H as [|? ? [Hk Hv] Hl]. rewrite <- app_assoc.
    eapply reads_bind; [eapply reads_weaken; [intros; exact I|exact Hk]|].
    eapply reads_bind; [eapply reads_weaken; [intros; exact I|exact Hv]|].
    rewrite map_set_fresh.
    + replace (acc ++ (hk (fst e), hv (snd e)) :: map (fun e => (hk (fst e), hv (snd e))) l)
        with ((acc ++ [(hk (fst e), hv (snd e))]) ++ map (fun e => (hk (fst e), hv (snd e))) l)
        by (rewrite <- app_assoc; reflexivity).
      apply IH; [exact Hl|]. rewrite map_app, <- app_assoc. exact Hd.
    + clear -Hd. induction acc as [|a acc IH]; [constructor|].
      cbn [map app] in Hd. inversion_clear Hd as [|? ? H1 H2]. constructor; [|now apply IH].
      rewrite Forall_app in H1. destruct H1 as [_ H1]. inversion_clear H1. tauto.
Qed.

(** Sorting permutes. *)
From Coq Require Import Permutation.
Lemma sort_perm {A} (lt : A -> A -> bool) l : Permutation (sort lt l) l.
Proof.
  assert (Hp : forall a l, Permutation (put lt a l) (a :: l)).
  { clear. intros a l. induction l as [|y r IH]; cbn [put]; [reflexivity|].
    destruct (lt a y); [reflexivity|]. rewrite IH. apply perm_swap. }
  induction l as [|a l IH]; [reflexivity|]. cbn [sort fold_right]. fold (sort lt l).
  rewrite Hp, IH. reflexivity.
Qed.
Lemma distinct_perm kt l l' : Permutation l l' -> distinct kt l -> distinct kt l'.
Proof.
  unfold distinct. induction 1; intro Hx; auto.
  - inversion_clear Hx as [|? ? H1 H2]. constructor; [|auto].
    eapply Permutation_Forall; eauto.
  - inversion_clear Hx as [|? ? H1 H2]. inversion_clear H2 as [|? ? H3 H4].
    inversion_clear H1 as [|? ? H5 H6]. constructor; [|constructor; auto].
    constructor; [tauto|auto].
Qed.
Lemma entries_perm E kt m : Permutation (entries E kt m) m.
Proof. destruct E; try reflexivity. apply sort_perm. Qed.

(** Enum variants. *)
Lemma dec_variant_reads E (okf : ty -> val -> Prop) (wf : ty -> val -> list Z)
  (bf : ty -> val -> val -> val) :
  forall fs vs ps n,
  (forall h t v p, In (h, t) fs -> okf t v -> fits t p ->
     reads E (fun _ => True) (dec_val E t (DStart opt0) p) (wf t v) (bf t p v)) ->
  ok_nth (fun t _ _ v => okf t v) fs vs n ->
  fits_fields fits fs ps ->
  reads E (good_cur E) (dec_variant (fun t o v => dec_val E t (DStart o) v) fs ps n)
    (wire_nth (fun t _ _ v => wf t v) fs vs n)
    (back_nth (fun t _ _ p v => bf t p v) fs ps vs n).
Proof.
  induction fs as [|[h t] fs IH]; intros vs ps n Hall Hok Hp; [destruct Hok|].
  destruct vs as [|v vs]; [destruct Hok|]. destruct ps as [|p ps]; [destruct Hp|].
  cbn [fits_fields snd] in Hp. destruct Hp as [Hp Hps].
  destruct n as [|n]; cbn [ok_nth dec_variant wire_nth back_nth] in *.
  - destruct Hok as (Hex & Hok & _). rewrite Hex. cbn [negb].
    rewrite <- (app_nil_r (wf t v)). eapply reads_bind; [|apply reads_ret].
    eapply reads_weaken; [intros; exact I|]. apply (Hall h); auto. now left.
  - apply (reads_fmap _ _ (cons p)). apply IH; auto. intros. apply (Hall h0); auto. now right.
Qed.

Lemma zlen_flat_map_ge {A} (g : A -> list Z) l :
  Forall (fun x => g x <> []) l -> zlen l <= zlen (flat_map g l).
Proof.
  induction 1 as [|x l Hx _ IH]; [apply Z.le_refl|]. cbn [flat_map].
  rewrite zlen_cons, zlen_app. destruct (g x) as [|z r]; [easy|].
  rewrite zlen_cons. pose proof (zlen_nonneg r).
  unfold zlen in *. lia.
Qed.
Lemma zlen_flat_map_fixed o w zs : zlen (flat_map (fixed o (wbytes w)) zs) >= zlen zs.
Proof.
  induction zs as [|z zs IH]; [cbn; lia|]. cbn [flat_map].
  rewrite zlen_app, zlen_cons, fixed_zlen. destruct w; cbn [wbytes] in *; pose proof (zlen_nonneg zs); lia.
Qed.
Lemma nums_of w l : Forall (fun x => exists z, x = VNum z /\ 0 <= z < 2 ^ wbits w) l ->
  exists zs, l = map VNum zs /\ Forall (fun z => 0 <= z < 2 ^ wbits w) zs.
Proof.
  induction 1 as [|x l (z & -> & Hz) _ (zs & -> & IH)].
  - exists []. split; constructor.
  - exists (z :: zs). split; [reflexivity|now constructor].
Qed.

Theorem dec_wire E t : dec_ok E t.
Proof.
  induction t as [t IH] using ty_strong_ind. intros sz o v p Hok Hp Ho f1 f2.
  assert (Hgood : forall c, at_order o c -> good_cur E c).
  { intros c Hc HE. rewrite <- (Ho HE). exact Hc. }
  assert (Hkeep : forall A (m : DM A) bs x, keeps E m bs x -> reads E (at_order o) m bs x).
  { intros A m bs x H. eapply reads_weaken; [exact Hgood|]. now apply keeps_reads. }
  assert (Hel : forall u x p', (ty_size u < ty_size t)%nat -> ok E u None LE x -> fits u p' ->
     reads E (fun _ => True) (dec_val E u (DStart opt0) p') (wire E u None LE x)
       (back E u None LE p' x)).
  { intros u x p' Hlt Hx Hp'. apply dec_ok_start; auto. }
  destruct t; cbn [ok] in Hok; try contradiction.
  - destruct Hok as (b & ->). apply Hkeep. cbn [dec_val mode_opt o_order o_size].
    apply (keeps_fmap _ VBool). apply keeps_bool.
  - destruct Hok as (z & -> & Hz). apply Hkeep. cbn [dec_val mode_opt o_order o_size].
    apply (keeps_fmap _ VNum). now apply num_order_dec.
  - destruct Hok as (z & -> & Hz). apply Hkeep. cbn [dec_val mode_opt o_order o_size].
    apply (keeps_fmap _ VNum). now apply keeps_intw_fixed.
  - destruct Hok as (b & -> & Hb & Hn). apply Hkeep. cbn [dec_val mode_opt o_order o_size wire back].
    replace (VFloat (quiet f b)) with ((fun b => VFloat (f32_through64 f b)) (quiet f b))
      by (cbn beta; rewrite quiet_spec, quiet_idem; auto).
    apply (keeps_fmap _ (fun b => VFloat (f32_through64 f b))). apply keeps_read_float; [now apply quiet_range|].
    intro HE. rewrite quiet_notnan; auto.
  - destruct Hok as (s & -> & Hs & Hl). apply Hkeep. cbn [dec_val mode_opt o_order o_size].
    apply (keeps_fmap _ VStr). now apply keeps_read_str.
  - destruct Hok as (d & ->). apply Hkeep. cbn [dec_val mode_opt]. apply keeps_ret.
  - (* pointer *)
    destruct Hok as (q & -> & Hok). cbn [dec_val mode_opt].
    assert (Hd : fits t (deref t p)) by now apply fits_deref.
    assert (Hpt : pointee t p = deref t p) by reflexivity. rewrite Hpt. clear Hpt.
    assert (IHt : dec_ok E t) by (apply IH; cbn; lia).
    cbn [wire back]. apply (reads_fmap _ _ (fun x => VPtr (Some x))).
    destruct (ptr_marshal t) as [fm|] eqn:Efm.
    + destruct Hok as (x & u & fu & -> & Hfu & (c0 & ->) & _ & Hr). rewrite Hfu.
      cbn [has_unmarshal] in Hfu. cbn [dec_val mode_opt]. rewrite Hfu.
      apply (codec_reads_back fu u); auto.
    + destruct E.
      * destruct Hok as (x & -> & Hx). now apply IHt.
      * destruct Hok as (x & -> & Hx). now apply IHt.
      * destruct Hok as (-> & Hx). rewrite (Ho eq_refl).
        destruct q; now apply IHt.
  - (* array *)
    destruct Hok as (l & -> & Hl & Hall & Hbulk). cbn [dec_val mode_opt wire back].
    destruct Hp as (ps & -> & Hpl & Hps).
    destruct (uint_kind t) as [w|] eqn:Ek.
    + apply Hkeep. destruct (nums_of w l Hall) as (zs & -> & Hzs).
      apply (keeps_fmap _ (fun zs => VSeq (map VNum zs))).
      rewrite map_length in Hl. subst n.
      replace (flat_map _ (map VNum zs)) with (flat_map (fixed LE (wbytes w)) zs).
      * apply (keeps_read_uints E w zs Hzs). intros ->.
        specialize (Hbulk eq_refl). now rewrite zlen_map in Hbulk.
      * clear. induction zs as [|z zs IHz]; [reflexivity|]. cbn. now rewrite IHz.
    + apply (reads_fmap _ _ VSeq). eapply reads_weaken; [exact Hgood|].
      apply each_dec_reads; [congruence|].
      eapply Forall_impl; [|exact Hps]. intros q Hq.
      eapply Forall_impl; [|exact Hall]. cbn beta. intros x Hx.
      eapply reads_weaken; [intros; exact I|]. apply Hel; [cbn; lia|exact Hx|exact Hq].
  - (* slice *)
    destruct Hok as (ol & -> & Hsz & Hall & Hbulk & Hne). cbn [dec_val mode_opt wire back o_size].
    set (l := match ol with Some l => l | None => [] end) in *. clearbody l.
    pose proof (zlen_nonneg l) as Hnn.
    assert (Hpre : keeps E (match sz with Some n => ret n | None => read_count E end)
      (match sz with Some _ => [] | None => count E (zlen l) end) (zlen l)).
    { destruct sz as [n|]; [subst n; apply keeps_ret|]. apply keeps_read_count. lia. }
    eapply reads_bind_keep; [exact Hpre|]. clear Hpre.
    assert (Hmain : reads E (at_order o)
      (r <- d_remaining ;;
       if r <? zlen l then fail EUnexpectedEOF
       else match uint_kind t with
            | Some w => fmap (fun zs => VSlice (Some (map VNum zs))) (read_uints w (zlen l))
            | None => fmap (fun vs => VSlice (Some vs))
                        (read_rep (Z.to_nat (zlen l)) (dec_val E t (DStart opt0) (zero_val t)))
            end)
      (flat_map (fun x => match uint_kind t, x with
         | Some w, VNum z => fixed LE (wbytes w) z
         | _, _ => wire E t None LE x end) l)
      (VSlice (Some (match uint_kind t with
                     | Some _ => l
                     | None => map (back E t None LE (zero_val t)) l
                     end)))).
    { destruct (uint_kind t) as [w|] eqn:Ek.
      - destruct (nums_of w l Hall) as (zs & -> & Hzs).
        replace (flat_map _ (map VNum zs)) with (flat_map (fixed LE (wbytes w)) zs).
        2: { clear. induction zs as [|z zs IHz]; [reflexivity|]. cbn. now rewrite IHz. }
        rewrite zlen_map in *. apply reads_remaining.
        + pose proof (zlen_flat_map_fixed LE w zs). lia.
        + apply Hkeep. apply (keeps_fmap _ (fun zs => VSlice (Some (map VNum zs)))).
          apply keeps_read_uints; [exact Hzs|]. intros ->. now apply Hbulk.
      - apply reads_remaining; [apply zlen_flat_map_ge; now apply Hne|].
        apply (reads_fmap _ _ (fun vs => VSlice (Some vs))).
        eapply reads_weaken; [exact Hgood|].
        pose proof (reads_read_rep E (fun _ => True) (dec_val E t (DStart opt0) (zero_val t))
          (fun _ _ => I) (map (fun x => (wire E t None LE x, back E t None LE (zero_val t) x)) l)) as K.
        rewrite map_length, map_map in K. cbn [snd] in K.
        unfold zlen at 1. rewrite Nat2Z.id.
        replace (flat_map fst _) with (flat_map (wire E t None LE) l) in K.
        + apply K. rewrite Forall_map. eapply Forall_impl; [|exact Hall]. cbn [fst snd].
          intros x Hx. apply Hel; [cbn; lia|exact Hx|apply fits_zero].
        + clear. induction l as [|x l IHl]; [reflexivity|]. cbn. now rewrite IHl. }
    destruct (is_borsh E && (zlen l =? 0)) eqn:Ez.
    + destruct E; try discriminate. rewrite (zlen_0 l) by (cbn in Ez; lia).
      cbn [flat_map]. apply Hkeep, keeps_ret.
    + destruct E; try exact Hmain. destruct l; [discriminate|exact Hmain].
  - (* map *)
    destruct Hok as (om & -> & Hlen & Hall & _ & Hd & _). cbn [dec_val mode_opt wire].
    set (m := match om with Some m => m | None => [] end) in *.
    pose proof (zlen_nonneg m) as Hnn.
    eapply reads_bind_keep; [apply keeps_read_count; lia|].
    assert (Hbk : back E (TMap t1 t2) sz o p (VMap om) =
       if zlen m =? 0 then p
       else VMap (Some (map (fun e => (back E t1 None LE (zero_val t1) (fst e),
                                       back E t2 None LE (zero_val t2) (snd e)))
                         (entries E t1 m)))).
    { unfold m. destruct om as [[|e es]|]; reflexivity. }
    rewrite Hbk. clear Hbk. clearbody m.
    destruct (zlen m =? 0) eqn:Ez.
    + rewrite (zlen_0 m) by lia. replace (entries E t1 []) with (@nil (val * val))
        by (destruct E; reflexivity).
      apply Hkeep, keeps_ret.
    + apply (reads_fmap _ _ (fun es => VMap (Some es))).
      eapply reads_weaken; [exact Hgood|].
      pose proof (entries_perm E t1 m) as Hperm.
      assert (Hn : Z.to_nat (zlen m) = length (entries E t1 m)).
      { unfold zlen. rewrite Nat2Z.id. symmetry. now apply Permutation_length. }
      rewrite Hn.
      apply (dec_map_reads E t1 _ _ (wire E t1 None LE) (wire E t2 None LE)
               (back E t1 None LE (zero_val t1)) (back E t2 None LE (zero_val t2))
               (entries E t1 m) []).
      * apply Forall_forall. intros e He. rewrite Forall_forall in Hall.
        destruct (Hall e) as (Hk & Hv & _).
        { eapply Permutation_in; eauto. }
        split; apply Hel; auto using fits_zero; cbn; lia.
      * cbn [map app]. eapply distinct_perm; [|exact Hd].
        apply Permutation_map. now symmetry.
  - (* struct *)
    destruct Hok as (vs & -> & Hok). destruct Hp as (ps & -> & Hp).
    cbn [dec_val mode_opt wire back]. rewrite is_enum_spec.
    eapply reads_weaken; [exact Hgood|].
    destruct (enum_struct E fs) eqn:Een.
    + destruct Hok as (z & vs' & -> & Hz & Hex & Hok).
      assert (HE : E = Borsh) by (destruct E; try discriminate; reflexivity).
      change (z :: ?x) with ([z] ++ x).
      eapply reads_bind; [apply keeps_reads, keeps_read_byte|].
      destruct fs as [|[h t0] fs]; [destruct Hok|]. destruct ps as [|p0 ps]; [destruct Hp|].
      rewrite (Hex h t0 eq_refl). cbn [negb].
      cbn [fits_fields snd] in Hp. destruct Hp as [_ Hp].
      cbn [wire_nth ok_nth back_nth tl] in *.
      rewrite <- (app_nil_r (wire_nth _ _ _ _)).
      eapply reads_bind; [|apply reads_ret].
      match type of Hok with ok_nth ?f _ _ _ =>
        apply (dec_variant_reads E (fun t v => f t None LE v)) end; [|exact Hok|exact Hp].
      cbn beta. intros h' t v p' Hin Hv Hp'.
      assert (Hlt : (ty_size t < ty_size (TStruct ((h, t0) :: fs)))%nat).
      { apply (ty_size_field _ h'). now right. }
      assert (Hdir : payload t = true -> ok E t None LE v ->
        reads E (fun _ => True) (dec_val E t (DStart opt0) p') (wire E t None LE v)
          (back E t None LE p' v)).
      { intros _ Hx. now apply Hel. }
      destruct t; try (destruct Hv as [Hpl Hv]; try discriminate; exact (Hdir Hpl Hv)).
      * destruct t.
        all: destruct Hv as (x & -> & Hpl & Hv).
        all: try discriminate.
        all: try (exact (Hel _ _ p' Hlt Hv Hp')).
        destruct Hv as [Hv Hr]. unfold opt0 at 1. rewrite dec_start. apply reads_set_cur.
        cbn [dec_val mode_opt].
        assert (Hd : fits t (deref (TCodec c t) p')) by now apply (fits_deref (TCodec c t)).
        destruct (c_unmarshal c) as [f|].
        -- apply (reads_fmap _ _ (fun x => VPtr (Some x))).
           apply (codec_reads_back f t); auto.
        -- apply (reads_fmap _ _ (fun x => VPtr (Some x))).
           apply IH; [cbn in *; lia|exact Hv|exact Hd|auto].
      * destruct Hv as (Hpl & Hv & Hr). unfold opt0 at 1. rewrite dec_start. apply reads_set_cur.
        cbn [dec_val mode_opt]. destruct (c_unmarshal c) as [f|].
        -- apply (codec_reads_back f t); auto.
        -- apply IH; [cbn in *; lia|exact Hv|exact Hp'|auto].
    + apply (reads_fmap _ _ VStruct).
      apply dec_fields_reads; auto.
      * apply Forall_forall. intros [h t] Hin. apply IH. exact (ty_size_field _ _ _ Hin).
      * intro; reflexivity.
  - (* codec *)
    cbn [dec_val mode_opt back]. cbn [fits] in Hp.
    assert (IHt : dec_ok E t) by (apply IH; cbn; lia).
    cbn [wire]. destruct (val_marshal c) as [fm|]; destruct (c_unmarshal c) as [fu|]; try contradiction.
    + apply (codec_reads_back fu t); tauto.
    + apply (codec_reads_back fu t); tauto.
    + now apply IHt.
Qed.
