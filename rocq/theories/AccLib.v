(** Consequences of AccFacts.v: Decode, and the methods of the library's types. *)
From Verif Require Import Types DecPrim Enc Dec Spec NumFacts EncWire DecWire DecWithin Utf8 Builtin LibFacts RoundTrip AccSpec AccFacts.
Notation length := Datatypes.length.

Lemma own_exact {A} E P Q (m : DM A) R : exact P Q E m R -> forall c, P c -> forall b rest a, bytes_ok (b ++ rest) ->
  R b rest a <->
  (forall pre, exists c', m (mkD (pre ++ b ++ rest) (zlen pre) c E) = (Ok a, mkD (pre ++ b ++ rest) (zlen pre + zlen b) c' E)).
Proof.
  intros H c Hc b rest a Hb. split.
  - intros Hr pre. destruct (H pre (b ++ rest) c Hc Hb) as [_ H2].
    destruct (H2 b rest a eq_refl Hr) as (c' & E1 & _). eauto.
  - intros Hm. destruct (Hm []) as (c' & E1). destruct (H [] (b ++ rest) c Hc Hb) as [H1 _].
    destruct (H1 _ _ E1) as (b' & rest' & c'' & Hbr & Hs & _ & Hr).
    assert (Hl : zlen b = zlen b') by (injection Hs as Hp _; lia).
    assert (Hbb : b = b').
    { apply (f_equal (firstn (length b))) in Hbr. rewrite firstn_app, firstn_all, Nat.sub_diag, app_nil_r in Hbr.
      unfold zlen in Hl. replace (length b) with (length b') in Hbr by lia.
      rewrite firstn_app, firstn_all, Nat.sub_diag, app_nil_r in Hbr. exact Hbr. }
    subst b'. apply app_inv_head in Hbr. subst rest'. exact Hr.
Qed.

(** A method for which some relation is exact is regular, and accepts that. *)
Lemma regular_of E f : (forall o old, good_cur E (Some o) -> exists R, exact (at_order o) (good_cur E) E (f old) R) -> regular E f.
Proof.
  intros H o old pre inp v s Ho Hb Hm. destruct (H o old Ho) as (R & HR).
  destruct (HR pre inp (Some o) eq_refl Hb) as [H1 _].
  destruct (H1 v s Hm) as (b & rest & c & -> & -> & Hc & Hr).
  exists b, rest, c. repeat split; auto.
  intro pre'. now apply (own_exact E _ _ _ _ HR (Some o) eq_refl b rest v Hb).
Qed.
Lemma own_of E o f old R : exact (at_order o) (good_cur E) E (f old) R -> forall b rest v, bytes_ok (b ++ rest) ->
  own_in E o f old b rest v <-> R b rest v.
Proof.
  intros HR b rest v Hb. symmetry. exact (own_exact E _ _ _ _ HR (Some o) eq_refl b rest v Hb).
Qed.
Lemma exact_regular E f : regular E f -> forall o old, good_cur E (Some o) -> exact (at_order o) (good_cur E) E (f old) (own_in E o f old).
Proof.
  intros H o old Ho pre inp c -> Hb. split.
  - intros a s Hm. destruct (H o old pre inp a s Ho Hb Hm) as (b & rest & c & ? & ? & ? & ?). exists b, rest, c. auto.
  - intros b rest a -> Hr. destruct (Hr pre) as (c & Hm). exists c. split; [exact Hm|].
    destruct (H o old pre (b ++ rest) a _ Ho Hb Hm) as (b' & rest' & c' & _ & Hs & Hg & _).
    injection Hs as _ ->. exact Hg.
Qed.

(** * Decode *)
Lemma decode_exact E t old : tame E t ->
  exact (fun _ => True) (fun _ => True) E (decode t old) (accepts E t (Front false false) None LE old).
Proof.
  intros [Hm Hord]. unfold decode, decode_target. apply exact_get_enc.
  set (G := fun c => methods t <> [] -> good_cur E c).
  assert (Hall : walks E G t /\ nulls E G t).
  { apply (walks_all E G (methods t) (orders t)).
    - intros f Hf o x Ho.
      assert (Hne : methods t <> []) by (intro Hn; rewrite Hn in Hf; destruct Hf).
      eapply exact_weaken; [intros c Hc; exact Hc| |apply exact_regular; [|exact (Ho Hne)]].
      + intros c Hc _. exact Hc.
      + rewrite Forall_forall in Hm. now apply Hm.
    - intros HE Hne c Hc. now apply Hc.
    - intros o Ho Hne HE. specialize (Hord HE Hne). rewrite Forall_forall in Hord. now rewrite <- (Hord o Ho).
    - intros _ _. reflexivity.
    - apply incl_refl.
    - apply incl_refl. }
  destruct Hall as [Hw Hn].
  assert (HLE : G (Some LE)) by (intros _ _; reflexivity).
  pose proof (starts_of E G t Hw Hn opt0 old HLE) as H. cbn [opt0 o_opt o_copt o_size o_order] in H. rewrite andb_false_r in H.
  eapply exact_weaken; [intros c Hc; exact Hc|intros c _; exact I|exact H].
Qed.

Lemma accepts_exact E t old pre inp c : tame E t -> bytes_ok inp -> forall b rest v, inp = b ++ rest ->
  accepts E t (Front false false) None LE old b rest v <->
  exists c', decode t old (mkD (pre ++ inp) (zlen pre) c E) = (Ok v, mkD (pre ++ inp) (zlen pre + zlen b) c' E).
Proof.
  intros Ht Hb b rest v ->. destruct (decode_exact E t old Ht pre (b ++ rest) c I Hb) as [H1 H2]. split.
  - intro Ha. destruct (H2 b rest v eq_refl Ha) as (c' & E1 & _). eauto.
  - intros (c' & E1). destruct (H1 _ _ E1) as (b' & rest' & c'' & Hbr & Hs & _ & Ha).
    assert (Hl : zlen b = zlen b') by (injection Hs as Hp _; lia).
    assert (Hbb : b = b').
    { apply (f_equal (firstn (length b))) in Hbr. rewrite firstn_app, firstn_all, Nat.sub_diag, app_nil_r in Hbr.
      unfold zlen in Hl. replace (length b) with (length b') in Hbr by lia.
      rewrite firstn_app, firstn_all, Nat.sub_diag, app_nil_r in Hbr. exact Hbr. }
    subst b'. apply app_inv_head in Hbr. subst rest'. exact Ha.
Qed.
Lemma decode_only E t old pre inp c v s : tame E t -> bytes_ok inp ->
  decode t old (mkD (pre ++ inp) (zlen pre) c E) = (Ok v, s) ->
  exists b rest c', inp = b ++ rest /\ s = mkD (pre ++ inp) (zlen pre + zlen b) c' E /\
    accepts E t (Front false false) None LE old b rest v.
Proof.
  intros Ht Hb Hm. destruct (decode_exact E t old Ht pre inp c I Hb) as [H1 _].
  destruct (H1 v s Hm) as (b & rest & c' & ? & ? & _ & ?). exists b, rest, c'. auto.
Qed.
Lemma accepts_unique E t old b rest v b' rest' v' : tame E t -> bytes_ok (b ++ rest) -> b ++ rest = b' ++ rest' ->
  accepts E t (Front false false) None LE old b rest v -> accepts E t (Front false false) None LE old b' rest' v' ->
  b = b' /\ v = v'.
Proof.
  intros Ht Hb Hbr H1 H2.
  apply (accepts_exact E t old [] _ None Ht Hb b rest v eq_refl) in H1.
  apply (accepts_exact E t old [] _ None Ht Hb b' rest' v' Hbr) in H2.
  destruct H1 as (c1 & E1), H2 as (c2 & E2). rewrite E1 in E2. injection E2 as -> Hl _.
  split; [|reflexivity].
  apply (f_equal (firstn (length b))) in Hbr. rewrite firstn_app, firstn_all, Nat.sub_diag, app_nil_r in Hbr.
  unfold zlen in Hl. replace (length b) with (length b') in Hbr by lia.
  rewrite firstn_app, firstn_all, Nat.sub_diag, app_nil_r in Hbr. exact Hbr.
Qed.
Lemma wire_accepted E t v old rest : tame E t -> ok E t None LE v -> fits t old -> bytes_ok (wire E t None LE v ++ rest) ->
  accepts E t (Front false false) None LE old (wire E t None LE v) rest (back E t None LE old v).
Proof.
  intros Ht Hok Hf Hb. apply (accepts_exact E t old [] _ None Ht Hb _ rest _ eq_refl).
  apply (decode_run E t v old [] rest None Hok Hf).
Qed.

(** * The library's types *)
Lemma exact_ext {A} P Q E (m m' : DM A) R : (forall s, m s = m' s) -> exact P Q E m R -> exact P Q E m' R.
Proof. intros Hs H pre inp c. rewrite <- Hs. apply H. Qed.

Lemma exact_varint E P : exact P P E read_varint64 (image unzz uvarint64).
Proof.
  eapply (exact_ext _ _ _ (fmap unzz read_uvarint64)); [|apply exact_fmap, exact_uvarint].
  intro s. unfold read_varint64, read_uvarint64, fmap, bind, varint.
  destruct (d_rest s) as [[buf|e| | |] s1]; try reflexivity.
  destruct (uvarint buf) as [u n]. destruct (n <=? 0); [reflexivity|].
  unfold d_get, d_set_pos, ret, unzz. rewrite <- Z.negb_odd, Z.shiftr_div_pow2 by lia. change (2 ^ 1) with 2.
  destruct (Z.odd u); reflexivity.
Qed.

Lemma low_swrap k z : 0 < k -> swrap k z = low k z.
Proof.
  intro Hk. unfold swrap, low.
  assert (Hp : 2 ^ k = 2 * 2 ^ (k - 1)) by (rewrite <- Z.pow_succ_r by lia; f_equal; lia).
  assert (H0 : 0 < 2 ^ (k - 1)) by (apply Z.pow_pos_nonneg; lia).
  set (h := 2 ^ (k - 1)) in *. rewrite Hp. clearbody h.
  pose proof (Z.mod_pos_bound z (2 * h) ltac:(lia)) as Hm.
  pose proof (Z.div_mod z (2 * h) ltac:(lia)) as Hd.
  set (q := z / (2 * h)) in *. set (m := z mod (2 * h)) in *. clearbody q m. subst z.
  destruct (m <? h) eqn:E1.
  - replace (2 * h * q + m + h) with (m + h + q * (2 * h)) by ring. rewrite Z.mod_add, Z.mod_small by lia. lia.
  - replace (2 * h * q + m + h) with (m - h + (q + 1) * (2 * h)) by ring. rewrite Z.mod_add, Z.mod_small by lia. lia.
Qed.

Lemma exact_counted E P : exact P P E read_byte_slice (counted E).
Proof. apply exact_byte_slice. Qed.

(** Fixed width, from the facts about what is read. *)
Lemma exact_fixed {A} E P (m : DM A) n o (g : Z -> A) :
  (forall z, 0 <= z < 256 ^ Z.of_nat n -> keeps E m (fixed o n z) (g z)) ->
  (forall s a s', m s = (Ok a, s') -> Z.of_nat n <= remaining_of s) ->
  exact P P E m (image g (unsigned n o)).
Proof.
  intros Hk Hlen pre inp c Hc Hb. split.
  - intros a s Hm. pose proof (Hlen _ _ _ Hm) as Hr. open_rem. cbn [d_data d_pos] in Hr. rewrite zlen_app in Hr.
    set (b := firstn n inp). assert (Hln : length b = n) by (unfold b; rewrite firstn_length; unfold zlen in Hr; lia).
    assert (Hinp : inp = b ++ skipn n inp) by (symmetry; apply firstn_skipn).
    assert (Hbb : bytes_ok b) by (rewrite Hinp in Hb; apply bytes_ok_app in Hb; tauto).
    assert (Hf : b = fixed o n (get_uint o b)) by (rewrite <- Hln; symmetry; now apply fixed_get).
    assert (Hz : 0 <= get_uint o b < 256 ^ Z.of_nat n) by (rewrite <- Hln; now apply get_uint_range).
    pose proof (Hk _ Hz pre (skipn n inp) c) as K. rewrite <- Hf, <- Hinp, Hm in K.
    exists b, (skipn n inp), c. split; [exact Hinp|]. split; [congruence|]. split; [exact Hc|].
    exists (get_uint o b). split; [congruence|]. split; [exact Hz|exact Hf].
  - intros b rest a -> (z & -> & Hz & ->). exists c. split; [now apply Hk|exact Hc].
Qed.

Lemma exact_u128 E P o : exact P P E (read_uint128 o) (image (fun z => (z mod 2 ^ 64, z / 2 ^ 64)) (unsigned 16 o)).
Proof.
  apply exact_fixed.
  - intros z Hz. change (256 ^ Z.of_nat 16) with (2 ^ 128) in Hz.
    rewrite (Z.div_mod z (2 ^ 64)) at 1 by lia. rewrite Z.add_comm. apply keeps_u128.
    + apply Z.mod_pos_bound. lia.
    + split; [apply Z.div_pos; lia|]. apply Z.div_lt_upper_bound; lia.
  - intros s a s'. unfold read_uint128, bind, d_remaining. destruct (remaining_of s <? 16) eqn:El; [discriminate|]. intros _. lia.
Qed.

Lemma image_image {A B C} (f : B -> C) (g : A -> B) (R : rel A) b rest y : image f (image g R) b rest y <-> image (fun x => f (g x)) R b rest y.
Proof.
  unfold image. split.
  - intros (x & -> & z & -> & H). eauto.
  - intros (z & -> & H). eauto.
Qed.

Lemma at_good {A} E o (m : DM A) R : good_cur E (Some o) -> exact (at_order o) (at_order o) E m R -> exact (at_order o) (good_cur E) E m R.
Proof.
  intros Ho H. apply (exact_weaken E (at_order o) (at_order o) (at_order o) (good_cur E)); [intros c Hc; exact Hc|intros c Hc; unfold at_order in Hc; rewrite Hc; exact Ho|exact H].
Qed.

Lemma exact_u128_method E fl o e x y : good_cur E (Some o) ->
  exact (at_order o) (good_cur E) E (u128_unmarshal fl (VStruct [x; y; VIface e]))
    (image (fun z => VStruct [VNum (z mod 2 ^ 64); VNum (z / 2 ^ 64); VIface None]) (unsigned 16 o)).
Proof.
  intros Ho. cbn [u128_unmarshal].
  apply at_good; [exact Ho|].
  assert (H : exact (at_order o) (at_order o) E
    (p <- (if fl then emsg (read_uint128 o) else read_uint128 o) ;; ret (u128_val (fst p) (snd p) None))
    (image (fun z => VStruct [VNum (z mod 2 ^ 64); VNum (z / 2 ^ 64); VIface None]) (unsigned 16 o))).
  { eapply exact_iff; [|apply (exact_fmap _ _ _ (fun p => u128_val (fst p) (snd p) None))].
    2: { instantiate (1 := image (fun z => (z mod 2 ^ 64, z / 2 ^ 64)) (unsigned 16 o)).
         destruct fl; [apply exact_map_err|]; apply exact_u128. }
    intros b rest v _. rewrite image_image. reflexivity. }
  intros pre inp c Hc. unfold at_order in Hc. subst c. exact (H pre inp (Some o) eq_refl).
Qed.

Lemma library_exact E : Forall (fun tr => match fst tr with
    | TCodec c u => exists f, c_unmarshal c = Some f /\ regular E f /\
        forall o old, good_cur E (Some o) -> fits u old -> exact (at_order o) (good_cur E) E (f old) (snd tr E o old)
    | _ => False
    end) library.
Proof.
  assert (Hsimple : forall u t (R : encoding -> order -> val -> rel val), 
    (forall o old, good_cur E (Some o) -> exact (at_order o) (at_order o) E u (R E o old)) ->
    exists f, Some (fun _ : val => u) = Some f /\ regular E f /\
        forall o old, good_cur E (Some o) -> fits t old -> exact (at_order o) (good_cur E) E (f old) (R E o old)).
  { intros u t R H. eexists. split; [reflexivity|]. split.
    - apply regular_of. intros o old Ho. exists (R E o old). apply at_good; auto.
    - intros o old Ho _. apply at_good; auto. }
  assert (Hu128 : forall fl, exists f, Some (u128_unmarshal fl) = Some f /\ regular E f /\
    forall o old, good_cur E (Some o) -> fits (TStruct u128_fields) old -> exact (at_order o) (good_cur E) E (f old)
      (image (fun z => VStruct [VNum (z mod 2 ^ 64); VNum (z / 2 ^ 64); VIface None]) (unsigned 16 o))).
  { intro fl. eexists. split; [reflexivity|]. split.
    - apply regular_of. intros o old Ho.
      assert (Hno : (forall x y e, old <> VStruct [x; y; VIface e]) -> exact (at_order o) (good_cur E) E (u128_unmarshal fl old) nothing).
      { intro Hn. destruct old as [| | | | | | | |vs| |]; try (apply exact_never; intros; discriminate).
        destruct vs as [|a [|b [|[| | | | | | | | |e|] [|? ?]]]]; try (apply exact_never; intros; discriminate).
        exfalso. now apply (Hn a b e). }
      destruct old as [| | | | | | | |vs| |]; try (eexists; apply Hno; intros; discriminate).
      destruct vs as [|a [|b [|[| | | | | | | | |e|] [|? ?]]]]; try (eexists; apply Hno; intros; discriminate).
      eexists. now apply exact_u128_method.
    - intros o old Ho Hf. cbn [fits u128_fields] in Hf. destruct Hf as (vs & -> & Hf).
      destruct vs as [|a [|b [|c [|? ?]]]]; cbn [fits_fields u128_fields snd] in Hf; try tauto.
      destruct Hf as (_ & _ & (d & ->) & _). now apply exact_u128_method. }
  assert (Hempty : exists f, Some (fun v : val => ret v : DM val) = Some f /\ regular E f /\
    forall o old, good_cur E (Some o) -> fits (TStruct []) old -> exact (at_order o) (good_cur E) E (f old) (yields old)).
  { eexists. split; [reflexivity|]. split.
    - apply regular_of. intros o old Ho. eexists. apply at_good; [exact Ho|]. apply exact_ret.
    - intros o old Ho _. apply at_good; [exact Ho|]. apply exact_ret. }
  unfold library. repeat (apply Forall_cons; [cbn [fst snd]|]); [..|apply Forall_nil].
  - apply (Hsimple _ _ (fun E _ _ => image (fun s => VStr (safe_utf8 s)) (counted E))). intros o old Ho.
    eapply exact_iff; [intros b rest v _; apply image_image|]. apply exact_fmap. unfold safe_read_utf8_string. apply exact_fmap, exact_counted.
  - apply (Hsimple _ _ (fun _ _ _ => image VBool truth)). intros. apply exact_fmap, exact_bool.
  - apply (Hsimple _ _ (fun E _ _ => image (fun s => VSlice (Some (map VNum s))) (counted E))). intros.
    apply exact_fmap, exact_map_err, exact_counted.
  - apply (Hsimple _ _ (fun _ _ _ => image (fun u => VNum (low 16 (unzz u))) uvarint64)). intros.
    eapply exact_iff; [|apply exact_fmap, exact_map_err, exact_fmap, exact_varint].
    intros b rest v _. rewrite !image_image. unfold image. setoid_rewrite (low_swrap 16); [reflexivity|lia..].
  - apply (Hsimple _ _ (fun _ _ _ => image (fun u => VNum (low 32 (unzz u))) uvarint64)). intros.
    eapply exact_iff; [|apply exact_fmap, exact_fmap, exact_varint].
    intros b rest v _. rewrite !image_image. unfold image. setoid_rewrite (low_swrap 32); [reflexivity|lia..].
  - apply (Hsimple _ _ (fun _ _ _ => image (fun u => VNum (u mod 2 ^ 16)) uvarint64)). intros.
    eapply exact_iff; [|apply exact_fmap, exact_map_err, exact_fmap, exact_uvarint].
    intros b rest v _. rewrite !image_image. reflexivity.
  - apply (Hsimple _ _ (fun _ _ _ => image (fun u => VNum (u mod 2 ^ 32)) uvarint64)). intros.
    eapply exact_iff; [|apply exact_fmap, exact_map_err, exact_uvarint].
    intros b rest v _. reflexivity.
  - apply (Hsimple _ _ (fun E o _ => image VFloat (float E F64 o))). intros. apply exact_cur_order, exact_fmap, exact_read_float.
  - apply (Hsimple _ _ (fun _ o _ => image VNum (signed W64 o))). intros. apply exact_cur_order, exact_fmap, exact_intw.
  - apply (Hsimple _ _ (fun _ o _ => image VNum (unsigned 8 o))). intros. apply exact_cur_order, exact_fmap. apply (exact_uintw E _ W64).
  - apply Hu128.
  - apply Hu128.
  - apply Hu128.
  - apply Hempty.
Qed.
