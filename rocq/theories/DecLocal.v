(** What a successful read depends on: a program logic for C06, C07 and C52. *)
From Verif Require Import Types DecPrim Enc Dec Utf8 Builtin Spec NumFacts TyInd EncFacts DecWire DecEq DecWithin.

(** [local b m]: if [m] succeeds it has consumed some bytes [bs], and wherever
    these bytes are put,
    - [m] does the same if at least as many bytes follow as did here (if
      [b = true]: whatever follows);
    - if fewer bytes follow, [m] does the same or fails with an error;
    - if some of the bytes [bs] are missing, [m] fails with an error. *)
Definition same {A} (m : DM A) E c bs post x c' : Prop := forall pre,
  m (mkD (pre ++ bs ++ post) (zlen pre) c E) =
  (Ok x, mkD (pre ++ bs ++ post) (zlen pre + zlen bs) c' E).
Definition fails {A} (m : DM A) (s : dst) : Prop := exists e s', m s = (Err e, s').

Definition local {A} (b : bool) (m : DM A) : Prop :=
  forall E c pre rest x s', m (mkD (pre ++ rest) (zlen pre) c E) = (Ok x, s') ->
  exists bs post c',
    rest = bs ++ post /\
    s' = mkD (pre ++ rest) (zlen pre + zlen bs) c' E /\
    (forall post', b = true \/ zlen post <= zlen post' -> same m E c bs post' x c') /\
    (forall pre' post',
       m (mkD (pre' ++ bs ++ post') (zlen pre') c E) =
         (Ok x, mkD (pre' ++ bs ++ post') (zlen pre' + zlen bs) c' E) \/
       fails m (mkD (pre' ++ bs ++ post') (zlen pre') c E)) /\
    (forall p q, bs = p ++ q -> q <> [] -> forall pre',
       fails m (mkD (pre' ++ p) (zlen pre') c E)).

Lemma local_ext_pos {A} b (m m' : DM A) : (forall s, 0 <= d_pos s -> m s = m' s) -> local b m -> local b m'.
Proof.
  intros H Hm E c pre rest x s' Hr. rewrite <- H in Hr by apply zlen_nonneg.
  destruct (Hm E c pre rest x s' Hr) as (bs & post & c' & H1 & H2 & H3 & H4 & H5).
  exists bs, post, c'. repeat split; auto.
  - intros post' Hp pre'. rewrite <- H by apply zlen_nonneg. now apply H3.
  - intros pre' post'. unfold fails. rewrite <- H by apply zlen_nonneg. apply H4.
  - intros p q Hpq Hq pre'. unfold fails. rewrite <- H by apply zlen_nonneg. eapply H5; eauto.
Qed.
Lemma local_ext {A} b (m m' : DM A) : (forall s, m s = m' s) -> local b m -> local b m'.
Proof. intro H. apply local_ext_pos. auto. Qed.

(** An action without reading. *)
Lemma local_const {A} b (m : DM A) (f : encoding -> option order -> A) (g : encoding -> option order -> option order) :
  (forall d p c E, m (mkD d p c E) = (Ok (f E c), mkD d p (g E c) E)) -> local b m.
Proof.
  intros H E c pre rest x s' Hr. rewrite H in Hr. injection Hr as <- <-.
  exists [], rest, (g E c). repeat split.
  - cbn. now rewrite Z.add_0_r.
  - intros post' _ pre'. rewrite H. cbn. now rewrite Z.add_0_r.
  - intros pre' post'. left. rewrite H. cbn. now rewrite Z.add_0_r.
  - intros p q Hpq Hq. destruct p, q; try discriminate. easy.
Qed.
Lemma local_ret {A} b (a : A) : local b (ret a).
Proof. apply (local_const b _ (fun _ _ => a) (fun _ c => c)). reflexivity. Qed.
Lemma local_get_enc b : local b d_get_enc.
Proof. apply (local_const b _ (fun E _ => E) (fun _ c => c)). reflexivity. Qed.
Lemma local_get_cur b : local b d_get_cur.
Proof. apply (local_const b _ (fun _ c => c) (fun _ c => c)). reflexivity. Qed.
Lemma local_set_cur b o : local b (d_set_cur o).
Proof. apply (local_const b _ (fun _ _ => tt) (fun _ _ => Some o)). reflexivity. Qed.

(** An action that never succeeds. *)
Lemma local_never {A} b (m : DM A) : (forall s x s', m s <> (Ok x, s')) -> local b m.
Proof. intros H E c pre rest x s' Hr. now apply H in Hr. Qed.
Lemma local_fail {A} b e : local b (@fail dst A e).
Proof. apply local_never. easy. Qed.
Lemma local_panic {A} b : local b (@panic dst A).
Proof. apply local_never. easy. Qed.
Lemma local_stuck {A} b : local b (@stuck dst A).
Proof. apply local_never. easy. Qed.
Lemma local_deep {A} b : local b (@deep dst A).
Proof. apply local_never. easy. Qed.

Lemma app_split {A} (b1 b2 p q : list A) : b1 ++ b2 = p ++ q ->
  (exists r, b1 = p ++ r /\ r <> []) \/ (exists p2, p = b1 ++ p2 /\ b2 = p2 ++ q).
Proof.
  revert p. induction b1 as [|a b1 IH]; intros p H; cbn in H.
  - right. exists p. now split.
  - destruct p as [|a' p].
    + left. exists (a :: b1). now split.
    + injection H as <- H. destruct (IH p H) as [(r & -> & Hr)|(p2 & -> & H2)].
      * left. exists r. now split.
      * right. exists p2. now split.
Qed.

Lemma local_bind {A B} b (m : DM A) (k : A -> DM B) :
  local b m -> (forall a, local b (k a)) -> local b (bind m k).
Proof.
  intros Hm Hk E c pre rest y s2 Hr. unfold bind in Hr.
  destruct (m (mkD (pre ++ rest) (zlen pre) c E)) as [r s1] eqn:Em.
  destruct r as [a|e| | |]; try discriminate.
  destruct (Hm E c pre rest a s1 Em) as (b1 & p1 & c1 & -> & -> & A1 & A2 & A3).
  rewrite app_assoc, <- zlen_app in Hr.
  destruct (Hk a E c1 (pre ++ b1) p1 y s2 Hr) as (b2 & p2 & c2 & -> & -> & B1 & B2 & B3).
  assert (Hz : forall p, zlen p + zlen (b1 ++ b2) = zlen (p ++ b1) + zlen b2)
    by (intro; rewrite !zlen_app; lia).
  exists (b1 ++ b2), p2, c2. repeat split.
  - now rewrite app_assoc.
  - rewrite Hz. now rewrite <- !app_assoc.
  - intros post' Hp pre'. unfold bind. rewrite <- app_assoc, (A1 (b2 ++ post')).
    + rewrite app_assoc, <- zlen_app, (B1 post' Hp). rewrite Hz, <- !app_assoc. reflexivity.
    + destruct Hp as [Hp|Hp]; [now left|right]. rewrite !zlen_app. lia.
  - intros pre' post'. unfold fails, bind. rewrite <- app_assoc.
    destruct (A2 pre' (b2 ++ post')) as [E1|(e & s' & E1)]; rewrite E1; [|right; eauto].
    rewrite app_assoc, <- zlen_app, Hz.
    destruct (B2 (pre' ++ b1) post') as [E2|(e & s' & E2)]; rewrite E2; [left|right; eauto].
    now rewrite <- !app_assoc.
  - intros p q Hpq Hq pre'. unfold fails, bind.
    destruct (app_split _ _ _ _ Hpq) as [(r & -> & Hr')|(p2' & -> & ->)].
    + destruct (A3 p r eq_refl Hr' pre') as (e & s' & E1). rewrite E1. eauto.
    + destruct (A2 pre' p2') as [E1|(e & s' & E1)]; rewrite E1; [|eauto].
      rewrite app_assoc, <- zlen_app.
      destruct (B3 p2' q eq_refl Hq (pre' ++ b1)) as (e & s' & E2). rewrite E2. eauto.
Qed.
Lemma local_fmap {A B} b (f : A -> B) m : local b m -> local b (fmap f m).
Proof. intro H. apply local_bind; [exact H|]. intro. apply local_ret. Qed.
Lemma local_map_err {A} b f (m : DM A) : local b m -> local b (map_err f m).
Proof.
  intros Hm E c pre rest x s' Hr. unfold map_err in Hr.
  destruct (m _) as [[a|e| | |] s1] eqn:Em; try discriminate. injection Hr as -> ->.
  destruct (Hm E c pre rest x s' Em) as (bs & post & c' & H1 & H2 & H3 & H4 & H5).
  exists bs, post, c'. repeat split; auto.
  - intros post' Hp pre'. unfold map_err. now rewrite (H3 post' Hp).
  - intros pre' post'. unfold fails, map_err.
    destruct (H4 pre' post') as [E1|(e & s'' & E1)]; rewrite E1; eauto.
  - intros p q Hpq Hq pre'. unfold fails, map_err.
    destruct (H5 p q Hpq Hq pre') as (e & s'' & E1); rewrite E1; eauto.
Qed.

Create HintDb local.
#[global] Hint Resolve local_ret local_fail local_panic local_stuck local_deep
  local_get_enc local_get_cur local_set_cur : local.

Ltac local :=
  repeat first
    [ solve [auto with local]
    | apply local_bind; [|intro]
    | apply local_fmap
    | apply local_map_err
    | match goal with |- local _ (match ?x with _ => _ end) => destruct x end
    | match goal with |- local _ (if ?x then _ else _) => destruct x end ].

(** dec.data[pos:pos+n] behind a length check. *)
Definition take_or (e : err) (n : Z) : DM (list Z) :=
  r <- d_remaining ;; if r <? n then fail e else d_take n.

Lemma take_or_run e n pre rest c E :
  take_or e n (mkD (pre ++ rest) (zlen pre) c E) =
  if zlen rest <? n then (Err e, mkD (pre ++ rest) (zlen pre) c E)
  else if 0 <=? n then
    (Ok (firstn (Z.to_nat n) rest), mkD (pre ++ rest) (zlen pre + n) c E)
  else (Panic, mkD (pre ++ rest) (zlen pre) c E).
Proof.
  (unfold take_or, bind at 1, d_remaining; open_rem). cbn [d_data d_pos].
  rewrite zlen_app. replace (zlen pre + zlen rest - zlen pre) with (zlen rest) by lia.
  destruct (zlen rest <? n) eqn:E1; [reflexivity|]. pose proof (zlen_nonneg pre).
  unfold d_take, d_get, bind. cbn [d_data d_pos].
  assert (Hs : slice_n (pre ++ rest) (zlen pre) n =
    if 0 <=? n then Some (firstn (Z.to_nat n) rest) else None).
  { unfold slice_n. rewrite zlen_app. destruct (0 <=? n) eqn:E2.
    - replace ((0 <=? zlen pre) && true && (zlen pre + n <=? zlen pre + zlen rest)) with true by lia.
      replace (Z.to_nat (zlen pre)) with (length pre) by (unfold zlen; lia).
      now rewrite skipn_app, skipn_all, Nat.sub_diag.
    - now destruct (0 <=? zlen pre). }
  rewrite Hs. now destruct (0 <=? n).
Qed.

Lemma local_take_or b e n : local b (take_or e n).
Proof.
  intros E c pre rest x s' Hr. rewrite take_or_run in Hr.
  destruct (zlen rest <? n) eqn:E1; [discriminate|]. destruct (0 <=? n) eqn:E2; [|discriminate].
  injection Hr as <- <-.
  assert (L : zlen (firstn (Z.to_nat n) rest) = n).
  { unfold zlen in *. rewrite firstn_length. lia. }
  exists (firstn (Z.to_nat n) rest), (skipn (Z.to_nat n) rest), c. rewrite L.
  assert (Hsame : forall post' pre',
    take_or e n (mkD (pre' ++ firstn (Z.to_nat n) rest ++ post') (zlen pre') c E) =
    (Ok (firstn (Z.to_nat n) rest), mkD (pre' ++ firstn (Z.to_nat n) rest ++ post') (zlen pre' + n) c E)).
  { intros post' pre'. rewrite take_or_run, zlen_app, L. pose proof (zlen_nonneg post').
    replace (n + zlen post' <? n) with false by lia. rewrite E2.
    rewrite firstn_app. replace (Z.to_nat n - length (firstn (Z.to_nat n) rest))%nat with 0%nat
      by (unfold zlen in L; lia).
    cbn [firstn]. now rewrite app_nil_r, firstn_firstn, Nat.min_id. }
  repeat split.
  - now rewrite firstn_skipn.
  - intros post' _ pre'. rewrite L. apply Hsame.
  - intros pre' post'. left. apply Hsame.
  - intros p q Hpq Hq pre'. unfold fails. rewrite take_or_run.
    assert (zlen p < n).
    { rewrite <- L, Hpq, zlen_app. destruct q; [easy|]. rewrite zlen_cons.
      pose proof (zlen_nonneg q). lia. }
    replace (zlen p <? n) with true by lia. eauto.
Qed.

(** The usual shape of a primitive. *)
Lemma local_guard {A} b e n (k : list Z -> DM A) : (forall a, local b (k a)) ->
  local b (r <- d_remaining ;; if r <? n then fail e else (bs <- d_take n ;; k bs)).
Proof.
  intro H. apply (local_ext b (bind (take_or e n) k)).
  - intro s. unfold take_or, bind, d_remaining. destruct (remaining_of s <? n); reflexivity.
  - apply local_bind; [apply local_take_or|exact H].
Qed.
Lemma local_guard_get b e n :
  local b (s <- d_get ;; if zlen (d_data s) <? d_pos s + n then fail e else d_take n).
Proof.
  apply (local_ext_pos b (take_or e n)); [|apply local_take_or].
  intros s Hs. (unfold take_or, bind, d_remaining, d_get; open_rem).
  replace (zlen (d_data s) <? d_pos s + n) with (zlen (d_data s) - d_pos s <? n) by lia.
  reflexivity.
Qed.

(** [eats n m]: success moves the position by [n] or more. *)
Definition eats {A} (n : Z) (m : DM A) : Prop := forall s x s',
  inside s -> m s = (Ok x, s') -> d_pos s + n <= d_pos s'.

Lemma local_remaining {A} b e n (m : DM A) : local b m -> (b = true -> eats n m) ->
  local b (r <- d_remaining ;; if r <? n then fail e else m).
Proof.
  intros Hm He E c pre rest x s' Hr. unfold bind, d_remaining in Hr.
  open_rem. cbn [d_data d_pos] in Hr.
  destruct (zlen (pre ++ rest) - zlen pre <? n) eqn:E1; [discriminate|]. rewrite zlen_app in E1.
  destruct (Hm E c pre rest x s' Hr) as (bs & post & c' & -> & -> & H3 & H4 & H5).
  exists bs, post, c'. repeat split.
  - intros post' Hp pre'. (unfold bind, d_remaining; open_rem). cbn [d_data d_pos].
    rewrite zlen_app. replace (zlen pre' + zlen (bs ++ post') - zlen pre' <? n) with false.
    + now apply H3.
    + rewrite !zlen_app in *. pose proof (zlen_nonneg post'). destruct Hp as [Hb|Hp]; [|lia].
      assert (Hi : inside (mkD (pre ++ bs ++ post) (zlen pre) c E)).
      { unfold inside; cbn [d_pos d_data]; rewrite !zlen_app.
        pose proof (zlen_nonneg pre). pose proof (zlen_nonneg bs). pose proof (zlen_nonneg post). lia. }
      specialize (He Hb _ _ _ Hi Hr).
      cbn [d_pos] in He. lia.
  - intros pre' post'. unfold fails, bind, d_remaining. cbn [d_data d_pos].
    destruct (remaining_of _ <? n); [right; unfold fail; eauto|]. apply H4.
  - intros p q Hpq Hq pre'. unfold fails, bind, d_remaining.
    destruct (remaining_of _ <? n); [unfold fail; eauto|]. now apply (H5 p q).
Qed.

(** Number formats that say themselves where they end. *)
Definition delimited {A} (f : list Z -> option (A * Z)) : Prop :=
  forall buf v n, f buf = Some (v, n) ->
  exists bs post, buf = bs ++ post /\ zlen bs = n /\ bs <> [] /\
    (forall post', f (bs ++ post') = Some (v, n)) /\
    (forall p q, bs = p ++ q -> q <> [] -> f p = None).

Lemma local_delimited {A} b (f : list Z -> option (A * Z)) (m : DM A) :
  delimited f ->
  (forall d p c E, 0 <= p <= zlen d ->
    match f (skipn (Z.to_nat p) d) with
    | Some (v, n) => m (mkD d p c E) = (Ok v, mkD d (p + n) c E)
    | None => fails m (mkD d p c E)
    end) ->
  local b m.
Proof.
  intros Hf Hm.
  assert (Hm' : forall pre rest c E,
    match f rest with
    | Some (v, n) => m (mkD (pre ++ rest) (zlen pre) c E) = (Ok v, mkD (pre ++ rest) (zlen pre + n) c E)
    | None => fails m (mkD (pre ++ rest) (zlen pre) c E)
    end).
  { intros pre rest c E. pose proof (Hm (pre ++ rest) (zlen pre) c E) as H.
    rewrite zlen_app in H. pose proof (zlen_nonneg pre). pose proof (zlen_nonneg rest).
    specialize (H ltac:(lia)). replace (Z.to_nat (zlen pre)) with (length pre) in H by (unfold zlen; lia).
    rewrite skipn_app, skipn_all, Nat.sub_diag in H. exact H. }
  intros E c pre rest x s' Hr. pose proof (Hm' pre rest c E) as H.
  destruct (f rest) as [[v n]|] eqn:Ef.
  - rewrite H in Hr. injection Hr as <- <-.
    destruct (Hf rest v n Ef) as (bs & post & -> & <- & Hne & F1 & F2).
    assert (Hsame : forall post' pre',
      m (mkD (pre' ++ bs ++ post') (zlen pre') c E) =
      (Ok v, mkD (pre' ++ bs ++ post') (zlen pre' + zlen bs) c E)).
    { intros post' pre'. pose proof (Hm' pre' (bs ++ post') c E) as H1. rewrite F1 in H1. exact H1. }
    exists bs, post, c. repeat split.
    + intros post' _ pre'. apply Hsame.
    + intros pre' post'. left. apply Hsame.
    + intros p q Hpq Hq pre'. pose proof (Hm' pre' p c E) as H1. now rewrite (F2 p q Hpq Hq) in H1.
  - destruct H as (e & s & H). rewrite H in Hr. discriminate.
Qed.

Lemma uvarint_get_delimited buf : forall i x s v n, 0 <= i -> uvarint_get buf i x s = (v, n) -> 0 < n ->
  exists bs post, buf = bs ++ post /\ i + zlen bs = n /\ bs <> [] /\
    (forall post', uvarint_get (bs ++ post') i x s = (v, n)) /\
    (forall p q, bs = p ++ q -> q <> [] -> uvarint_get p i x s = (0, 0)).
Proof.
  induction buf as [|b r IH]; intros i x s v n Hi H Hn; cbn [uvarint_get] in H.
  - injection H as _ <-. lia.
  - destruct (i =? 10) eqn:E1; [injection H as _ <-; lia|].
    destruct (b <? 128) eqn:E2.
    + destruct ((i =? 9) && (1 <? b)) eqn:E3; [injection H as _ <-; lia|].
      exists [b], r. split; [reflexivity|]. split; [injection H as _ <-; change (zlen [b]) with 1; lia|].
      split; [easy|]. split.
      * intro post'. cbn [app uvarint_get]. now rewrite E1, E2, E3.
      * intros p q Hpq Hq. destruct p as [|b' p]; [reflexivity|].
        injection Hpq as <- Hpq. destruct p, q; easy.
    + destruct (IH (i + 1) _ _ _ _ ltac:(lia) H Hn) as (bs & post & -> & H2 & H3 & H4 & H5).
      exists (b :: bs), post. split; [reflexivity|]. rewrite zlen_cons. split; [lia|].
      split; [easy|]. split.
      * intro post'. cbn [app uvarint_get]. now rewrite E1, E2.
      * intros p q Hpq Hq. destruct p as [|b' p]; [reflexivity|].
        injection Hpq as <- Hpq. cbn [uvarint_get]. rewrite E1, E2. now apply (H5 p q).
Qed.

Definition counted {A} (f : list Z -> A * Z) (buf : list Z) : option (A * Z) :=
  let '(v, n) := f buf in if n <=? 0 then None else Some (v, n).

Lemma uvarint_delimited : delimited (counted uvarint).
Proof.
  intros buf v n H. unfold counted, uvarint in *. destruct (uvarint_get buf 0 0 0) as [v' n'] eqn:E1.
  destruct (n' <=? 0) eqn:E2; [discriminate|]. injection H as -> ->.
  destruct (uvarint_get_delimited _ _ _ _ _ _ (Z.le_refl 0) E1 ltac:(lia)) as (bs & post & H1 & H2 & H3 & H4 & H5).
  exists bs, post. repeat split; auto.
  - intro post'. now rewrite H4, E2.
  - intros p q Hpq Hq. now rewrite (H5 p q Hpq Hq).
Qed.
Lemma varint_delimited : delimited (counted varint).
Proof.
  intros buf v n H. unfold counted, varint in *. destruct (uvarint buf) as [ux n'] eqn:E1.
  destruct (n' <=? 0) eqn:E2; [discriminate|]. injection H as <- ->.
  assert (H0 : counted uvarint buf = Some (ux, n)) by (unfold counted; now rewrite E1, E2).
  destruct (uvarint_delimited _ _ _ H0) as (bs & post & H1 & H2 & H3 & H4 & H5).
  exists bs, post. repeat split; auto.
  - intro post'. specialize (H4 post'). unfold counted in H4. destruct (uvarint (bs ++ post')) as [a b].
    destruct (b <=? 0); [discriminate|]. now injection H4 as -> ->.
  - intros p q Hpq Hq. specialize (H5 p q Hpq Hq). unfold counted in H5.
    destruct (uvarint p) as [a b]. now destruct (b <=? 0).
Qed.

Lemma local_counted {A} b (f : list Z -> A * Z) : delimited (counted f) ->
  local b (buf <- d_rest ;;
           let '(v, n) := f buf in
           if n <=? 0 then fail EVarint
           else s <- d_get ;; d_set_pos (d_pos s + n) ;;; ret v).
Proof.
  intro Hf. apply (local_delimited b (counted f)); [exact Hf|].
  intros d p c E Hp. unfold fails, bind, d_rest, d_get, bind, slice_from. cbn [d_data d_pos].
  replace ((0 <=? p) && (p <=? zlen d)) with true by lia. unfold ret at 1. cbn [ret].
  unfold counted. destruct (f (skipn (Z.to_nat p) d)) as [v n]. destruct (n <=? 0); [unfold fail; eauto|reflexivity].
Qed.
Lemma local_uvarint b : local b read_uvarint64.
Proof. apply local_counted, uvarint_delimited. Qed.
Lemma local_varint b : local b read_varint64.
Proof. apply local_counted, varint_delimited. Qed.

Lemma cu16_get_delimited fuel : forall nth buf ln size v n, cu16_get fuel nth buf ln size = inr (v, n) ->
  size < n ->
  exists bs post, buf = bs ++ post /\ size + zlen bs = n /\ bs <> [] /\
    (forall post', cu16_get fuel nth (bs ++ post') ln size = inr (v, n)) /\
    (forall p q, bs = p ++ q -> q <> [] -> exists e, cu16_get fuel nth p ln size = inl e).
Proof.
  induction fuel as [|f IH]; intros nth buf ln size v n H Hn; cbn [cu16_get] in H.
  - injection H as _ <-. lia.
  - destruct buf as [|b r]; [discriminate|].
    destruct ((b =? 0) && negb (nth =? 0)) eqn:E1; [discriminate|].
    destruct ((nth =? 2) && negb (Z.land b 128 =? 0)) eqn:E2; [discriminate|].
    destruct (Z.land b 128 =? 0) eqn:E3.
    + exists [b], r. split; [reflexivity|]. split; [injection H as _ <-; change (zlen [b]) with 1; lia|].
      split; [easy|]. split.
      * intro post'. cbn [app cu16_get]. now rewrite E1, E3, E2.
      * intros p q Hpq Hq. destruct p as [|b' p]; [cbn; eauto|].
        injection Hpq as <- Hpq. destruct p, q; easy.
    + destruct f as [|f'].
      * cbn [cu16_get] in H. exists [b], r. split; [reflexivity|]. split; [injection H as _ <-; change (zlen [b]) with 1; lia|].
        split; [easy|]. split.
        -- intro post'. cbn [app cu16_get]. now rewrite E1, E3, E2.
        -- intros p q Hpq Hq. destruct p as [|b' p]; [cbn; eauto|].
           injection Hpq as <- Hpq. destruct p, q; easy.
      * assert (Hs : size + 1 < n).
        { cbn [cu16_get] in H. destruct r as [|b2 r2]; [discriminate|].
          destruct ((b2 =? 0) && _); [discriminate|].
          destruct ((nth + 1 =? 2) && _); [discriminate|].
          destruct (Z.land b2 128 =? 0); [injection H as _ <-; lia|].
          apply cu16_get_len in H. cbn [snd] in H. lia. }
        destruct (IH _ _ _ _ _ _ H Hs) as (bs & post & -> & H2 & H3 & H4 & H5).
        exists (b :: bs), post. split; [reflexivity|]. rewrite zlen_cons. split; [lia|].
        split; [easy|]. remember (S f') as f. split.
        -- intro post'. cbn [app cu16_get]. now rewrite E1, E3, E2.
        -- intros p q Hpq Hq. destruct p as [|b' p]; [cbn; eauto|].
           injection Hpq as <- Hpq. cbn [cu16_get]. rewrite E1, E3, E2. now apply (H5 p q).
Qed.

Definition cu16_opt (buf : list Z) : option (Z * Z) :=
  match decode_compact_u16 buf with inl _ => None | inr r => Some r end.
Lemma cu16_delimited : delimited cu16_opt.
Proof.
  intros buf v n H. unfold cu16_opt in *. destruct (decode_compact_u16 buf) as [e|r] eqn:E; [discriminate|].
  injection H as ->. pose proof (decode_cu16_len _ _ _ E) as L.
  unfold decode_compact_u16 in *. destruct (cu16_get 3 0 buf 0 0) as [e|[v' n']] eqn:E1; [discriminate|].
  destruct ((n' =? 0) || (3 <? n')) eqn:E2; [discriminate|].
  destruct ((v' <? 0) || (65535 <? v')) eqn:E3; [discriminate|]. injection E as -> ->.
  destruct (cu16_get_delimited _ _ _ _ _ _ _ E1 ltac:(lia)) as (bs & post & H1 & H2 & H3 & H4 & H5).
  exists bs, post. repeat split; auto.
  - intro post'. now rewrite H4, E2, E3.
  - intros p q Hpq Hq. destruct (H5 p q Hpq Hq) as (e & ->). reflexivity.
Qed.
Lemma local_compact b : local b read_compact_u16.
Proof.
  apply (local_delimited b cu16_opt); [exact cu16_delimited|].
  intros d p c E Hp. unfold read_compact_u16, fails, bind, d_rest, d_get, bind, slice_from. cbn [d_data d_pos].
  replace ((0 <=? p) && (p <=? zlen d)) with true by lia. cbn [ret].
  unfold cu16_opt. destruct (decode_compact_u16 (skipn (Z.to_nat p) d)) as [e|[v n]]; [unfold fail; eauto|reflexivity].
Qed.
#[global] Hint Resolve local_uvarint local_varint local_compact local_guard_get local_take_or : local.

Lemma local_cur_order b : local b d_cur_order.
Proof. unfold d_cur_order. local. Qed.
Lemma local_read_byte b : local b read_byte.
Proof. apply local_guard; intro. local. Qed.
Lemma local_read_uint b n o : local b (read_uint n o).
Proof. apply local_guard; intro. local. Qed.
Lemma local_read_n_bytes b n : local b (read_n_bytes n).
Proof. unfold read_n_bytes. local. Qed.
#[global] Hint Resolve local_cur_order local_read_byte local_read_uint local_read_n_bytes : local.

(** * How much is consumed *)

Lemma eats_le {A} n n' (m : DM A) : n' <= n -> eats n m -> eats n' m.
Proof. intros H Hm s x s' Hs Hr. specialize (Hm s x s' Hs Hr). lia. Qed.
Lemma eats_never {A} n (m : DM A) : (forall s x s', m s <> (Ok x, s')) -> eats n m.
Proof. intros H s x s' _ Hr. now apply H in Hr. Qed.
Lemma eats_fail {A} n e : eats n (@fail dst A e).
Proof. now apply eats_never. Qed.
Lemma eats_panic {A} n : eats n (@panic dst A).
Proof. now apply eats_never. Qed.
Lemma eats_stuck {A} n : eats n (@stuck dst A).
Proof. now apply eats_never. Qed.
Lemma eats_deep {A} n : eats n (@deep dst A).
Proof. now apply eats_never. Qed.
Lemma eats_within {A} (m : DM A) : within m -> eats 0 m.
Proof.
  intros H s x s' Hs Hr. specialize (H s Hs). rewrite Hr in H. cbn [snd] in H.
  destruct H as (_ & _ & H & _). lia.
Qed.
Lemma eats_bind {A B} n1 n2 (m : DM A) (k : A -> DM B) :
  within m -> eats n1 m -> (forall a, eats n2 (k a)) -> eats (n1 + n2) (bind m k).
Proof.
  intros Hw Hm Hk s y s2 Hs Hr. unfold bind in Hr. specialize (Hw s Hs).
  destruct (m s) as [[a|e| | |] s1] eqn:E1; try discriminate. cbn [snd] in Hw.
  pose proof (Hm s a s1 Hs E1). pose proof (Hk a s1 y s2 (onward_inside _ _ Hw) Hr). lia.
Qed.
Lemma eats_bind_l {A B} n (m : DM A) (k : A -> DM B) :
  within m -> eats n m -> (forall a, within (k a)) -> eats n (bind m k).
Proof.
  intros Hw Hm Hk. rewrite <- (Z.add_0_r n). apply eats_bind; auto.
  intro a. apply eats_within, Hk.
Qed.
Lemma eats_bind_r {A B} n (m : DM A) (k : A -> DM B) :
  within m -> (forall a, eats n (k a)) -> eats n (bind m k).
Proof. intros Hw Hk. change n with (0 + n). apply eats_bind; auto. now apply eats_within. Qed.
Lemma eats_fmap {A B} n (f : A -> B) m : within m -> eats n m -> eats n (fmap f m).
Proof. intros Hw H. apply eats_bind_l; auto. intro. apply within_ret. Qed.
Lemma eats_map_err {A} n f (m : DM A) : eats n m -> eats n (map_err f m).
Proof.
  intros H s x s' Hs Hr. unfold map_err in Hr.
  destruct (m s) as [[a|e| | |] s1] eqn:E1; try discriminate. injection Hr as -> ->.
  exact (H s x s' Hs E1).
Qed.
Lemma eats_take n : eats n (d_take n).
Proof.
  intros s x s' _ Hr. unfold d_take, d_get, bind in Hr.
  destruct (slice_n _ _ _); [|discriminate]. injection Hr as _ <-. cbn. lia.
Qed.
Lemma eats_guard {A} n (m : DM A) e l : eats n m ->
  eats n (r <- d_remaining ;; if r <? l then fail e else m).
Proof.
  intro H. apply eats_bind_r; [within|]. intro r. destruct (r <? l); [apply eats_fail|exact H].
Qed.
Lemma eats_read_byte : eats 1 read_byte.
Proof. apply eats_guard. apply eats_bind_l; [within|apply eats_take|]. intro. within. Qed.
Lemma eats_read_uint n o : eats (Z.of_nat n) (read_uint n o).
Proof. apply eats_guard. apply eats_bind_l; [within|apply eats_take|]. intro. within. Qed.
Lemma eats_read_n_bytes n : eats n (read_n_bytes n).
Proof.
  unfold read_n_bytes. destruct (n =? 0) eqn:E0.
  - apply (eats_le 0); [lia|]. apply eats_within. within.
  - destruct ((n <? 0) || (0x7FFFFFFF <? n)); [apply eats_fail|].
    apply eats_bind_r; [within|]. intro s. destruct (_ <? _); [apply eats_fail|apply eats_take].
Qed.
Lemma eats_read_uint64 o : eats 8 (read_uint64 o).
Proof. apply eats_guard. apply eats_bind_l; [within|apply eats_read_n_bytes|]. intro. within. Qed.
Lemma eats_read_uintw w o : eats (Z.of_nat (wbytes w)) (read_uintw w o).
Proof.
  destruct w; cbn [read_uintw wbytes];
    [apply eats_read_byte|apply eats_read_uint|apply eats_read_uint|apply eats_read_uint64].
Qed.
Lemma eats_counted {A} (f : list Z -> A * Z) :
  eats 1 (buf <- d_rest ;;
          let '(v, n) := f buf in
          if n <=? 0 then fail EVarint
          else s <- d_get ;; d_set_pos (d_pos s + n) ;;; ret v).
Proof.
  apply eats_bind_r; [within|]. intro buf. destruct (f buf) as [v n].
  destruct (n <=? 0) eqn:E; [apply eats_fail|].
  intros s x s' _ Hr. unfold d_get, d_set_pos, bind, ret in Hr. injection Hr as _ <-. cbn [d_pos]. lia.
Qed.
Lemma eats_uvarint : eats 1 read_uvarint64.
Proof. apply eats_counted. Qed.
Lemma eats_varint : eats 1 read_varint64.
Proof. apply eats_counted. Qed.
Lemma eats_compact : eats 1 read_compact_u16.
Proof.
  apply eats_bind_r; [within|]. intro buf. destruct (decode_compact_u16 buf) as [e|[v n]] eqn:E;
    [apply eats_fail|]. apply decode_cu16_len in E.
  intros s x s' _ Hr. unfold d_get, d_set_pos, bind, ret in Hr. injection Hr as _ <-. cbn [d_pos]. lia.
Qed.
Lemma eats_read_length : eats 1 read_length.
Proof.
  apply eats_bind_r; [within|]. intros [| |].
  - apply eats_bind_l; [within|apply eats_uvarint|]. intro. within.
  - apply eats_compact.
  - apply (eats_le 4); [lia|]. apply eats_bind_l; [within|apply (eats_read_uint 4)|]. intro. within.
Qed.
Lemma eats_byte_slice : eats 1 read_byte_slice.
Proof. apply eats_bind_l; [within|apply eats_read_length|]. intro. within. Qed.
Lemma eats_rust_string : eats 8 read_rust_string.
Proof. apply eats_bind_l; [within|apply eats_read_uint64|]. intro. within. Qed.
Lemma eats_read_str E : eats 1 (read_str E).
Proof.
  destruct E; [apply (eats_le 8); [lia|apply eats_rust_string]|apply eats_byte_slice|apply eats_byte_slice].
Qed.
Lemma eats_read_count E : eats 1 (read_count E).
Proof.
  destruct E; [apply eats_read_length|apply eats_compact|].
  apply (eats_le 4); [lia|apply (eats_read_uint 4)].
Qed.
Lemma eats_read_bool : eats 1 read_bool.
Proof.
  apply eats_guard. apply eats_bind_l; [within|apply eats_map_err, eats_read_byte|]. intro. within.
Qed.
Lemma eats_read_option : eats 1 read_option.
Proof. apply eats_bind_l; [within|apply eats_map_err, eats_read_byte|]. intro. within. Qed.
Lemma eats_read_coption : eats 4 read_coption.
Proof. apply eats_bind_l; [within|apply eats_map_err, (eats_read_uint 4)|]. intro. within. Qed.
Lemma eats_read_flag E : eats 1 (read_flag E).
Proof.
  apply eats_map_err. destruct E.
  - apply eats_fmap; [within|]. apply (eats_le 4); [lia|apply (eats_read_uint 4)].
  - apply eats_fmap; [within|apply eats_read_byte].
  - apply eats_read_option.
Qed.
Lemma eats_read_cflag : eats 1 read_cflag.
Proof. apply eats_map_err. apply (eats_le 4); [lia|apply eats_read_coption]. Qed.
Lemma eats_read_float f o : eats 4 (read_float f o).
Proof.
  apply eats_guard. apply eats_bind_l; [within| |intro; within].
  apply (eats_le (Z.of_nat (fbytes f))); [destruct f; cbn; lia|apply eats_take].
Qed.
Lemma eats_read_uint128 o : eats 16 (read_uint128 o).
Proof. apply eats_guard. apply eats_bind_l; [within|apply eats_take|]. intro. within. Qed.
Lemma eats_read_rep {A} n k (m : DM A) : within m -> eats k m -> eats (Z.of_nat n * k) (read_rep n m).
Proof.
  intros Hw H. induction n as [|n IH]; cbn [read_rep].
  - apply eats_within. within.
  - replace (Z.of_nat (S n) * k) with (k + Z.of_nat n * k) by lia. apply eats_bind; auto.
    intro a. apply eats_bind_l; [within|exact IH|]. intro. within.
Qed.
Lemma eats_uints_body w l : 0 <= l -> eats (l * Z.of_nat (wbytes w))
  match w with
  | W8 => read_n_bytes l
  | _ => if l <? 0 then panic else read_rep (Z.to_nat l) (read_uintw w LE)
  end.
Proof.
  intro Hl.
  assert (H : eats (l * Z.of_nat (wbytes w)) (if l <? 0 then panic else read_rep (Z.to_nat l) (read_uintw w LE))).
  { destruct (l <? 0); [apply eats_panic|]. rewrite <- (Z2Nat.id l) at 1 by exact Hl.
    apply eats_read_rep; [within|apply eats_read_uintw]. }
  destruct w; auto. apply (eats_le l); [cbn; lia|]. apply eats_read_n_bytes.
Qed.
Lemma read_uints_neg w l s x s' : l < 0 -> read_uints w l s <> (Ok x, s').
Proof.
  intros Hl H. unfold read_uints, bind, d_remaining in H.
  replace (l <? 0) with true in H by lia.
  destruct (remaining_of s <? _); [discriminate|].
  destruct w; try discriminate. unfold read_n_bytes in H.
  replace (l =? 0) with false in H by lia. replace (l <? 0) with true in H by lia. discriminate.
Qed.
Lemma eats_read_uints w l : eats l (read_uints w l).
Proof.
  destruct (Z_lt_le_dec l 0) as [Hl|Hl].
  - apply eats_never. intros. now apply read_uints_neg.
  - apply eats_guard. apply (eats_le (l * Z.of_nat (wbytes w))); [destruct w; cbn; lia|].
    now apply eats_uints_body.
Qed.

(** * Primitives again *)

Lemma local_read_uint64 b o : local b (read_uint64 o).
Proof.
  apply local_remaining; [local|]. intros _. apply eats_bind_l; [within|apply eats_read_n_bytes|].
  intro. within.
Qed.
#[global] Hint Resolve local_read_uint64 : local.
Lemma local_read_uintw b w o : local b (read_uintw w o).
Proof. destruct w; cbn [read_uintw]; local. Qed.
#[global] Hint Resolve local_read_uintw : local.
Lemma local_read_intw b w o : local b (read_intw w o).
Proof. unfold read_intw. local. Qed.
Lemma local_varint32 b : local b read_varint32.
Proof. unfold read_varint32. local. Qed.
Lemma local_uvarint32 b : local b read_uvarint32.
Proof. unfold read_uvarint32. local. Qed.
Lemma local_varint16 b : local b read_varint16.
Proof. unfold read_varint16. local. Qed.
Lemma local_uvarint16 b : local b read_uvarint16.
Proof. unfold read_uvarint16. local. Qed.
Lemma local_read_length b : local b read_length.
Proof. unfold read_length. local. Qed.
#[global] Hint Resolve local_read_intw local_varint32 local_uvarint32 local_varint16 local_uvarint16
  local_read_length : local.
Lemma local_byte_slice b : local b read_byte_slice.
Proof. unfold read_byte_slice. local. Qed.
#[global] Hint Resolve local_byte_slice : local.
Lemma local_read_string b : local b read_string.
Proof. unfold read_string. local. Qed.
Lemma local_rust_string b : local b read_rust_string.
Proof. unfold read_rust_string. local. Qed.
Lemma local_read_bool b : local b read_bool.
Proof.
  apply local_remaining; [local|]. intros _.
  apply eats_bind_l; [within|apply eats_map_err, eats_read_byte|]. intro. within.
Qed.
Lemma local_read_option b : local b read_option.
Proof. unfold read_option. local. Qed.
Lemma local_read_coption b : local b read_coption.
Proof. unfold read_coption. local. Qed.
Lemma local_read_float b f o : local b (read_float f o).
Proof. apply local_guard; intro. local. Qed.
Lemma local_read_uint128 b o : local b (read_uint128 o).
Proof. apply local_guard; intro. local. Qed.
Lemma local_type_id b : local b read_type_id.
Proof. unfold read_type_id. local. Qed.
Lemma local_read_rep {A} b n (m : DM A) : local b m -> local b (read_rep n m).
Proof. intro H. induction n; cbn [read_rep]; local. Qed.
#[global] Hint Resolve local_read_string local_rust_string local_read_bool local_read_option
  local_read_coption local_read_float local_read_uint128 local_type_id local_read_rep : local.
Lemma local_read_uints b w l : local b (read_uints w l).
Proof.
  destruct (Z_lt_le_dec l 0) as [Hl|Hl].
  - apply local_never. intros. now apply read_uints_neg.
  - unfold read_uints. replace (if l <? 0 then _ else _) with (l * Z.of_nat (wbytes w))
      by (destruct (l <? 0) eqn:E; lia).
    apply local_remaining; [local|]. intros _. now apply eats_uints_body.
Qed.
Lemma local_read_flag b E : local b (read_flag E).
Proof. unfold read_flag. local. Qed.
Lemma local_read_cflag b : local b read_cflag.
Proof. unfold read_cflag. local. Qed.
Lemma local_read_str b E : local b (read_str E).
Proof. unfold read_str. local. Qed.
Lemma local_read_count b E : local b (read_count E).
Proof. unfold read_count. local. Qed.
Lemma local_safe_utf8 b : local b safe_read_utf8_string.
Proof. unfold safe_read_utf8_string. local. Qed.
#[global] Hint Resolve local_read_uints local_read_flag local_read_cflag local_read_str
  local_read_count local_safe_utf8 : local.
Lemma local_each {A B} b (f : A -> DM B) l : (forall a, local b (f a)) -> local b (each_dec f l).
Proof. intro H. induction l; cbn [each_dec]; local. Qed.
Lemma local_dec_map b kt n deck decv : local b deck -> local b decv ->
  forall m, local b (dec_map kt n deck decv m).
Proof. intros Hk Hv. induction n; intro m; cbn [dec_map]; local. Qed.
#[global] Hint Resolve local_each local_dec_map : local.

(** * Classes of types *)

Section Everywhere.
  Variable P : ty -> Prop.
  (** [P] holds for the type and all types in it. *)
  Fixpoint everywhere (t : ty) : Prop :=
    P t /\
    match t with
    | TPtr t' | TArray _ t' | TSlice t' | TCodec _ t' => everywhere t'
    | TMap k v => everywhere k /\ everywhere v
    | TStruct fs =>
        (fix go fs := match fs with
                      | [] => True
                      | ht :: fs' => everywhere (snd ht) /\ go fs'
                      end) fs
    | _ => True
    end.
  Lemma everywhere_here t : everywhere t -> P t.
  Proof. destruct t; now intros [H _]. Qed.
  Lemma everywhere_struct fs :
    everywhere (TStruct fs) <-> P (TStruct fs) /\ Forall (fun ht => everywhere (snd ht)) fs.
  Proof.
    cbn [everywhere]. apply and_iff_compat_l.
    induction fs as [|ht fs IH]; split; intro H.
    - constructor.
    - exact I.
    - destruct H as [H1 H2]. constructor; [exact H1|]. apply IH, H2.
    - inversion_clear H as [|? ? H1 H2]. split; [exact H1|]. apply IH, H2.
  Qed.
End Everywhere.

(** No binary_extension fields (other than skipped ones). *)
Definition no_ext (t : ty) : Prop :=
  match t with
  | TStruct fs => Forall (fun ht => let tg := parse_field_tag (f_tag (fst ht)) in
                                    ft_skip tg = true \/ ft_ext tg = false) fs
  | _ => True
  end.

(** Does a `sizeof` length reach a slice here? *)
Fixpoint sliceless (t : ty) : bool :=
  match t with
  | TSlice _ => false
  | TPtr t' => sliceless t'
  | TCodec c u => match c_unmarshal c with Some _ => true | None => sliceless u end
  | _ => true
  end.

(** Types whose values always take at least one byte. *)
Section Solid.
  Variable E : encoding.
  Definition solid_field (all : list (fhdr * ty)) (h : fhdr) (t : ty) (solid : Prop) : Prop :=
    let tg := parse_field_tag (f_tag h) in
    live h = true /\ ft_ext tg = false /\
    ((flagged_field E tg = true /\ (E = Borsh -> has_unmarshal t = None /\
        match t with TPtr t' => has_unmarshal t' = None | _ => True end)) \/
     (solid /\ (sliceless t = true \/
       Forall (fun ht => ft_sizeof (parse_field_tag (f_tag (fst ht))) <> f_name h) all))).
  Fixpoint solid (t : ty) : Prop :=
    match t with
    | TIface => False
    | TPtr t' => solid t'
    | TArray n t' => (0 < n)%nat /\ (uint_kind t' <> None \/ solid t')
    | TCodec c u => match c_unmarshal c with Some f => forall v, eats 1 (f v) | None => solid u end
    | TStruct fs =>
        enum_struct E fs = true \/
        (fix go l := match l with
                     | [] => False
                     | (h, t') :: l' => solid_field fs h t' (solid t') \/ go l'
                     end) fs
    | _ => True
    end.
  Lemma solid_struct fs : solid (TStruct fs) ->
    enum_struct E fs = true \/ Exists (fun ht => solid_field fs (fst ht) (snd ht) (solid (snd ht))) fs.
  Proof.
    intros [H|H]; [now left|right]. revert H. generalize fs at 1 3. intros all H.
    induction fs as [|[h t] fs IH]; [easy|]. destruct H as [H|H]; [now left|right; auto].
  Qed.
  (** Slices of such elements only (or of unsigned integers). *)
  Definition solid_slices (t : ty) : Prop :=
    match t with TSlice t' => uint_kind t' = None -> solid t' | _ => True end.
End Solid.

(** * The reflection decoder *)

Definition codec_local (b : bool) (c : codec) (_ : ty) : Prop :=
  forall f v, c_unmarshal c = Some f -> local b (f v).

Lemma eats_flagged E o t v : all_codecs codec_within t -> eats 1 (dec_flagged E t o v).
Proof.
  intro Hc. pose proof (within_dec_val t Hc E) as Hw. unfold dec_flagged. destruct (o_opt o).
  - apply eats_bind_l; [within|apply eats_read_flag|]. intro. within.
  - apply eats_bind_l; [within|apply eats_read_cflag|]. intro. within.
Qed.

Lemma eats_null E o t : all_codecs codec_within t -> forall v, eats 1 (dec_val E t (DNull o) v).
Proof.
  induction t as [t IH] using ty_strong_ind. intros Hc v.
  pose proof (eats_flagged E o t v Hc) as Hf. rewrite dec_null_eq.
  destruct t; try exact Hf; try apply eats_deep.
  - destruct (is_ptr t); [|exact Hf]. destruct v; try exact Hf. destruct p; try exact Hf.
    apply eats_fmap; [apply within_dec_val; exact Hc|].
    apply IH; [cbn; lia|exact Hc].
  - destruct (c_unmarshal c); [apply eats_panic|exact Hf].
Qed.

Lemma eats_pend pend t core : within core -> eats 1 core -> eats 1 (with_pend pend t core).
Proof.
  intros Hw H. unfold with_pend. destruct pend; [|exact H].
  apply eats_bind_l; [within|apply eats_read_cflag|]. intro. within.
Qed.

Definition eats_walk (E : encoding) (t : ty) : Prop :=
  forall o pend v, fits t v -> o_size o = None \/ sliceless t = true ->
  eats 1 (dec_val E t (DWalk o pend) v).

Lemma eats_start E t : all_codecs codec_within t -> eats_walk E t ->
  forall o v, fits t v -> o_size o = None \/ sliceless t = true ->
  eats 1 (dec_val E t (DStart o) v).
Proof.
  intros Hc H o v Hv Ho.
  rewrite dec_start_eq. apply eats_bind_r; [within|]. intros _.
  destruct (o_opt o || _); [now apply eats_null|now apply H].
Qed.
(** A flagged field reads its flag. *)
Lemma eats_start_flagged E t o v : all_codecs codec_within t ->
  o_opt o || (is_borsh E && o_copt o) = true ->
  eats 1 (dec_val E t (DStart o) v).
Proof.
  intros Hc Hf.
  rewrite dec_start_eq, Hf. apply eats_bind_r; [within|]. intros _. now apply eats_null.
Qed.

Definition unsized (all : list (fhdr * ty)) (sizes : smap) : Prop :=
  forall name, Forall (fun ht => ft_sizeof (parse_field_tag (f_tag (fst ht))) <> name) all ->
  sm_get sizes name = None.

Lemma eats_dec_fields E all fs : forall ps sizes seen,
  Forall (fun ht => all_codecs codec_within (snd ht) /\
                    (solid E (snd ht) -> eats_walk E (snd ht))) fs ->
  incl fs all -> unsized all sizes ->
  fits_fields fits fs ps ->
  Exists (fun ht => solid_field E all (fst ht) (snd ht) (solid E (snd ht))) fs ->
  eats 1 (dec_fields E (fun t' o' v' => dec_val E t' (DStart o') v') fs ps sizes seen).
Proof.
  induction fs as [|[h t] fs IH]; intros ps sizes seen H Hin Hsz Hf Hex; [inversion Hex|].
  destruct ps as [|p ps]; [destruct Hf|]. destruct Hf as [Hp Hf]. cbn [snd] in Hp.
  inversion_clear H as [|? ? [Hc Hw] Hr]. cbn [snd] in Hc, Hw.
  assert (Hall : forall ht, In ht fs -> all_codecs codec_within (snd ht)).
  { rewrite Forall_forall in Hr. intros ht Hht. now apply Hr. }
  assert (Hwf : forall ps sizes seen, within
    (dec_fields E (fun t' o' v' => dec_val E t' (DStart o') v') fs ps sizes seen)).
  { intros. apply within_dec_fields. apply Forall_forall. intros ht Hht.
    split; [now apply Hall|]. intros. apply within_dec_val. now apply Hall. }
  assert (Hin' : incl fs all) by (intros y Hy; apply Hin; now right).
  assert (Hth : In (h, t) all) by (apply Hin; now left).
  cbn [dec_fields]. set (tg := parse_field_tag (f_tag h)).
  assert (Hsz' : forall n, unsized all ((ft_sizeof tg, n) :: sizes)).
  { intros n name Hn. cbn [sm_get]. rewrite Forall_forall in Hn. pose proof (Hn _ Hth) as Hn'.
    cbn [fst] in Hn'. fold tg in Hn'. destruct (String.eqb (ft_sizeof tg) name) eqn:Es.
    - now apply String.eqb_eq in Es.
    - apply Hsz. now apply Forall_forall. }
  (* either this field or a later one *)
  apply Exists_cons in Hex. destruct Hex as [Hex|Hex].
  - destruct Hex as (Hl & He & Hs). cbn [fst snd] in Hl, He, Hs. fold tg in He, Hs.
    unfold live in Hl. fold tg in Hl. apply andb_prop in Hl. destruct Hl as [Hsk Hexp].
    apply negb_true_iff in Hsk. rewrite Hsk, He, Hexp. cbn [negb andb].
    destruct seen; [apply eats_panic|]. cbn [orb].
    assert (Hrest : eats 1
      (x <- map_err EWrap (dec_val E t (DStart (field_opt E tg (f_name h) sizes)) p) ;;
       if String.eqb (ft_sizeof tg) "" then
         fmap (cons x) (dec_fields E (fun t' o' v' => dec_val E t' (DStart o') v') fs ps sizes false)
       else match sizeof_val t x with
            | None => panic
            | Some n =>
                fmap (cons x)
                  (dec_fields E (fun t' o' v' => dec_val E t' (DStart o') v') fs ps
                     ((ft_sizeof tg, n) :: sizes) false)
            end) \/ exists m, is_borsh E = true /\ borsh_field_unmarshaler t = Some m /\ eats 1 m).
    { destruct Hs as [[Hfl Hb]|[Hs Hn]].
      - left. apply eats_bind_l.
        + apply within_map_err. now apply within_dec_val.
        + apply eats_map_err. apply eats_start_flagged; [exact Hc|].
          unfold flagged_field in Hfl. cbn [field_opt o_opt o_copt].
          destruct (ft_option tg); [reflexivity|]. cbn [orb] in *. now destruct (is_borsh E).
        + intro; within.
      - destruct (is_borsh E) eqn:Eb; [destruct (borsh_field_unmarshaler t) as [m|] eqn:Em|].
        + right. exists m. repeat split. destruct t; try discriminate.
          * destruct t; try discriminate. cbn [borsh_field_unmarshaler] in Em. cbn [solid] in Hs.
            destruct Hc as [Hc _].
            destruct (c_unmarshal c) eqn:Ec; [|discriminate]. injection Em as <-.
            apply eats_fmap; [|apply Hs]. now apply Hc.
          * cbn [borsh_field_unmarshaler] in Em. cbn [solid] in Hs.
            destruct (c_unmarshal c) eqn:Ec; [|discriminate]. injection Em as <-. apply Hs.
        + left. apply eats_bind_l.
          * apply within_map_err. now apply within_dec_val.
          * apply eats_map_err. apply eats_start; auto. cbn [field_opt o_size].
            destruct Hn as [Hn|Hn]; [now right|left]. now apply Hsz.
          * intro; within.
        + left. apply eats_bind_l.
          * apply within_map_err. now apply within_dec_val.
          * apply eats_map_err. apply eats_start; auto. cbn [field_opt o_size].
            destruct Hn as [Hn|Hn]; [now right|left]. now apply Hsz.
          * intro; within. }
    destruct Hrest as [Hrest|(m & Hb & Hm & Hmm)].
    + destruct (is_borsh E) eqn:Eb; [|exact Hrest].
      destruct (borsh_field_unmarshaler t) as [m|] eqn:Em; [|exact Hrest].
      (* flagged Borsh field with a codec: excluded *)
      destruct Hs as [[Hfl Hb]|[Hs Hn]].
      * exfalso. assert (HE : E = Borsh) by (destruct E; easy). destruct (Hb HE) as [Hb1 Hb2].
        destruct t; try discriminate.
        -- destruct t; try discriminate. cbn in Em, Hb2. rewrite Hb2 in Em. discriminate.
        -- cbn in Em, Hb1. rewrite Hb1 in Em. discriminate.
      * apply eats_bind_l; [now apply (within_unmarshaler t)| |intro; within].
        destruct t; try discriminate.
        -- destruct t; try discriminate. cbn [borsh_field_unmarshaler] in Em. cbn [solid] in Hs.
           destruct Hc as [Hc _].
           destruct (c_unmarshal c) eqn:Ec; [|discriminate]. injection Em as <-.
           apply eats_fmap; [|apply Hs]. now apply Hc.
        -- cbn [borsh_field_unmarshaler] in Em. cbn [solid] in Hs.
           destruct (c_unmarshal c) eqn:Ec; [|discriminate]. injection Em as <-. apply Hs.
    + rewrite Hb, Hm. apply eats_bind_l; [now apply (within_unmarshaler t)|exact Hmm|intro; within].
  - assert (IH' : forall sizes seen, unsized all sizes ->
      eats 1 (dec_fields E (fun t' o' v' => dec_val E t' (DStart o') v') fs ps sizes seen))
      by (intros; now apply IH).
    assert (IHf : forall x sizes seen, unsized all sizes ->
      eats 1 (fmap (cons x) (dec_fields E (fun t' o' v' => dec_val E t' (DStart o') v') fs ps sizes seen))).
    { intros. apply eats_fmap; [apply Hwf|]. now apply IH'. }
    destruct (ft_skip tg); [now apply IHf|].
    destruct (negb (ft_ext tg) && seen); [apply eats_panic|].
    assert (Hb : eats 1
      (if negb (f_exported h)
       then fmap (cons p) (dec_fields E (fun t' o' v' => dec_val E t' (DStart o') v') fs ps sizes (seen || ft_ext tg))
       else match is_borsh E, borsh_field_unmarshaler t with
            | true, Some m =>
                x <- m ;; fmap (cons x) (dec_fields E (fun t' o' v' => dec_val E t' (DStart o') v') fs ps sizes (seen || ft_ext tg))
            | _, _ =>
                x <- map_err EWrap (dec_val E t (DStart (field_opt E tg (f_name h) sizes)) p) ;;
                if String.eqb (ft_sizeof tg) "" then
                  fmap (cons x) (dec_fields E (fun t' o' v' => dec_val E t' (DStart o') v') fs ps sizes (seen || ft_ext tg))
                else match sizeof_val t x with
                     | None => panic
                     | Some n =>
                         fmap (cons x)
                           (dec_fields E (fun t' o' v' => dec_val E t' (DStart o') v') fs ps ((ft_sizeof tg, n) :: sizes) (seen || ft_ext tg))
                     end
            end)).
    { destruct (negb (f_exported h)); [now apply IHf|].
      assert (Hd : eats 1
        (x <- map_err EWrap (dec_val E t (DStart (field_opt E tg (f_name h) sizes)) p) ;;
                if String.eqb (ft_sizeof tg) "" then
                  fmap (cons x) (dec_fields E (fun t' o' v' => dec_val E t' (DStart o') v') fs ps sizes (seen || ft_ext tg))
                else match sizeof_val t x with
                     | None => panic
                     | Some n =>
                         fmap (cons x)
                           (dec_fields E (fun t' o' v' => dec_val E t' (DStart o') v') fs ps ((ft_sizeof tg, n) :: sizes) (seen || ft_ext tg))
                     end)).
      { apply eats_bind_r; [apply within_map_err; now apply within_dec_val|]. intro y.
        destruct (String.eqb _ _); [now apply IHf|]. destruct (sizeof_val t y); [|apply eats_panic].
        now apply IHf. }
      destruct (is_borsh E); [|exact Hd]. destruct (borsh_field_unmarshaler t) as [m|] eqn:Em; [|exact Hd].
      apply eats_bind_r; [now apply (within_unmarshaler t)|]. intro y. now apply IHf. }
    destruct (ft_ext tg); [|exact Hb].
    apply eats_bind_r; [within|]. intros [|? ?]; [now apply IHf|exact Hb].
Qed.

Lemma eats_dec_val E t : all_codecs codec_within t -> solid E t -> eats_walk E t.
Proof.
  induction t as [t IH] using ty_strong_ind. intros Hc Hs o pend v Hv Ho.
  pose proof (within_dec_val t Hc E) as Hw.
  rewrite dec_walk_eq.
  destruct t as [|un w|nm w|f| |sg| | |t|n t|t|t1 t2|fs|c t|].
  - apply eats_pend; [within|]. apply eats_fmap; [within|apply eats_read_bool].
  - apply eats_pend; [within|]. apply eats_fmap; [within|].
    apply (eats_le (Z.of_nat (wbytes w))); [destruct w; cbn; lia|apply eats_read_uintw].
  - apply eats_pend; [within|]. apply eats_fmap; [within|]. apply eats_fmap; [within|].
    apply (eats_le (Z.of_nat (wbytes w))); [destruct w; cbn; lia|apply eats_read_uintw].
  - apply eats_pend; [within|]. apply eats_fmap; [within|]. apply (eats_le 4); [lia|apply eats_read_float].
  - apply eats_pend; [within|]. apply eats_fmap; [within|apply eats_read_str].
  - apply eats_pend; [within|]. apply eats_fail.
  - apply eats_pend; [within|]. apply eats_fail.
  - destruct Hs.
  - apply eats_fmap; [now apply within_dec_val|]. apply IH; [cbn; lia|exact Hc|exact Hs| |exact Ho].
    exact (fits_deref _ _ Hv).
  - destruct Hs as [Hn Hs]. destruct Hv as (ps & -> & Hl & Hps).
    assert (Hwt : forall m v, within (dec_val E t m v)) by (intros; now apply within_dec_val).
    destruct (uint_kind t) as [w|] eqn:Eu.
    + apply eats_pend; [within|]. apply eats_fmap; [within|].
      apply (eats_le (Z.of_nat n)); [lia|apply eats_read_uints].
    + apply eats_pend; [within|]. apply eats_fmap; [within|].
      destruct ps as [|p ps]; [cbn in Hl; lia|]. cbn [each_dec]. inversion_clear Hps as [|? ? H1 H2].
      apply eats_bind_l; [within| |intro; within].
      apply eats_start; [exact Hc| |exact H1|now left].
      apply IH; [cbn; lia|exact Hc|]. destruct Hs as [Hs|Hs]; [easy|exact Hs].
  - destruct Ho as [Ho|Ho]; [|discriminate]. rewrite Ho.
    assert (Hwt : forall m v, within (dec_val E t m v)) by (intros; now apply within_dec_val).
    apply eats_pend; [within|]. apply eats_bind_l; [within|apply eats_read_count|]. intro. within.
  - destruct Hc as [Hc1 Hc2].
    assert (Hw1 : forall m v, within (dec_val E t1 m v)) by (intros; now apply within_dec_val).
    assert (Hw2 : forall m v, within (dec_val E t2 m v)) by (intros; now apply within_dec_val).
    apply eats_pend; [within|]. apply eats_bind_l; [within|apply eats_read_count|]. intro. within.
  - destruct Hv as (ps & -> & Hps).
    apply all_codecs_struct in Hc. apply eats_pend.
    { apply within_dec_struct. rewrite Forall_forall in *. intros ht Hin.
      split; [now apply Hc|]. intros. apply within_dec_val. now apply Hc. }
    unfold dec_struct. rewrite EncWire.is_enum_spec.
    destruct (enum_struct E fs) eqn:Ee.
    + apply eats_bind_l; [within|apply eats_read_byte|]. intro n.
      destruct fs as [|[h t] fs]; [within|]. destruct ps as [|p ps]; [within|].
      destruct (negb (f_exported h)); [within|].
      apply within_bind; [|intro; within]. apply within_dec_variant.
      inversion_clear Hc as [|? ? _ Hc']. rewrite Forall_forall in *. intros ht Hin o' v'.
      apply within_dec_val. now apply Hc'.
    + apply solid_struct in Hs. destruct Hs as [Hs|Hs]; [congruence|].
      apply eats_fmap.
      * apply within_dec_fields. rewrite Forall_forall in *. intros ht Hin.
        split; [now apply Hc|]. intros. apply within_dec_val. now apply Hc.
      * apply (eats_dec_fields E fs); auto.
        -- rewrite Forall_forall in *. intros [h t] Hin. split; [now apply Hc|].
           intro Hst. apply IH; [now apply (ty_size_field _ h)|exact (Hc _ Hin)|exact Hst].
        -- apply incl_refl.
        -- intros name _. reflexivity.
  - cbn [solid] in Hs. cbn [sliceless] in Ho. destruct Hc as [Hcf Hc].
    destruct (c_unmarshal c) as [f|] eqn:Ef.
    + destruct pend; [apply eats_panic|apply Hs].
    + apply IH; [cbn; lia|exact Hc|exact Hs|exact Hv|exact Ho].
  - apply eats_deep.
Qed.

Lemma local_unmarshaler b t m : all_codecs (codec_local b) t ->
  borsh_field_unmarshaler t = Some m -> local b m.
Proof.
  intros Hc H. destruct t; try discriminate.
  - destruct t; try discriminate. cbn [borsh_field_unmarshaler] in H.
    destruct (c_unmarshal c) as [f|] eqn:Ef; inversion H; subst.
    destruct Hc as [Hc _]. apply local_fmap. now apply Hc.
  - cbn [borsh_field_unmarshaler] in H.
    destruct (c_unmarshal c) as [f|] eqn:Ef; inversion H; subst.
    destruct Hc as [Hc _]. now apply Hc.
Qed.

Lemma local_dec_fields b E rec fs : forall ps sizes seen,
  Forall (fun ht => all_codecs (codec_local b) (snd ht) /\
                    forall o v, local b (rec (snd ht) o v)) fs ->
  no_ext (TStruct fs) ->
  local b (dec_fields E rec fs ps sizes seen).
Proof.
  induction fs as [|[h t] fs IH]; intros ps sizes seen H Hx; cbn [dec_fields].
  - local.
  - destruct ps as [|p ps]; [local|]. inversion_clear H as [|? ? [Hc H1] H2].
    inversion_clear Hx as [|? ? Hx1 Hx2]. cbn [fst] in Hx1. cbv zeta in Hx1.
    assert (IH' : forall ps sizes seen, local b (dec_fields E rec fs ps sizes seen)) by auto.
    cbn [snd] in *.
    destruct (ft_skip _); [local|]. destruct Hx1 as [Hx1|Hx1]; [discriminate|]. rewrite Hx1.
    destruct (negb _ && seen); [local|].
    destruct (negb (f_exported h)); [local|].
    destruct (is_borsh E); [destruct (borsh_field_unmarshaler t) as [m|] eqn:Em|].
    + pose proof (local_unmarshaler _ _ _ Hc Em). local.
    + local.
    + local.
Qed.

Lemma local_on {A} b (m m' : DM A) : (forall s, inside s -> m s = m' s) -> local b m -> local b m'.
Proof.
  intros Heq H E c pre rest x s' Hm.
  assert (Hi : forall p q c E, m' (mkD (p ++ q) (zlen p) c E) = m (mkD (p ++ q) (zlen p) c E)).
  { intros p q c0 E0. symmetry. apply Heq. unfold inside. cbn [d_pos d_data]. unfold zlen. rewrite app_length. lia. }
  rewrite Hi in Hm. destruct (H _ _ _ _ _ _ Hm) as (bs & post & c' & H1 & H2 & H3 & H4 & H5).
  exists bs, post, c'. split; [exact H1|]. split; [exact H2|]. split; [|split].
  - intros post' Hp pre'. specialize (H3 post' Hp pre'). now rewrite Hi.
  - intros pre' post'. unfold fails. rewrite Hi. apply H4.
  - intros p q Hpq Hq pre'. unfold fails. specialize (H5 p q Hpq Hq pre'). unfold fails in H5.
    rewrite <- (app_nil_r (pre' ++ p)) in H5 |- *. rewrite <- app_assoc in *.
    replace (m' (mkD (pre' ++ p ++ []) (zlen pre') c E)) with (m (mkD (pre' ++ p ++ []) (zlen pre') c E)); [exact H5|].
    symmetry. apply Hi.
Qed.

Lemma local_sealed b t : forall v, local b (dec_sealed t v).
Proof.
  induction t as [t IH] using ty_strong_ind. intro v.
  destruct t as [|un w|nm w|f| |sg| | |t|n t|t|t1 t2|fs|c t|]; cbn [dec_sealed];
    try (apply local_never; intros; apply hopeless_never); try solve [clear IH; local].
  - destruct v as [| | | |[x|]| | | | | |]; try solve [clear IH; local]. apply IH. cbn. lia.
  - destruct (uint_kind t); [destruct n; clear IH; local|]. destruct v; try solve [clear IH; local].
    apply local_bind; [|intro; local]. apply local_each. intro a. apply local_bind; [local|]. intros _.
    apply IH. cbn. lia.
  - apply local_bind; [local|]. intro l. destruct (l =? 0); [local|]. apply local_never. intros s x s'.
    unfold bind at 1, d_remaining. cbn. destruct (_ <? l); [discriminate|].
    destruct (uint_kind t); [apply then_panic_never|discriminate].
  - destruct v; try solve [clear IH; local].
    destruct (is_enum fs); [apply local_never; intros; apply then_panic_never|].
    apply local_bind; [|intro; local].
    destruct (hidden_fields (fun _ _ p => ret p) fs l [] false) as (r & Hr & H).
    apply (local_on b (fun s => (r, s))); [intros; symmetry; now apply H|].
    destruct Hr as [->|[->| ->]]; [exact (local_ret _ l)|apply local_never; discriminate|apply local_never; discriminate].
  - apply IH. cbn. lia.
Qed.
#[global] Hint Resolve local_sealed : local.

Lemma local_dec_variant b rec fs : forall ps n,
  Forall (fun ht => forall o v, local b (rec (snd ht) o v)) fs ->
  local b (dec_variant rec fs ps n).
Proof.
  induction fs as [|[h t] fs IH]; intros ps n H; cbn [dec_variant].
  - local.
  - destruct ps as [|p ps]; [local|]. inversion_clear H as [|? ? H1 H2].
    cbn [snd] in H1. destruct n; [|specialize (IH ps n H2)]; local.
Qed.

Lemma local_pend b p t core : local b core -> local b (with_pend p t core).
Proof. intro H. unfold with_pend. local. Qed.

Lemma local_dec_struct b E fs ps :
  Forall (fun ht => all_codecs (codec_local b) (snd ht) /\
                    forall o v, local b (dec_val E (snd ht) (DStart o) v)) fs ->
  no_ext (TStruct fs) ->
  local b (dec_struct E fs ps).
Proof.
  intros H Hx. unfold dec_struct. destruct (is_borsh E && is_enum fs).
  - apply local_bind; [local|]. intro n. destruct fs as [|[h t] fs]; [local|].
    destruct ps as [|p ps]; [local|]. destruct (negb (f_exported h)); [local|].
    apply local_bind; [|intro; local]. apply local_dec_variant.
    inversion_clear H as [|? ? _ H']. rewrite Forall_forall in *. intros ht Hin. now apply H'.
  - apply local_fmap. now apply local_dec_fields.
Qed.

Lemma local_dec_val b E t : all_codecs (codec_local b) t -> everywhere no_ext t ->
  (b = true -> all_codecs codec_within t /\ everywhere (solid_slices E) t) ->
  forall m v, local b (dec_val E t m v).
Proof.
  induction t as [t IH] using ty_strong_ind. intros Hc Hx Hb.
  assert (Hwalk : forall o pend v, local b (dec_val E t (DWalk o pend) v)).
  { intros o pend v. rewrite dec_walk_eq.
    destruct t as [|un w|nm w|f| |sg| | |t|n t|t|t1 t2|fs|c t|];
      try (apply local_pend); try solve [clear IH; local].
    - (* pointer *)
      apply local_fmap.
      apply IH; [cbn; lia|exact Hc|apply Hx|]. intro Hbt. destruct (Hb Hbt) as [H1 H2].
      split; [exact H1|apply H2].
    - (* array *)
      assert (IHt : forall m v, local b (dec_val E t m v)).
      { apply IH; [cbn; lia|exact Hc|apply Hx|]. intro Hbt. destruct (Hb Hbt) as [H1 H2].
        split; [exact H1|apply H2]. }
      local.
    - (* slice *)
      assert (IHt : forall m v, local b (dec_val E t m v)).
      { apply IH; [cbn; lia|exact Hc|apply Hx|]. intro Hbt. destruct (Hb Hbt) as [H1 H2].
        split; [exact H1|apply H2]. }
      apply local_bind; [local|]. intro l. destruct (is_borsh E && (l =? 0)); [local|].
      apply local_remaining; [local|]. intro Hbt. destruct (Hb Hbt) as [H1 H2].
      destruct (uint_kind t) as [w|] eqn:Eu.
      + apply eats_fmap; [within|apply eats_read_uints].
      + assert (Hwt : within (dec_val E t (DStart opt0) (zero_val t))) by now apply within_dec_val.
        apply eats_fmap; [within|].
        apply (eats_le (Z.of_nat (Z.to_nat l) * 1)); [lia|]. apply eats_read_rep; [exact Hwt|].
        apply eats_start; [exact H1| |apply fits_zero|now left].
        apply eats_dec_val; [exact H1|]. destruct H2 as [H2 _]. now apply H2.
    - (* map *)
      destruct Hc as [Hc1 Hc2]. destruct Hx as (_ & Hx1 & Hx2).
      assert (IH1 : forall m v, local b (dec_val E t1 m v)).
      { apply IH; [cbn; lia|exact Hc1|apply Hx1|]. intro Hbt. destruct (Hb Hbt) as [H1 H2].
        split; [apply H1|apply H2]. }
      assert (IH2 : forall m v, local b (dec_val E t2 m v)).
      { apply IH; [cbn; lia|exact Hc2|apply Hx2|]. intro Hbt. destruct (Hb Hbt) as [H1 H2].
        split; [apply H1|apply H2]. }
      local.
    - (* struct *)
      destruct v; try solve [local]. apply all_codecs_struct in Hc. apply everywhere_struct in Hx.
      destruct Hx as [Hx Hxf]. apply local_dec_struct; [|exact Hx].
      apply Forall_forall. intros [h t'] Hin. cbn [snd]. rewrite Forall_forall in Hc, Hxf.
      split; [exact (Hc _ Hin)|]. intros.
      apply IH; [now apply (ty_size_field _ h)|exact (Hc _ Hin)|exact (Hxf _ Hin)|].
      intro Hbt. destruct (Hb Hbt) as [H1 H2]. apply all_codecs_struct in H1.
      apply everywhere_struct in H2. destruct H2 as [_ H2]. rewrite Forall_forall in H1, H2.
      split; [exact (H1 _ Hin)|exact (H2 _ Hin)].
    - (* codec *)
      destruct Hc as [Hf Hc]. destruct Hx as [_ Hx].
      assert (IHt : forall m v, local b (dec_val E t m v)).
      { apply IH; [cbn; lia|exact Hc|apply Hx|]. intro Hbt. destruct (Hb Hbt) as [H1 H2].
        split; [apply H1|apply H2]. }
      destruct (c_unmarshal c) as [f|] eqn:Ef; [pose proof (fun v => Hf f v Ef)|]; local. }
  assert (Hfl : forall o v, local b (dec_flagged E t o v)).
  { intros. unfold dec_flagged. local. }
  assert (Hnull : forall o v, local b (dec_val E t (DNull o) v)).
  { intros o v. rewrite dec_null_eq. destruct t; try solve [clear IH; local].
    destruct (is_ptr t); [|local]. destruct v; try solve [clear IH; local]. destruct p; [|local].
    apply local_fmap. apply IH; [cbn; lia|exact Hc|apply Hx|]. intro Hbt.
    destruct (Hb Hbt) as [H1 H2]. split; [exact H1|apply H2]. }
  intros [o|o|o pend] v; [rewrite dec_start_eq; local|apply Hnull|apply Hwalk].
Qed.

(** * Decode *)

Lemma decode_run t v s : decode t v s = dec_val (d_enc s) t (DStart opt0) v s.
Proof. reflexivity. Qed.

Lemma inside_split s : inside s -> exists pre rest, s = mkD (pre ++ rest) (zlen pre) (d_cur s) (d_enc s).
Proof.
  intro H. destruct s as [d p c E]. unfold inside in H. cbn [d_data d_pos d_cur d_enc] in *.
  exists (firstn (Z.to_nat p) d), (skipn (Z.to_nat p) d). rewrite firstn_skipn. f_equal.
  unfold zlen in *. rewrite firstn_length. lia.
Qed.

(** C06 *)
Lemma decode_trailing E t v data pos c x s' more :
  all_codecs (codec_local false) t -> everywhere no_ext t -> 0 <= pos <= zlen data ->
  decode t v (mkD data pos c E) = (Ok x, s') ->
  decode t v (mkD (data ++ more) pos c E) = (Ok x, mkD (data ++ more) (d_pos s') (d_cur s') E).
Proof.
  intros Hc Hx Hp H. rewrite decode_run in *. cbn [d_enc] in *.
  destruct (inside_split (mkD data pos c E) Hp) as (pre & rest & Hs). cbn [d_cur d_enc] in Hs.
  rewrite Hs in H. injection Hs as -> ->.
  destruct (local_dec_val false E t Hc Hx ltac:(easy) (DStart opt0) v E c pre rest x s' H)
    as (bs & post & c' & -> & -> & H3 & _). cbn [d_pos d_cur].
  rewrite <- !app_assoc. apply H3. right. rewrite zlen_app. pose proof (zlen_nonneg more). lia.
Qed.

(** C52 *)
Lemma decode_prefix E t v data x s' :
  all_codecs (codec_local true) t -> all_codecs codec_within t -> everywhere no_ext t ->
  everywhere (solid_slices E) t ->
  decode t v (new_decoder E data) = (Ok x, s') ->
  0 <= d_pos s' <= zlen data /\
  forall post, let data' := firstn (Z.to_nat (d_pos s')) data ++ post in
  decode t v (new_decoder E data') = (Ok x, mkD data' (d_pos s') (d_cur s') E).
Proof.
  intros Hc Hw Hx Hb H. rewrite decode_run in *. cbn [d_enc new_decoder] in *.
  destruct (local_dec_val true E t Hc Hx ltac:(easy) (DStart opt0) v E None [] data x s' H)
    as (bs & post0 & c' & -> & -> & H3 & _). cbn [d_pos d_cur app]. change (zlen (@nil Z)) with 0.
  rewrite Z.add_0_l. pose proof (zlen_nonneg bs). pose proof (zlen_nonneg post0). rewrite zlen_app.
  split; [lia|]. intro post. cbv zeta.
  replace (firstn (Z.to_nat (zlen bs)) (bs ++ post0)) with bs.
  - pose proof (H3 post (or_introl eq_refl) []) as H4. cbn [app] in H4. exact H4.
  - unfold zlen. now rewrite Nat2Z.id, firstn_app, Nat.sub_diag, firstn_all, app_nil_r.
Qed.

(** Builtin codecs. *)
Lemma codec_local_simple b m u t : local b u -> codec_local b (simple_codec m u) t.
Proof. intros H f v [= <-]. exact H. Qed.
Lemma codec_local_u128 b x t : codec_local b (u128_codec x) t.
Proof. intros f v [= <-]. unfold u128_unmarshal, emsg. local. Qed.
