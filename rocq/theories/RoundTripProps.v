(** The round trip facts in the shape of the properties. *)
From Verif Require Import Types EncPrim DecPrim Enc Dec Builtin Spec NumFacts EncWire DecWire RoundTrip.

Lemma round_trip E : forall t v,
  ok E t None LE v ->
  exists b c,
    marshal E t v = (Ok tt, b) /\
    decode t (zero_val t) (new_decoder E b) =
      (Ok (back E t None LE (zero_val t) v), mkD b (zlen b) c E) /\
    (canon E t None LE v -> unmarshal E t (zero_val t) b = Ok v).
Proof.
  intros t v H. destruct (decode_run E t v (zero_val t) [] [] None H (fits_zero t)) as (c & E1).
  cbn [app] in E1. rewrite app_nil_r in E1. change (zlen []) with 0 in E1. cbn [Z.add] in E1.
  exists (wire E t None LE v), c. split; [now apply marshal_wire|]. split.
  - unfold new_decoder. rewrite E1. reflexivity.
  - intro Hc. unfold unmarshal, new_decoder. rewrite E1. cbn [fst]. now rewrite back_canon.
Qed.

Lemma streams : forall E l,
  Forall (fun tv => ok E (fst tv) None LE (snd tv)) l ->
  exists s c,
    encode_all l (new_encoder E buffer) = (Ok tt, s) /\
    decode_all (map (fun tv => (fst tv, zero_val (fst tv))) l) (new_decoder E (e_acc s)) =
      (Ok (map (fun tv => back E (fst tv) None LE (zero_val (fst tv)) (snd tv)) l),
       mkD (e_acc s) (zlen (e_acc s)) c E).
Proof.
  intros E l H. destruct (emits_all E l None H) as [c' Hc'].
  destruct (emits_run E None _ _ c' buffer 0 [] [] Hc' (fun _ => eq_refl)) as (cs & _ & E1).
  assert (Hz : Forall2 (fun tv p => fits (fst tv) p) l (map (fun tv => zero_val (fst tv)) l)).
  { clear. induction l; constructor; auto. apply fits_zero. }
  destruct (reads_decode_all E l H _ Hz [] [] None) as (c & E2).
  eexists. exists c. split; [exact E1|]. cbn [e_acc].
  cbn [app] in E2 |- *. rewrite app_nil_r in E2. change (zlen []) with 0 in E2. cbn [Z.add] in E2.
  unfold new_decoder.
  replace (map (fun tv => (fst tv, zero_val (fst tv))) l)
    with (combine (map fst l) (map (fun tv => zero_val (fst tv)) l)).
  - rewrite E2. f_equal. f_equal. clear. induction l; cbn; congruence.
  - clear. induction l; cbn; congruence.
Qed.

Lemma encode_format : forall E t v w c n hist acc,
  ok E t None LE v -> reliable w ->
  exists cs c',
    concat cs = wire E t None LE v /\
    encode t v (mkE E w c n hist acc) =
      (Ok tt, mkE E w c' (n + zlen (concat cs)) (hist ++ cs) (acc ++ concat cs)).
Proof.
  intros E t v w c n hist acc H Hw.
  destruct (encode_run E t v c w n hist acc H Hw) as (cs & c' & Hcs & E1).
  exists cs, c'. rewrite Hcs. auto.
Qed.

Lemma injective : forall E t v1 v2 b1 b2 r1 r2,
  ok E t None LE v1 -> ok E t None LE v2 ->
  marshal E t v1 = (Ok tt, b1) -> marshal E t v2 = (Ok tt, b2) ->
  b1 ++ r1 = b2 ++ r2 ->
  b1 = b2 /\
  back E t None LE (zero_val t) v1 = back E t None LE (zero_val t) v2 /\
  (canon E t None LE v1 -> canon E t None LE v2 -> v1 = v2).
Proof.
  intros E t v1 v2 b1 b2 r1 r2 H1 H2 M1 M2 Heq.
  rewrite (marshal_wire E t v1 H1) in M1. rewrite (marshal_wire E t v2 H2) in M2.
  injection M1 as <-. injection M2 as <-.
  destruct (wire_prefix E t v1 v2 r1 r2 (zero_val t) H1 H2 (fits_zero t) Heq) as [Hw Hb].
  split; [exact Hw|]. split; [exact Hb|]. intros C1 C2.
  rewrite <- (back_canon E t None LE v1 C1), <- (back_canon E t None LE v2 C2). exact Hb.
Qed.

Lemma reused : forall E t v p pre post c,
  ok E t None LE v -> fits t p ->
  exists c',
    decode t p (mkD (pre ++ wire E t None LE v ++ post) (zlen pre) c E) =
      (Ok (back E t None LE p v),
       mkD (pre ++ wire E t None LE v ++ post)
           (zlen pre + zlen (wire E t None LE v)) c' E).
Proof. intros. now apply decode_run. Qed.

Lemma overwritten : forall E t v p p' pre post c,
  ok E t None LE v -> fills E t None LE v -> fits t v -> fits t p -> fits t p' ->
  fst (decode t p (mkD (pre ++ wire E t None LE v ++ post) (zlen pre) c E)) =
  fst (decode t p' (mkD (pre ++ wire E t None LE v ++ post) (zlen pre) c E)).
Proof.
  intros E t v p p' pre post c H Hf Hv Hp Hp'.
  destruct (decode_run E t v p pre post c H Hp) as (c1 & ->).
  destruct (decode_run E t v p' pre post c H Hp') as (c2 & ->).
  cbn [fst]. f_equal. now apply back_fills.
Qed.
