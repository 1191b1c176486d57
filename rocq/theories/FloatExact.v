(** strconv.ParseFloat accepts exactly the texts of [FloatSpec] and returns the
    nearest float64. *)
From Verif Require Import Base Num Types Text Json NumFacts TextFacts JsonSpec JsonExact FloatSpec FloatFacts ParseFloat FloatRound.
From Coq Require Import Lia.
Notation length := Datatypes.length.

(** ** Digits *)

Definition bas (hex : bool) : Z := if hex then 16 else 10.
Lemma fl_digit_base hex c d : fl_digit hex c = Some d <-> base_digit (bas hex) c d.
Proof.
  unfold fl_digit, base_digit, bas, is_digit, hex_val. destruct hex.
  - destruct ((48 <=? c) && (c <=? 57)) eqn:E1; [|destruct ((97 <=? c) && (c <=? 102)) eqn:E2;
      [|destruct ((65 <=? c) && (c <=? 70)) eqn:E3]]; (split; [intro H; try discriminate; assert (E := H); inversion E; subst; lia|
        intro H; try (f_equal; lia); exfalso; lia]).
  - destruct ((48 <=? c) && (c <=? 57)) eqn:E1; (split; [intro H; try discriminate; inversion H; subst; lia|
        intro H; try (f_equal; lia); exfalso; lia]).
Qed.
Lemma fl_digit_none hex c : fl_digit hex c = None -> forall d, ~ base_digit (bas hex) c d.
Proof. intros H d Hd. apply fl_digit_base in Hd. congruence. Qed.
Lemma is_digit_base c : is_digit c = true <-> base_digit 10 c (c - 48).
Proof. unfold is_digit, base_digit. lia. Qed.
Lemma digit_not_sep hex c d : fl_digit hex c = Some d -> (c =? 95) = false /\ (c =? 46) = false.
Proof. rewrite fl_digit_base. unfold base_digit, bas. destruct hex; lia. Qed.

Lemma count_cons c s : c <> 95 -> digit_count (c :: s) = digit_count s + 1.
Proof. intro H. unfold digit_count. cbn [filter]. destruct (Z.eqb_spec c 95); [easy|]. cbn [negb]. rewrite zlen_cons. lia. Qed.
Lemma count_sep s : digit_count (95 :: s) = digit_count s.
Proof. reflexivity. Qed.
Lemma count_nonneg s : 0 <= digit_count s. Proof. apply zlen_nonneg. Qed.
Lemma count_le s : digit_count s <= zlen s.
Proof.
  unfold digit_count. induction s as [|c s IH]; [cbn; lia|]. cbn [filter].
  destruct (negb (c =? 95)); rewrite ?zlen_cons; rewrite ?zlen_cons in *; lia.
Qed.

Lemma rest_shift b n s m : rest b n s m -> forall x, rest b (n + x) s (m + x * b ^ digit_count s).
Proof.
  induction 1 as [n|n c d s m Hc _ IH|n c d s m Hc _ IH]; intro x.
  - change (digit_count []) with 0. rewrite Z.pow_0_r, Z.mul_1_r. constructor.
  - apply rest_dig with d; [exact Hc|]. specialize (IH (x * b)).
    rewrite count_cons by now apply not_sep in Hc. pose proof (count_nonneg s).
    rewrite Z.pow_add_r, Z.pow_1_r by lia.
    replace ((n + x) * b + d) with (n * b + d + x * b) by ring.
    replace (x * (b ^ digit_count s * b)) with (x * b * b ^ digit_count s) by ring. exact IH.
  - apply rest_sep with d; [exact Hc|]. specialize (IH (x * b)).
    rewrite count_sep, count_cons by now apply not_sep in Hc. pose proof (count_nonneg s).
    rewrite Z.pow_add_r, Z.pow_1_r by lia.
    replace ((n + x) * b + d) with (n * b + d + x * b) by ring.
    replace (x * (b ^ digit_count s * b)) with (x * b * b ^ digit_count s) by ring. exact IH.
Qed.

Lemma rest_mant hex n s m : rest (bas hex) n s m -> forall r dot k,
  fl_mant hex (s ++ r) dot true n k = fl_mant hex r dot true m (if dot then k + digit_count s else k).
Proof.
  induction 1 as [n|n c d s m Hc _ IH|n c d s m Hc _ IH]; intros r dot k; cbn [app fl_mant].
  - change (digit_count []) with 0. destruct dot; f_equal; lia.
  - apply fl_digit_base in Hc. destruct (digit_not_sep _ _ _ Hc) as [-> ->]. rewrite Hc.
    change (if hex then 16 else 10) with (bas hex). rewrite IH.
    apply fl_digit_base, not_sep in Hc. rewrite count_cons by exact Hc. destruct dot; [f_equal; lia|reflexivity].
  - change (95 =? 95) with true. cbn iota.
    apply fl_digit_base in Hc. destruct (digit_not_sep _ _ _ Hc) as [-> ->]. rewrite Hc.
    change (if hex then 16 else 10) with (bas hex). rewrite IH.
    apply fl_digit_base, not_sep in Hc. rewrite count_sep, count_cons by exact Hc. destruct dot; [f_equal; lia|reflexivity].
Qed.
Lemma digits_mant hex n s : digits_of (bas hex) n s -> forall r dot saw x k,
  fl_mant hex (s ++ r) dot saw x k =
  fl_mant hex r dot true (x * bas hex ^ digit_count s + n) (if dot then k + digit_count s else k).
Proof.
  rewrite digits_rest. intros (c & d & s' & -> & Hc & Hr) r dot saw x k. cbn [app fl_mant].
  pose proof (not_sep _ _ _ Hc) as Nc. apply fl_digit_base in Hc. destruct (digit_not_sep _ _ _ Hc) as [-> ->]. rewrite Hc.
  change (if hex then 16 else 10) with (bas hex).
  pose proof (rest_shift _ _ _ _ Hr (x * bas hex)) as Hs. rewrite Z.add_comm in Hs.
  rewrite (rest_mant _ _ _ _ Hs). rewrite count_cons by exact Nc. pose proof (count_nonneg s').
  rewrite Z.pow_add_r, Z.pow_1_r by lia. f_equal; [ring|destruct dot; lia].
Qed.

(** ** Underscores *)

Lemma rest_under hex n s m : rest (bas hex) n s m -> forall r,
  under_loop hex PDigit (s ++ r) = under_loop hex PDigit r.
Proof.
  induction 1 as [n|n c d s m Hc _ IH|n c d s m Hc _ IH]; intro r; cbn [app under_loop]; [reflexivity|..];
    apply fl_digit_base in Hc.
  - rewrite Hc. apply IH.
  - assert (E : fl_digit hex 95 = None) by (destruct hex; reflexivity). rewrite E.
    change (95 =? 95) with true. cbn iota. rewrite Hc. apply IH.
Qed.
Lemma digits_under hex n s : digits_of (bas hex) n s -> forall p r,
  under_loop hex p (s ++ r) = under_loop hex PDigit r.
Proof.
  rewrite digits_rest. intros (c & d & s' & -> & Hc & Hr) p r. cbn [app under_loop].
  apply fl_digit_base in Hc. rewrite Hc. now apply rest_under with d n.
Qed.
(** Decimal digits are hexadecimal digits. *)
Lemma base_10_16 hex c d : base_digit 10 c d -> base_digit (bas hex) c d.
Proof. unfold base_digit, bas. destruct hex; lia. Qed.
Lemma digits10_under hex n s : digits_of 10 n s -> forall p r,
  under_loop hex p (s ++ r) = under_loop hex PDigit r.
Proof.
  intro H. assert (G : exists m, digits_of (bas hex) m s).
  { induction H as [c d Hc|n s c d _ [m IH] Hc|n s c d _ [m IH] Hc].
    - exists d. constructor. now apply base_10_16.
    - exists (m * bas hex + d). apply dig_more; [exact IH|now apply base_10_16].
    - exists (m * bas hex + d). apply dig_sep; [exact IH|now apply base_10_16]. }
  destruct G as [m G]. now apply digits_under with m.
Qed.
Lemma no_under hex s : existsb (fun c => c =? 95) s = false -> forall p, p <> PSep -> under_loop hex p s = true.
Proof.
  induction s as [|c s IH]; intros H p Hp; cbn [under_loop]; [now destruct p|]. cbn [existsb] in H.
  apply orb_false_iff in H as [E H]. rewrite E. destruct (fl_digit hex c); [apply IH; [exact H|discriminate]|].
  destruct p; try easy; now apply IH.
Qed.

Lemma strip_sign_spec s : exists neg u, strip_sign s = (neg, u) /\ signed neg u s /\
  (forall neg' u', signed neg' u' s -> hd 0 u' <> 43 -> hd 0 u' <> 45 -> neg' = neg /\ u' = u).
Proof.
  destruct s as [|c s].
  - exists false, []. split; [reflexivity|]. split; [left; auto|].
    intros neg' u' [(-> & [<-|E])|(-> & E)] _ _; [auto|discriminate|discriminate].
  - unfold strip_sign. destruct (Z.eq_dec c 43) as [->|N1]; [|destruct (Z.eq_dec c 45) as [->|N2]].
    + exists false, s. split; [reflexivity|]. split; [left; auto|].
      intros neg' u' [(-> & [<-|E])|(-> & E)] H1 H2; [cbn in H1; lia|injection E as <-; auto|discriminate].
    + exists true, s. split; [reflexivity|]. split; [right; auto|].
      intros neg' u' [(-> & [<-|E])|(-> & E)] H1 H2; [cbn in H2; lia|discriminate|injection E as <-; auto].
    + exists false, (c :: s). split; [|split; [left; auto|]].
      * destruct c as [|p|p]; try reflexivity. do 6 (destruct p as [p|p|]; try reflexivity); lia.
      * intros neg' u' [(-> & [<-|E])|(-> & E)] H1 H2; [auto|congruence|congruence].
Qed.

(** ** Exponents *)

(** What the loop makes of the digits of an exponent. *)
Definition capped (x e : Z) : Prop :=
  (0 <= x < 100000 /\ e = x) \/ (exists j, 0 < j /\ 10000 <= e < 100000 /\ e = x / 10 ^ j).
Lemma capped_step x e d : capped x e -> 0 <= d < 10 ->
  capped (x * 10 + d) (if e <? 10000 then e * 10 + d else e).
Proof.
  intros [[Hx ->]|(j & Hj & He & ->)] Hd.
  - destruct (Z.ltb_spec x 10000); [left; lia|]. right. exists 1. rewrite Z.pow_1_r. lia.
  - destruct (Z.ltb_spec (x / 10 ^ j) 10000); [lia|]. right. exists (j + 1). split; [lia|]. split; [lia|].
    rewrite Z.pow_add_r, Z.pow_1_r by lia. rewrite (Z.mul_comm (10 ^ j)).
    rewrite <- Z.div_div by (try lia; apply Z.pow_pos_nonneg; lia). f_equal. lia.
Qed.
Lemma rest_exp n s m : rest 10 n s m -> forall e r, capped n e -> exists e', capped m e' /\
  fl_exp (s ++ r) e = fl_exp r e'.
Proof.
  assert (D : forall c d, base_digit 10 c d -> (c =? 95) = false /\ is_digit c = true /\ d = c - 48 /\ 0 <= d < 10)
    by (unfold base_digit, is_digit; intros; lia).
  induction 1 as [n|n c d s m Hc _ IH|n c d s m Hc _ IH]; intros e r He; cbn [app fl_exp]; [eauto|..];
    apply D in Hc as (E1 & E2 & -> & Hd); [|change (95 =? 95) with true; cbn iota]; rewrite E1, E2;
    destruct (IH _ r (capped_step _ _ _ He Hd)) as (e' & H1 & H2); eauto.
Qed.
Lemma digits_exp n s : digits_of 10 n s -> exists e, capped n e /\ fl_exp s 0 = (e, []).
Proof.
  rewrite digits_rest. intros (c & d & s' & -> & Hc & Hr).
  assert (R : rest 10 0 (c :: s') n) by (apply rest_dig with d; [exact Hc|exact Hr]).
  destruct (rest_exp _ _ _ R 0 []) as (e & H1 & H2); [left; lia|]. exists e. now rewrite app_nil_r in H2.
Qed.
(** Backwards. *)
Lemma exp_rest hex s : forall n e e', under_loop hex PDigit s = true -> fl_exp s e = (e', []) -> capped n e ->
  exists m, rest 10 n s m /\ capped m e'.
Proof.
  remember (length s) as l eqn:El. revert s El. induction l as [l IH] using lt_wf_ind.
  intros s -> n e e' U F He. destruct s as [|c s].
  - cbn [fl_exp] in F. injection F as <-. exists n. split; [constructor|exact He].
  - cbn [fl_exp] in F. cbn [under_loop] in U. destruct (Z.eqb_spec c 95) as [->|N].
    + assert (E : fl_digit hex 95 = None) by (destruct hex; reflexivity). rewrite E in U.
      destruct s as [|c s]; [discriminate|]. cbn [fl_exp] in F. cbn [under_loop] in U.
      destruct (Z.eqb_spec c 95) as [->|N]; [rewrite E in U; discriminate|].
      destruct (is_digit c) eqn:Ed; [|discriminate].
      assert (Hb : base_digit 10 c (c - 48)) by now apply is_digit_base.
      assert (Hd : fl_digit hex c = Some (c - 48)) by (apply fl_digit_base; now apply base_10_16).
      rewrite Hd in U. destruct (IH (length s) ltac:(cbn; lia) s eq_refl (n * 10 + (c - 48)) _ e' U F) as (m & H1 & H2).
      { apply capped_step; [exact He|unfold base_digit in Hb; lia]. }
      exists m. split; [now apply rest_sep with (c - 48)|exact H2].
    + destruct (is_digit c) eqn:Ed; [|discriminate].
      assert (Hb : base_digit 10 c (c - 48)) by now apply is_digit_base.
      assert (Hd : fl_digit hex c = Some (c - 48)) by (apply fl_digit_base; now apply base_10_16).
      rewrite Hd in U. destruct (IH (length s) ltac:(cbn; lia) s eq_refl (n * 10 + (c - 48)) _ e' U F) as (m & H1 & H2).
      { apply capped_step; [exact He|unfold base_digit in Hb; lia]. }
      exists m. split; [now apply rest_dig with (c - 48)|exact H2].
Qed.

(** Both signs. *)
Definition scapped (x e : Z) : Prop := (0 <= x /\ capped x e) \/ (x <= 0 /\ capped (- x) (- e)).
Definition exp_chars (hex : bool) (c : Z) : Prop :=
  if hex then c = 112 \/ c = 80 else c = 101 \/ c = 69.
Definition exponent_of (hex : bool) : Z -> list Z -> Prop :=
  if hex then exponent 112 80 else exponent 101 69.
Lemma digits_nonneg b n s : 0 < b -> digits_of b n s -> 0 <= n.
Proof. intro Hb. induction 1; unfold base_digit in *; lia. Qed.
Lemma exponent_parse hex x t : exponent_of hex x t -> exists e, scapped x e /\ fl_exponent hex t = Some (e, []).
Proof.
  intro H. assert (H' : exists c ds, exp_chars hex c /\
    ((digits_of 10 x ds /\ (t = c :: ds \/ t = c :: 43 :: ds)) \/ (digits_of 10 (- x) ds /\ t = c :: 45 :: ds))).
  { unfold exponent_of in H. destruct hex; exact H. }
  clear H. destruct H' as (c & ds & Hc & H).
  assert (C : (if hex then (c =? 112) || (c =? 80) else (c =? 101) || (c =? 69)) = true).
  { unfold exp_chars in Hc. destruct hex; lia. }
  assert (G : forall n, digits_of 10 n ds -> exists c1 r, ds = c1 :: r /\ is_digit c1 = true /\ c1 <> 43 /\ c1 <> 45).
  { intros n Hn. destruct (base10_head _ _ Hn) as (c1 & r & -> & D). exists c1, r. unfold digit in D.
    repeat split; [unfold is_digit|..]; lia. }
  assert (M : forall (c1 : Z) r, c1 <> 43 -> c1 <> 45 ->
    match c1 :: r with 43 :: r' => (false, r') | 45 :: r' => (true, r') | _ => (false, c1 :: r) end = (false, c1 :: r)).
  { intros c1 r N1 N2. destruct c1 as [|p|p]; try reflexivity. do 6 (destruct p as [p|p|]; try reflexivity); lia. }
  destruct H as [[Hn [->| ->]]|[Hn ->]]; destruct (digits_exp _ _ Hn) as (e & He & F);
    destruct (G _ Hn) as (c1 & r & -> & D & N1 & N2); pose proof (digits_nonneg 10 _ _ ltac:(lia) Hn) as P;
    cbn [fl_exponent]; rewrite C.
  - rewrite M by assumption. cbn iota beta. rewrite D, F. exists e. split; [now left|reflexivity].
  - rewrite D, F. exists e. split; [now left|reflexivity].
  - rewrite D, F. exists (- e). split; [right; split; [lia|now rewrite Z.opp_involutive]|reflexivity].
Qed.
Lemma exponent_under hex x t : exponent_of hex x t -> forall p, p <> PSep -> under_loop hex p t = true.
Proof.
  intros H p Hp. assert (H' : exists c ds, exp_chars hex c /\
    ((digits_of 10 x ds /\ (t = c :: ds \/ t = c :: 43 :: ds)) \/ (digits_of 10 (- x) ds /\ t = c :: 45 :: ds))).
  { unfold exponent_of in H. destruct hex; exact H. }
  clear H. destruct H' as (c & ds & Hc & H).
  assert (C : fl_digit hex c = None /\ (c =? 95) = false).
  { unfold exp_chars in Hc. destruct hex, Hc as [-> | ->]; split; reflexivity. }
  destruct C as [C1 C2]. assert (S1 : fl_digit hex 43 = None) by (destruct hex; reflexivity).
  assert (S2 : fl_digit hex 45 = None) by (destruct hex; reflexivity).
  assert (U : forall n q, digits_of 10 n ds -> under_loop hex q ds = true).
  { intros n q Hn. rewrite <- (app_nil_r ds), (digits10_under hex n ds Hn). reflexivity. }
  destruct H as [[Hn [->| ->]]|[Hn ->]]; cbn [under_loop]; rewrite C1, C2, ?S1, ?S2;
    (destruct p; try easy); try change (43 =? 95) with false; try change (45 =? 95) with false; cbn iota; eapply U; eassumption.
Qed.
Lemma exponent_back hex c r e : fl_exponent hex (c :: r) = Some (e, []) -> r <> [] \/ hex = true ->
  (exists p, p <> PSep /\ under_loop hex p (c :: r) = true) ->
  (exists x, exponent_of hex x (c :: r) /\ scapped x e).
Proof.
  intros F Nr (p & Hp & U). cbn [fl_exponent] in F.
  destruct (if hex then (c =? 112) || (c =? 80) else (c =? 101) || (c =? 69)) eqn:C.
  2:{ destruct hex; discriminate. }
  assert (Hc : exp_chars hex c) by (unfold exp_chars; destruct hex; lia). clear Nr.
  assert (C' : fl_digit hex c = None /\ (c =? 95) = false).
  { unfold exp_chars in Hc. destruct hex, Hc as [-> | ->]; split; reflexivity. }
  destruct C' as [C1 C2]. cbn [under_loop] in U. rewrite C1, C2 in U.
  assert (U' : under_loop hex PStart r = true) by (destruct p; [exact U|exact U|easy]). clear U.
  assert (K : forall (neg : bool) ds (e : Z), under_loop hex PStart ds = true ->
    match ds with
    | c1 :: _ => if is_digit c1 then let '(e, r2) := fl_exp ds 0 in Some (if neg then - e else e, r2) else None
    | [] => None end = Some (e, []) -> exists n, digits_of 10 n ds /\ capped n (if neg then - e else e)).
  { clear. intros neg ds e U F. destruct ds as [|c1 ds]; [discriminate|]. destruct (is_digit c1) eqn:D; [|discriminate].
    destruct (fl_exp (c1 :: ds) 0) as [e1 r2] eqn:Fe. assert (r2 = []) as -> by congruence.
    assert (e = if neg then - e1 else e1) as -> by congruence. clear F.
    assert (Hb : base_digit 10 c1 (c1 - 48)) by now apply is_digit_base.
    assert (Hd : fl_digit hex c1 = Some (c1 - 48)) by (apply fl_digit_base; now apply base_10_16).
    cbn [under_loop] in U. rewrite Hd in U. cbn [fl_exp] in Fe.
    assert (N : (c1 =? 95) = false) by (unfold base_digit in Hb; lia). rewrite N, D in Fe. change (0 <? 10000) with true in Fe. cbn iota in Fe.
    destruct (exp_rest hex ds (0 * 10 + (c1 - 48)) _ _ U Fe) as (m & H1 & H2).
    { left. unfold base_digit in Hb. lia. }
    exists m. split; [apply digits_rest; exists c1, (c1 - 48), ds; auto|]. destruct neg; [now rewrite Z.opp_involutive|exact H2]. }
  assert (X : forall x ds, (digits_of 10 x ds /\ (c :: r = c :: ds \/ c :: r = c :: 43 :: ds)) \/
      (digits_of 10 (- x) ds /\ c :: r = c :: 45 :: ds) -> exponent_of hex x (c :: r)).
  { intros x ds H. unfold exponent_of, exp_chars in *. destruct hex; exists c, ds; auto. }
  assert (T : r = [] \/ exists c1 r1, r = c1 :: r1) by (destruct r; eauto).
  destruct T as [->|(c1 & r1 & ->)]; [discriminate|].
  assert (S1 : fl_digit hex 43 = None) by (destruct hex; reflexivity).
  assert (S2 : fl_digit hex 45 = None) by (destruct hex; reflexivity).
  destruct (Z.eq_dec c1 43) as [->|N1]; [|destruct (Z.eq_dec c1 45) as [->|N2]].
  - cbn [under_loop] in U'. rewrite S1 in U'. change (43 =? 95) with false in U'. cbn iota in U'.
    destruct (K false r1 e U' F) as (n & H1 & H2). exists n. split; [apply X with r1; auto|].
    left. split; [now apply digits_nonneg in H1|exact H2].
  - cbn [under_loop] in U'. rewrite S2 in U'. change (45 =? 95) with false in U'. cbn iota in U'.
    destruct (K true r1 e U' F) as (n & H1 & H2). exists (- n). rewrite <- (Z.opp_involutive n) in H1, H2.
    split; [apply X with r1; auto|].
    right. pose proof (digits_nonneg 10 _ _ ltac:(lia) H1). split; [lia|exact H2].
  - assert (M : match c1 :: r1 with 43 :: r' => (false, r') | 45 :: r' => (true, r') | _ => (false, c1 :: r1) end = (false, c1 :: r1)).
    { destruct c1 as [|q|q]; try reflexivity. do 6 (destruct q as [q|q|]; try reflexivity); lia. }
    rewrite M in F. destruct (K false (c1 :: r1) e U' F) as (n & H1 & H2). exists n. split; [apply X with (c1 :: r1); auto|].
    left. split; [now apply digits_nonneg in H1|exact H2].
Qed.

(** ** Mantissas *)

Lemma sep_digit hex : fl_digit hex 95 = None. Proof. destruct hex; reflexivity. Qed.
Lemma dot_digit hex : fl_digit hex 46 = None. Proof. destruct hex; reflexivity. Qed.
(** After an underscore comes a digit. *)
Lemma after_sep hex s : under_loop hex PSep s = true -> exists c d s', s = c :: s' /\ fl_digit hex c = Some d /\
  under_loop hex PDigit s' = true.
Proof.
  destruct s as [|c s]; [discriminate|]. cbn [under_loop]. destruct (fl_digit hex c) as [d|] eqn:E.
  - intro U. exists c, d, s. auto.
  - destruct (c =? 95); discriminate.
Qed.
Lemma mant_digit hex c d s dot saw n k : fl_digit hex c = Some d ->
  fl_mant hex (c :: s) dot saw n k = fl_mant hex s dot true (n * bas hex + d) (if dot then k + 1 else k).
Proof. intro H. cbn [fl_mant]. destruct (digit_not_sep _ _ _ H) as [-> ->]. now rewrite H. Qed.

Lemma run_back hex s : forall dot n k sw m k' s3,
  under_loop hex PDigit s = true -> fl_mant hex s dot true n k = (sw, m, k', s3) ->
  exists u n1, rest (bas hex) n u n1 /\
    ((s = u ++ s3 /\ m = n1 /\ k' = (if dot then k + digit_count u else k) /\ under_loop hex PDigit s3 = true) \/
     (dot = false /\ exists s', s = u ++ 46 :: s' /\ fl_mant hex s' true true n1 k = (sw, m, k', s3) /\
        under_loop hex PStart s' = true)).
Proof.
  remember (length s) as l eqn:El. revert s El. induction l as [l IH] using lt_wf_ind.
  intros s -> dot n k sw m k' s3 U F.
  assert (Stop : (true, n, k, s) = (sw, m, k', s3) -> exists u n1, rest (bas hex) n u n1 /\
    ((s = u ++ s3 /\ m = n1 /\ k' = (if dot then k + digit_count u else k) /\ under_loop hex PDigit s3 = true) \/
     (dot = false /\ exists s', s = u ++ 46 :: s' /\ fl_mant hex s' true true n1 k = (sw, m, k', s3) /\
        under_loop hex PStart s' = true))).
  { intro E. injection E as <- <- <- <-. exists [], n. split; [constructor|]. left.
    change (digit_count []) with 0. repeat split; [destruct dot; lia|exact U]. }
  assert (Step : forall c d s', fl_digit hex c = Some d -> (length s' < length s)%nat -> under_loop hex PDigit s' = true ->
    fl_mant hex (c :: s') dot true n k = (sw, m, k', s3) -> exists u n1, rest (bas hex) n (c :: u) n1 /\
    ((s' = u ++ s3 /\ m = n1 /\ k' = (if dot then k + digit_count (c :: u) else k) /\ under_loop hex PDigit s3 = true) \/
     (dot = false /\ exists s'', s' = u ++ 46 :: s'' /\ fl_mant hex s'' true true n1 k = (sw, m, k', s3) /\
        under_loop hex PStart s'' = true))).
  { intros c d s' Hd L U' F'. rewrite (mant_digit _ _ _ _ _ _ _ _ Hd) in F'.
    destruct (IH (length s') L s' eq_refl dot _ _ sw m k' s3 U' F') as (u & n1 & R & C). exists u, n1.
    apply fl_digit_base in Hd. split; [now apply rest_dig with d|]. pose proof (not_sep _ _ _ Hd).
    destruct C as [(-> & -> & -> & Us)|(-> & s'' & -> & F2 & Us)]; [left|right].
    - rewrite count_cons by assumption. repeat split; [destruct dot; lia|exact Us].
    - split; [reflexivity|]. exists s''. auto. }
  destruct s as [|c s]; [now apply Stop|]. cbn [under_loop] in U. destruct (fl_digit hex c) as [d|] eqn:Ed.
  - destruct (Step c d s Ed ltac:(cbn; lia) U F) as (u & n1 & R & C). exists (c :: u), n1. split; [exact R|].
    destruct C as [(-> & C)|(-> & s'' & -> & C)]; [left; auto|right]. split; [reflexivity|]. exists s''. auto.
  - cbn [fl_mant] in F. destruct (Z.eqb_spec c 95) as [->|N].
    + apply after_sep in U as (c & d & s' & -> & Hd & U).
      destruct (Step c d s' Hd ltac:(cbn; lia) U F) as (u & n1 & R & C). exists (95 :: c :: u), n1. split.
      { inversion R as [|? ? d' ? ? H1 H2|? ? ? ? ? H1 H2]; subst; [now apply rest_sep with d'|].
        apply fl_digit_base, not_sep in Hd. easy. }
      destruct C as [(-> & C)|(-> & s'' & -> & C)]; [left; rewrite count_sep; auto|right]. split; [reflexivity|]. exists s''. auto.
    + destruct (Z.eqb_spec c 46) as [->|N2].
      * destruct dot; [now apply Stop|]. exists [], n. split; [constructor|]. right. split; [reflexivity|].
        exists s. auto.
      * rewrite Ed in F. now apply Stop.
Qed.

Definition clear_end (hex : bool) (s : list Z) : Prop := exists p, p <> PSep /\ under_loop hex p s = true.
Lemma after_dot hex s : forall sw n k m k' s3,
  under_loop hex PStart s = true -> fl_mant hex s true sw n k = (true, m, k', s3) ->
  (s = s3 /\ sw = true /\ m = n /\ k' = k /\ clear_end hex s3) \/
  (exists f fs, digits_of (bas hex) f fs /\ s = fs ++ s3 /\ m = n * bas hex ^ digit_count fs + f /\
     k' = k + digit_count fs /\ clear_end hex s3).
Proof.
  intros sw n k m k' s3 U F.
  assert (Stop : (sw, n, k, s) = (true, m, k', s3) -> s = s3 /\ sw = true /\ m = n /\ k' = k /\ clear_end hex s3).
  { intro E. injection E as -> <- <- <-. repeat split. exists PStart. split; [discriminate|exact U]. }
  destruct s as [|c s]; [left; now apply Stop|]. pose proof U as U0. cbn [under_loop] in U0.
  destruct (fl_digit hex c) as [d|] eqn:Ed.
  - right. rewrite (mant_digit _ _ _ _ _ _ _ _ Ed) in F.
    destruct (run_back hex s _ _ _ _ _ _ _ U0 F) as (u & n1 & R & [(-> & -> & -> & Us)|(C & _)]); [|discriminate].
    apply fl_digit_base in Ed. pose proof (not_sep _ _ _ Ed) as Nc.
    pose proof (rest_shift _ _ _ _ R (- (n * bas hex))) as R'.
    replace (n * bas hex + d + - (n * bas hex)) with d in R' by ring.
    exists (n1 + - (n * bas hex) * bas hex ^ digit_count u), (c :: u).
    split; [apply digits_rest; exists c, d, u; auto|]. split; [reflexivity|]. rewrite count_cons by exact Nc.
    pose proof (count_nonneg u). rewrite Z.pow_add_r, Z.pow_1_r by lia.
    split; [ring|]. split; [lia|]. exists PDigit. split; [discriminate|exact Us].
  - left. cbn [fl_mant] in F. destruct (Z.eqb_spec c 95) as [->|N]; [discriminate|].
    destruct (c =? 46); [now apply Stop|]. rewrite Ed in F. now apply Stop.
Qed.

Definition whole_of (hex : bool) : Z -> list Z -> Prop := if hex then prefixed 16 else digits_of 10.
Lemma mantissa_back hex s m k s3 : under_loop hex (if hex then PDigit else PStart) s = true ->
  fl_mant hex s false false 0 0 = (true, m, k, s3) ->
  exists u, s = u ++ s3 /\ mantissa (bas hex) (whole_of hex) m k u /\ clear_end hex s3.
Proof.
  intros U F.
  assert (Run : forall pre c d r, fl_digit hex c = Some d -> under_loop hex PDigit r = true ->
    (forall n i, digits_of (bas hex) n i -> whole_of hex n (pre ++ i)) ->
    fl_mant hex (c :: r) false false 0 0 = (true, m, k, s3) ->
    exists u, pre ++ c :: r = u ++ s3 /\ mantissa (bas hex) (whole_of hex) m k u /\ clear_end hex s3).
  { intros pre c d r Hd Ur W Fr. rewrite (mant_digit _ _ _ _ _ _ _ _ Hd) in Fr. cbn iota in Fr.
    apply fl_digit_base in Hd.
    assert (Dg : forall n u, rest (bas hex) (0 * bas hex + d) u n -> digits_of (bas hex) n (c :: u)).
    { intros n u R. apply digits_rest. exists c, d, u. rewrite Z.mul_0_l, Z.add_0_l in R. auto. }
    destruct (run_back hex r _ _ _ _ _ _ _ Ur Fr) as (u & n1 & R & [(-> & -> & -> & Us)|(_ & s' & -> & F2 & Us)]).
    - exists (pre ++ c :: u). split; [now rewrite <- app_assoc|]. split; [apply mant_int; apply W; now apply Dg|].
      exists PDigit. split; [discriminate|exact Us].
    - destruct (after_dot hex s' _ _ _ _ _ _ Us F2) as [(-> & _ & -> & -> & Ce)|(f & fs & Hf & -> & -> & -> & Ce)].
      + exists ((pre ++ c :: u) ++ [46]). split; [rewrite <- !app_assoc; reflexivity|].
        split; [|exact Ce]. apply mant_dot. apply W. now apply Dg.
      + exists ((pre ++ c :: u) ++ 46 :: fs). split; [rewrite <- !app_assoc; reflexivity|].
        split; [|exact Ce]. rewrite Z.add_0_l. apply mant_both; [|exact Hf]. apply W. now apply Dg. }
  assert (W0 : forall n i, digits_of (bas hex) n i -> whole_of hex n ([] ++ i)).
  { intros n i H. unfold whole_of, bas, prefixed in *. destruct hex; [now left|exact H]. }
  destruct s as [|c s]; [cbn [fl_mant] in F; congruence|]. pose proof U as U0. cbn [under_loop] in U0.
  destruct (fl_digit hex c) as [d|] eqn:Ed; [now apply (Run [] c d s)|].
  cbn [fl_mant] in F. destruct (Z.eqb_spec c 95) as [->|N].
  - destruct hex; [|discriminate]. apply after_sep in U0 as (c & d & s' & -> & Hd & U0).
    apply (Run [95] c d s'); try assumption. intros n i H. right. exists i. auto.
  - destruct (Z.eqb_spec c 46) as [->|N2]; [|rewrite Ed in F; congruence].
    assert (Us : under_loop hex PStart s = true) by (destruct hex; exact U0).
    destruct (after_dot hex s _ _ _ _ _ _ Us F) as [(_ & E & _)|(f & fs & Hf & -> & -> & -> & Ce)]; [discriminate|].
    exists (46 :: fs). split; [reflexivity|]. split; [|exact Ce]. rewrite Z.mul_0_l, !Z.add_0_l. now apply mant_frac.
Qed.

(** Forwards. *)
Definition stops (hex : bool) (r : list Z) : Prop :=
  match r with [] => True | c :: _ => c <> 95 /\ c <> 46 /\ fl_digit hex c = None end.
Lemma mant_stop hex r dot n k : stops hex r -> fl_mant hex r dot true n k = (true, n, k, r).
Proof.
  destruct r as [|c r]; [reflexivity|]. intros (N1 & N2 & E). cbn [fl_mant].
  destruct (Z.eqb_spec c 95); [easy|]. destruct (Z.eqb_spec c 46); [easy|]. now rewrite E.
Qed.
Lemma mantissa_parse hex m k u : mantissa (bas hex) (whole_of hex) m k u -> forall r, stops hex r ->
  fl_mant hex (u ++ r) false false 0 0 = (true, m, k, r) /\
  ((forall p, p <> PSep -> under_loop hex p r = true) ->
     under_loop hex (if hex then PDigit else PStart) (u ++ r) = true).
Proof.
  assert (W : forall n i, whole_of hex n i -> forall r,
    fl_mant hex (i ++ r) false false 0 0 = fl_mant hex r false true n 0 /\
    under_loop hex (if hex then PDigit else PStart) (i ++ r) = under_loop hex PDigit r).
  { intros n i H r. assert (D : digits_of (bas hex) n i \/ (hex = true /\ exists i', i = 95 :: i' /\ digits_of (bas hex) n i')).
    { unfold whole_of, bas, prefixed in *. destruct hex; [|now left]. destruct H; auto. }
    destruct D as [D|(-> & i' & -> & D)].
    - split; [rewrite (digits_mant _ _ _ D); cbn iota; now rewrite Z.mul_0_l, Z.add_0_l|now apply digits_under with n].
    - split; [cbn [app fl_mant]; change (95 =? 95) with true; cbn iota; rewrite (digits_mant _ _ _ D); cbn iota; now rewrite Z.mul_0_l, Z.add_0_l|].
      cbn [app under_loop]. change (95 =? 95) with true. cbn. now apply (digits_under true n). }
  assert (Dt : forall s sw n k, fl_mant hex (46 :: s) false sw n k = fl_mant hex s true sw n k) by reflexivity.
  assert (Du : forall s p, p <> PSep -> under_loop hex p (46 :: s) = under_loop hex PStart s).
  { intros s p Hp. cbn [under_loop]. rewrite dot_digit. change (46 =? 95) with false. now destruct p. }
  destruct 1 as [n i H|n i H|n i f fs H Hf|f fs Hf]; intros r St.
  - destruct (W n i H r) as [E1 E2]. rewrite E1, E2. split; [now apply mant_stop|]. intro Hq. apply Hq. discriminate.
  - rewrite <- app_assoc. destruct (W n i H ([46] ++ r)) as [E1 E2]. rewrite E1, E2. cbn [app]. rewrite Dt, Du by discriminate.
    split; [now apply mant_stop|]. intro Hq. apply Hq. discriminate.
  - rewrite <- app_assoc. destruct (W n i H ((46 :: fs) ++ r)) as [E1 E2]. rewrite E1, E2. cbn [app]. rewrite Dt, Du by discriminate.
    rewrite (digits_mant _ _ _ Hf), (digits_under _ _ _ Hf), Z.add_0_l. split; [now apply mant_stop|].
    intro Hq. apply Hq. discriminate.
  - cbn [app]. rewrite Dt, Du by (destruct hex; discriminate).
    rewrite (digits_mant _ _ _ Hf), (digits_under _ _ _ Hf), Z.mul_0_l, !Z.add_0_l. split; [now apply mant_stop|].
    intro Hq. apply Hq. discriminate.
Qed.

(** ** The whole text *)

Lemma match48 {A} (f : Z -> list Z -> A) (d : A) s :
  match s with 48 :: c :: r => f c r | _ => d end =
  match s with x :: c :: r => if x =? 48 then f c r else d | _ => d end.
Proof.
  destruct s as [|x [|c r]]; [reflexivity|..].
  - destruct x as [|p|p]; try reflexivity. do 6 (destruct p as [p|p|]; try reflexivity).
  - destruct (Z.eqb_spec x 48) as [->|N]; [reflexivity|].
    destruct x as [|p|p]; try reflexivity. do 6 (destruct p as [p|p|]; try reflexivity). lia.
Qed.
Definition base_choice (s1 : list Z) : bool * list Z :=
  match s1 with
  | 48 :: c :: r => if is_x c && negb (zlen r =? 0) then (true, r) else (false, s1)
  | _ => (false, s1)
  end.
Lemma base_choice_cases s1 :
  (exists c r, s1 = 48 :: c :: r /\ is_x c = true /\ base_choice s1 = (true, r)) \/ base_choice s1 = (false, s1).
Proof.
  unfold base_choice. rewrite (match48 (fun c r => if is_x c && negb (zlen r =? 0) then (true, r) else (false, s1))).
  destruct s1 as [|x [|c r]]; auto. destruct (Z.eqb_spec x 48) as [->|]; auto.
  destruct (is_x c) eqn:E; cbn [andb]; auto. destruct (negb (zlen r =? 0)); auto. left. exists c, r. auto.
Qed.
Lemma base_choice_hex c r : is_x c = true -> r <> [] -> base_choice (48 :: c :: r) = (true, r).
Proof.
  intros H N. unfold base_choice. rewrite H. destruct r; [easy|]. rewrite zlen_cons. pose proof (zlen_nonneg r).
  destruct (Z.eqb_spec (1 + zlen r) 0); [lia|reflexivity].
Qed.
Definition prefix_char (c : Z) : bool := (c =? 98) || (c =? 66) || (c =? 111) || (c =? 79) || is_x c.
Lemma underscore_cases s neg s1 : strip_sign s = (neg, s1) ->
  (exists c r, s1 = 48 :: c :: r /\ prefix_char c = true /\ underscore_ok s = under_loop (is_x c) PDigit r) \/
  ((forall c r, s1 = 48 :: c :: r -> prefix_char c = false) /\ underscore_ok s = under_loop false PStart s1).
Proof.
  intro E. unfold underscore_ok. rewrite E. cbn [snd].
  rewrite (match48 (fun c r => if prefix_char c then under_loop (is_x c) PDigit r else under_loop false PStart s1)).
  destruct s1 as [|x [|c r]]; [right; split; [congruence|reflexivity]..|].
  destruct (Z.eqb_spec x 48) as [->|N]; [|right; split; [congruence|reflexivity]].
  destruct (prefix_char c) eqn:P; [left; exists c, r; auto|right]. split; [|reflexivity].
  intros c' r' E'. now injection E' as <- <-.
Qed.

(** The parts of a number. *)
Definition text_read (hex : bool) (m k e : Z) (u : list Z) : Prop :=
  exists s t, mantissa (bas hex) (whole_of hex) m k s /\
    ((exists x, exponent_of hex x t /\ scapped x e /\ fl_exponent hex t = Some (e, [])) \/
     (hex = false /\ t = [] /\ e = 0)) /\
    u = if hex then 48 :: hd 0 (tl u) :: s ++ t else s ++ t.
Lemma exponent_head hex x t : exponent_of hex x t -> exists c r, t = c :: r /\ exp_chars hex c.
Proof.
  unfold exponent_of, exp_chars. destruct hex; intros (c & ds & Hc & [[_ [->| ->]]|[_ ->]]); eauto.
Qed.
Lemma exp_stops hex c r : exp_chars hex c -> stops hex (c :: r).
Proof. unfold exp_chars, stops. destruct hex, 1 as [-> | ->]; repeat split; try lia; reflexivity. Qed.

(** No special value starts like a number. *)
Lemma same_ci_spec p s : same_ci p s = true <-> spelled p s.
Proof.
  revert s. induction p as [|a p IH]; intros [|c s]; cbn [same_ci].
  - split; [constructor|reflexivity].
  - split; [discriminate|]. intro H. inversion H.
  - split; [discriminate|]. intro H. inversion H.
  - rewrite andb_true_iff, IH. split.
    + intros [H1 H2]. constructor; [lia|exact H2].
    + intro H. inversion H; subst. split; [lia|assumption].
Qed.
Definition number_start (u : list Z) : Prop := 48 <= hd 0 u <= 57 \/ hd 0 u = 46.
Lemma digits_start n s : digits_of 10 n s -> forall r, number_start (s ++ r).
Proof. intros H r. destruct (base10_head _ _ H) as (c & s' & -> & D). left. exact D. Qed.
Lemma mantissa_start m k s : mantissa 10 (digits_of 10) m k s -> forall r, number_start (s ++ r).
Proof.
  destruct 1 as [n i H|n i H|n i f fs H Hf|f fs Hf]; intro r; rewrite <- ?app_assoc; try now apply digits_start with n.
  now right.
Qed.
Lemma read_start hex m k e u : text_read hex m k e u -> number_start u.
Proof.
  intros (s & t & Hm & _ & E). destruct hex; rewrite E; [left; cbn; lia|]. now apply mantissa_start with m k.
Qed.
Lemma number_not_special neg u s : signed neg u s -> number_start u -> strip_sign s = (neg, u) /\ fl_special s = None.
Proof.
  intros Hs Hn. destruct (strip_sign_spec s) as (neg0 & u0 & E & _ & Uq).
  destruct (Uq neg u Hs) as [-> ->]; [destruct Hn; lia..|]. split; [exact E|]. unfold fl_special. rewrite E.
  assert (N1 : same_ci (str "nan") s = false).
  { apply not_true_iff_false. rewrite same_ci_spec. intro H. inversion H as [|? c ? s' H1 _]; subst.
    cbv in H1. unfold signed, number_start in *.
    destruct Hs as [(_ & [<-|E2])|(_ & E2)]; [cbn in Hn|injection E2|injection E2]; lia. }
  assert (N2 : forall p, same_ci (105 :: p) u0 = false).
  { intro p. apply not_true_iff_false. rewrite same_ci_spec. intro H. inversion H; subst. unfold number_start in Hn. cbn in Hn. lia. }
  rewrite N1. change (str "inf") with (105 :: [110; 102]). change (str "infinity") with (105 :: [110; 102; 105; 110; 105; 116; 121]).
  now rewrite !N2.
Qed.
Lemma special_spec s b : fl_special s = Some b <->
  (spelled [110; 97; 110] s /\ b = nan64) \/
  (exists neg u, signed neg u s /\ (spelled [105; 110; 102] u \/ spelled [105; 110; 102; 105; 110; 105; 116; 121] u) /\
     b = sign64 neg + inf64).
Proof.
  unfold fl_special. change (str "nan") with [110; 97; 110]. change (str "inf") with [105; 110; 102].
  change (str "infinity") with [105; 110; 102; 105; 110; 105; 116; 121].
  destruct (strip_sign_spec s) as (neg & u & E & Hs & Uq). rewrite E.
  destruct (same_ci [110; 97; 110] s) eqn:N.
  - apply same_ci_spec in N. split; [intro H; left; split; [exact N|congruence]|].
    intros [[_ ->]|(neg' & u' & Hs' & Hu & _)]; [reflexivity|exfalso].
    assert (H1 : hd 0 u' = 105 \/ hd 0 u' = 73) by (destruct Hu as [Hu|Hu]; inversion Hu; subst; cbn; lia).
    inversion N as [|? c ? r H2 _]; subst.
    destruct Hs' as [(_ & [<-|E2])|(_ & E2)]; [cbn in H1|injection E2|injection E2]; lia.
  - assert (N' : ~ spelled [110; 97; 110] s) by (rewrite <- same_ci_spec; congruence).
    destruct (same_ci [105; 110; 102] u || same_ci [105; 110; 102; 105; 110; 105; 116; 121] u) eqn:I.
    + rewrite orb_true_iff, !same_ci_spec in I. split.
      * intro H. right. exists neg, u. split; [exact Hs|split; [exact I|congruence]].
      * intros [[H _]|(neg' & u' & Hs' & Hu & ->)]; [easy|].
        destruct (Uq neg' u' Hs') as [-> ->]; [..|reflexivity]; destruct Hu as [Hu|Hu]; inversion Hu; subst; cbn; lia.
    + split; [discriminate|]. intros [[H _]|(neg' & u' & Hs' & Hu & ->)]; [easy|exfalso].
      destruct (Uq neg' u' Hs') as [-> ->]; [destruct Hu as [Hu|Hu]; inversion Hu; subst; cbn; lia..|].
      rewrite orb_false_iff in I. destruct I as [I1 I2].
      destruct Hu as [Hu|Hu]; apply same_ci_spec in Hu; congruence.
Qed.

Lemma parse_unfold s : parse_float s =
  match fl_special s with
  | Some b => Some b
  | None =>
      let '(neg, s1) := strip_sign s in
      let '(hex, s2) := base_choice s1 in
      let '(saw, m, k, s3) := fl_mant hex s2 false false 0 0 in
      if negb saw then None
      else match fl_exponent hex s3 with
           | Some (e, []) =>
               if existsb (fun c => c =? 95) s && negb (underscore_ok s) then None
               else fl_value neg hex m k e
           | _ => None
           end
  end.
Proof. reflexivity. Qed.

Lemma mant_zero_prefix c r : fl_digit false c = None -> c <> 95 -> c <> 46 ->
  fl_mant false (48 :: c :: r) false false 0 0 = (true, 0, 0, c :: r).
Proof.
  intros E N1 N2. change (48 :: c :: r) with ([48] ++ c :: r). cbn [app]. rewrite (mant_digit false 48 0) by reflexivity.
  cbn iota. change (0 * bas false + 0) with 0. apply mant_stop. repeat split; assumption.
Qed.
Lemma prefix_char_facts c : prefix_char c = true ->
  fl_digit false c = None /\ c <> 95 /\ c <> 46 /\ c <> 101 /\ c <> 69.
Proof. unfold prefix_char, is_x, fl_digit, is_digit. intro H. destruct ((48 <=? c) && (c <=? 57)) eqn:E; [lia|]. split; [reflexivity|]. lia. Qed.

Lemma parse_read s b : parse_float s = Some b <->
  fl_special s = Some b \/
  exists neg u hex m k e, signed neg u s /\ text_read hex m k e u /\ (hex = true -> is_x (hd 0 (tl u)) = true) /\
    fl_value neg hex m k e = Some b.
Proof.
  rewrite parse_unfold. destruct (fl_special s) as [b0|] eqn:Sp.
  { split; [now left|]. intros [H|(neg & u & hex & m & k & e & Hs & Ht & _)]; [exact H|].
    apply read_start in Ht. destruct (number_not_special neg u s Hs Ht). congruence. }
  destruct (strip_sign_spec s) as (neg & s1 & E & Hs & _). rewrite E. split.
  - intro F. right.
    assert (X : exists hex s2, base_choice s1 = (hex, s2) /\
      ((hex = false /\ s2 = s1) \/ (hex = true /\ exists c, is_x c = true /\ s1 = 48 :: c :: s2))).
    { destruct (base_choice_cases s1) as [(c & r & -> & H1 & ->)| ->]; [exists true, r|exists false, s1]; split; auto.
      right. split; [reflexivity|]. eauto. }
    destruct X as (hex & s2 & Ec & Hx). rewrite Ec in F.
    destruct (fl_mant hex s2 false false 0 0) as [[[saw m] k] s3] eqn:Fm.
    destruct saw; [|discriminate]. cbn [negb] in F.
    destruct (fl_exponent hex s3) as [[e r]|] eqn:Fe; [|discriminate]. destruct r; [|discriminate].
    assert (U : underscore_ok s = true).
    { destruct (underscore_ok s) eqn:Uo; [reflexivity|]. rewrite andb_true_r in F.
      destruct (existsb (fun c => c =? 95) s) eqn:Ex; [discriminate|].
      assert (E1 : existsb (fun c => c =? 95) s1 = false).
      { destruct Hs as [(_ & [->| ->])|(_ & ->)]; [exact Ex|..]; exact Ex. }
      destruct (underscore_cases s neg s1 E) as [(c & r & -> & _ & Eu)|[_ Eu]]; rewrite Eu in Uo.
      - rewrite no_under in Uo; [discriminate| |discriminate]. cbn [existsb] in E1. apply orb_false_iff in E1 as [_ E1]. now apply orb_false_iff in E1 as [_ E1].
      - rewrite no_under in Uo; [discriminate|exact E1|discriminate]. }
    assert (V : fl_value neg hex m k e = Some b) by (rewrite U, andb_false_r in F; exact F). clear F.
    assert (Us : under_loop hex (if hex then PDigit else PStart) s2 = true).
    { destruct Hx as [(-> & ->)|(-> & c & Hc & ->)].
      - destruct (underscore_cases s neg s1 E) as [(c & r & -> & P & Eu)|[_ Eu]]; [|congruence]. exfalso.
        destruct (prefix_char_facts c P) as (D & N1 & N2 & N3 & N4). rewrite mant_zero_prefix in Fm by assumption.
        injection Fm as <- <- <-. cbn [fl_exponent] in Fe.
        destruct (Z.eqb_spec c 101); [easy|]. destruct (Z.eqb_spec c 69); [easy|]. cbn [orb] in Fe. discriminate.
      - destruct (underscore_cases s neg _ E) as [(c' & r & E' & P & Eu)|[P _]].
        + injection E' as <- <-. rewrite Hc in Eu. congruence.
        + specialize (P c s2 eq_refl). unfold prefix_char in P. rewrite Hc, !orb_true_r in P. discriminate. }
    destruct (mantissa_back hex s2 m k s3 Us Fm) as (u & -> & Hm & Ce).
    assert (He : (exists x, exponent_of hex x s3 /\ scapped x e /\ fl_exponent hex s3 = Some (e, [])) \/
                 (hex = false /\ s3 = [] /\ e = 0)).
    { destruct s3 as [|c r]; [right; cbn [fl_exponent] in Fe; destruct hex; [discriminate|]; repeat split; congruence|left].
      destruct (exponent_back hex c r e Fe) as (x & H1 & H2); [|exact Ce|exists x; auto].
      destruct hex; [now right|left]. intros ->. cbn [fl_exponent] in Fe.
      destruct ((c =? 101) || (c =? 69)); discriminate. }
    exists neg, s1, hex, m, k, e. split; [exact Hs|].
    destruct Hx as [(-> & <-)|(-> & c & Hc & ->)]; (split; [exists u, s3; auto|]); (split; [|exact V]); [discriminate|].
    intros _. exact Hc.
  - intros [H|(neg' & u & hex & m & k & e & Hs' & Ht & Hx & V)]; [discriminate|].
    destruct (number_not_special neg' u s Hs' (read_start _ _ _ _ _ Ht)) as [E' _]. rewrite E in E'.
    assert (neg' = neg) as -> by congruence. assert (s1 = u) as -> by congruence. clear E'.
    destruct Ht as (ms & t & Hm & He & Eu).
    assert (Ht : fl_exponent hex t = Some (e, []) /\ stops hex t /\ (forall p, p <> PSep -> under_loop hex p t = true)).
    { destruct He as [(x & He & _ & Fe)|(-> & -> & ->)]; [|repeat split; now destruct p].
      split; [exact Fe|]. split; [|now apply exponent_under with x].
      destruct (exponent_head _ _ _ He) as (c & r & -> & Hc). now apply exp_stops. }
    destruct Ht as (Fe & St & Ut). destruct (mantissa_parse hex m k ms Hm t St) as [Fm Um]. specialize (Um Ut).
    assert (X : base_choice u = (hex, ms ++ t) /\ underscore_ok s = true).
    { destruct hex.
      - specialize (Hx eq_refl). remember (hd 0 (tl u)) as c eqn:Ec. clear Ec. subst u.
        assert (N : ms ++ t <> []).
        { destruct He as [(x & He & _)|(H & _)]; [|discriminate]. destruct (exponent_head _ _ _ He) as (c' & r & -> & _).
          now destruct ms. }
        split; [now apply base_choice_hex|].
        destruct (underscore_cases s neg _ E) as [(c' & r & E' & P & ->)|[P _]].
        + injection E' as <- <-. now rewrite Hx.
        + specialize (P c _ eq_refl). unfold prefix_char in P. rewrite Hx, !orb_true_r in P. discriminate.
      - assert (NP : forall c r, u = 48 :: c :: r -> prefix_char c = false).
        { intros c r Eu'. destruct (prefix_char c) eqn:P; [exfalso|reflexivity].
          destruct (prefix_char_facts c P) as (D & N1 & N2 & N3 & N4).
          rewrite <- Eu, Eu', mant_zero_prefix in Fm by assumption. injection Fm as <- <- <-.
          cbn [fl_exponent] in Fe. destruct (Z.eqb_spec c 101); [easy|]. destruct (Z.eqb_spec c 69); [easy|].
          cbn [orb] in Fe. discriminate. }
        split.
        + rewrite <- Eu. destruct (base_choice_cases u) as [(c & r & Eu' & H1 & _)|H]; [exfalso|exact H].
          specialize (NP c r Eu'). unfold prefix_char in NP. rewrite H1, !orb_true_r in NP. discriminate.
        + destruct (underscore_cases s neg _ E) as [(c' & r & E' & P & _)|[_ ->]]; [|now rewrite Eu].
          specialize (NP c' r E'). congruence. }
    destruct X as [X1 X2]. rewrite X1, Fm. cbn [negb]. rewrite Fe, X2. cbn [negb]. rewrite andb_false_r. exact V.
Qed.

(** ** The value *)

Lemma pow_mono b x y : 1 < b -> 0 <= x <= y -> b ^ x <= b ^ y.
Proof. intros. apply Z.pow_le_mono_r; lia. Qed.
Lemma digits_bound b n s : 1 < b -> digits_of b n s -> 0 <= n < b ^ digit_count s.
Proof.
  intro Hb. assert (A : forall s t, digit_count (s ++ t) = digit_count s + digit_count t).
  { intros x y. unfold digit_count. now rewrite filter_app, zlen_app. }
  induction 1 as [c d Hc|n s c d _ IH Hc|n s c d _ IH Hc].
  - rewrite count_cons by now apply not_sep in Hc. change (digit_count []) with 0. rewrite Z.add_0_l, Z.pow_1_r.
    unfold base_digit in Hc. lia.
  - rewrite A, count_cons by now apply not_sep in Hc. change (digit_count []) with 0. pose proof (count_nonneg s).
    rewrite Z.add_0_l, Z.pow_add_r, Z.pow_1_r by lia. unfold base_digit in Hc.
    assert ((n + 1) * b <= b ^ digit_count s * b) by (apply Z.mul_le_mono_nonneg_r; lia). lia.
  - rewrite A, count_sep, count_cons by now apply not_sep in Hc. change (digit_count []) with 0. pose proof (count_nonneg s).
    rewrite Z.add_0_l, Z.pow_add_r, Z.pow_1_r by lia. unfold base_digit in Hc.
    assert ((n + 1) * b <= b ^ digit_count s * b) by (apply Z.mul_le_mono_nonneg_r; lia). lia.
Qed.
Lemma whole_bound hex n i : whole_of hex n i -> 0 <= n < bas hex ^ digit_count i.
Proof.
  unfold whole_of, bas. destruct hex; [|apply digits_bound; lia]. intros [H|(s' & -> & H)]; [|rewrite count_sep]; now apply digits_bound.
Qed.
Lemma mantissa_bound hex m k s : mantissa (bas hex) (whole_of hex) m k s ->
  0 <= m < bas hex ^ zlen s /\ 0 <= k <= zlen s.
Proof.
  assert (B : 1 < bas hex) by (unfold bas; destruct hex; lia).
  assert (P : forall x n s, 0 <= x < bas hex ^ digit_count s -> zlen s <= n -> 0 <= x < bas hex ^ n).
  { intros x n t H L. pose proof (count_le t). pose proof (count_nonneg t).
    pose proof (pow_mono (bas hex) (digit_count t) n B ltac:(lia)). lia. }
  destruct 1 as [n i H|n i H|n i f fs H Hf|f fs Hf].
  - apply whole_bound in H. split; [now apply P with i; [|lia]|]. pose proof (zlen_nonneg i). lia.
  - apply whole_bound in H. rewrite zlen_app. pose proof (zlen_nonneg i). change (zlen [46]) with 1.
    split; [apply P with i; [exact H|lia]|]. lia.
  - apply whole_bound in H. apply digits_bound in Hf; [|exact B]. rewrite zlen_app, zlen_cons.
    pose proof (count_nonneg fs). pose proof (count_le fs). pose proof (count_nonneg i). pose proof (count_le i).
    split; [|lia]. set (X := bas hex ^ digit_count fs) in *.
    assert (0 <= n * X) by (apply Z.mul_nonneg_nonneg; lia).
    assert ((n + 1) * X <= bas hex ^ digit_count i * X) by (apply Z.mul_le_mono_nonneg_r; lia).
    assert (E : bas hex ^ digit_count i * X = bas hex ^ (digit_count i + digit_count fs)).
    { unfold X. now rewrite <- Z.pow_add_r by lia. }
    pose proof (pow_mono (bas hex) (digit_count i + digit_count fs) (zlen i + (1 + zlen fs)) B ltac:(lia)). lia.
  - apply digits_bound in Hf; [|exact B]. rewrite zlen_cons. pose proof (count_nonneg fs). pose proof (count_le fs).
    split; [apply P with fs; [exact Hf|lia]|lia].
Qed.

Lemma in_units_spec m b p n d : in_units m b p n d <-> n = scaled_num m b p /\ d = scaled_den b p.
Proof.
  unfold in_units, scaled_num, scaled_den. destruct (Z.le_gt_cases 0 p) as [H|H].
  - rewrite (Z.max_l p 0), (Z.max_r (- p) 0), Z.pow_0_r by lia. split; [intros [(_ & H1 & H2)|(H0 & _)]; [auto|lia]|left; intuition].
  - rewrite (Z.max_r p 0), (Z.max_l (- p) 0), Z.pow_0_r, Z.mul_1_r by lia.
    split; [intros [(H0 & _)|(_ & H1 & H2)]; [lia|auto]|right; intuition].
Qed.
Lemma scaled_pos m b p : 0 <= m -> 0 < b -> 0 <= scaled_num m b p /\ 0 < scaled_den b p.
Proof.
  intros Hm Hb. unfold scaled_num, scaled_den. split; [|apply Z.pow_pos_nonneg; lia].
  apply Z.mul_nonneg_nonneg; [apply Z.mul_nonneg_nonneg; [exact Hm|]|]; apply Z.pow_nonneg; lia.
Qed.
Definition fl_base (hex : bool) : Z := if hex then 2 else 10.
Definition fl_power (hex : bool) (k e : Z) : Z := if hex then e - 4 * k else e - k.
Lemma value_exact neg hex m k e b : 0 <= m ->
  (fl_value neg hex m k e = Some b <->
   exists n d a, in_units m (fl_base hex) (fl_power hex k e) n d /\ nearest n d a /\ a < infinity64 /\
     b = sign_bit neg + a).
Proof.
  intro Hm. unfold fl_value. fold (fl_base hex). fold (fl_power hex k e).
  destruct (scaled_pos m (fl_base hex) (fl_power hex k e) Hm) as [Pn Pd]; [unfold fl_base; destruct hex; lia|].
  set (n := scaled_num m (fl_base hex) (fl_power hex k e)) in *. set (d := scaled_den (fl_base hex) (fl_power hex k e)) in *.
  rewrite inf_same. split.
  - destruct (Z.ltb_spec (round_pattern n d) infinity64) as [L|L]; [|discriminate]. intro E.
    assert (b = sign64 neg + round_pattern n d) by congruence. clear E.
    exists n, d, (round_pattern n d). split; [now apply in_units_spec|].
    destruct (round_exact n d (round_pattern n d) Pn Pd) as [_ Hr]. destruct (Hr (conj eq_refl L)). auto.
  - intros (n' & d' & a & Hu & Hn & L & ->). apply in_units_spec in Hu as [-> ->].
    destruct (round_exact n d a Pn Pd) as [H _]. destruct (H (conj Hn L)) as [-> _].
    destruct (Z.ltb_spec (round_pattern n d) infinity64); [reflexivity|lia].
Qed.

(** Cut exponents make no difference to short texts. *)
Lemma pattern_zero b p : 0 < b -> round_pattern (scaled_num 0 b p) (scaled_den b p) = 0.
Proof.
  intro Hb. destruct (scaled_pos 0 b p ltac:(lia) Hb) as [_ Pd]. unfold scaled_num. rewrite !Z.mul_0_l.
  apply round_tiny; lia.
Qed.
Lemma pattern_huge m b p : 1 < b -> 0 < m -> 1024 <= p ->
  infinity64 <= round_pattern (scaled_num m b p) (scaled_den b p).
Proof.
  intros Hb Hm Hp. unfold scaled_num, scaled_den. rewrite Z.max_l, Z.max_r, Z.pow_0_r by lia. apply round_huge; [lia|].
  rewrite Z.mul_1_l. change 2098 with (1024 + 1074). rewrite Z.pow_add_r by lia.
  apply Z.mul_le_mono_nonneg_r; [apply Z.pow_nonneg; lia|].
  assert (2 ^ 1024 <= b ^ p).
  { transitivity (b ^ 1024); [apply Z.pow_le_mono_l; lia|apply Z.pow_le_mono_r; lia]. }
  assert (1 * b ^ p <= m * b ^ p) by (apply Z.mul_le_mono_nonneg_r; [apply Z.pow_nonneg|]; lia). lia.
Qed.
Lemma pattern_tiny m b p : 1 < b -> 0 <= m < 2 ^ 8000 -> p <= - 9100 ->
  round_pattern (scaled_num m b p) (scaled_den b p) = 0.
Proof.
  intros Hb Hm Hp. unfold scaled_num, scaled_den. rewrite Z.max_r, Z.max_l, Z.pow_0_r, Z.mul_1_r by lia.
  assert (P1 : 0 < 2 ^ 1074) by (apply Z.pow_pos_nonneg; lia).
  apply round_tiny; [apply Z.mul_nonneg_nonneg; lia|apply Z.pow_pos_nonneg; lia|].
  apply Z.lt_le_trans with (2 * (2 ^ 8000 * 2 ^ 1074)).
  - apply Z.mul_lt_mono_pos_l; [lia|]. apply Z.mul_lt_mono_pos_r; lia.
  - rewrite <- Z.pow_add_r, <- Z.pow_succ_r by lia. transitivity (b ^ 9075); [apply Z.pow_le_mono_l; lia|].
    apply Z.pow_le_mono_r; lia.
Qed.
Lemma capped_small x e : capped x e -> x < 100000 -> e = x.
Proof.
  intros [[_ ->]|(j & Hj & He & ->)] Hx; [reflexivity|exfalso].
  assert (x / 10 ^ j < 10000); [|lia]. apply Z.div_lt_upper_bound; [apply Z.pow_pos_nonneg; lia|].
  assert (10 ^ 1 <= 10 ^ j) by (apply Z.pow_le_mono_r; lia). lia.
Qed.
Lemma capped_large x e : capped x e -> 100000 <= x -> 10000 <= e.
Proof. intros [[Hx ->]|(j & Hj & He & _)] H'; lia. Qed.
Lemma value_capped neg hex m k x e : scapped x e -> 0 <= m < 2 ^ 8000 -> 0 <= k < 2000 ->
  fl_value neg hex m k e = fl_value neg hex m k x.
Proof.
  intros Hc Hm Hk. destruct (Z_lt_le_dec (Z.abs x) 100000) as [L|L].
  { f_equal. destruct Hc as [[Hx Hc]|[Hx Hc]]; apply capped_small in Hc; lia. }
  assert (B : 1 < fl_base hex) by (unfold fl_base; destruct hex; lia).
  assert (E : fl_value neg hex m k e =
    (if round_pattern (scaled_num m (fl_base hex) (fl_power hex k e)) (scaled_den (fl_base hex) (fl_power hex k e)) <? infinity64
     then Some (sign64 neg + round_pattern (scaled_num m (fl_base hex) (fl_power hex k e)) (scaled_den (fl_base hex) (fl_power hex k e))) else None)) by reflexivity.
  assert (E' : fl_value neg hex m k x =
    (if round_pattern (scaled_num m (fl_base hex) (fl_power hex k x)) (scaled_den (fl_base hex) (fl_power hex k x)) <? infinity64
     then Some (sign64 neg + round_pattern (scaled_num m (fl_base hex) (fl_power hex k x)) (scaled_den (fl_base hex) (fl_power hex k x))) else None)) by reflexivity.
  rewrite E, E'. clear E E'. destruct (Z.eq_dec m 0) as [->|Nm]; [now rewrite !pattern_zero by lia|].
  destruct Hc as [[Hx Hc]|[Hx Hc]]; apply capped_large in Hc; try lia.
  - pose proof (pattern_huge m (fl_base hex) (fl_power hex k e) B ltac:(lia) ltac:(unfold fl_power; destruct hex; lia)).
    pose proof (pattern_huge m (fl_base hex) (fl_power hex k x) B ltac:(lia) ltac:(unfold fl_power; destruct hex; lia)).
    destruct (Z.ltb_spec (round_pattern (scaled_num m (fl_base hex) (fl_power hex k e)) (scaled_den (fl_base hex) (fl_power hex k e))) infinity64); [lia|].
    destruct (Z.ltb_spec (round_pattern (scaled_num m (fl_base hex) (fl_power hex k x)) (scaled_den (fl_base hex) (fl_power hex k x))) infinity64); [lia|reflexivity].
  - rewrite !pattern_tiny by (try lia; unfold fl_power; destruct hex; lia). reflexivity.
Qed.

Lemma number_cases m b p u : number_text m b p u -> exists hex k x s t,
  mantissa (bas hex) (whole_of hex) m k s /\ b = fl_base hex /\ p = fl_power hex k x /\
  (exponent_of hex x t \/ (hex = false /\ t = [] /\ x = 0)) /\
  u = (if hex then 48 :: hd 0 (tl u) :: s ++ t else s ++ t) /\ (hex = true -> is_x (hd 0 (tl u)) = true).
Proof.
  destruct 1 as [m k s H|m k s x t H He|m k s x t c Hc H He].
  - exists false, k, 0, s, []. rewrite app_nil_r. repeat split; auto. discriminate.
  - exists false, k, x, s, t. repeat split; auto. discriminate.
  - exists true, k, x, s, t. repeat split; auto. intros _. cbn. unfold is_x. lia.
Qed.
Lemma number_of hex m k x s t u : mantissa (bas hex) (whole_of hex) m k s ->
  (exponent_of hex x t \/ (hex = false /\ t = [] /\ x = 0)) ->
  u = (if hex then 48 :: hd 0 (tl u) :: s ++ t else s ++ t) -> (hex = true -> is_x (hd 0 (tl u)) = true) ->
  number_text m (fl_base hex) (fl_power hex k x) u.
Proof.
  intros H He Eu Hx. destruct hex.
  - specialize (Hx eq_refl). remember (hd 0 (tl u)) as c eqn:Ec. clear Ec. subst u. destruct He as [He|(D & _)]; [|discriminate].
    apply num_hex; [unfold is_x in Hx; lia|exact H|exact He].
  - subst u. destruct He as [He|(_ & -> & ->)]; [now apply num_exp|]. rewrite app_nil_r. unfold fl_power. cbn. now apply num_plain.
Qed.
Lemma signed_len neg u s : signed neg u s -> zlen u <= zlen s.
Proof. intros [(_ & [->| ->])|(_ & ->)]; rewrite ?zlen_cons; lia. Qed.
Lemma short_bounds hex m k s : mantissa (bas hex) (whole_of hex) m k s -> zlen s < 2000 -> 0 <= m < 2 ^ 8000 /\ 0 <= k < 2000.
Proof.
  intros H L. destruct (mantissa_bound _ _ _ _ H) as [Hm Hk]. split; [|lia]. split; [lia|].
  apply Z.lt_le_trans with (bas hex ^ zlen s); [lia|]. pose proof (zlen_nonneg s).
  transitivity (16 ^ zlen s); [apply Z.pow_le_mono_l; unfold bas; destruct hex; lia|].
  change 16 with (2 ^ 4). rewrite <- Z.pow_mul_r by lia. apply Z.pow_le_mono_r; lia.
Qed.

Lemma value_special s b : fl_special s = Some b <->
  ((spelled [110; 97; 110] s /\ b = 0x7FF8000000000001) \/
   (exists neg u, signed neg u s /\ (spelled [105; 110; 102] u \/ spelled [105; 110; 102; 105; 110; 105; 116; 121] u) /\
     b = sign_bit neg + infinity64)).
Proof. rewrite special_spec. reflexivity. Qed.
Lemma float_value_cases s b : float_value s b <->
  ((spelled [110; 97; 110] s /\ b = 0x7FF8000000000001) \/
   (exists neg u, signed neg u s /\ (spelled [105; 110; 102] u \/ spelled [105; 110; 102; 105; 110; 105; 116; 121] u) /\
     b = sign_bit neg + infinity64)) \/
  (exists neg u m B p n d a, signed neg u s /\ number_text m B p u /\ in_units m B p n d /\ nearest n d a /\
     a < infinity64 /\ b = sign_bit neg + a).
Proof.
  split.
  - destruct 1 as [neg u m B p n d a H1 H2 H3 H4 H5|neg u H1 H2|H1];
      [right; exists neg, u, m, B, p, n, d, a; auto 7|left; right; eauto 6|left; left; auto].
  - intros [[[H ->]|(neg & u & H1 & H2 & ->)]|(neg & u & m & B & p & n & d & a & H1 & H2 & H3 & H4 & H5 & ->)].
    + now apply fv_nan.
    + now apply fv_inf with u.
    + now apply fv_number with u m B p n d.
Qed.
Lemma len_parts (hex : bool) (c : Z) (s t : list Z) : zlen s <= zlen (if hex then 48 :: c :: s ++ t else s ++ t).
Proof. pose proof (zlen_nonneg t). destruct hex; rewrite ?zlen_cons, zlen_app; lia. Qed.

Theorem parse_float_exact s b : zlen s < 2000 -> (parse_float s = Some b <-> float_value s b).
Proof.
  intro L. rewrite parse_read, float_value_cases, value_special. apply or_iff_compat_l. split.
  - intros (neg & u & hex & m & k & e & Hs & (ms & t & Hm & He & Eu) & Hx & V).
    assert (Lm : zlen ms < 2000).
    { pose proof (signed_len _ _ _ Hs). pose proof (len_parts hex (hd 0 (tl u)) ms t). rewrite <- Eu in *. lia. }
    destruct (short_bounds _ _ _ _ Hm Lm) as [Bm Bk].
    assert (X : exists x, (exponent_of hex x t \/ (hex = false /\ t = [] /\ x = 0)) /\ fl_value neg hex m k x = Some b).
    { destruct He as [(x & He & Hc & _)|(-> & -> & ->)]; [|exists 0; auto]. exists x. split; [auto|].
      now rewrite <- (value_capped neg hex m k x e). }
    destruct X as (x & Hx' & V'). apply value_exact in V' as (n & d & a & H1 & H2 & H3 & H4); [|lia].
    exists neg, u, m, (fl_base hex), (fl_power hex k x), n, d, a. split; [exact Hs|]. split; [now apply number_of with ms t|]. auto.
  - intros (neg & u & m & B & p & n & d & a & Hs & Hn & Hu & Ha & Hi & ->).
    destruct (number_cases _ _ _ _ Hn) as (hex & k & x & ms & t & Hm & -> & -> & He & Eu & Hx).
    assert (Lm : zlen ms < 2000).
    { pose proof (signed_len _ _ _ Hs). pose proof (len_parts hex (hd 0 (tl u)) ms t). rewrite <- Eu in *. lia. }
    destruct (short_bounds _ _ _ _ Hm Lm) as [Bm Bk].
    assert (V : fl_value neg hex m k x = Some (sign_bit neg + a)).
    { apply value_exact; [lia|]. exists n, d, a. auto. }
    destruct He as [He|(-> & -> & ->)].
    + destruct (exponent_parse _ _ _ He) as (e & Hc & Fe). exists neg, u, hex, m, k, e. split; [exact Hs|].
      split; [exists ms, t; split; [exact Hm|split; [left; exists x; auto|exact Eu]]|]. split; [exact Hx|].
      now rewrite (value_capped neg hex m k x e).
    + exists neg, u, false, m, k, 0. split; [exact Hs|]. split; [exists ms, []; split; [exact Hm|split; [right; auto|exact Eu]]|]. split; [exact Hx|exact V].
Qed.
(** Without an exponent the length does not matter. *)
Theorem parse_plain s neg u m k b : signed neg u s -> mantissa 10 (digits_of 10) m k u ->
  (parse_float s = Some b <->
   exists n d a, in_units m 10 (- k) n d /\ nearest n d a /\ a < infinity64 /\ b = sign_bit neg + a).
Proof.
  intros Hs Hm. assert (Ht : text_read false m k 0 u).
  { exists u, []. split; [exact Hm|]. split; [auto|]. now rewrite app_nil_r. }
  destruct (number_not_special neg u s Hs (read_start _ _ _ _ _ Ht)) as [E Sp].
  assert (P : 0 <= m) by (destruct (mantissa_bound false _ _ _ Hm); lia).
  rewrite <- (value_exact neg false m k 0 b P). rewrite parse_read, Sp. split.
  - intros [H|(neg' & u' & hex & m' & k' & e' & Hs' & Ht' & Hx & V)]; [discriminate|].
    destruct (number_not_special neg' u' s Hs' (read_start _ _ _ _ _ Ht')) as [E' _].
    assert (neg' = neg) as -> by congruence. assert (u' = u) as -> by congruence.
    assert (F := fun r St => proj1 (mantissa_parse false m k u Hm r St)). specialize (F [] I). rewrite app_nil_r in F.
    destruct hex.
    + exfalso. destruct Ht' as (ms & t & Hm' & He & Eu). specialize (Hx eq_refl).
      remember (hd 0 (tl u)) as c eqn:Ec. clear Ec. rewrite Eu in F.
      destruct (prefix_char_facts c) as (D & N1 & N2 & _); [unfold prefix_char; rewrite Hx; now rewrite !orb_true_r|].
      rewrite mant_zero_prefix in F by assumption. discriminate.
    + destruct Ht' as (ms & t & Hm' & He & Eu).
      assert (St : stops false t).
      { destruct He as [(x & He & _)|(_ & -> & _)]; [|exact I]. destruct (exponent_head _ _ _ He) as (c & r & -> & Hc). now apply exp_stops. }
      pose proof (proj1 (mantissa_parse false m' k' ms Hm' t St)) as F'. rewrite <- Eu, F in F'. injection F' as <- <- <-.
      destruct He as [(x & He & _)|(_ & _ & ->)]; [|exact V]. destruct (exponent_head _ _ _ He) as (c & r & E2 & _). discriminate.
  - intro V. right. exists neg, u, false, m, k, 0. repeat split; auto. discriminate.
Qed.
