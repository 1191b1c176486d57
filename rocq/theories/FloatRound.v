(** Rounding to the nearest float64: [round_pattern] is what [nearest] asks. *)
From Verif Require Import Base Num Types FloatSpec FloatFacts ParseFloat.
From Coq Require Import Lia.

Lemma inf_same : inf64 = infinity64. Proof. reflexivity. Qed.
Lemma float_units_pos a : 0 <= a < 2 ^ 63 -> float_units F64 a = units 52 a.
Proof.
  intro H. rewrite float_units_key by (cbn; lia). cbn [fbits fraction_bits]. unfold fmag. cbn [fbits].
  change (64 - 1) with 63. rewrite Z.mod_small by lia. destruct (Z.ltb_spec a (2 ^ 63)); [reflexivity|lia].
Qed.
(** Patterns built from exponent and significand. *)
Lemma units_build e q : 0 <= e -> 0 <= q <= 2 ^ 53 -> (0 < e -> 2 ^ 52 <= q) ->
  units 52 (e * 2 ^ 52 + q) = q * 2 ^ e.
Proof.
  intros He Hq Hn. unfold units.
  assert (P52 : 2 ^ 53 = 2 * 2 ^ 52) by reflexivity. set (B := 2 ^ 52) in *.
  assert (PB : 0 < B) by reflexivity.
  assert (C : q < B \/ B <= q < 2 * B \/ q = 2 * B) by lia. destruct C as [C|[C|C]].
  - assert (e = 0) as -> by lia. rewrite Z.add_0_l, Z.div_small, Z.mod_small by lia. cbn [Z.eqb]. rewrite Z.pow_0_r. lia.
  - replace (e * B + q) with ((e + 1) * B + (q - B)) by ring.
    assert (Dv : ((e + 1) * B + (q - B)) / B = e + 1).
    { rewrite Z.div_add_l by lia. rewrite Z.div_small by lia. lia. }
    assert (Mo : ((e + 1) * B + (q - B)) mod B = q - B).
    { rewrite Z.add_comm, Z.mod_add by lia. apply Z.mod_small. lia. }
    rewrite Dv, Mo. destruct (Z.eqb_spec (e + 1) 0); [lia|]. replace (e + 1 - 1) with e by lia. ring.
  - replace (e * B + q) with ((e + 2) * B) by lia.
    rewrite Z.div_mul, Z.mod_mul by lia. destruct (Z.eqb_spec (e + 2) 0); [lia|].
    replace (e + 2 - 1) with (Z.succ e) by lia. rewrite Z.pow_succ_r by lia. subst q. ring.
Qed.

(** What [round_pattern] computes: [lo] is the last pattern not above n/d. *)
Lemma round_cases n d : 0 <= n -> 0 < d -> exists lo,
  0 <= lo /\ d * units 52 lo <= n < d * units 52 (lo + 1) /\
  ((2 * n < d * units 52 lo + d * units 52 (lo + 1) /\ round_pattern n d = lo) \/
   (d * units 52 lo + d * units 52 (lo + 1) < 2 * n /\ round_pattern n d = lo + 1) \/
   (2 * n = d * units 52 lo + d * units 52 (lo + 1) /\
    round_pattern n d = if Z.even lo then lo else lo + 1)).
Proof.
  intros Hn Hd. unfold round_pattern. set (x := n / d).
  assert (Hx : 0 <= x) by (apply Z.div_pos; lia).
  set (e := Z.max 0 (Z.log2 x - 52)). assert (He : 0 <= e) by (unfold e; lia).
  assert (PE : 0 < 2 ^ e) by (apply Z.pow_pos_nonneg; lia).
  set (D := d * 2 ^ e). assert (HD : 0 < D) by (unfold D; now apply Z.mul_pos_pos).
  set (q := n / D). set (r := n mod D).
  assert (Dm : n = D * q + r) by (apply Z.div_mod; lia).
  assert (Hr : 0 <= r < D) by (apply Z.mod_pos_bound; lia).
  assert (Hq0 : 0 <= q) by (apply Z.div_pos; lia).
  assert (Qx : q = x / 2 ^ e) by (unfold q, D, x; symmetry; apply Z.div_div; lia).
  assert (Hx2 : x < 2 ^ (Z.succ (Z.log2 x)) /\ (0 < x -> 2 ^ Z.log2 x <= x)).
  { destruct (Z.eq_dec x 0) as [E|N]; [rewrite E; cbn; lia|]. destruct (Z.log2_spec x); lia. }
  destruct Hx2 as [Hx2 Hx3]. assert (L0 := Z.log2_nonneg x).
  assert (Q53 : q < 2 ^ 53).
  { rewrite Qx. apply Z.div_lt_upper_bound; [lia|]. rewrite <- Z.pow_add_r by lia.
    eapply Z.lt_le_trans; [exact Hx2|]. apply Z.pow_le_mono_r; unfold e; lia. }
  assert (Q52 : 0 < e -> 2 ^ 52 <= q).
  { intro Pe. rewrite Qx. apply Z.div_le_lower_bound; [lia|]. rewrite <- Z.pow_add_r by lia.
    assert (E : e = Z.log2 x - 52) by (unfold e in *; lia).
    replace (e + 52) with (Z.log2 x) by lia. apply Hx3. destruct (Z.eq_dec x 0) as [E0|]; [|lia].
    rewrite E0 in E. cbn in E. lia. }
  assert (U0 : units 52 (e * 2 ^ 52 + q) = q * 2 ^ e) by (apply units_build; lia).
  assert (U1 : units 52 (e * 2 ^ 52 + q + 1) = (q + 1) * 2 ^ e).
  { replace (e * 2 ^ 52 + q + 1) with (e * 2 ^ 52 + (q + 1)) by lia. apply units_build; lia. }
  assert (Ev : Z.even (e * 2 ^ 52 + q) = Z.even q).
  { rewrite Z.even_add, Z.even_mul. change (Z.even (2 ^ 52)) with true. rewrite orb_true_r. now destruct (Z.even q). }
  exists (e * 2 ^ 52 + q). rewrite U0, U1, Ev.
  replace (d * (q * 2 ^ e)) with (D * q) by (unfold D; ring).
  replace (d * ((q + 1) * 2 ^ e)) with (D * q + D) by (unfold D; ring).
  split; [lia|]. split; [lia|]. rewrite <- Z.negb_even.
  destruct (Z.ltb_spec D (2 * r)) as [L|L]; cbn [orb].
  - right. left. split; lia.
  - destruct (Z.eqb_spec D (2 * r)) as [T|T]; cbn [andb].
    + right. right. split; [lia|]. destruct (Z.even q); cbn [negb]; lia.
    + left. split; lia.
Qed.

Lemma inf_lt : infinity64 < 2 ^ 63. Proof. reflexivity. Qed.
Lemma units_le a b : 0 <= a <= b -> units 52 a <= units 52 b.
Proof.
  intro H. destruct (Z.eq_dec a b) as [->|N]; [lia|]. assert (units 52 a < units 52 b); [|lia].
  apply units_lt; lia.
Qed.
Lemma even_succ a : Z.even (a + 1) = negb (Z.even a).
Proof. rewrite Z.add_1_r, Z.even_succ, <- Z.negb_even. reflexivity. Qed.

Lemma nearest_units n d a : nearest n d a <->
  0 <= a <= infinity64 /\
  forall b, 0 <= b <= infinity64 -> b <> a ->
    Z.abs (n - d * units 52 a) < Z.abs (n - d * units 52 b) \/
    (Z.abs (n - d * units 52 a) = Z.abs (n - d * units 52 b) /\ Z.even a = true).
Proof.
  unfold nearest. pose proof inf_lt. split; intros [Ha H0]; (split; [exact Ha|]); intros b Hb Nb;
    specialize (H0 b Hb Nb); rewrite !float_units_pos in * by lia; exact H0.
Qed.

(** The rounded pattern is the nearest one; from infinity on, infinity is. *)
Lemma round_nearest n d : 0 <= n -> 0 < d ->
  nearest n d (Z.min (round_pattern n d) infinity64).
Proof.
  intros Hn Hd. destruct (round_cases n d Hn Hd) as (lo & H0 & Hlo & Hc).
  assert (M := fun a b => units_le a b).
  assert (S1 : forall a b, 0 <= a <= b -> d * units 52 a <= d * units 52 b)
    by (intros; apply Z.mul_le_mono_nonneg_l; [lia|now apply M]).
  assert (S2 : forall a b, 0 <= a < b -> d * units 52 a < d * units 52 b).
  { intros a b Hab. apply Z.mul_lt_mono_pos_l; [lia|]. apply units_lt; lia. }
  assert (I0 : 0 < infinity64) by reflexivity.
  rewrite nearest_units. split.
  { destruct Hc as [[_ ->]|[[_ ->]|[_ ->]]]; [| |destruct (Z.even lo)]; lia. }
  intros b Hb Nb.
  destruct (Z.le_gt_cases infinity64 lo) as [L|L].
  - assert (E : Z.min (round_pattern n d) infinity64 = infinity64).
    { destruct Hc as [[_ ->]|[[_ ->]|[_ ->]]]; [| |destruct (Z.even lo)]; lia. }
    rewrite E in *. left. assert (T := S1 infinity64 lo ltac:(lia)). assert (T2 := S2 b infinity64 ltac:(lia)). lia.
  - assert (E : Z.min (round_pattern n d) infinity64 = round_pattern n d).
    { destruct Hc as [[_ ->]|[[_ ->]|[_ ->]]]; [| |destruct (Z.even lo)]; lia. }
    rewrite E in *. clear E.
    assert (Tb : b <= lo \/ lo + 1 <= b) by lia.
    assert (Tl : b <= lo -> d * units 52 b <= d * units 52 lo) by (intro; apply S1; lia).
    assert (Tl' : b < lo -> d * units 52 b < d * units 52 lo) by (intro; apply S2; lia).
    assert (Th : lo + 1 <= b -> d * units 52 (lo + 1) <= d * units 52 b) by (intro; apply S1; lia).
    assert (Th' : lo + 1 < b -> d * units 52 (lo + 1) < d * units 52 b) by (intro; apply S2; lia).
    destruct Hc as [[C E]|[[C E]|[C E]]]; rewrite E in *.
    + left. destruct Tb as [Tb|Tb]; [specialize (Tl' ltac:(lia))|specialize (Th Tb)]; lia.
    + left. destruct Tb as [Tb|Tb]; [specialize (Tl Tb)|specialize (Th' ltac:(lia))]; lia.
    + destruct (Z.even lo) eqn:Ev.
      * destruct Tb as [Tb|Tb]; [left; specialize (Tl' ltac:(lia)); lia|].
        specialize (Th Tb). destruct (Z.eq_dec b (lo + 1)) as [->|N]; [right; split; [lia|exact Ev]|].
        left. specialize (Th' ltac:(lia)). lia.
      * destruct Tb as [Tb|Tb]; [|left; specialize (Th' ltac:(lia)); lia].
        specialize (Tl Tb). destruct (Z.eq_dec b lo) as [->|N]; [right; split; [lia|now rewrite even_succ, Ev]|].
        left. specialize (Tl' ltac:(lia)). lia.
Qed.

(** There is only one nearest pattern. *)
Lemma nearest_unique n d a a' : 0 < d -> nearest n d a -> nearest n d a' -> a = a'.
Proof.
  intros Hd. assert (W : forall a a', a < a' -> nearest n d a -> nearest n d a' -> False).
  { clear a a'. intros a a' L. rewrite !nearest_units. intros [Ha H] [Ha' H'].
    assert (S2 : forall x y, 0 <= x < y -> d * units 52 x < d * units 52 y).
    { intros x y Hxy. apply Z.mul_lt_mono_pos_l; [lia|]. apply units_lt; lia. }
    pose proof (H a' Ha' ltac:(lia)) as D1. pose proof (H' a Ha ltac:(lia)) as D2.
    assert (E : Z.abs (n - d * units 52 a) = Z.abs (n - d * units 52 a') /\ Z.even a = true /\ Z.even a' = true)
      by (destruct D1 as [D1|[D1 E1]], D2 as [D2|[D2 E2]]; [lia|lia|lia|now repeat split]).
    destruct E as (E & Ea & Ea'). assert (a + 1 <> a').
    { intro T. rewrite <- T, even_succ, Ea in Ea'. discriminate. }
    pose proof (S2 a (a + 1) ltac:(lia)). pose proof (S2 (a + 1) a' ltac:(lia)).
    pose proof (H (a + 1) ltac:(lia) ltac:(lia)). lia. }
  intros H H'. destruct (Z.lt_trichotomy a a') as [L|[E|L]]; [|exact E|]; exfalso; eauto.
Qed.
Lemma round_exact n d a : 0 <= n -> 0 < d -> (nearest n d a /\ a < infinity64 <-> a = round_pattern n d /\ a < infinity64).
Proof.
  intros Hn Hd. assert (N := round_nearest n d Hn Hd). split.
  - intros [H L]. split; [|exact L]. pose proof (nearest_unique n d _ _ Hd H N). lia.
  - intros [-> L]. split; [|exact L]. now rewrite Z.min_l in N by lia.
Qed.

(** Small and large numbers. *)
Lemma round_tiny n d : 0 <= n -> 0 < d -> 2 * n < d -> round_pattern n d = 0.
Proof.
  intros Hn Hd H. destruct (round_cases n d Hn Hd) as (lo & H0 & Hlo & Hc).
  assert (lo = 0) as ->.
  { destruct (Z.eq_dec lo 0) as [|N]; [assumption|]. assert (T := units_lt 52 0 lo ltac:(lia) ltac:(lia) ltac:(lia)).
    rewrite units_zero in T by lia. assert (d * 1 <= d * units 52 lo) by (apply Z.mul_le_mono_nonneg_l; lia). lia. }
  change (units 52 0) with 0 in *. change (units 52 (0 + 1)) with 1 in *.
  destruct Hc as [[C E]|[[C E]|[C E]]]; [exact E|lia|lia].
Qed.
Lemma round_huge n d : 0 < d -> d * 2 ^ 2098 <= n -> infinity64 <= round_pattern n d.
Proof.
  intros Hd H. destruct (Z.le_gt_cases infinity64 (round_pattern n d)) as [|L]; [assumption|exfalso].
  assert (P : 0 < 2 ^ 2098) by (apply Z.pow_pos_nonneg; lia).
  assert (Hn : 0 <= n) by (assert (0 <= d * 2 ^ 2098) by (apply Z.mul_nonneg_nonneg; lia); lia).
  assert (N := round_nearest n d Hn Hd). rewrite Z.min_l in N by lia. rewrite nearest_units in N. destruct N as [R N].
  specialize (N infinity64 ltac:(unfold infinity64; lia) ltac:(lia)).
  assert (T := units_lt 52 (round_pattern n d) infinity64 ltac:(lia) ltac:(lia) L).
  assert (T2 : d * units 52 (round_pattern n d) < d * units 52 infinity64) by (apply Z.mul_lt_mono_pos_l; lia).
  assert (U : units 52 infinity64 = 2 ^ 2098).
  { change infinity64 with (2046 * 2 ^ 52 + 2 ^ 52). rewrite units_build by lia. rewrite <- Z.pow_add_r by lia. reflexivity. }
  rewrite U in *. lia.
Qed.
