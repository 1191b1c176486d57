(** The order of floats used for map keys (encoder_borsh.go:372-395, vComp) is
    the order of the numbers the bit patterns stand for. *)
From Coq Require Import ZArith List Bool Lia.
From Verif Require Import Base Num Types Spec FloatSpec.
Import ListNotations.
Open Scope Z_scope.


Definition units (mb a : Z) : Z :=
  if a / 2 ^ mb =? 0 then a mod 2 ^ mb else (2 ^ mb + a mod 2 ^ mb) * 2 ^ (a / 2 ^ mb - 1).

Lemma units_nonneg mb a : 0 <= mb -> 0 <= a -> 0 <= units mb a.
Proof.
  intros Hm Ha. unfold units. assert (0 < 2 ^ mb) by (apply Z.pow_pos_nonneg; lia).
  assert (0 <= a mod 2 ^ mb) by (apply Z.mod_pos_bound; lia).
  assert (0 <= a / 2 ^ mb) by (apply Z.div_pos; lia).
  destruct (a / 2 ^ mb =? 0) eqn:E; [lia|]. apply Z.mul_nonneg_nonneg; [lia|apply Z.pow_nonneg; lia].
Qed.
Lemma units_lt mb a b : 0 <= mb -> 0 <= a -> a < b -> units mb a < units mb b.
Proof.
  intros Hm Ha Hab. unfold units. assert (P : 0 < 2 ^ mb) by (apply Z.pow_pos_nonneg; lia).
  assert (Ma : 0 <= a mod 2 ^ mb < 2 ^ mb) by (apply Z.mod_pos_bound; lia).
  assert (Mb : 0 <= b mod 2 ^ mb < 2 ^ mb) by (apply Z.mod_pos_bound; lia).
  pose proof (Z.div_mod a (2 ^ mb) ltac:(lia)) as Da. pose proof (Z.div_mod b (2 ^ mb) ltac:(lia)) as Db.
  set (ea := a / 2 ^ mb) in *. set (eb := b / 2 ^ mb) in *.
  set (ma := a mod 2 ^ mb) in *. set (mb' := b mod 2 ^ mb) in *.
  assert (E0 : 0 <= ea) by (apply Z.div_pos; lia).
  assert (L : ea <= eb) by (apply Z.div_le_mono; lia).
  destruct (Z.eq_dec ea eb) as [E|E].
  - rewrite <- E in *. assert (ma < mb') by lia.
    destruct (Z.eqb_spec ea 0); [lia|].
    apply Z.mul_lt_mono_pos_r; [apply Z.pow_pos_nonneg|]; lia.
  - destruct (Z.eqb_spec eb 0) as [?|Nb]; [lia|].
    assert (B : 2 ^ mb * 2 ^ (eb - 1) <= (2 ^ mb + mb') * 2 ^ (eb - 1)).
    { apply Z.mul_le_mono_nonneg_r; [apply Z.pow_nonneg|]; lia. }
    destruct (Z.eqb_spec ea 0) as [Za|Na].
    + assert (1 <= 2 ^ (eb - 1)) by (assert (0 < 2 ^ (eb - 1)) by (apply Z.pow_pos_nonneg; lia); lia).
      assert (2 ^ mb * 1 <= 2 ^ mb * 2 ^ (eb - 1)) by (apply Z.mul_le_mono_nonneg_l; lia). lia.
    + assert (Q : 0 < 2 ^ (ea - 1)) by (apply Z.pow_pos_nonneg; lia).
      assert ((2 ^ mb + ma) * 2 ^ (ea - 1) < (2 ^ mb + 2 ^ mb) * 2 ^ (ea - 1))
        by (apply Z.mul_lt_mono_pos_r; lia).
      assert (T : 2 * 2 ^ (ea - 1) <= 2 ^ (eb - 1)).
      { rewrite <- Z.pow_succ_r by lia. apply Z.pow_le_mono_r; lia. }
      assert (2 ^ mb * (2 * 2 ^ (ea - 1)) <= 2 ^ mb * 2 ^ (eb - 1)) by (apply Z.mul_le_mono_nonneg_l; lia).
      lia.
Qed.
Lemma units_zero mb : 0 <= mb -> units mb 0 = 0.
Proof.
  intro. unfold units. assert (0 < 2 ^ mb) by (apply Z.pow_pos_nonneg; lia).
  now rewrite Z.div_0_l, Z.mod_0_l by lia.
Qed.
Lemma float_units_key f b : 0 <= b < 2 ^ fbits f ->
  float_units f b = if b <? 2 ^ (fbits f - 1) then units (fraction_bits f) (fmag f b)
                    else - units (fraction_bits f) (fmag f b).
Proof.
  intro Hb. unfold float_units, units, fmag.
  assert (A1 : (b mod 2 ^ (fbits f - 1)) mod 2 ^ fraction_bits f = b mod 2 ^ fraction_bits f).
  { destruct f; cbn [fbits fraction_bits];
      [change (2 ^ (32 - 1)) with (2147483648); change (2 ^ 23) with 8388608
      |change (2 ^ (64 - 1)) with 9223372036854775808; change (2 ^ 52) with 4503599627370496]; lia. }
  assert (A2 : (b mod 2 ^ (fbits f - 1)) / 2 ^ fraction_bits f =
               (b / 2 ^ fraction_bits f) mod 2 ^ exponent_bits f).
  { destruct f; cbn [fbits fraction_bits exponent_bits];
      [change (2 ^ (32 - 1)) with (2147483648); change (2 ^ 23) with 8388608; change (2 ^ 8) with 256
      |change (2 ^ (64 - 1)) with 9223372036854775808; change (2 ^ 52) with 4503599627370496;
       change (2 ^ 11) with 2048]; lia. }
  rewrite A1, A2.
  assert (A3 : (b / 2 ^ (fraction_bits f + exponent_bits f) =? 0) = (b <? 2 ^ (fbits f - 1))).
  { apply Bool.eq_iff_eq_true. rewrite Z.eqb_eq, Z.ltb_lt.
    destruct f; cbn [fbits fraction_bits exponent_bits] in *;
      [change (2 ^ (32 - 1)) with 2147483648; change (2 ^ (23 + 8)) with 2147483648
      |change (2 ^ (64 - 1)) with 9223372036854775808; change (2 ^ (52 + 11)) with 9223372036854775808]; lia. }
  rewrite A3. destruct (b <? 2 ^ (fbits f - 1)); lia.
Qed.

Lemma key_order f x y : 0 <= x < 2 ^ fbits f -> 0 <= y < 2 ^ fbits f ->
  f_key f x < f_key f y <-> float_units f x < float_units f y.
Proof.
  intros Hx Hy. rewrite !float_units_key by assumption. unfold f_key.
  assert (M : 0 <= fraction_bits f) by (destruct f; cbn; lia).
  assert (X : 0 <= fmag f x) by (unfold fmag; apply Z.mod_pos_bound; destruct f; reflexivity).
  assert (Y : 0 <= fmag f y) by (unfold fmag; apply Z.mod_pos_bound; destruct f; reflexivity).
  set (a := fmag f x) in *. set (b := fmag f y) in *. set (k := fraction_bits f) in *.
  assert (Ux := units_nonneg k a M X). assert (Uy := units_nonneg k b M Y).
  assert (T : forall u v, 0 <= u -> 0 <= v -> (u < v <-> units k u < units k v)).
  { intros u v Hu Hv. split; [now apply units_lt|]. intro L.
    destruct (Z.lt_trichotomy u v) as [H|[->|H]]; [exact H|lia|].
    apply (units_lt k) in H; lia. }
  assert (Z0 := units_zero k M). assert (Ta := T 0 a). assert (Tb := T 0 b).
  assert (Tab := T a b X Y). assert (Tba := T b a Y X).
  destruct (x <? 2 ^ (fbits f - 1)), (y <? 2 ^ (fbits f - 1)); lia.
Qed.
Lemma key_same f x y : 0 <= x < 2 ^ fbits f -> 0 <= y < 2 ^ fbits f ->
  f_key f x = f_key f y <-> float_units f x = float_units f y.
Proof.
  intros Hx Hy. assert (A := key_order f x y Hx Hy). assert (B := key_order f y x Hy Hx). lia.
Qed.
Lemma float_key_before f x y : 0 <= x < 2 ^ fbits f -> 0 <= y < 2 ^ fbits f ->
  key_before (TFloat f) (VFloat x) (VFloat y) = true <-> float_units f x < float_units f y.
Proof. intros. cbn [key_before]. rewrite Z.ltb_lt. now apply key_order. Qed.
