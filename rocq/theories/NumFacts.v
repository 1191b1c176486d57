(** Facts about numbers on the wire. *)
From Verif Require Import Types Spec.

Lemma zlen_app {A} (a b : list A) : zlen (a ++ b) = zlen a + zlen b.
Proof. unfold zlen. rewrite app_length. lia. Qed.
Lemma zlen_cons {A} (a : A) l : zlen (a :: l) = 1 + zlen l.
Proof. unfold zlen. cbn [length]. lia. Qed.
Lemma zlen_nil {A} : zlen (@nil A) = 0.
Proof. reflexivity. Qed.
Lemma zlen_nonneg {A} (l : list A) : 0 <= zlen l.
Proof. unfold zlen. lia. Qed.
Lemma zlen_map {A B} (f : A -> B) l : zlen (map f l) = zlen l.
Proof. unfold zlen. now rewrite map_length. Qed.
Lemma zlen_rev {A} (l : list A) : zlen (rev l) = zlen l.
Proof. unfold zlen. now rewrite rev_length. Qed.
Lemma zlen_0 {A} (l : list A) : zlen l = 0 -> l = [].
Proof. destruct l; [easy|]. unfold zlen; cbn [length]. lia. Qed.
#[global] Hint Rewrite @zlen_app @zlen_cons @zlen_nil @zlen_map @zlen_rev : zlen.

Lemma bytes_ok_app a b : bytes_ok (a ++ b) <-> bytes_ok a /\ bytes_ok b.
Proof. apply Forall_app. Qed.
Lemma bytes_ok_rev a : bytes_ok (rev a) <-> bytes_ok a.
Proof.
  unfold bytes_ok. split; intro H.
  - rewrite <- (rev_involutive a). now apply Forall_rev.
  - now apply Forall_rev.
Qed.

(** ** Fixed width *)

Lemma pow256_S n : 256 ^ Z.of_nat (S n) = 256 * 256 ^ Z.of_nat n.
Proof. rewrite Nat2Z.inj_succ, Z.pow_succ_r; lia. Qed.
Lemma pow256_pos n : 0 < 256 ^ Z.of_nat n.
Proof. apply Z.pow_pos_nonneg; lia. Qed.

Lemma fixed_le_S n z : fixed_le (S n) z = z mod 256 :: fixed_le n (z / 256).
Proof.
  unfold fixed_le. cbn [seq map]. f_equal.
  - now rewrite Z.div_1_r.
  - rewrite <- seq_shift, map_map. apply map_ext. intro i.
    rewrite pow256_S, Z.div_div; [reflexivity|lia|apply pow256_pos].
Qed.

Lemma le_bytes_fixed n z : le_bytes n z = fixed_le n z.
Proof.
  revert z. induction n as [|n IH]; intro z; [reflexivity|].
  rewrite fixed_le_S. cbn [le_bytes]. now rewrite IH.
Qed.

Lemma put_uint_fixed o n z : put_uint o n z = fixed o n z.
Proof. destruct o; cbn [put_uint fixed]; now rewrite le_bytes_fixed. Qed.

Lemma le_bytes_length n z : length (le_bytes n z) = n.
Proof. revert z. induction n as [|n IH]; intro z; cbn [le_bytes length]; now rewrite ?IH. Qed.

Lemma fixed_length o n z : length (fixed o n z) = n.
Proof.
  destruct o; cbn [fixed]; rewrite ?rev_length, <- le_bytes_fixed; apply le_bytes_length.
Qed.
Lemma fixed_zlen o n z : zlen (fixed o n z) = Z.of_nat n.
Proof. unfold zlen. now rewrite fixed_length. Qed.
#[global] Hint Rewrite fixed_zlen : zlen.

Lemma le_bytes_ok n z : bytes_ok (le_bytes n z).
Proof.
  revert z. induction n as [|n IH]; intro z; cbn [le_bytes]; constructor; [|apply IH].
  unfold is_byte. lia.
Qed.
Lemma fixed_ok o n z : bytes_ok (fixed o n z).
Proof.
  destruct o; cbn [fixed]; rewrite ?bytes_ok_rev, <- le_bytes_fixed; apply le_bytes_ok.
Qed.

Lemma le_val_bytes n z : le_val (le_bytes n z) = z mod 256 ^ Z.of_nat n.
Proof.
  revert z. induction n as [|n IH]; intro z; cbn [le_bytes le_val].
  - now rewrite Z.mod_1_r.
  - rewrite IH, pow256_S.
    rewrite Z.rem_mul_r; [lia| lia | apply pow256_pos].
Qed.

Lemma le_bytes_val bs : bytes_ok bs -> le_bytes (length bs) (le_val bs) = bs.
Proof.
  induction 1 as [|b r Hb Hr IH]; [reflexivity|].
  cbn [length le_bytes le_val]. unfold is_byte in Hb. f_equal; [lia|].
  replace ((b + 256 * le_val r) / 256) with (le_val r) by lia. apply IH.
Qed.

Lemma le_val_range bs : bytes_ok bs -> 0 <= le_val bs < 256 ^ zlen bs.
Proof.
  unfold zlen. induction 1 as [|b r Hb Hr IH]; cbn [le_val length]; [lia|].
  rewrite pow256_S. unfold is_byte in Hb. lia.
Qed.

Lemma get_fixed o n z : get_uint o (fixed o n z) = z mod 256 ^ Z.of_nat n.
Proof.
  destruct o; cbn [get_uint fixed]; rewrite ?rev_involutive, <- le_bytes_fixed;
    apply le_val_bytes.
Qed.

Lemma fixed_get o bs : bytes_ok bs -> fixed o (length bs) (get_uint o bs) = bs.
Proof.
  intro H. destruct o; cbn [get_uint fixed]; rewrite <- le_bytes_fixed.
  - now apply le_bytes_val.
  - rewrite <- (rev_length bs), le_bytes_val by now apply bytes_ok_rev.
    apply rev_involutive.
Qed.

Lemma get_uint_range o bs : bytes_ok bs -> 0 <= get_uint o bs < 256 ^ zlen bs.
Proof.
  intro H. destruct o; cbn [get_uint]; [now apply le_val_range|].
  rewrite <- (zlen_rev bs). apply le_val_range. now apply bytes_ok_rev.
Qed.

Lemma wbytes_pow w : 256 ^ Z.of_nat (wbytes w) = 2 ^ wbits w.
Proof. destruct w; reflexivity. Qed.
Lemma fbytes_pow f : 256 ^ Z.of_nat (fbytes f) = 2 ^ fbits f.
Proof. destruct f; reflexivity. Qed.

Lemma swrap_small bits z :
  0 < bits -> - 2 ^ (bits - 1) <= z < 2 ^ (bits - 1) -> swrap bits z = z.
Proof.
  intros Hb Hz. unfold swrap.
  assert (Hp : 2 ^ bits = 2 * 2 ^ (bits - 1)).
  { rewrite <- Z.pow_succ_r by lia. f_equal. lia. }
  rewrite Hp. set (p := 2 ^ (bits - 1)) in *.
  destruct (z <? 0) eqn:Hneg.
  - replace (z mod (2 * p)) with (z + 2 * p).
    + destruct (z + 2 * p <? p) eqn:H; lia.
    + symmetry. rewrite <- (Z.mod_add z 1 (2 * p)) by lia.
      rewrite Z.mul_1_l. apply Z.mod_small. lia.
  - rewrite Z.mod_small by lia. destruct (z <? p) eqn:H; lia.
Qed.

Lemma swrap_range bits z : 0 < bits -> - 2 ^ (bits - 1) <= swrap bits z < 2 ^ (bits - 1).
Proof.
  intros Hb. unfold swrap.
  assert (Hp : 2 ^ bits = 2 * 2 ^ (bits - 1)).
  { rewrite <- Z.pow_succ_r by lia. f_equal. lia. }
  rewrite Hp. assert (0 < 2 ^ (bits - 1)) by (apply Z.pow_pos_nonneg; lia).
  set (p := 2 ^ (bits - 1)) in *.
  pose proof (Z.mod_pos_bound z (2 * p) ltac:(lia)).
  destruct (z mod (2 * p) <? p) eqn:E; lia.
Qed.

Lemma swrap_mod bits z : 0 < bits -> swrap bits (z mod 2 ^ bits) = swrap bits z.
Proof.
  intro Hb. unfold swrap. rewrite Z.mod_mod; [reflexivity|].
  pose proof (Z.pow_pos_nonneg 2 bits). lia.
Qed.

(** ** LEB128 *)

Lemma leb128_small x : 0 <= x < 128 -> leb128 x = [x].
Proof.
  intro H. unfold leb128.
  assert (Hl : Z.log2 x / 7 = 0).
  { apply Z.div_small. split; [apply Z.log2_nonneg|].
    destruct (Z.eq_dec x 0) as [->|Hx]; [reflexivity|].
    apply Z.log2_lt_pow2; lia. }
  rewrite Hl. cbn. rewrite Z.div_1_r, Z.mod_small by lia. now rewrite Z.add_0_r.
Qed.

Lemma leb128_big x : 128 <= x -> leb128 x = (x mod 128 + 128) :: leb128 (x / 128).
Proof.
  intro H. unfold leb128.
  assert (H7 : 7 <= Z.log2 x) by (apply (Z.log2_le_mono 128 x); lia).
  assert (Hl : Z.log2 (x / 128) = Z.log2 x - 7).
  { change 128 with (2 ^ 7). rewrite <- Z.shiftr_div_pow2 by lia.
    rewrite Z.log2_shiftr by lia. lia. }
  rewrite Hl.
  replace ((Z.log2 x - 7) / 7) with (Z.log2 x / 7 - 1) by lia.
  replace (Z.to_nat (Z.log2 x / 7)) with (S (Z.to_nat (Z.log2 x / 7 - 1))) by lia.
  set (k := Z.to_nat (Z.log2 x / 7 - 1)).
  cbn [seq map]. f_equal.
  - rewrite Z.pow_0_r, Z.div_1_r. reflexivity.
  - assert (Hpos : forall i, 0 < 128 ^ Z.of_nat i) by (intro; apply Z.pow_pos_nonneg; lia).
    assert (HS : forall i, 128 ^ Z.of_nat (S i) = 128 * 128 ^ Z.of_nat i).
    { intro i. rewrite Nat2Z.inj_succ, Z.pow_succ_r; lia. }
    f_equal.
    + change (Z.of_nat 0) with 0. rewrite Z.pow_0_r, Z.div_1_r.
      change (Z.of_nat 1) with 1. rewrite Z.pow_1_r. f_equal.
    + rewrite <- (seq_shift k 1), map_map. apply map_ext. intro i.
      rewrite HS, Z.div_div by (auto; lia). f_equal.
Qed.

(** Induction along the groups. *)
Lemma leb128_ind (P : Z -> Prop) :
  (forall x, 0 <= x < 128 -> P x) ->
  (forall x, 128 <= x -> P (x / 128) -> P x) ->
  forall x, 0 <= x -> P x.
Proof.
  intros H0 H1 x Hx.
  apply (Z_lt_induction (fun x => 0 <= x -> P x)); [|lia|lia].
  clear x Hx. intros x IH Hx.
  destruct (Z.lt_ge_cases x 128) as [H|H]; [apply H0; lia|].
  apply H1; [lia|]. apply IH; lia.
Qed.

Lemma leb128_nonempty x : 0 <= x -> leb128 x <> [].
Proof.
  intro H. destruct (Z.lt_ge_cases x 128).
  - now rewrite leb128_small by lia.
  - now rewrite leb128_big by lia.
Qed.

Lemma leb128_ok x : 0 <= x -> bytes_ok (leb128 x).
Proof.
  revert x. apply leb128_ind; intros x Hx.
  - rewrite leb128_small by lia. constructor; [|constructor]. unfold is_byte; lia.
  - intro IH. rewrite leb128_big by lia. constructor; [|apply IH]. unfold is_byte; lia.
Qed.

Lemma leb128_len n x : 0 <= x -> (0 < n)%nat ->
  x < 128 ^ Z.of_nat n -> (length (leb128 x) <= n)%nat.
Proof.
  revert x. induction n as [|n IH]; intros x Hx Hn Hlt; [lia|].
  destruct (Z.lt_ge_cases x 128) as [H|H].
  - rewrite leb128_small by lia. cbn [length]. lia.
  - rewrite leb128_big by lia. cbn [length].
    rewrite Nat2Z.inj_succ, Z.pow_succ_r in Hlt by lia.
    destruct n as [|n]; [cbn in Hlt; lia|].
    apply le_n_S, IH; try lia.
Qed.

Lemma lor_128 a : 0 <= a < 256 -> Z.lor a 128 = a mod 128 + 128.
Proof.
  intro H. assert (Hc : a < 128 \/ 128 <= a) by lia.
  rewrite <- (Z.mod_small a 256) at 1 by lia.
  assert (Hall : forall n, (n < 256)%nat ->
     Z.lor (Z.of_nat n) 128 = Z.of_nat n mod 128 + 128).
  { intros n Hn. do 256 (destruct n as [|n]; [reflexivity|]). lia. }
  rewrite Z.mod_small by lia.
  rewrite <- (Z2Nat.id a) by lia. apply Hall. lia.
Qed.

Lemma uvarint_loop_leb fuel x :
  0 <= x -> x < 128 ^ Z.of_nat fuel -> (0 < fuel)%nat -> uvarint_loop fuel x = leb128 x.
Proof.
  revert x. induction fuel as [|f IH]; intros x Hx Hlt Hf; [lia|].
  cbn [uvarint_loop]. destruct (x <? 128) eqn:E.
  - rewrite leb128_small by lia. reflexivity.
  - rewrite leb128_big by lia. f_equal.
    + rewrite lor_128 by lia. lia.
    + rewrite Z.shiftr_div_pow2 by lia. change (2 ^ 7) with 128.
      rewrite Nat2Z.inj_succ, Z.pow_succ_r in Hlt by lia.
      destruct f as [|f]; [cbn in Hlt; lia|].
      apply IH; lia.
Qed.

Lemma uvarint_bytes_leb x : 0 <= x < 2 ^ 64 -> uvarint_bytes x = leb128 x.
Proof. intro H. apply uvarint_loop_leb; cbn; lia. Qed.

Lemma leb128_len64 x : 0 <= x < 2 ^ 64 -> zlen (leb128 x) <= 10.
Proof.
  intro H. unfold zlen. enough ((length (leb128 x) <= 10)%nat) by lia.
  apply leb128_len; [lia|lia|]. cbn. lia.
Qed.

(** Reading: [x] accumulated so far from [i] groups. *)
Lemma lor_shift_add x b i : 0 <= i -> 0 <= x < 2 ^ i -> 0 <= b ->
  Z.lor x (Z.shiftl b i) = x + b * 2 ^ i.
Proof.
  intros Hi Hx Hb. rewrite Z.shiftl_mul_pow2 by lia.
  rewrite <- Z.lxor_lor, <- Z.add_nocarry_lxor; [reflexivity| |];
  apply Z.bits_inj'; intros n Hn; rewrite Z.land_spec, Z.bits_0;
  (destruct (Z.lt_ge_cases n i);
   [ rewrite Z.mul_pow2_bits_low by lia; apply andb_false_r
   | rewrite <- (Z.mod_small x (2 ^ i)), Z.mod_pow2_bits_high by lia; reflexivity ]).
Qed.

Lemma land_127 b : Z.land b 127 = b mod 128.
Proof. change 127 with (Z.ones 7). rewrite Z.land_ones by lia. reflexivity. Qed.

Lemma uvarint_get_leb y : forall (i x : Z) rest,
  0 <= y -> 0 <= i <= 9 -> 0 <= x < 2 ^ (7 * i) -> x + y * 2 ^ (7 * i) < 2 ^ 64 ->
  uvarint_get (leb128 y ++ rest) i x (7 * i) = (x + y * 2 ^ (7 * i), i + zlen (leb128 y)).
Proof.
  intros i x rest Hy. revert i x.
  pattern y. revert y Hy. apply leb128_ind; intros y Hy.
  - intros i x Hi Hx Hlt. rewrite leb128_small by lia. cbn [app uvarint_get].
    destruct (i =? 10) eqn:E1; [lia|].
    destruct (y <? 128) eqn:E2; [|lia].
    destruct ((i =? 9) && (1 <? y)) eqn:E3.
    + assert (i = 9) by lia. subst i. change (7 * 9) with 63 in *.
      assert (2 * 2 ^ 63 <= y * 2 ^ 63) by nia. change (2 * 2 ^ 63) with (2 ^ 64) in *. lia.
    + rewrite lor_shift_add by lia.
      unfold uwrap. rewrite Z.mod_small by nia. reflexivity.
  - intros IH i x Hi Hx Hlt. rewrite leb128_big by lia. cbn [app uvarint_get].
    assert (Hi8 : i <> 9).
    { intro; subst i. change (7 * 9) with 63 in *.
      assert (128 * 2 ^ 63 <= y * 2 ^ 63) by nia. change (128 * 2 ^ 63) with (64 * 2 ^ 64) in *. lia. }
    destruct (i =? 10) eqn:E1; [lia|].
    destruct (y mod 128 + 128 <? 128) eqn:E2; [lia|].
    rewrite land_127, <- Z.add_mod_idemp_r, Z.mod_same, Z.add_0_r, Z.mod_mod by lia.
    rewrite lor_shift_add by lia.
    assert (Hp : 0 < 2 ^ (7 * i)) by (apply Z.pow_pos_nonneg; lia).
    assert (Hp7 : 2 ^ (7 * (i + 1)) = 128 * 2 ^ (7 * i)).
    { replace (7 * (i + 1)) with (7 + 7 * i) by lia. rewrite Z.pow_add_r by lia. reflexivity. }
    assert (Hd : y = 128 * (y / 128) + y mod 128) by (apply Z.div_mod; lia).
    assert (Hm : 0 <= y mod 128 < 128) by lia.
    assert (0 <= y / 128) by lia.
    set (q := y / 128) in *. set (r := y mod 128) in *.
    set (p := 2 ^ (7 * i)) in *.
    assert (Hs : x + r * p < 128 * p) by nia.
    assert (Hs' : x + r * p <= x + y * p) by nia.
    unfold uwrap. rewrite (Z.mod_small (x + r * p)) by nia.
    replace (7 * i + 7) with (7 * (i + 1)) by lia.
    rewrite IH.
    + rewrite zlen_cons, Hp7. f_equal; nia.
    + lia.
    + rewrite Hp7. nia.
    + rewrite Hp7. nia.
Qed.

Lemma uvarint_leb x rest : 0 <= x < 2 ^ 64 ->
  uvarint (leb128 x ++ rest) = (x, zlen (leb128 x)).
Proof.
  intro H. unfold uvarint.
  pose proof (uvarint_get_leb x 0 0 rest) as L. change (7 * 0) with 0 in L.
  rewrite Z.pow_0_r, Z.mul_1_r in L. rewrite L by lia. reflexivity.
Qed.

Lemma lxor_ones64 x : 0 <= x < 2 ^ 64 -> Z.lxor x (2 ^ 64 - 1) = 2 ^ 64 - 1 - x.
Proof.
  intro H. change (2 ^ 64 - 1) with (Z.ones 64).
  assert (Hn : 0 <= Z.lxor x (Z.ones 64)).
  { apply Z.lxor_nonneg. split; intro; [vm_compute; discriminate | lia]. }
  enough (Z.lxor x (Z.ones 64) + x = Z.ones 64) by lia.
  rewrite Z.add_nocarry_lxor.
  - rewrite Z.lxor_comm, <- Z.lxor_assoc, Z.lxor_nilpotent. apply Z.lxor_0_l.
  - apply Z.bits_inj'. intros n Hn'. rewrite Z.land_spec, Z.lxor_spec, Z.bits_0.
    destruct (Z.lt_ge_cases n 64).
    + rewrite Z.ones_spec_low by lia. now destruct (Z.testbit x n).
    + rewrite (Z.bits_above_log2 x n), andb_false_r; [reflexivity|lia|].
      destruct (Z.eq_dec x 0) as [->|]; [cbn; lia|].
      apply Z.lt_le_trans with 64; [apply Z.log2_lt_pow2; lia | lia].
Qed.

Lemma zigzag_zz x : - 2 ^ 63 <= x < 2 ^ 63 -> zigzag x = zz x.
Proof.
  intro H. unfold zigzag, zz, uwrap. destruct (x <? 0) eqn:E.
  - rewrite lxor_ones64 by (apply Z.mod_pos_bound; lia).
    replace ((2 * x) mod 2 ^ 64) with (2 * x + 2 ^ 64); [lia|].
    rewrite <- (Z.mod_add (2 * x) 1) by lia. rewrite Z.mod_small; lia.
  - apply Z.mod_small. lia.
Qed.
Lemma zz_range x : - 2 ^ 63 <= x < 2 ^ 63 -> 0 <= zz x < 2 ^ 64.
Proof. intro H. unfold zz. destruct (x <? 0) eqn:E; lia. Qed.

Lemma varint_leb x rest : - 2 ^ 63 <= x < 2 ^ 63 ->
  varint (leb128 (zz x) ++ rest) = (x, zlen (leb128 (zz x))).
Proof.
  intro H. unfold varint. rewrite uvarint_leb by now apply zz_range.
  rewrite Z.shiftr_div_pow2 by lia. change (2 ^ 1) with 2.
  unfold zz. destruct (x <? 0) eqn:E.
  - replace (-2 * x - 1) with (1 + 2 * (- x - 1)) by lia.
    rewrite Z.odd_add_mul_2. cbn [Z.odd xorb]. f_equal. lia.
  - replace (2 * x) with (0 + 2 * x) at 1 by lia.
    rewrite Z.odd_add_mul_2. cbn [Z.odd xorb]. f_equal. lia.
Qed.

(** ** Compact-u16 *)

Lemma cu16_loop_leb fuel x :
  0 <= x -> x < 128 ^ Z.of_nat fuel -> (0 < fuel)%nat -> cu16_loop fuel x = leb128 x.
Proof.
  revert x. induction fuel as [|f IH]; intros x Hx Hlt Hf; [lia|].
  cbn [cu16_loop]. rewrite land_127, Z.shiftr_div_pow2 by lia. change (2 ^ 7) with 128.
  destruct (x / 128 =? 0) eqn:E.
  - rewrite leb128_small by lia. f_equal. apply Z.mod_small. lia.
  - rewrite leb128_big by lia. f_equal.
    + rewrite lor_128 by lia. rewrite Z.mod_mod by lia. reflexivity.
    + rewrite Nat2Z.inj_succ, Z.pow_succ_r in Hlt by lia.
      destruct f as [|f]; [cbn in Hlt; lia|]. apply IH; lia.
Qed.

Lemma encode_cu16_leb buf x : 0 <= x <= 65535 ->
  encode_compact_u16 buf x = (buf ++ leb128 x, None).
Proof.
  intro H. unfold encode_compact_u16.
  destruct ((x <? 0) || (65535 <? x)) eqn:E; [lia|].
  rewrite cu16_loop_leb; [reflexivity|lia|cbn; lia|lia].
Qed.

Lemma land_128 b : 0 <= b < 256 -> Z.land b 128 = if b <? 128 then 0 else 128.
Proof.
  intro H.
  assert (Hall : forall n, (n < 256)%nat ->
     Z.land (Z.of_nat n) 128 = if Z.of_nat n <? 128 then 0 else 128).
  { intros n Hn. do 256 (destruct n as [|n]; [reflexivity|]). lia. }
  rewrite <- (Z2Nat.id b) by lia. apply Hall. lia.
Qed.

(** The three shapes of a compact-u16. *)
Lemma leb128_1 x : 0 <= x < 128 -> leb128 x = [x].
Proof. apply leb128_small. Qed.
Lemma leb128_2 x : 128 <= x < 16384 -> leb128 x = [x mod 128 + 128; x / 128].
Proof. intro H. rewrite leb128_big, leb128_small by lia. reflexivity. Qed.
Lemma leb128_3 x : 16384 <= x < 2097152 ->
  leb128 x = [x mod 128 + 128; x / 128 mod 128 + 128; x / 16384].
Proof.
  intro H. rewrite leb128_big by lia. rewrite leb128_2 by lia.
  rewrite Z.div_div by lia. reflexivity.
Qed.

(** Value of the byte string in base 128. *)
Definition cu16_step (ln elem size : Z) : Z :=
  Z.lor ln (Z.shiftl (Z.land elem 127) (size * 7)).
Lemma cu16_step_0 e : is_byte e -> cu16_step 0 e 0 = e mod 128.
Proof.
  intro H. unfold cu16_step. rewrite land_127.
  rewrite (lor_shift_add 0 _ 0) by (cbn; lia). cbn. lia.
Qed.
Lemma cu16_step_1 x e : 0 <= x < 128 -> is_byte e -> cu16_step x e 1 = x + e mod 128 * 128.
Proof.
  intros Hx H. unfold cu16_step. rewrite land_127. change (1 * 7) with 7.
  rewrite lor_shift_add by lia. reflexivity.
Qed.
Lemma cu16_step_2 x e : 0 <= x < 16384 -> is_byte e -> cu16_step x e 2 = x + e mod 128 * 16384.
Proof.
  intros Hx H. unfold cu16_step. rewrite land_127. change (2 * 7) with 14.
  rewrite lor_shift_add by lia. reflexivity.
Qed.

(** The two decoding loops agree. *)
Lemma cu16_read_get fuel : forall nth bs ln size,
  fst (cu16_read EUnexpectedEOF fuel nth bs ln size) = cu16_get fuel nth bs ln size.
Proof.
  induction fuel as [|f IH]; intros nth bs ln size; [reflexivity|].
  destruct bs as [|e r]; [reflexivity|]. cbn [cu16_read cu16_get].
  destruct ((e =? 0) && negb (nth =? 0)); [reflexivity|].
  destruct ((nth =? 2) && negb (Z.land e 128 =? 0)); [reflexivity|].
  destruct (Z.land e 128 =? 0); [reflexivity|]. apply IH.
Qed.

(** Everything about the decoder in one equation: which inputs are accepted,
    by their first bytes. *)
Lemma decode_cu16_unfold bs : bytes_ok bs ->
  decode_compact_u16 bs =
  match bs with
  | [] => inl EUnexpectedEOF
  | a :: r =>
      if a <? 128 then inr (a, 1)
      else match r with
           | [] => inl EUnexpectedEOF
           | b :: r =>
               if b =? 0 then inl EMsg
               else if b <? 128 then inr (a mod 128 + b * 128, 2)
               else match r with
                    | [] => inl EUnexpectedEOF
                    | c :: _ =>
                        if (c =? 0) || (3 <? c) then inl EMsg
                        else inr (a mod 128 + b mod 128 * 128 + c * 16384, 3)
                    end
           end
  end.
Proof.
  intro H. unfold decode_compact_u16.
  destruct bs as [|a r]; [reflexivity|]. inversion_clear H as [|? ? Ha Hr]. rename Hr into H.
  cbn [cu16_get]. fold (cu16_step 0 a 0). rewrite cu16_step_0 by easy.
  rewrite land_128 by (unfold is_byte in *; lia). unfold is_byte in Ha.
  destruct (a <? 128) eqn:Ea.
  { cbn. rewrite Z.mod_small by lia.
    destruct (a =? 0) eqn:E0; cbn;
    destruct ((a <? 0) || (65535 <? a)) eqn:E; try lia; reflexivity. }
  replace ((a =? 0) && negb (0 =? 0)) with false by (cbn; lia).
  change ((0 =? 2) && negb (128 =? 0)) with false. cbn iota.
  change (128 =? 0) with false. cbn iota.
  destruct r as [|b r]; [reflexivity|]. inversion_clear H as [|? ? Hb Hr]. rename Hr into H.
  cbn [cu16_get]. change (0 + 1) with 1. fold (cu16_step (a mod 128) b 1).
  rewrite cu16_step_1 by (auto; lia).
  rewrite land_128 by (unfold is_byte in *; lia). unfold is_byte in Hb.
  destruct (b =? 0) eqn:Eb0; [reflexivity|].
  cbn [andb negb]. change (1 =? 2) with false. cbn [andb].
  destruct (b <? 128) eqn:Eb.
  { change (0 =? 0) with true. cbn iota. rewrite (Z.mod_small b) by lia.
    change ((1 + 1 =? 0) || (3 <? 1 + 1)) with false. cbn iota.
    destruct ((a mod 128 + b * 128 <? 0) || (65535 <? a mod 128 + b * 128)) eqn:E; [lia|].
    reflexivity. }
  change (128 =? 0) with false. cbn iota.
  destruct r as [|c r]; [reflexivity|]. inversion_clear H as [|? ? Hc Hr].
  cbn [cu16_get]. change (1 + 1) with 2. fold (cu16_step (a mod 128 + b mod 128 * 128) c 2).
  rewrite cu16_step_2 by (auto; lia).
  rewrite land_128 by (unfold is_byte in *; lia). unfold is_byte in Hc.
  destruct (c =? 0) eqn:Ec0; [reflexivity|].
  cbn [andb negb orb]. change (2 =? 2) with true. cbn [andb].
  destruct (c <? 128) eqn:Ec.
  - change (0 =? 0) with true. cbn [negb]. cbn iota.
    change (2 + 1) with 3. change ((3 =? 0) || (3 <? 3)) with false. cbn iota.
    rewrite (Z.mod_small c) by lia.
    destruct (3 <? c) eqn:Ec3.
    + destruct ((_ <? 0) || (65535 <? _)) eqn:E; [reflexivity|lia].
    + destruct ((_ <? 0) || (65535 <? _)) eqn:E; [lia|reflexivity].
  - change (128 =? 0) with false. cbn [negb]. cbn iota.
    destruct (3 <? c) eqn:Ec3; [reflexivity|lia].
Qed.

Lemma cu16_get_app fuel rest : forall nth bs ln size r,
  cu16_get fuel nth bs ln size = inr r -> cu16_get fuel nth (bs ++ rest) ln size = inr r.
Proof.
  induction fuel as [|f IH]; intros nth bs ln size r; [easy|].
  destruct bs as [|e bs]; [discriminate|]. cbn [cu16_get app].
  destruct ((e =? 0) && negb (nth =? 0)); [discriminate|].
  destruct ((nth =? 2) && negb (Z.land e 128 =? 0)); [discriminate|].
  destruct (Z.land e 128 =? 0); [easy|]. apply IH.
Qed.
Lemma decode_cu16_app bs rest r :
  decode_compact_u16 bs = inr r -> decode_compact_u16 (bs ++ rest) = inr r.
Proof.
  unfold decode_compact_u16. intro H.
  destruct (cu16_get 3 0 bs 0 0) as [e|[ln size]] eqn:E; [discriminate|].
  now rewrite (cu16_get_app _ _ _ _ _ _ _ E).
Qed.

Lemma decode_cu16_leb x rest : 0 <= x <= 65535 ->
  decode_compact_u16 (leb128 x ++ rest) = inr (x, zlen (leb128 x)).
Proof.
  intros H. apply decode_cu16_app. rewrite decode_cu16_unfold by (apply leb128_ok; lia).
  destruct (Z.lt_ge_cases x 128) as [H1|H1]; [|destruct (Z.lt_ge_cases x 16384) as [H2|H2]].
  - rewrite leb128_1 by lia. destruct (x <? 128) eqn:E; [reflexivity|lia].
  - rewrite leb128_2 by lia. destruct (_ <? 128) eqn:E; [lia|].
    destruct (_ =? 0) eqn:E0; [lia|]. destruct (x / 128 <? 128) eqn:E1; [|lia].
    f_equal. f_equal. lia.
  - rewrite leb128_3 by lia. destruct (_ <? 128) eqn:E; [lia|].
    destruct (_ =? 0) eqn:E0; [lia|]. destruct (x / 128 mod 128 + 128 <? 128) eqn:E1; [lia|].
    destruct ((x / 16384 =? 0) || (3 <? x / 16384)) eqn:E2; [lia|].
    f_equal. f_equal. lia.
Qed.

(** Only canonical encodings are accepted. *)
Lemma decode_cu16_inv bs x n : bytes_ok bs ->
  decode_compact_u16 bs = inr (x, n) ->
  0 <= x <= 65535 /\ n = zlen (leb128 x) /\ exists rest, bs = leb128 x ++ rest.
Proof.
  intros H. rewrite decode_cu16_unfold by easy. intro D.
  destruct bs as [|a r]; [discriminate|]. inversion_clear H as [|? ? Ha Hr].
  unfold is_byte in Ha. destruct (a <? 128) eqn:Ea.
  { inversion D; subst. rewrite leb128_1 by lia. repeat split; try lia. now exists r. }
  destruct r as [|b r]; [discriminate|]. inversion_clear Hr as [|? ? Hb Hr'].
  unfold is_byte in Hb. destruct (b =? 0) eqn:Eb0; [discriminate|].
  destruct (b <? 128) eqn:Eb.
  { inversion D; subst. rewrite leb128_2 by lia. repeat split; try lia. exists r. cbn [app].
    f_equal; [lia|]. f_equal. lia. }
  destruct r as [|c r]; [discriminate|]. inversion_clear Hr' as [|? ? Hc Hr].
  destruct ((c =? 0) || (3 <? c)) eqn:Ec; [discriminate|].
  unfold is_byte in Hc. inversion D; subst. rewrite leb128_3 by lia.
  repeat split; try lia. exists r. cbn [app].
  f_equal; [lia|]. f_equal; [lia|]. f_equal. lia.
Qed.
