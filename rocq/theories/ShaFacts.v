(** Sha256.v computes what ShaSpec.v describes. *)
From Verif Require Import Base Sha256 ShaSpec.
Notation length := Datatypes.length.

Definition isw (x : Z) : Prop := 0 <= x < 2 ^ 32.
Definition high0 (x : Z) : Prop := forall i, 32 <= i -> Z.testbit x i = false.

Lemma isw_high x : isw x -> 0 <= x /\ high0 x.
Proof.
  intros [A B]. split; [exact A|]. intros i Hi.
  rewrite <- (Z.mod_small x (2 ^ 32)) by (split; assumption).
  apply Z.mod_pow2_bits_high. lia.
Qed.
Lemma high_isw x : 0 <= x -> high0 x -> isw x.
Proof.
  intros A B. assert (E : x mod 2 ^ 32 = x).
  { apply Z.bits_inj'. intros i Hi. destruct (Z_lt_ge_dec i 32).
    - apply Z.mod_pow2_bits_low. lia.
    - rewrite Z.mod_pow2_bits_high by lia. symmetry. apply B. lia. }
  unfold isw. rewrite <- E. apply Z.mod_pos_bound. lia.
Qed.
Lemma isw_w32 x : isw (w32 x).
Proof. unfold isw, w32. apply Z.mod_pos_bound. lia. Qed.
Lemma isw_lxor x y : isw x -> isw y -> isw (Z.lxor x y).
Proof.
  intros A B. apply isw_high in A as [A A']. apply isw_high in B as [B B']. apply high_isw.
  - apply Z.lxor_nonneg. tauto.
  - intros i Hi. rewrite Z.lxor_spec, A', B' by lia. reflexivity.
Qed.
Lemma isw_land x y : isw x -> isw y -> isw (Z.land x y).
Proof.
  intros A B. apply isw_high in A as [A A']. apply isw_high in B as [B B']. apply high_isw.
  - apply Z.land_nonneg. tauto.
  - intros i Hi. rewrite Z.land_spec, A', B' by lia. reflexivity.
Qed.
Lemma isw_lor x y : isw x -> isw y -> isw (Z.lor x y).
Proof.
  intros A B. apply isw_high in A as [A A']. apply isw_high in B as [B B']. apply high_isw.
  - apply Z.lor_nonneg. tauto.
  - intros i Hi. rewrite Z.lor_spec, A', B' by lia. reflexivity.
Qed.
Lemma isw_shiftr x n : isw x -> 0 <= n -> isw (Z.shiftr x n).
Proof.
  intros A Hn. apply isw_high in A as [A A']. apply high_isw.
  - apply Z.shiftr_nonneg. exact A.
  - intros i Hi. rewrite Z.shiftr_spec by lia. apply A'. lia.
Qed.
Lemma isw_not32 x : isw x -> isw (not32 x).
Proof. intro A. apply isw_lxor; [exact A|]. unfold isw. lia. Qed.
Lemma isw_rotr n x : isw x -> 0 <= n -> isw (rotr n x).
Proof. intros A Hn. apply isw_lor; [now apply isw_shiftr|apply isw_w32]. Qed.

Lemma rotr_bits n x i : isw x -> 0 < n < 32 -> 0 <= i < 32 -> Z.testbit (rotr n x) i = rot n x i.
Proof.
  intros A Hn Hi. apply isw_high in A as [A A']. unfold rotr, rot, w32.
  rewrite Z.lor_spec, Z.shiftr_spec by lia. rewrite Z.mod_pow2_bits_low by lia.
  rewrite Z.shiftl_spec by lia.
  destruct (Z_lt_ge_dec (i + n) 32).
  - rewrite (Z.mod_small (i + n)) by lia. rewrite (Z.testbit_neg_r x (i - (32 - n))) by lia. apply orb_false_r.
  - rewrite A' by lia. replace ((i + n) mod 32) with (i - (32 - n)).
    + reflexivity.
    + symmetry. rewrite <- (Z.mod_small (i - (32 - n)) 32) by lia.
      replace (i + n) with (i - (32 - n) + 1 * 32) by lia. apply Z_mod_plus_full.
Qed.
Lemma shr_bits n x i : isw x -> 0 <= n -> 0 <= i < 32 -> Z.testbit (Z.shiftr x n) i = shr n x i.
Proof.
  intros A Hn Hi. apply isw_high in A as [A A']. unfold shr. rewrite Z.shiftr_spec by lia.
  destruct (Z.ltb_spec (i + n) 32); [reflexivity|]. apply A'. lia.
Qed.
Lemma Sigma0_is x : isw x -> is_Sigma0 x (Sigma0 x).
Proof.
  intro A. split.
  - apply isw_lxor; [apply isw_lxor|]; apply isw_rotr; try assumption; lia.
  - intros i Hi. unfold Sigma0, xor3. rewrite !Z.lxor_spec, !rotr_bits by (assumption || lia). apply xorb_assoc.
Qed.
Lemma Sigma1_is x : isw x -> is_Sigma1 x (Sigma1 x).
Proof.
  intro A. split.
  - apply isw_lxor; [apply isw_lxor|]; apply isw_rotr; try assumption; lia.
  - intros i Hi. unfold Sigma1, xor3. rewrite !Z.lxor_spec, !rotr_bits by (assumption || lia). apply xorb_assoc.
Qed.
Lemma sigma0_is x : isw x -> is_sigma0 x (sigma0 x).
Proof.
  intro A. split.
  - apply isw_lxor; [apply isw_lxor; apply isw_rotr; try assumption; lia|apply isw_shiftr; try assumption; lia].
  - intros i Hi. unfold sigma0, xor3. rewrite !Z.lxor_spec, !rotr_bits, shr_bits by (assumption || lia). apply xorb_assoc.
Qed.
Lemma sigma1_is x : isw x -> is_sigma1 x (sigma1 x).
Proof.
  intro A. split.
  - apply isw_lxor; [apply isw_lxor; apply isw_rotr; try assumption; lia|apply isw_shiftr; try assumption; lia].
  - intros i Hi. unfold sigma1, xor3. rewrite !Z.lxor_spec, !rotr_bits, shr_bits by (assumption || lia). apply xorb_assoc.
Qed.
Lemma Ch_is x y z : isw x -> isw y -> isw z -> is_choice x y z (Ch x y z).
Proof.
  intros A B C. split.
  - apply isw_lxor; apply isw_land; try assumption. now apply isw_not32.
  - intros i Hi. unfold Ch, not32. change 0xffffffff with (Z.ones 32).
    rewrite Z.lxor_spec, !Z.land_spec, Z.lxor_spec, Z.ones_spec_low by lia.
    destruct (Z.testbit x i), (Z.testbit y i), (Z.testbit z i); reflexivity.
Qed.
Lemma Maj_is x y z : isw x -> isw y -> isw z -> is_majority x y z (Maj x y z).
Proof.
  intros A B C. split.
  - apply isw_lxor; [apply isw_lxor|]; apply isw_land; assumption.
  - intros i Hi. unfold Maj. rewrite !Z.lxor_spec, !Z.land_spec.
    destruct (Z.testbit x i), (Z.testbit y i), (Z.testbit z i); reflexivity.
Qed.

(** * Constants *)
Definition root_k (d p k : Z) : bool :=
  let n := (if d =? 2 then Z.sqrt p else
    if p <? 8 then 1 else if p <? 27 then 2 else if p <? 64 then 3 else if p <? 125 then 4 else
    if p <? 216 then 5 else 6) in
  (0 <=? k) && (k <? 2 ^ 32) && (0 <=? n) && ((n * 2 ^ 32 + k) ^ d <=? p * 2 ^ (32 * d)) && (p * 2 ^ (32 * d) <? (n * 2 ^ 32 + k + 1) ^ d).
Lemma root_k_ok d p k : root_k d p k = true -> root_fraction d p k.
Proof.
  unfold root_k, root_fraction. cbv zeta. intro H. rewrite !andb_true_iff in H. destruct H as [[[[A B] C] D] E].
  split; [lia|]. eexists. split; [|split; [apply Z.leb_le, D|apply Z.ltb_lt, E]]. lia.
Qed.
Lemma Forall2_check d ps ks :
  length ps = length ks -> forallb (fun p => root_k d (fst p) (snd p)) (combine ps ks) = true ->
  Forall2 (root_fraction d) ps ks.
Proof.
  revert ks. induction ps as [|p ps IH]; intros [|k ks] L H; try discriminate; constructor.
  - cbn in H. apply andb_true_iff in H as [H _]. apply root_k_ok. exact H.
  - apply IH; [now injection L|]. cbn in H. apply andb_true_iff in H as [_ H]. exact H.
Qed.
Lemma sha_k_roots : Forall2 (root_fraction 3) first_primes sha_k.
Proof. apply Forall2_check; vm_compute; reflexivity. Qed.
Lemma sha_h_roots : Forall2 (root_fraction 2) (firstn 8 first_primes) sha_h.
Proof. apply Forall2_check; vm_compute; reflexivity. Qed.

(** * Bytes and words *)
Lemma be_fold n x : forall acc,
  fold_left (fun x b => x * 256 + b) (be_bytes n x) acc = acc * 2 ^ (8 * Z.of_nat n) + x mod 2 ^ (8 * Z.of_nat n).
Proof.
  induction n as [|n IH]; intro acc.
  - cbn. rewrite Z.mod_1_r. lia.
  - cbn [be_bytes fold_left]. rewrite IH. rewrite Z.shiftr_div_pow2 by lia.
    replace (8 * Z.of_nat (S n)) with (8 * Z.of_nat n + 8) by lia.
    rewrite Z.pow_add_r by lia. change (2 ^ 8) with 256.
    assert (P : 0 < 2 ^ (8 * Z.of_nat n)) by (apply Z.pow_pos_nonneg; lia).
    rewrite Z.rem_mul_r by lia. lia.
Qed.
Lemma be_big n x : big_endian (be_bytes n x) = x mod 2 ^ (8 * Z.of_nat n).
Proof. unfold big_endian. rewrite be_fold. lia. Qed.
Lemma be_length n x : length (be_bytes n x) = n.
Proof. induction n; cbn; congruence. Qed.
Lemma be_ok n x : bytes_ok (be_bytes n x).
Proof. induction n; cbn; constructor; [|assumption]. apply Z.mod_pos_bound. lia. Qed.

Lemma words_be_nth t : forall b, (4 * t + 4 <= length b)%nat ->
  nth t (words_be b) 0 = big_endian (firstn 4 (skipn (4 * t) b)).
Proof.
  induction t as [|t IH]; intros b L.
  - destruct b as [|a [|b [|c [|d r]]]]; cbn in L; try lia. cbn. unfold big_endian. cbn. lia.
  - destruct b as [|a [|b [|c [|d r]]]]; cbn [length] in L; try lia.
    replace (4 * S t)%nat with (S (S (S (S (4 * t))))) by lia. cbn [words_be nth skipn]. apply IH. lia.
Qed.
Lemma words_be_length n : forall b, length b = (4 * n)%nat -> length (words_be b) = n.
Proof.
  induction n as [|n IH]; intros b L.
  - now destruct b.
  - destruct b as [|a [|b [|c [|d r]]]]; cbn [length] in L; try lia.
    cbn [words_be length]. rewrite IH by lia. reflexivity.
Qed.
Lemma words_be_isw n : forall b, length b = (4 * n)%nat -> bytes_ok b -> Forall isw (words_be b).
Proof.
  induction n as [|n IH]; intros b L K.
  - destruct b; [constructor|discriminate].
  - destruct b as [|a [|b [|c [|d r]]]]; cbn [length] in L; try lia.
    cbn [words_be]. inversion K as [|? ? Ka K1]; subst. inversion K1 as [|? ? Kb K2]; subst.
    inversion K2 as [|? ? Kc K3]; subst. inversion K3 as [|? ? Kd K4]; subst.
    constructor; [|apply IH; [lia|assumption]]. unfold isw, is_byte in *. lia.
Qed.

(** * The message schedule *)
Definition Wr (l : list Z) (t : nat) : Z := nth (length l - 1 - t) l 0.
Definition good (l : list Z) : Prop :=
  Forall isw l /\ forall t, (16 <= t < length l)%nat ->
    Wr l t = (sigma1 (Wr l (t - 2)) + Wr l (t - 7) + sigma0 (Wr l (t - 15)) + Wr l (t - 16)) mod 2 ^ 32.
Lemma Wr_cons x l t : (t < length l)%nat -> Wr (x :: l) t = Wr l t.
Proof.
  intro H. unfold Wr. cbn [length]. replace (S (length l) - 1 - t)%nat with (S (length l - 1 - t)) by lia. reflexivity.
Qed.
Lemma good_step l : (16 <= length l)%nat -> good l ->
  good (add32 (add32 (sigma1 (nth 1 l 0)) (nth 6 l 0)) (add32 (sigma0 (nth 14 l 0)) (nth 15 l 0)) :: l).
Proof.
  intros L [A B]. split.
  - constructor; [apply isw_w32|exact A].
  - intros t [T1 T2]. cbn [length] in T2. destruct (Nat.eq_dec t (length l)) as [->|N].
    + rewrite (Wr_cons _ l (length l - 2)), (Wr_cons _ l (length l - 7)), (Wr_cons _ l (length l - 15)), (Wr_cons _ l (length l - 16)) by lia. unfold Wr at 1. cbn [length].
      replace (S (length l) - 1 - length l)%nat with O by lia. cbn [nth]. unfold Wr.
      replace (length l - 1 - (length l - 2))%nat with 1%nat by lia.
      replace (length l - 1 - (length l - 7))%nat with 6%nat by lia.
      replace (length l - 1 - (length l - 15))%nat with 14%nat by lia.
      replace (length l - 1 - (length l - 16))%nat with 15%nat by lia.
      unfold add32, w32. rewrite <- Zplus_mod. f_equal. lia.
    + rewrite !Wr_cons by lia. apply B. lia.
Qed.
Lemma schedule_spec n : forall l, (16 <= length l)%nat -> good l ->
  good (schedule n l) /\ length (schedule n l) = (n + length l)%nat /\
  forall t, (t < length l)%nat -> Wr (schedule n l) t = Wr l t.
Proof.
  induction n as [|n IH]; intros l L G.
  - auto.
  - cbn [schedule]. match goal with |- good (schedule n ?l') /\ _ => destruct (IH l') as [A [B C]] end.
    + cbn. lia.
    + apply good_step; assumption.
    + split; [exact A|]. split; [rewrite B; cbn; lia|]. intros t T. rewrite C by (cbn; lia). apply Wr_cons. exact T.
Qed.
Lemma Wr_rev l t : (t < length l)%nat -> nth t (rev l) 0 = Wr l t.
Proof. intro T. rewrite rev_nth by exact T. unfold Wr. f_equal. lia. Qed.

Lemma schedule_is b : length b = 64%nat -> bytes_ok b ->
  let ws := rev (schedule 48 (rev (words_be b))) in
  length ws = 64%nat /\ Forall isw ws /\ is_schedule b (fun t => nth t ws 0).
Proof.
  intros L K ws. assert (L16 : length (words_be b) = 16%nat) by (apply words_be_length; exact L).
  assert (G0 : good (rev (words_be b))).
  { split.
    - apply Forall_rev. apply (words_be_isw 16); assumption.
    - rewrite rev_length, L16. intros; lia. }
  destruct (schedule_spec 48 (rev (words_be b))) as [[G1 G2] [B C]].
  - rewrite rev_length. lia.
  - exact G0.
  - rewrite rev_length, L16 in B, C. change (48 + 16)%nat with 64%nat in B.
    assert (LW : length ws = 64%nat) by (unfold ws; rewrite rev_length; exact B).
    split; [exact LW|]. split; [apply Forall_rev; exact G1|]. split.
    + intros t T. unfold ws. rewrite Wr_rev by lia. rewrite C by lia.
      rewrite <- words_be_nth by lia. rewrite <- Wr_rev by (rewrite rev_length; lia). now rewrite rev_involutive.
    + intros t T. assert (I : forall k, (k < 64)%nat -> isw (nth k ws 0)).
      { intros k Hk. apply (proj1 (Forall_forall isw ws)); [apply Forall_rev; exact G1|]. apply nth_In. lia. }
      exists (sigma1 (nth (t - 2) ws 0)), (sigma0 (nth (t - 15) ws 0)).
      split; [apply sigma1_is, I; lia|]. split; [apply sigma0_is, I; lia|].
      unfold ws. rewrite !Wr_rev by lia. rewrite G2 by lia. reflexivity.
Qed.

(** * Rounds and blocks *)
Definition hl (s : hash) : list Z := [h0 s; h1 s; h2 s; h3 s; h4 s; h5 s; h6 s; h7 s].
Definition hw (s : hash) : Prop := Forall isw (hl s).

Lemma add32_q a b : exists q, add32 a b = a + b + q * 2 ^ 32.
Proof. exists (- ((a + b) / 2 ^ 32)). unfold add32, w32. rewrite Z.mod_eq by lia. lia. Qed.
Lemma mod_q x y q : x = y + q * 2 ^ 32 -> x mod 2 ^ 32 = y mod 2 ^ 32.
Proof. intros ->. apply Z_mod_plus_full. Qed.

Lemma round_is s k w : hw s -> is_round k w (hl s) (hl (round s (k, w))) /\ hw (round s (k, w)).
Proof.
  destruct s as [a b c d e f g h]. unfold hw, hl. cbn [h0 h1 h2 h3 h4 h5 h6 h7 round fst snd]. intro H.
  rewrite !Forall_cons_iff in H. destruct H as (A & B & C & D & E & F & G & I & _).
  split; [|repeat constructor; try assumption; try apply isw_w32; try apply C; try apply A; try apply B;
           try apply E; try apply F; try apply G].
  set (t1 := add32 (add32 (add32 h (Sigma1 e)) (Ch e f g)) (add32 k w)).
  set (t2 := add32 (Sigma0 a) (Maj a b c)).
  assert (T1 : exists q, t1 = h + Sigma1 e + Ch e f g + k + w + q * 2 ^ 32).
  { unfold t1. destruct (add32_q h (Sigma1 e)) as [q1 ->].
    destruct (add32_q (h + Sigma1 e + q1 * 2 ^ 32) (Ch e f g)) as [q2 ->].
    destruct (add32_q k w) as [q3 ->].
    match goal with |- exists q, add32 ?x ?y = _ => destruct (add32_q x y) as [q4 ->] end.
    exists (q1 + q2 + q3 + q4). lia. }
  assert (T2 : exists q, t2 = Sigma0 a + Maj a b c + q * 2 ^ 32) by apply add32_q.
  clearbody t1 t2. destruct T1 as [q1 ->], T2 as [q2 ->].
  match goal with |- is_round _ _ _ [?x; _; _; _; ?y; _; _; _] =>
    replace x with ((h + Sigma1 e + Ch e f g + k + w + (Sigma0 a + Maj a b c)) mod 2 ^ 32);
    [replace y with ((d + (h + Sigma1 e + Ch e f g + k + w)) mod 2 ^ 32)|] end.
  - constructor; [now apply Sigma1_is|now apply Ch_is|now apply Sigma0_is|now apply Maj_is].
  - symmetry. unfold add32, w32. apply (mod_q _ _ q1). lia.
  - symmetry. unfold add32, w32. apply (mod_q _ _ (q1 + q2)). lia.
Qed.
Lemma firstn_S {A} (d : A) : forall t l, (t < length l)%nat -> firstn (S t) l = firstn t l ++ [nth t l d].
Proof.
  induction t as [|t IH]; intros [|x l] H; cbn [length] in H; try lia.
  - reflexivity.
  - cbn [firstn nth app]. f_equal. apply IH. lia.
Qed.
Lemma rounds_w kws : forall s, hw s -> hw (fold_left round kws s).
Proof.
  induction kws as [|[k w] kws IH]; intros s H; [exact H|]. cbn [fold_left]. apply IH. apply round_is. exact H.
Qed.
Lemma hl_add s r : hl (mkH (add32 (h0 s) (h0 r)) (add32 (h1 s) (h1 r)) (add32 (h2 s) (h2 r)) (add32 (h3 s) (h3 r))
      (add32 (h4 s) (h4 r)) (add32 (h5 s) (h5 r)) (add32 (h6 s) (h6 r)) (add32 (h7 s) (h7 r))) =
  map (fun p => (fst p + snd p) mod 2 ^ 32) (combine (hl s) (hl r)).
Proof. reflexivity. Qed.
Lemma block_is s b : hw s -> length b = 64%nat -> bytes_ok b ->
  is_block b (hl s) (hl (sha_block s b)) /\ hw (sha_block s b).
Proof.
  intros H L K. destruct (schedule_is b L K) as [LW [IW SW]]. unfold sha_block. cbv zeta.
  set (ws := rev (schedule 48 (rev (words_be b)))) in *.
  split; [|unfold hw, hl; cbn [h0 h1 h2 h3 h4 h5 h6 h7]; repeat constructor; apply isw_w32].
  set (kws := combine sha_k ws). assert (LK : length kws = 64%nat).
  { unfold kws. rewrite combine_length, LW. reflexivity. }
  exists sha_k, (fun t => nth t ws 0), (fun t => hl (fold_left round (firstn t kws) s)).
  split; [exact sha_k_roots|]. split; [exact SW|]. split; [reflexivity|]. split.
  - intros t T. rewrite (firstn_S (0, 0)) by lia. rewrite fold_left_app. cbn [fold_left].
    replace (nth t kws (0, 0)) with (nth t sha_k 0, nth t ws 0) by (symmetry; apply combine_nth; rewrite LW; reflexivity). apply round_is. apply rounds_w. exact H.
  - rewrite hl_add. rewrite (firstn_all2 kws) by lia. reflexivity.
Qed.
Lemma blocks_is n : forall s p, hw s -> length p = (64 * n)%nat -> bytes_ok p ->
  is_hashed p (hl s) (hl (sha_blocks n s p)) /\ hw (sha_blocks n s p).
Proof.
  induction n as [|n IH]; intros s p H L K.
  - destruct p; [|discriminate]. split; [constructor|exact H].
  - cbn [sha_blocks]. rewrite <- (firstn_skipn 64 p) in K. apply Forall_app in K as [K1 K2].
    assert (L1 : length (firstn 64 p) = 64%nat) by (rewrite firstn_length; lia).
    destruct (block_is s (firstn 64 p) H L1 K1) as [B1 B2].
    destruct (IH (sha_block s (firstn 64 p)) (skipn 64 p) B2) as [C1 C2].
    + rewrite skipn_length. lia.
    + exact K2.
    + split; [|exact C2]. rewrite <- (firstn_skipn 64 p) at 1.
      exact (is_hashed_block _ _ _ _ _ L1 B1 C1).
Qed.

(** * Padding and the whole *)
Lemma pad_length m : exists n, length (sha_pad m) = (64 * n)%nat.
Proof.
  unfold sha_pad. rewrite !app_length, be_length, repeat_length. cbn [length].
  assert (E : exists q, (55 - zlen m) mod 64 = 55 - zlen m + q * 64).
  { exists (- ((55 - zlen m) / 64)). rewrite Z.mod_eq by lia. lia. }
  destruct E as [q E]. pose proof (Z.mod_pos_bound (55 - zlen m) 64 ltac:(lia)) as P. unfold zlen in *.
  exists (Z.to_nat (1 + q)). lia.
Qed.
Lemma pad_is m : bytes_ok m -> is_padded m (sha_pad m) /\ bytes_ok (sha_pad m).
Proof.
  intro K. pose proof (Z.mod_pos_bound (55 - zlen m) 64 ltac:(lia)) as P. split.
  - exists (Z.to_nat ((55 - zlen m) mod 64)), (be_bytes 8 (8 * zlen m)).
    split; [reflexivity|]. split; [lia|]. split; [apply be_length|]. split; [apply be_ok|].
    split; [apply (be_big 8)|]. destruct (pad_length m) as [n ->].
    rewrite Nat.mul_comm. apply Nat.mod_mul. lia.
  - unfold sha_pad. apply Forall_app. split; [exact K|]. apply Forall_app. split; [repeat constructor; unfold is_byte; lia|].
    apply Forall_app. split; [|apply be_ok]. apply Forall_forall. intros x Hx. apply repeat_spec in Hx. subst. unfold is_byte. lia.
Qed.
Lemma init_w : hw sha_init.
Proof. unfold hw, hl. cbn. repeat constructor; unfold isw; try lia. Qed.

Theorem sha256_is m : bytes_ok m -> is_sha256 m (sha256 m).
Proof.
  intro K. destruct (pad_is m K) as [P PK]. destruct (pad_length m) as [n L].
  unfold sha256. cbv zeta. rewrite L. rewrite (Nat.mul_comm 64 n), Nat.div_mul by lia.
  destruct (blocks_is n sha_init (sha_pad m) init_w L PK) as [H W].
  exists (sha_pad m), sha_h, (hl (sha_blocks n sha_init (sha_pad m))).
  destruct (sha_blocks n sha_init (sha_pad m)) as [a b c d e f g h].
  unfold hw, hl in *. cbn [h0 h1 h2 h3 h4 h5 h6 h7] in *.
  split; [exact P|]. split; [exact sha_h_roots|]. split; [exact H|].
  cbn [flat_map]. rewrite app_nil_r. split; [rewrite !app_length, !be_length; reflexivity|].
  split; [repeat (apply Forall_app; split); apply be_ok|].
  rewrite !Forall_cons_iff in W. destruct W as (A & B & C & D & E & F & G & I & _).
  assert (Q : forall x, isw x -> big_endian (be_bytes 4 x) = x).
  { intros x X. rewrite (be_big 4). apply Z.mod_small. exact X. }
  intros i Hi. destruct i as [|[|[|[|[|[|[|[|i]]]]]]]]; [..|lia]; cbn [nth]; symmetry.
  - rewrite <- (Q a A) at 1. reflexivity.
  - rewrite <- (Q b B) at 1. reflexivity.
  - rewrite <- (Q c C) at 1. reflexivity.
  - rewrite <- (Q d D) at 1. reflexivity.
  - rewrite <- (Q e E) at 1. reflexivity.
  - rewrite <- (Q f F) at 1. reflexivity.
  - rewrite <- (Q g G) at 1. reflexivity.
  - rewrite <- (Q h I) at 1. reflexivity.
Qed.

(** * The description determines the result *)
Lemma bits_unique x y f : word_bits x f -> word_bits y f -> x = y.
Proof.
  intros [A A'] [B B']. apply isw_high in A as [A H]. apply isw_high in B as [B H'].
  apply Z.bits_inj'. intros i Hi. destruct (Z_lt_ge_dec i 32).
  - rewrite A', B' by lia. reflexivity.
  - rewrite H, H' by lia. reflexivity.
Qed.
Lemma root_unique d p k k' : 0 < d -> root_fraction d p k -> root_fraction d p k' -> k = k'.
Proof.
  intros Hd [K [n [N [A B]]]] [K' [n' [N' [A' B']]]].
  assert (M : forall x y, 0 <= x -> 0 <= y -> x ^ d < y ^ d -> x < y).
  { intros x y X Y H. destruct (Z_lt_ge_dec x y); [assumption|].
    pose proof (Z.pow_le_mono_l y x d ltac:(lia)). lia. }
  pose proof (M (n * 2 ^ 32 + k) (n' * 2 ^ 32 + k' + 1) ltac:(lia) ltac:(lia) ltac:(lia)).
  pose proof (M (n' * 2 ^ 32 + k') (n * 2 ^ 32 + k + 1) ltac:(lia) ltac:(lia) ltac:(lia)). lia.
Qed.
Lemma roots_unique d ps : 0 < d -> forall ks ks', Forall2 (root_fraction d) ps ks -> Forall2 (root_fraction d) ps ks' -> ks = ks'.
Proof.
  intro Hd. induction ps as [|p ps IH]; intros ks ks' A B; inversion A; inversion B; subst; [reflexivity|].
  f_equal; [eapply root_unique; eassumption|]. apply IH; assumption.
Qed.
Lemma big_fold l : forall acc, fold_left (fun x b => x * 256 + b) l acc = acc * 256 ^ zlen l + big_endian l.
Proof.
  unfold big_endian. induction l as [|b l IH]; intro acc.
  - unfold zlen. cbn. lia.
  - cbn [fold_left]. rewrite (IH (acc * 256 + b)), (IH (0 * 256 + b)).
    replace (zlen (b :: l)) with (zlen l + 1) by (unfold zlen; cbn [length]; lia).
    rewrite Z.pow_add_r by (unfold zlen; lia). change (256 ^ 1) with 256. lia.
Qed.
Lemma big_bound l : bytes_ok l -> 0 <= big_endian l < 256 ^ zlen l.
Proof.
  induction l as [|b l IH]; intro K.
  - cbn. lia.
  - inversion K as [|? ? Kb Kl]; subst. specialize (IH Kl). unfold big_endian. cbn [fold_left]. rewrite big_fold.
    replace (zlen (b :: l)) with (zlen l + 1) by (unfold zlen; cbn [length]; lia).
    rewrite Z.pow_add_r by (unfold zlen; lia). change (256 ^ 1) with 256. unfold is_byte in Kb. nia.
Qed.
Lemma big_inj l : forall l', length l = length l' -> bytes_ok l -> bytes_ok l' -> big_endian l = big_endian l' -> l = l'.
Proof.
  induction l as [|b l IH]; intros [|b' l'] L K K' E; try discriminate; [reflexivity|].
  injection L as L. inversion K as [|? ? Kb Kl]; subst. inversion K' as [|? ? Kb' Kl']; subst.
  unfold big_endian in E. cbn [fold_left] in E. rewrite (big_fold l), (big_fold l') in E.
  replace (zlen l') with (zlen l) in E by (unfold zlen; lia).
  pose proof (big_bound l Kl) as P. pose proof (big_bound l' Kl') as P'.
  replace (zlen l') with (zlen l) in P' by (unfold zlen; lia).
  assert (b = b') by nia. subst. f_equal. apply IH; try assumption. lia.
Qed.
Lemma padded_unique m p p' : is_padded m p -> is_padded m p' -> p = p'.
Proof.
  intros (z & l & -> & Z1 & L & K & V & D) (z' & l' & -> & Z1' & L' & K' & V' & D').
  assert (l = l') by (apply big_inj; try assumption; congruence). subst.
  rewrite !app_length in D, D'. cbn [length] in D, D'. rewrite !app_length, !repeat_length, L in D, D'.
  assert (z = z'); [|congruence].
  apply Nat.mod_divides in D as [q D]; [|lia]. apply Nat.mod_divides in D' as [q' D']; [|lia]. lia.
Qed.
Lemma schedule_unique b W W' : is_schedule b W -> is_schedule b W' -> forall t, (t < 64)%nat -> W t = W' t.
Proof.
  intros [A B] [A' B'] t. induction t as [t IH] using lt_wf_ind. intro T.
  destruct (Nat.lt_ge_cases t 16) as [H|H].
  - rewrite A, A' by exact H. reflexivity.
  - destruct (B t ltac:(lia)) as (s1 & s0 & X & Y & ->). destruct (B' t ltac:(lia)) as (s1' & s0' & X' & Y' & ->).
    rewrite <- IH in X' by lia. rewrite <- IH in Y' by lia.
    rewrite (bits_unique _ _ _ X X'), (bits_unique _ _ _ Y Y'). rewrite (IH (t - 7)%nat), (IH (t - 16)%nat) by lia. reflexivity.
Qed.
Lemma round_unique k w s r r' : is_round k w s r -> is_round k w s r' -> r = r'.
Proof.
  intros A B. inversion A as [a b c d e f g h s1 ch s0 maj H1 H2 H3 H4]; subst.
  inversion B as [a' b' c' d' e' f' g' h' s1' ch' s0' maj' H1' H2' H3' H4']; subst.
  rewrite (bits_unique _ _ _ H1 H1'), (bits_unique _ _ _ H2 H2'), (bits_unique _ _ _ H3 H3'), (bits_unique _ _ _ H4 H4').
  reflexivity.
Qed.
Lemma block_unique b H H1 H2 : is_block b H H1 -> is_block b H H2 -> H1 = H2.
Proof.
  intros (K & W & v & R & S & V0 & V & E) (K' & W' & v' & R' & S' & V0' & V' & E').
  assert (K = K') by (eapply roots_unique; [|eassumption..]; lia). subst K'.
  assert (Q : forall t, (t <= 64)%nat -> v t = v' t).
  { induction t as [|t IH]; intro T; [congruence|]. specialize (V t ltac:(lia)). specialize (V' t ltac:(lia)).
    rewrite <- IH in V' by lia. rewrite <- (schedule_unique b W W' S S' t) in V' by lia.
    exact (round_unique _ _ _ _ _ V V'). }
  rewrite E, E', Q by lia. reflexivity.
Qed.
Lemma hashed_unique p H H1 : is_hashed p H H1 -> forall H2, is_hashed p H H2 -> H1 = H2.
Proof.
  induction 1 as [H|b rest H G1 G2 L B C IH]; intros H2 D.
  - inversion D as [|b rest ? ? ? L B C E]; subst; [reflexivity|]. destruct b; discriminate.
  - inversion D as [X Y|b' rest' ? ? ? L' B' C' E]; subst.
    + destruct b; discriminate.
    + assert (Q : b = b' /\ rest = rest').
      { split; [apply (f_equal (firstn 64)) in E|apply (f_equal (skipn 64)) in E].
        - rewrite !firstn_app, L, L', !(firstn_all2 _ (n := 64)) in E by lia. cbn in E. rewrite !app_nil_r in E. congruence.
        - rewrite !skipn_app, L, L', !(skipn_all2 _ (n := 64)) in E by lia. cbn in E. congruence. }
      destruct Q as [<- <-]. apply IH. rewrite (block_unique _ _ _ _ B B'). exact C'.
Qed.
Theorem is_sha256_unique m d d' : is_sha256 m d -> is_sha256 m d' -> d = d'.
Proof.
  intros (p & H0 & H & P & R & B & L & K & D) (p' & H0' & H' & P' & R' & B' & L' & K' & D').
  assert (p = p') by (eapply padded_unique; eassumption). subst.
  assert (H0 = H0') by (eapply roots_unique; [|eassumption..]; lia). subst.
  assert (H = H') by (eapply hashed_unique; eassumption). subst.
  assert (Q : forall i, (i < 8)%nat -> firstn 4 (skipn (4 * i) d) = firstn 4 (skipn (4 * i) d')).
  { intros i Hi. apply big_inj.
    - rewrite !firstn_length, !skipn_length. lia.
    - rewrite <- (firstn_skipn (4 * i) d) in K. apply Forall_app in K as [_ K].
      rewrite <- (firstn_skipn 4) in K. apply Forall_app in K as [K _]. exact K.
    - rewrite <- (firstn_skipn (4 * i) d') in K'. apply Forall_app in K' as [_ K'].
      rewrite <- (firstn_skipn 4) in K'. apply Forall_app in K' as [K' _]. exact K'.
    - rewrite D, D' by lia. reflexivity. }
  assert (F : forall n, (n <= 8)%nat -> firstn (4 * n) d = firstn (4 * n) d').
  { induction n as [|n IH]; intro N; [reflexivity|]. replace (4 * S n)%nat with (4 * n + 4)%nat by lia.
    assert (SP : forall x : list Z, firstn (4 * n + 4) x = firstn (4 * n) x ++ firstn 4 (skipn (4 * n) x)).
    { intro x. revert x. generalize (4 * n)%nat. induction n0 as [|k IHk]; intro x; [reflexivity|].
      destruct x; [reflexivity|]. cbn [Nat.add firstn skipn app]. f_equal. apply IHk. }
    rewrite !SP, IH, Q by lia. reflexivity. }
  specialize (F 8%nat ltac:(lia)). rewrite !firstn_all2 in F by lia. exact F.
Qed.
Theorem sha256_iff m d : bytes_ok m -> (is_sha256 m d <-> d = sha256 m).
Proof.
  intro K. pose proof (sha256_is m K) as S. split.
  - intro H. exact (is_sha256_unique _ _ _ H S).
  - intros ->. exact S.
Qed.
