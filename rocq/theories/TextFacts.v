(** Decimal and hexadecimal texts, and C44. *)
From Verif Require Import Base Types Text Tools NumFacts.
From Coq Require Import Lia.

(** * Numerals *)

Definition digit (c : Z) : Prop := 48 <= c <= 57.
(** The number written with the digits [ds]. *)
Definition digits_val (ds : list Z) : Z := fold_left (fun a c => 10 * a + (c - 48)) ds 0.
(** [ds] is the usual decimal notation of [n]: digits, no superfluous zeros. *)
Definition decimal (n : Z) (ds : list Z) : Prop :=
  Forall digit ds /\ digits_val ds = n /\ ds <> [] /\ (hd 0 ds = 48 -> ds = [48]).

Lemma digits_val_app a b :
  digits_val (a ++ b) = digits_val a * 10 ^ zlen b + digits_val b.
Proof.
  unfold digits_val. rewrite fold_left_app. generalize (fold_left (fun a c => 10 * a + (c - 48)) a 0).
  clear a. induction b as [|c b IH] using rev_ind; intro a; [cbn; lia|].
  rewrite !fold_left_app, IH. cbn [fold_left]. rewrite zlen_app, Z.pow_add_r by (pose proof (zlen_nonneg b); unfold zlen; cbn; lia).
  change (zlen [c]) with 1. rewrite Z.pow_1_r. ring.
Qed.
Lemma digits_val_range ds : Forall digit ds -> 0 <= digits_val ds < 10 ^ zlen ds.
Proof.
  induction ds as [|c ds IH] using rev_ind; intro H; [cbn; lia|].
  rewrite Forall_app in H. destruct H as [H1 H2]. inversion_clear H2 as [|? ? Hc _]. specialize (IH H1).
  rewrite digits_val_app, zlen_app. change (zlen [c]) with 1. change (digits_val [c]) with (0 + (c - 48)).
  rewrite Z.pow_add_r by (pose proof (zlen_nonneg ds); lia). unfold digit in Hc. lia.
Qed.

Lemma dec_digits_spec fuel : forall n acc, 0 <= n < 2 ^ Z.of_nat fuel -> (0 < fuel)%nat ->
  exists ds, dec_digits fuel n acc = ds ++ acc /\ decimal n ds.
Proof.
  induction fuel as [|f IH]; intros n acc Hn Hf; [lia|]. cbn [dec_digits]. cbv zeta.
  destruct (n <? 10) eqn:E.
  - exists [48 + n mod 10]. split; [reflexivity|]. rewrite Z.mod_small by lia.
    split; [repeat constructor; unfold digit; lia|]. unfold digits_val. cbn [fold_left hd].
    split; [lia|]. split; [easy|]. intro H. f_equal. lia.
  - assert (Hf' : (0 < f)%nat).
    { destruct f; [|lia]. change (2 ^ Z.of_nat 1) with 2 in Hn. lia. }
    assert (Hn' : 0 <= n / 10 < 2 ^ Z.of_nat f).
    { rewrite Nat2Z.inj_succ, Z.pow_succ_r in Hn by lia. split; [apply Z.div_pos; lia|].
      apply Z.div_lt_upper_bound; lia. }
    destruct (IH (n / 10) ((48 + n mod 10) :: acc) Hn' Hf') as (ds & -> & Hd & Hv & Hne & Hz).
    exists (ds ++ [48 + n mod 10]). rewrite <- app_assoc. split; [reflexivity|].
    pose proof (Z.mod_pos_bound n 10 ltac:(lia)). pose proof (Z.div_mod n 10 ltac:(lia)).
    split; [apply Forall_app; split; [exact Hd|repeat constructor; unfold digit; lia]|].
    split; [rewrite digits_val_app, Hv; change (zlen [48 + n mod 10]) with 1; unfold digits_val; cbn [fold_left]; lia|].
    split; [now destruct ds|]. destruct ds as [|c ds]; [easy|]. cbn [hd app] in *. intros ->.
    specialize (Hz eq_refl). injection Hz as ->. change (digits_val [48]) with 0 in Hv.
    assert (n / 10 >= 1) by (apply Z.le_ge, Z.div_le_lower_bound; lia). lia.
Qed.

Lemma dec_nat_spec n : 0 <= n -> decimal n (dec_nat n).
Proof.
  intro Hn. unfold dec_nat.
  destruct (dec_digits_spec (S (Z.to_nat (Z.log2 n))) n []) as (ds & -> & Hd).
  - split; [exact Hn|]. rewrite Nat2Z.inj_succ, Z2Nat.id by apply Z.log2_nonneg.
    destruct (Z.eq_dec n 0) as [->|]; [reflexivity|]. apply Z.log2_spec. lia.
  - lia.
  - now rewrite app_nil_r.
Qed.

(** The notation of a number is unique. *)
Lemma decimal_unique n ds ds' : decimal n ds -> decimal n ds' -> ds = ds'.
Proof.
  assert (Hlen : forall m ds, decimal m ds -> ds = [48] \/ 10 ^ (zlen ds - 1) <= m).
  { intros m [|c l] (Hd & Hv & Hne & Hz); [easy|]. destruct (Z.eq_dec c 48) as [->|Hc]; [left; now apply Hz|].
    right. inversion_clear Hd as [|? ? Hc' Hd']. change (c :: l) with ([c] ++ l) in Hv.
    rewrite digits_val_app in Hv. change (digits_val [c]) with (0 + (c - 48)) in Hv.
    pose proof (digits_val_range l Hd'). rewrite zlen_cons. replace (1 + zlen l - 1) with (zlen l) by lia.
    unfold digit in Hc'. assert (0 < 10 ^ zlen l) by (apply Z.pow_pos_nonneg; [lia|apply zlen_nonneg]). nia. }
  assert (Hval : forall (l l' : list Z), Forall digit l -> Forall digit l' -> length l = length l' ->
    digits_val l = digits_val l' -> l = l').
  { intro l. induction l as [|c l IH] using rev_ind; intros l' Hl Hl' Hlen' Hv.
    - now destruct l'.
    - destruct l' as [|c' l' _] using rev_ind; [rewrite app_length in Hlen'; cbn in Hlen'; lia|].
      rewrite !app_length in Hlen'. cbn in Hlen'. rewrite !Forall_app in *.
      destruct Hl as [Hl Hc], Hl' as [Hl' Hc']. inversion_clear Hc as [|? ? Hc0 _]. inversion_clear Hc' as [|? ? Hc0' _].
      rewrite !digits_val_app in Hv. change (zlen [c]) with 1 in Hv. change (zlen [c']) with 1 in Hv.
      change (digits_val [c]) with (0 + (c - 48)) in Hv. change (digits_val [c']) with (0 + (c' - 48)) in Hv.
      unfold digit in *. f_equal; [apply IH; auto; lia|f_equal; lia]. }
  intros H H'. pose proof (Hlen _ _ H) as L. pose proof (Hlen _ _ H') as L'.
  pose proof H as (Hd & Hv & Hne & _). pose proof H' as (Hd' & Hv' & Hne' & _).
  pose proof (digits_val_range _ Hd). pose proof (digits_val_range _ Hd').
  apply Hval; [assumption..| |congruence].
  assert (P : forall a b, decimal n a -> decimal n b -> zlen a <= zlen b).
  { intros a b Ha Hb. destruct (Z_le_gt_dec (zlen a) (zlen b)) as [|Hgt]; [assumption|exfalso].
    pose proof (Hlen _ _ Ha) as La. pose proof Hb as (Hdb & Hvb & Hneb & _). pose proof (digits_val_range _ Hdb) as Hr.
    rewrite Hvb in Hr. destruct La as [->|La].
    - destruct b; [easy|]. change (zlen [48]) with 1 in Hgt. rewrite zlen_cons in Hgt. pose proof (zlen_nonneg b). lia.
    - assert (10 ^ zlen b <= 10 ^ (zlen a - 1)) by (apply Z.pow_le_mono_r; lia). lia. }
  pose proof (P _ _ H H'). pose proof (P _ _ H' H). unfold zlen in *. lia.
Qed.
Lemma decimal_fun n n' ds : decimal n ds -> decimal n' ds -> n = n'.
Proof. intros (_ & <- & _) (_ & <- & _). reflexivity. Qed.

(** The notation of an integer. *)
Definition integer (z : Z) (s : list Z) : Prop :=
  if z <? 0 then exists ds, s = 45 :: ds /\ decimal (- z) ds else decimal z s.
Lemma itoa_spec z : integer z (itoa z).
Proof.
  unfold integer, itoa. destruct (z <? 0) eqn:E; [|apply dec_nat_spec; lia].
  eexists. split; [reflexivity|]. apply dec_nat_spec. lia.
Qed.
Lemma decimal_digits n s : decimal n s -> Forall digit s. Proof. now intros []. Qed.
Lemma itoa_inj z z' : itoa z = itoa z' -> z = z'.
Proof.
  intro H. pose proof (itoa_spec z) as S. pose proof (itoa_spec z') as S'. unfold integer in *. rewrite H in S.
  destruct (z <? 0) eqn:E, (z' <? 0) eqn:E'.
  - destruct S as (d & Hs & D), S' as (d' & Hs' & D'). rewrite Hs in Hs'. injection Hs' as ->.
    pose proof (decimal_fun _ _ _ D D'). lia.
  - destruct S as (d & Hs & D). rewrite Hs in S'. apply decimal_digits in S'. inversion_clear S'. unfold digit in *. lia.
  - destruct S' as (d & Hs & D). rewrite Hs in S. apply decimal_digits in S. inversion_clear S. unfold digit in *. lia.
  - eapply decimal_fun; eassumption.
Qed.

(** * Lists of numbers *)

Definition not_digit_first (s : list Z) : Prop := match s with [] => True | c :: _ => ~ digit c end.
Lemma split_digits a : forall b x y, Forall digit a -> Forall digit b ->
  not_digit_first x -> not_digit_first y -> a ++ x = b ++ y -> a = b /\ x = y.
Proof.
  induction a as [|c a IH]; intros [|c' b] x y Ha Hb Hx Hy H; cbn [app] in H.
  - auto.
  - subst x. inversion_clear Hb. cbn in Hx. easy.
  - subst y. inversion_clear Ha. cbn in Hy. easy.
  - injection H as -> H. inversion_clear Ha. inversion_clear Hb.
    destruct (IH b x y) as [-> ->]; auto.
Qed.

Lemma join_inj : forall l l' x y,
  Forall (fun d => Forall digit d /\ d <> []) l -> Forall (fun d => Forall digit d /\ d <> []) l' ->
  (exists x', x = 125 :: x') -> (exists y', y = 125 :: y') ->
  join (str ", ") l ++ x = join (str ", ") l' ++ y -> l = l' /\ x = y.
Proof.
  assert (Hnd : forall l x, (exists x', x = 125 :: x') -> not_digit_first (match l with [] => x | _ :: _ => str ", " ++ join (str ", ") l ++ x end)).
  { intros [|a l] x (x' & ->); cbn; unfold digit; lia. }
  assert (Hj : forall (d : list Z) l x, join (str ", ") (d :: l) ++ x =
    d ++ match l with [] => x | _ :: _ => str ", " ++ join (str ", ") l ++ x end).
  { intros d [|a l] x; [reflexivity|]. cbn [join]. now rewrite <- !app_assoc. }
  induction l as [|d l IH]; intros [|d' l'] x y Hl Hl' Hx Hy H.
  - auto.
  - exfalso. inversion_clear Hl' as [|? ? [Hd Hne] _]. rewrite Hj in H. cbn [join app] in H.
    destruct Hx as (x' & ->), d' as [|c d']; [easy|]. inversion_clear Hd as [|? ? Hc _].
    injection H as <- _. unfold digit in Hc. lia.
  - exfalso. inversion_clear Hl as [|? ? [Hd Hne] _]. rewrite Hj in H. cbn [join app] in H.
    destruct Hy as (y' & ->), d as [|c d]; [easy|]. inversion_clear Hd as [|? ? Hc _].
    injection H as -> _. unfold digit in Hc. lia.
  - inversion_clear Hl as [|? ? [Hd Hne] Hl0]. inversion_clear Hl' as [|? ? [Hd' Hne'] Hl0'].
    rewrite !Hj in H. apply split_digits in H as [-> H]; [|now auto..].
    destruct l as [|e l], l' as [|e' l'].
    + auto.
    + destruct Hx as (x' & ->). discriminate.
    + destruct Hy as (y' & ->). discriminate.
    + apply app_inv_head in H. apply IH in H as [-> ->]; auto.
Qed.

Lemma bytes_digits buf : bytes_ok buf -> Forall (fun d => Forall digit d /\ d <> []) (map itoa buf).
Proof.
  intro H. apply Forall_map. eapply Forall_impl; [|exact H]. intros b Hb. unfold is_byte in Hb.
  pose proof (itoa_spec b) as S. unfold integer in S. destruct (b <? 0) eqn:E; [lia|]. destruct S as (? & _ & ? & _). auto.
Qed.
Lemma map_itoa_inj a : forall b, map itoa a = map itoa b -> a = b.
Proof.
  induction a as [|x a IH]; intros [|y b] H; try discriminate; [reflexivity|]. cbn [map] in H. injection H as H1 H2.
  apply itoa_inj in H1 as ->. f_equal. auto.
Qed.

Lemma format_byte_slice_inj a b : bytes_ok a -> bytes_ok b ->
  format_byte_slice a = format_byte_slice b -> a = b.
Proof.
  intros Ha Hb H. unfold format_byte_slice in H. apply app_inv_head in H.
  apply join_inj in H as [H _]; [now apply map_itoa_inj|now apply bytes_digits|now apply bytes_digits|eexists; reflexivity..].
Qed.
Lemma format_discriminator_inj a b : bytes_ok a -> bytes_ok b ->
  format_discriminator a = format_discriminator b -> a = b.
Proof.
  intros Ha Hb H. unfold format_discriminator in H. apply app_inv_head in H.
  apply join_inj in H as [H _]; [now apply map_itoa_inj|now apply bytes_digits|now apply bytes_digits|eexists; reflexivity..].
Qed.
