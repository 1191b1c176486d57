(** The decoder accepts exactly what AccSpec.v says. *)
From Coq Require Import String.
From Verif Require Import Types DecPrim Enc Dec Spec NumFacts TyInd EncWire DecWire DecEq DecWithin AccSpec.
Notation length := Datatypes.length.

(** [m] accepts exactly [R], from any position; [P]/[Q]: what is known of the
    current order before and after. *)
Definition exact {A} (P Q : option order -> Prop) (E : encoding) (m : DM A) (R : rel A) : Prop :=
  forall pre inp c, P c -> bytes_ok inp ->
    (forall a s, m (mkD (pre ++ inp) (zlen pre) c E) = (Ok a, s) ->
       exists b rest c', inp = b ++ rest /\ s = mkD (pre ++ inp) (zlen pre + zlen b) c' E /\ Q c' /\ R b rest a) /\
    (forall b rest a, inp = b ++ rest -> R b rest a ->
       exists c', m (mkD (pre ++ inp) (zlen pre) c E) = (Ok a, mkD (pre ++ inp) (zlen pre + zlen b) c' E) /\ Q c').

Section Combinators.
  Variable E : encoding.
  Implicit Types P Q S : option order -> Prop.

  Lemma exact_weaken {A} P P' Q Q' (m : DM A) R :
    (forall c, P' c -> P c) -> (forall c, Q c -> Q' c) -> exact P Q E m R -> exact P' Q' E m R.
  Proof.
    intros HP HQ H pre inp c Hc Hb. destruct (H pre inp c (HP _ Hc) Hb) as [H1 H2]. split.
    - intros a s Hm. destruct (H1 a s Hm) as (b & rest & c' & ? & ? & ? & ?). eauto 10.
    - intros b rest a Hi Hr. destruct (H2 b rest a Hi Hr) as (c' & ? & ?). eauto.
  Qed.

  Lemma exact_iff {A} P Q (m : DM A) R R' :
    (forall b rest a, bytes_ok (b ++ rest) -> R b rest a <-> R' b rest a) ->
    exact P Q E m R -> exact P Q E m R'.
  Proof.
    intros HR H pre inp c Hc Hb. destruct (H pre inp c Hc Hb) as [H1 H2]. split.
    - intros a s Hm. destruct (H1 a s Hm) as (b & rest & c' & -> & ? & ? & Hr).
      exists b, rest, c'. repeat split; auto. now apply (HR b rest a Hb).
    - intros b rest a -> Hr. apply (H2 b rest a); auto. now apply (HR b rest a Hb).
  Qed.

  Lemma exact_ret {A} P (a : A) : exact P P E (ret a) (yields a).
  Proof.
    intros pre inp c Hc Hb. split.
    - intros x s H. unfold ret in H. injection H as <- <-. exists [], inp, c.
      rewrite zlen_nil, Z.add_0_r. repeat split; auto.
    - intros b rest x -> [-> ->]. exists c. rewrite zlen_nil, Z.add_0_r. split; auto.
  Qed.

  Lemma exact_never {A} P Q (m : DM A) : (forall s a s', m s <> (Ok a, s')) -> exact P Q E m nothing.
  Proof.
    intros H pre inp c _ _. split.
    - intros a s Hm. now apply H in Hm.
    - intros b rest a _ [].
  Qed.

  Lemma exact_bind {A B} P Q S (m : DM A) (k : A -> DM B) R K :
    exact P Q E m R -> (forall a, exact Q S E (k a) (K a)) -> exact P S E (bind m k) (followed R K).
  Proof.
    intros H1 H2 pre inp c Hc Hb. destruct (H1 pre inp c Hc Hb) as [M1 M2]. split.
    - intros y s Hm. unfold bind in Hm.
      destruct (m (mkD (pre ++ inp) (zlen pre) c E)) as [[a|e| | |] s1] eqn:E1; try discriminate.
      destruct (M1 a s1 eq_refl) as (b1 & r1 & c1 & -> & -> & Hq & Hr).
      assert (Hb2 : bytes_ok r1) by (apply bytes_ok_app in Hb; tauto).
      destruct (H2 a (pre ++ b1) r1 c1 Hq Hb2) as [N1 _].
      rewrite zlen_app, <- app_assoc in N1.
      destruct (N1 y s Hm) as (b2 & r2 & c2 & -> & -> & Hs & Hk).
      exists (b1 ++ b2), r2, c2. rewrite !app_assoc, zlen_app, Z.add_assoc. repeat split; auto.
      exists b1, b2, a. auto.
    - intros b rest y -> (b1 & b2 & a & -> & Hr & Hk).
      rewrite <- app_assoc in *.
      destruct (M2 b1 (b2 ++ rest) a eq_refl Hr) as (c1 & E1 & Hq).
      unfold bind. rewrite E1.
      assert (Hb2 : bytes_ok (b2 ++ rest)) by (apply bytes_ok_app in Hb; tauto).
      destruct (H2 a (pre ++ b1) (b2 ++ rest) c1 Hq Hb2) as [_ N2].
      rewrite zlen_app, <- app_assoc in N2.
      destruct (N2 b2 rest y eq_refl Hk) as (c2 & E2 & Hs).
      exists c2. rewrite zlen_app, Z.add_assoc. auto.
  Qed.

  Lemma exact_fmap {A B} P Q (f : A -> B) m R : exact P Q E m R -> exact P Q E (fmap f m) (image f R).
  Proof.
    intros H. unfold fmap.
    apply (exact_iff _ _ _ (followed R (fun a => yields (f a)))).
    - intros b rest y _. split.
      + intros (b1 & b2 & a & -> & Hr & -> & ->). rewrite app_nil_r. exists a. auto.
      + intros (a & -> & Hr). exists b, [], a. rewrite app_nil_r. repeat split; auto.
    - eapply exact_bind; [exact H|]. intro a. apply exact_ret.
  Qed.

  Lemma exact_map_err {A} P Q g (m : DM A) R : exact P Q E m R -> exact P Q E (map_err g m) R.
  Proof.
    intros H pre inp c Hc Hb. destruct (H pre inp c Hc Hb) as [H1 H2]. split.
    - intros a s Hm. apply H1. unfold map_err in Hm.
      destruct (m (mkD (pre ++ inp) (zlen pre) c E)) as [[x|e| | |] s1]; congruence.
    - intros b rest a Hi Hr. destruct (H2 b rest a Hi Hr) as (c' & E1 & Hq).
      exists c'. unfold map_err. rewrite E1. auto.
  Qed.

  Lemma exact_left {A} P Q (k : Z -> DM A) K :
    (forall n, 0 <= n -> exact P Q E (k n) (K n)) -> exact P Q E (bind d_remaining k) (left_in K).
  Proof.
    intros H pre inp c Hc Hb. pose proof (H (zlen inp) (zlen_nonneg inp) pre inp c Hc Hb) as [H1 H2].
    assert (Hr : forall c, bind d_remaining k (mkD (pre ++ inp) (zlen pre) c E) = k (zlen inp) (mkD (pre ++ inp) (zlen pre) c E)).
    { intro c0. (unfold bind, d_remaining; open_rem). cbn [d_data d_pos]. rewrite zlen_app.
      f_equal. lia. }
    rewrite Hr. split.
    - intros a s Hm. destruct (H1 a s Hm) as (b & rest & c' & -> & ? & ? & ?).
      exists b, rest, c'. repeat split; auto.
    - intros b rest a -> Hl. apply (H2 b rest a); auto.
  Qed.

  (** The same through dec.data and dec.pos. *)
  Lemma exact_within {A} P Q n e (m : DM A) R :
    exact P Q E m R ->
    exact P Q E (s <- d_get ;; if zlen (d_data s) <? d_pos s + n then fail e else m)
      (left_in (fun r => if r <? n then nothing else R)).
  Proof.
    intros H pre inp c Hc Hb. pose proof (H pre inp c Hc Hb) as [H1 H2].
    unfold bind, d_get. cbn [d_data d_pos]. rewrite zlen_app.
    replace (zlen pre + zlen inp <? zlen pre + n) with (zlen inp <? n) by lia.
    split.
    - intros a s Hm. destruct (zlen inp <? n) eqn:El; [discriminate|].
      destruct (H1 a s Hm) as (b & rest & c' & -> & ? & ? & ?).
      exists b, rest, c'. repeat split; auto. unfold left_in. now rewrite El.
    - intros b rest a -> Hl. unfold left_in in Hl. destruct (zlen (b ++ rest) <? n) eqn:El; [destruct Hl|].
      now apply (H2 b rest a).
  Qed.

  Lemma exact_rest {A} P Q (k : list Z -> DM A) (K : list Z -> rel A) :
    (forall l, exact P Q E (k l) (K l)) ->
    exact P Q E (bind d_rest k) (fun b rest a => K (b ++ rest) b rest a).
  Proof.
    intros H pre inp c Hc Hb. pose proof (H inp pre inp c Hc Hb) as [H1 H2].
    assert (Hk : bind d_rest k (mkD (pre ++ inp) (zlen pre) c E) = k inp (mkD (pre ++ inp) (zlen pre) c E)).
    { unfold bind at 1, d_rest, d_get, bind. cbn [d_data d_pos]. rewrite slice_from_mid. reflexivity. }
    rewrite Hk. split.
    - intros a s Hm. destruct (H1 a s Hm) as (b & rest & c' & -> & ? & ? & ?).
      exists b, rest, c'. repeat split; auto.
    - intros b rest a -> Hl. now apply (H2 b rest a).
  Qed.

  Lemma exact_get_enc {A} P Q (k : encoding -> DM A) R : exact P Q E (k E) R -> exact P Q E (bind d_get_enc k) R.
  Proof. intros H pre inp c. exact (H pre inp c). Qed.
  Lemma exact_set_cur {A} P Q o (m : DM A) R : exact (at_order o) Q E m R -> exact P Q E (d_set_cur o ;;; m) R.
  Proof. intros H pre inp c _ Hb. exact (H pre inp (Some o) eq_refl Hb). Qed.
  Lemma exact_cur_order {A} Q o (k : order -> DM A) R :
    exact (at_order o) Q E (k o) R -> exact (at_order o) Q E (bind d_cur_order k) R.
  Proof. intros H pre inp c Hc. pose proof Hc as Hc'. unfold at_order in Hc'. subst c. exact (H pre inp _ Hc). Qed.

  (** * Primitives *)
  Lemma exact_take P n : exact P P E (d_take n) (fun b _ a => zlen b = n /\ a = b).
  Proof.
    intros pre inp c Hc Hb. split.
    - intros a s. unfold d_take, d_get, bind. cbn [d_data d_pos]. unfold slice_n.
      destruct ((0 <=? zlen pre) && (0 <=? n) && (zlen pre + n <=? zlen (pre ++ inp))) eqn:Eg; [|discriminate].
      rewrite zlen_app in Eg. cbn [d_set_pos ret d_data d_cur d_enc].
      assert (Hsk : skipn (Z.to_nat (zlen pre)) (pre ++ inp) = inp).
      { unfold zlen. rewrite Nat2Z.id, skipn_app, skipn_all, Nat.sub_diag. reflexivity. }
      rewrite Hsk. intro H. injection H as <- <-.
      assert (Hln : zlen (firstn (Z.to_nat n) inp) = n).
      { unfold zlen in *. rewrite firstn_length. lia. }
      exists (firstn (Z.to_nat n) inp), (skipn (Z.to_nat n) inp), c.
      rewrite firstn_skipn, Hln. repeat split; auto.
    - intros b rest a -> [Hn ->]. exists c. split; [|exact Hc].
      apply keeps_take. lia.
  Qed.

  Ltac iff_by H := eapply exact_iff; [|exact H]; intros b rest a Hb; cbv beta.

  Lemma take_iff {B} n (f : list Z -> B) b rest y :
    followed (fun b (_ : list Z) a => zlen b = n /\ a = b) (fun a => yields (f a)) b rest y <->
    zlen b = n /\ y = f b.
  Proof.
    split.
    - intros (b1 & b2 & x & -> & [Hn ->] & -> & ->). now rewrite app_nil_r.
    - intros [Hn ->]. exists b, [], b. rewrite app_nil_r. repeat split; auto.
  Qed.

  Lemma fixed_iff o n b rest z : bytes_ok (b ++ rest) ->
    (zlen b = Z.of_nat n /\ z = get_uint o b) <-> unsigned n o b rest z.
  Proof.
    intro Hb. apply bytes_ok_app in Hb. destruct Hb as [Hb _]. unfold unsigned. split.
    - intros [Hn ->]. split.
      + rewrite <- Hn. now apply get_uint_range.
      + assert (Hl : n = length b) by (unfold zlen in Hn; lia). rewrite Hl. symmetry. now apply fixed_get.
    - intros [Hz ->]. rewrite fixed_zlen, get_fixed, Z.mod_small by exact Hz. auto.
  Qed.

  (** d_take behind the test of Remaining. *)
  Lemma exact_take_checked {A} P n (k : list Z -> DM A) K e :
    (forall l, exact P P E (k l) (K l)) ->
    exact P P E (r <- d_remaining ;; if r <? n then fail e else bind (d_take n) k)
      (followed (fun b _ a => zlen b = n /\ a = b) K).
  Proof.
    intro H.
    apply (exact_iff _ _ _ (left_in (fun r => if r <? n then nothing else followed (fun b _ a => zlen b = n /\ a = b) K))).
    - intros b rest a Hb. unfold left_in. destruct (zlen (b ++ rest) <? n) eqn:El; [|tauto].
      split; [intros []|]. intros (b1 & b2 & x & -> & [Hn _] & _).
      rewrite !zlen_app in El. pose proof (zlen_nonneg b2). pose proof (zlen_nonneg rest). lia.
    - apply exact_left. intros r Hr. destruct (r <? n); [apply exact_never; intros; discriminate|].
      eapply exact_bind; [apply exact_take|exact H].
  Qed.

  Lemma exact_uint P n o : exact P P E (read_uint n o) (unsigned n o).
  Proof.
    unfold read_uint.
    eapply exact_iff; [|apply exact_take_checked; intro l; apply exact_ret].
    intros b rest z Hb. rewrite take_iff. now apply fixed_iff.
  Qed.

  Lemma exact_byte P : exact P P E read_byte (fun b _ z => b = [z]).
  Proof.
    unfold read_byte.
    eapply exact_iff;
      [|apply (exact_take_checked _ _ _ (fun l => match l with [b] => yields b | _ => nothing end));
        intros [|x [|y l]]; try apply exact_ret; apply exact_never; intros; discriminate].
    intros b rest z Hb. split.
    - intros (b1 & b2 & x & -> & [Hn ->] & Hk). destruct b1 as [|y [|? ?]]; try contradiction.
      destruct Hk as [-> ->]. reflexivity.
    - intros ->. exists [z], [], [z]. repeat split; auto.
  Qed.

  Lemma exact_n_bytes P n : exact P P E (read_n_bytes n) (fun b _ a => zlen b = n /\ a = b /\ n <= bulk_max).
  Proof.
    unfold read_n_bytes, bulk_max. destruct (n =? 0) eqn:E0; [|destruct ((n <? 0) || (0x7FFFFFFF <? n)) eqn:E1].
    - eapply exact_iff; [|apply exact_ret]. intros b rest a _. unfold yields. split.
      + intros [-> ->]. rewrite zlen_nil. repeat split; lia.
      + intros (Hn & -> & _). rewrite (zlen_0 b) by lia. auto.
    - eapply exact_iff; [|apply exact_never; intros; discriminate]. intros b rest a _. cbn [nothing]. split; [easy|].
      intros (Hn & _ & Hm). pose proof (zlen_nonneg b). exfalso; lia.
    - eapply exact_iff; [|apply exact_within, exact_take]. intros b rest a _. unfold left_in.
      pose proof (zlen_nonneg rest). rewrite zlen_app.
      destruct (zlen b + zlen rest <? n) eqn:El.
      + split; [intros []|]. intros (Hn & _). exfalso; lia.
      + split; [intros [? ?]; repeat split; auto; lia|intros (? & ? & ?); auto].
  Qed.

  Lemma exact_uint64 P o : exact P P E (read_uint64 o) (unsigned 8 o).
  Proof.
    unfold read_uint64. eapply exact_iff; [|apply exact_left; intros r Hr;
      instantiate (1 := fun r => if r <? 8 then nothing else followed (fun b _ a => zlen b = 8 /\ a = b /\ 8 <= bulk_max) (fun a => yields (get_uint o a)));
      cbv beta; destruct (r <? 8); [apply exact_never; intros; discriminate|eapply exact_bind; [apply exact_n_bytes|intro l; apply exact_ret]]].
    intros b rest z Hb. rewrite <- fixed_iff by exact Hb. unfold left_in. pose proof (zlen_nonneg rest).
    destruct (zlen (b ++ rest) <? 8) eqn:El.
    - rewrite zlen_app in El. split; [intros []|]. intros [Hn _]. exfalso; lia.
    - split.
      + intros (b1 & b2 & x & -> & (Hn & -> & _) & -> & ->). rewrite app_nil_r. auto.
      + intros [Hn ->]. exists b, [], b. rewrite app_nil_r. unfold bulk_max. repeat split; auto; lia.
  Qed.

  Lemma exact_uintw P w o : exact P P E (read_uintw w o) (unsigned (wbytes w) o).
  Proof.
    destruct w; cbn [wbytes read_uintw].
    - eapply exact_iff; [|apply exact_byte]. intros b rest z Hb. rewrite <- fixed_iff by exact Hb. split.
      + intros ->. split; [reflexivity|]. destruct o; cbn; lia.
      + intros [Hn ->]. destruct b as [|x [|y l]]; try (cbn in Hn; lia).
        f_equal. destruct o; cbn; lia.
    - apply exact_uint.
    - apply exact_uint.
    - apply exact_uint64.
  Qed.

  Lemma exact_intw P w o : exact P P E (read_intw w o) (signed w o).
  Proof.
    unfold read_intw. eapply exact_iff; [|apply exact_fmap, exact_uintw].
    intros b rest z Hb. unfold image, unsigned, signed. rewrite wbytes_pow. split.
    - intros (u & -> & Hu & ->). split; [apply swrap_range, wbits_pos|].
      enough (Hg : fixed o (wbytes w) u = fixed o (wbytes w) (swrap (wbits w) u)) by exact Hg.
      rewrite <- (fixed_get o (fixed o (wbytes w) (swrap (wbits w) u))) by apply fixed_ok.
      rewrite fixed_length, get_fixed, wbytes_pow. f_equal.
      unfold swrap. rewrite (Z.mod_small u) by exact Hu.
      destruct (u <? 2 ^ (wbits w - 1)).
      + now rewrite Z.mod_small.
      + rewrite <- (Z.mod_small u (2 ^ wbits w)) at 1 by exact Hu.
        replace (u - 2 ^ wbits w) with (u + (-1) * 2 ^ wbits w) by lia.
        rewrite Z.mod_add; [reflexivity|]. lia.
    - intros [Hz ->]. exists (z mod 2 ^ wbits w).
      assert (Hp : 0 < 2 ^ wbits w) by (destruct w; reflexivity).
      rewrite swrap_mod, swrap_small by (exact Hz || apply wbits_pos).
      split; [reflexivity|]. split; [apply Z.mod_pos_bound; exact Hp|].
      rewrite <- (fixed_get o (fixed o (wbytes w) z)) at 1 by apply fixed_ok.
      now rewrite fixed_length, get_fixed, wbytes_pow.
  Qed.

  Lemma exact_read_float P f o : exact P P E (read_float f o) (float E f o).
  Proof.
    unfold read_float.
    eapply exact_iff; [|apply (exact_take_checked _ _ _ (fun l b rest z => is_borsh E && f_isnan f (get_uint o l) = false /\ yields (get_uint o l) b rest z))].
    - intros b rest z Hb. split.
      + intros (b1 & b2 & x & -> & [Hn ->] & Hnan & -> & ->). rewrite app_nil_r in *.
        assert (Hu : unsigned (fbytes f) o b1 rest (get_uint o b1)) by now apply fixed_iff.
        destruct Hu as [Hr Hf]. rewrite fbytes_pow in Hr. split; [exact Hr|]. split; [exact Hf|].
        intros ->. exact Hnan.
      + intros (Hr & Hf & Hnan).
        assert (Hu : unsigned (fbytes f) o b rest z) by (split; [now rewrite fbytes_pow|exact Hf]).
        apply fixed_iff in Hu; [|exact Hb]. destruct Hu as [Hn ->].
        exists b, [], b. rewrite app_nil_r. repeat split; auto.
        destruct E; try reflexivity. now apply Hnan.
    - intro l. cbv zeta. apply exact_get_enc.
      destruct (is_borsh E && f_isnan f (get_uint o l)).
      + eapply exact_iff; [|apply exact_never; intros; discriminate]. intros b rest a _. split; [easy|]. intros [? _]. discriminate.
      + eapply exact_iff; [|apply exact_ret]. intros b rest a _. tauto.
  Qed.

  Lemma exact_bool P : exact P P E read_bool truth.
  Proof.
    unfold read_bool.
    eapply exact_iff; [|apply exact_left; intros r Hr;
      instantiate (1 := fun r => if r <? 1 then nothing else followed (fun b _ z => b = [z]) (fun z => yields (negb (z =? 0))));
      cbv beta; destruct (r <? 1); [apply exact_never; intros; discriminate|eapply exact_bind; [apply exact_map_err, exact_byte|intro; apply exact_ret]]].
    intros b rest x _. unfold left_in, truth. pose proof (zlen_nonneg rest). split.
    - destruct (zlen (b ++ rest) <? 1); [intros []|]. intros (b1 & b2 & z & -> & -> & -> & ->). now exists z.
    - intros (z & -> & ->). rewrite zlen_app. rewrite zlen_cons, zlen_nil. destruct (1 + 0 + zlen rest <? 1) eqn:El; [exfalso; lia|].
      exists [z], [], z. repeat split; auto.
  Qed.

  (** * Varints *)
  Lemma uvarint_ten buf x s : snd (uvarint_get buf 10 x s) <= 0.
  Proof. destruct buf as [|b r]; cbn [uvarint_get]; cbn; lia. Qed.

  Lemma groups_nonneg b : 0 <= groups b.
  Proof. induction b as [|x b IH]; cbn [groups]; lia. Qed.

  Lemma pow7 i : 0 <= i -> 2 ^ (7 * (i + 1)) = 2 ^ (7 * i) * 128.
  Proof. intro H. replace (7 * (i + 1)) with (7 * i + 7) by lia. rewrite Z.pow_add_r by lia. reflexivity. Qed.

  Lemma step_bound x g p : 0 <= x < p -> 0 <= g < 128 -> 0 <= x + g * p < p * 128.
  Proof. nia. Qed.
  Lemma step_groups x g r p : x + g * p + r * (p * 128) = x + (g + 128 * r) * p.
  Proof. ring. Qed.

  Lemma uwrap64_small z : 0 <= z < 2 ^ 64 -> uwrap 64 z = z.
  Proof. intro H. unfold uwrap. now apply Z.mod_small. Qed.

  Lemma uvarint_get_inv buf : forall i x v n, bytes_ok buf -> 0 <= i <= 9 -> 0 <= x < 2 ^ (7 * i) ->
    uvarint_get buf i x (7 * i) = (v, n) -> 0 < n ->
    exists init last rest, buf = init ++ last :: rest /\ Forall (fun y => 128 <= y) init /\ last < 128 /\
      i + zlen init + 1 <= 10 /\ v = x + groups (init ++ [last]) * 2 ^ (7 * i) /\ v < 2 ^ 64 /\ n = i + zlen init + 1.
  Proof.
    induction buf as [|b buf IH]; intros i x v n Hb Hi Hx Hg Hn; cbn [uvarint_get] in Hg.
    { injection Hg as <- <-. lia. }
    inversion Hb as [|? ? Hb0 Hb1]; subst. unfold is_byte in Hb0.
    destruct (i =? 10) eqn:E10; [lia|].
    assert (Hpow : 2 ^ (7 * i) <= 2 ^ 63) by (apply Z.pow_le_mono_r; lia).
    destruct (b <? 128) eqn:Eb.
    - destruct ((i =? 9) && (1 <? b)) eqn:E9; [injection Hg as <- <-; lia|].
      rewrite lor_shift_add in Hg by lia.
      assert (Hbound : x + b * 2 ^ (7 * i) < 2 ^ 64).
      { destruct (Z.eq_dec i 9) as [->|].
        - change (2 ^ (7 * 9)) with (2 ^ 63) in *. lia.
        - pose proof (pow7 i ltac:(lia)). assert (2 ^ (7 * (i + 1)) <= 2 ^ 63) by (apply Z.pow_le_mono_r; lia).
          nia. }
      rewrite uwrap64_small in Hg by nia. injection Hg as <- <-.
      exists [], b, buf. cbn [app groups]. rewrite zlen_nil.
      replace (b mod 128 + 128 * 0) with b by lia.
      repeat split; auto; lia.
    - rewrite land_127, lor_shift_add in Hg by lia.
      destruct (Z.eq_dec i 9) as [->|Hne].
      { exfalso. change (9 + 1) with 10 in Hg. pose proof (uvarint_ten buf (uwrap 64 (x + b mod 128 * 2 ^ (7 * 9))) (7 * 9 + 7)) as H10.
        rewrite Hg in H10. cbn in H10. lia. }
      pose proof (pow7 i ltac:(lia)) as Hp7. assert (2 ^ (7 * (i + 1)) <= 2 ^ 63) by (apply Z.pow_le_mono_r; lia).
      pose proof (step_bound x (b mod 128) (2 ^ (7 * i)) Hx (Z.mod_pos_bound b 128 ltac:(lia))) as Hsb.
      rewrite <- Hp7 in Hsb.
      rewrite uwrap64_small in Hg by lia.
      replace (7 * i + 7) with (7 * (i + 1)) in Hg by lia.
      destruct (IH (i + 1) _ v n Hb1 ltac:(lia) Hsb Hg Hn) as (init & last & rest & -> & Hf & Hl & Hln & -> & Hv & ->).
      exists (b :: init), last, rest. cbn [app groups]. rewrite zlen_cons.
      repeat split; auto; try lia.
      + constructor; [lia|exact Hf].
  Qed.

  Lemma uvarint_get_all init : forall last rest i x, bytes_ok (init ++ [last]) -> 0 <= i -> 0 <= x < 2 ^ (7 * i) ->
    Forall (fun y => 128 <= y) init -> last < 128 -> i + zlen init + 1 <= 10 ->
    x + groups (init ++ [last]) * 2 ^ (7 * i) < 2 ^ 64 ->
    uvarint_get (init ++ last :: rest) i x (7 * i) = (x + groups (init ++ [last]) * 2 ^ (7 * i), i + zlen init + 1).
  Proof.
    induction init as [|b init IH]; intros last rest i x Hb Hi Hx Hf Hl Hln Hv; cbn [app uvarint_get groups] in *.
    - inversion Hb as [|? ? Hb0 Hb1]; subst. unfold is_byte in Hb0. rewrite zlen_nil in *.
      destruct (i =? 10) eqn:E10; [lia|]. destruct (last <? 128) eqn:Eb; [|lia].
      replace (last mod 128 + 128 * 0) with last in * by lia.
      rewrite lor_shift_add by lia.
      destruct ((i =? 9) && (1 <? last)) eqn:E9.
      { exfalso. assert (i = 9) by lia. subst i. change (2 ^ (7 * 9)) with (2 ^ 63) in *. lia. }
      assert (0 <= last * 2 ^ (7 * i)) by (apply Z.mul_nonneg_nonneg; lia).
      rewrite uwrap64_small by lia.
      f_equal. unfold zlen. cbn [length]. lia.
    - inversion Hb as [|? ? Hb0 Hb1]; subst. unfold is_byte in Hb0. inversion Hf; subst.
      rewrite zlen_cons in *. pose proof (zlen_nonneg init).
      destruct (i =? 10) eqn:E10; [lia|]. destruct (b <? 128) eqn:Eb; [lia|].
      rewrite land_127, lor_shift_add by lia.
      pose proof (pow7 i ltac:(lia)) as Hp7. assert (2 ^ (7 * (i + 1)) <= 2 ^ 63) by (apply Z.pow_le_mono_r; lia).
      pose proof (step_bound x (b mod 128) (2 ^ (7 * i)) Hx (Z.mod_pos_bound b 128 ltac:(lia))) as Hsb.
      rewrite <- Hp7 in Hsb.
      rewrite uwrap64_small by lia.
      replace (7 * i + 7) with (7 * (i + 1)) by lia.
      rewrite IH; auto; try lia.
      + f_equal; [|lia]. rewrite Hp7. apply step_groups.
  Qed.

  (** Reading at dec.data[dec.pos:] by a function that tells how many bytes it
      has used. *)
  Lemma exact_used {A} P (k : list Z -> DM A) (R : rel A) :
    (forall l c pre, bytes_ok l -> P c ->
       (forall a s, k l (mkD (pre ++ l) (zlen pre) c E) = (Ok a, s) ->
          exists b rest, l = b ++ rest /\ s = mkD (pre ++ l) (zlen pre + zlen b) c E /\ R b rest a) /\
       (forall b rest a, l = b ++ rest -> R b rest a ->
          k l (mkD (pre ++ l) (zlen pre) c E) = (Ok a, mkD (pre ++ l) (zlen pre + zlen b) c E))) ->
    exact P P E (bind d_rest k) R.
  Proof.
    intros H pre inp c Hc Hb. destruct (H inp c pre Hb Hc) as [H1 H2].
    assert (Hk : bind d_rest k (mkD (pre ++ inp) (zlen pre) c E) = k inp (mkD (pre ++ inp) (zlen pre) c E)).
    { unfold bind at 1, d_rest, d_get, bind. cbn [d_data d_pos]. rewrite slice_from_mid. reflexivity. }
    rewrite Hk. split.
    - intros a s Hm. destruct (H1 a s Hm) as (b & rest & -> & -> & Hr). exists b, rest, c. auto.
    - intros b rest a Hi Hr. exists c. split; [now apply (H2 b rest a)|exact Hc].
  Qed.

  Lemma exact_uvarint P : exact P P E read_uvarint64 uvarint64.
  Proof.
    apply exact_used. intros l c pre Hb Hc. split.
    - intros a s. destruct (uvarint l) as [v n] eqn:Eu. destruct (n <=? 0) eqn:En; [discriminate|].
      unfold bind, d_get, d_set_pos, ret. cbn [d_data d_pos d_cur d_enc]. intro H. injection H as <- <-.
      unfold uvarint in Eu. destruct (uvarint_get_inv l 0 0 v n Hb ltac:(lia) ltac:(cbn; lia) Eu ltac:(lia))
        as (init & last & rest & -> & Hf & Hl & Hln & -> & Hv & ->).
      exists (init ++ [last]), rest. rewrite <- app_assoc. rewrite zlen_app. split; [reflexivity|]. split.
      { f_equal. }
      exists init, last. rewrite zlen_app. repeat split; auto; try (cbn; lia).
    - intros b rest a -> (init & last & -> & Hf & Hl & Hln & -> & Hv).
      rewrite zlen_app in Hln. cbn in Hln.
      assert (Eu : uvarint ((init ++ [last]) ++ rest) = (groups (init ++ [last]), zlen (init ++ [last]))).
      { unfold uvarint. rewrite <- app_assoc. cbn [app].
        pose proof (uvarint_get_all init last rest 0 0) as Ha. change (7 * 0) with 0 in Ha. change (2 ^ 0) with 1 in Ha.
        rewrite Ha; auto; try lia.
        - rewrite zlen_app. f_equal; unfold zlen; cbn [length]; lia.
        - apply bytes_ok_app in Hb. tauto. }
      rewrite Eu. destruct (zlen (init ++ [last]) <=? 0) eqn:En.
      { rewrite zlen_app in En. pose proof (zlen_nonneg init). cbn in En. lia. }
      reflexivity.
  Qed.

  Lemma exact_compact P : exact P P E read_compact_u16 (fun b _ n => 0 <= n <= 2 ^ 16 - 1 /\ b = leb128 n).
  Proof.
    apply exact_used. intros l c pre Hb Hc. split.
    - intros a s. destruct (decode_compact_u16 l) as [e|[ln size]] eqn:Ed; [discriminate|].
      unfold bind, d_get, d_set_pos, ret. cbn [d_data d_pos d_cur d_enc]. intro H. injection H as <- <-.
      destruct (decode_cu16_inv l ln size Hb Ed) as (Hr & -> & rest & ->).
      exists (leb128 ln), rest. repeat split; auto; lia.
    - intros b rest a -> [Hr ->]. rewrite decode_cu16_leb by lia. reflexivity.
  Qed.

End Combinators.

(** The lengths of ReadLength. *)
Definition length_in (E : encoding) : rel Z := fun b rest n => count_in E b rest n /\ n <= bulk_max.

Lemma exact_cap E {P : option order -> Prop} (m : DM Z) (R : rel Z) : exact P P E m R ->
  exact P P E (v <- m ;; if 0x7FFFFFFF <? v then fail EUnexpectedEOF else ret v)
    (fun b rest n => R b rest n /\ n <= bulk_max).
Proof.
  intro H. eapply exact_iff; [|eapply (exact_bind _ _ _ _ _ _ _ (fun n => if 0x7FFFFFFF <? n then nothing else yields n)); [exact H|]].
  - intros b rest n _. unfold bulk_max. split.
    + intros (b1 & b2 & x & -> & Hr & Hk). destruct (0x7FFFFFFF <? x) eqn:Ex; [destruct Hk|].
      destruct Hk as [-> ->]. rewrite app_nil_r. split; [exact Hr|lia].
    + intros [Hr Hn]. exists b, [], n. rewrite app_nil_r. repeat split; auto.
      destruct (0x7FFFFFFF <? n) eqn:Ex; [lia|]. split; reflexivity.
  - intro n. destruct (0x7FFFFFFF <? n); [apply exact_never; intros; discriminate|apply exact_ret].
Qed.

Lemma exact_length E P : exact P P E read_length (length_in E).
Proof.
  unfold read_length, length_in. apply exact_get_enc. destruct E; cbn [count_in].
  - eapply exact_iff; [|apply exact_cap]; [|apply exact_uvarint].
    intros b rest n _. cbv beta. unfold bulk_max. tauto.
  - eapply exact_iff; [|apply exact_compact]. intros b rest n _. unfold bulk_max. split; [|tauto].
    intros [? ?]. repeat split; auto; lia.
  - apply exact_cap, exact_uint.
Qed.

Lemma exact_count E P : exact P P E (read_count E) (count_in E).
Proof.
  unfold read_count. destruct E.
  - eapply exact_iff; [|apply exact_length]. intros b rest n _. unfold length_in. cbn [count_in]. unfold bulk_max. tauto.
  - eapply exact_iff; [|apply exact_compact]. intros b rest n _. cbn [count_in]. tauto.
  - eapply exact_iff; [|apply exact_uint]. intros b rest n _. cbn [count_in]. tauto.
Qed.

(** ReadByteSlice. *)
Lemma exact_byte_slice E P :
  exact P P E read_byte_slice (followed (length_in E) (fun n b _ s => zlen b = n /\ s = b)).
Proof.
  unfold read_byte_slice. eapply exact_bind; [apply exact_length|]. intro n.
  eapply exact_iff; [|apply exact_within, exact_take].
  intros b rest s _. unfold left_in. rewrite zlen_app. pose proof (zlen_nonneg rest).
  destruct (zlen b + zlen rest <? n) eqn:El; [|tauto]. split; [intros []|]. intros [? _]. exfalso; lia.
Qed.

Lemma exact_str E P : E <> Bin -> exact P P E (read_str E) (text_in E).
Proof.
  intro HE. replace (read_str E) with read_byte_slice by (destruct E; [easy|reflexivity|reflexivity]).
  eapply exact_iff; [|apply exact_byte_slice]. intros b rest s _. unfold text_in, text, length_in, bulk_max. split.
  - intros (b1 & b2 & n & -> & [Hc Hn] & Hl & ->). destruct E; [easy| |].
    + destruct Hc as [Hr ->]. cbn [text_max count]. split; [lia|]. now rewrite Hl.
    + destruct Hc as [Hr ->]. cbn [text_max count]. split; [lia|]. now rewrite Hl.
  - intros [Hs ->]. pose proof (zlen_nonneg s).
    exists (match E with Bin => fixed LE 8 (zlen s) | _ => count E (zlen s) end), s, (zlen s).
    repeat split; auto.
    + destruct E; [easy| |]; cbn [count count_in text_max] in *; repeat split; auto; cbn; lia.
    + destruct E; [easy| |]; cbn [text_max] in Hs; lia.
Qed.
Lemma exact_rust_string E P :
  exact P P E read_rust_string (fun b _ s => zlen s <= bulk_max /\ b = fixed LE 8 (zlen s) ++ s).
Proof.
  unfold read_rust_string.
  eapply exact_iff; [|eapply (exact_bind _ _ _ _ _ _ _ (fun n b rest s => n <= bulk_max /\ zlen b = n /\ s = b)); [apply exact_uint64|]].
  - intros b rest s _. split.
    + intros (b1 & b2 & n & -> & [Hr ->] & Hn & Hl & ->). subst n. auto.
    + intros [Hs ->]. pose proof (zlen_nonneg s). unfold bulk_max in *.
      exists (fixed LE 8 (zlen s)), s, (zlen s). repeat split; auto; cbn; lia.
  - intro n. unfold bulk_max. destruct (0x7FFFFFFF <? n) eqn:En.
    + eapply exact_iff; [|apply exact_never; intros; discriminate]. intros b rest a _. split; [easy|]. intros [? _]. exfalso; lia.
    + eapply exact_iff; [|apply exact_n_bytes]. intros b rest a _. unfold bulk_max. split; [intros (? & ? & ?); auto|intros (? & ? & ?); auto].
Qed.
Lemma exact_text E P : exact P P E (read_str E) (text_in E).
Proof.
  assert (HE : E = Bin \/ E <> Bin) by (destruct E; [now left|now right|now right]).
  destruct HE as [HE|HE]; [|now apply exact_str].
  replace (read_str E) with read_rust_string by (rewrite HE; reflexivity).
  eapply exact_iff; [|apply exact_rust_string]. intros b rest s _. unfold text_in, text. rewrite HE. cbn [text_max]. unfold bulk_max. tauto.
Qed.

(** * Flags *)
Lemma exact_flag E P : exact P P E (read_flag E) (flag_in E).
Proof.
  unfold read_flag. apply exact_map_err. unfold flag_in. destruct E.
  - eapply exact_iff; [|apply exact_fmap, exact_uint]. intros b rest x _. unfold image, unsigned.
    change (256 ^ Z.of_nat 4) with (2 ^ 32). split; [intros (z & -> & ? & ->)|intros (z & ? & -> & ->)]; eauto 10.
  - eapply exact_iff; [|apply exact_fmap, exact_byte]. intros b rest x _. unfold image. split; intros (z & ? & ?); eauto.
  - unfold read_option. eapply exact_iff; [|apply (exact_fmap _ _ _ (fun b => negb (b =? 0))), exact_map_err, exact_byte].
    intros b rest x _. unfold image. split; intros (z & ? & ?); eauto.
Qed.
Lemma exact_coption E P : exact P P E read_coption cflag_in.
Proof.
  unfold read_coption.
  eapply exact_iff; [|eapply (exact_bind _ _ _ _ _ _ _ (fun n => if 1 <? n then nothing else yields (negb (n =? 0))));
    [apply exact_map_err, exact_uint|intro n; destruct (1 <? n); [apply exact_never; intros; discriminate|apply exact_ret]]].
  intros b rest x _. unfold cflag_in, cflag. split.
  - intros (b1 & b2 & n & -> & [Hr ->] & Hk). destruct (1 <? n) eqn:En; [destruct Hk|]. destruct Hk as [-> ->].
    rewrite app_nil_r. assert (Hn : n = 0 \/ n = 1) by lia. destruct Hn as [-> | ->]; reflexivity.
  - intros ->. exists (fixed LE 4 (if x then 1 else 0)), [], (if x then 1 else 0). rewrite app_nil_r.
    split; [reflexivity|]. split; [split; [destruct x; cbn; lia|reflexivity]|]. destruct x; split; reflexivity.
Qed.
Lemma exact_cflag E P : exact P P E read_cflag cflag_in.
Proof. apply exact_map_err, exact_coption. Qed.

(** * Sequences *)
Lemma exact_rep {A} E (P Q : option order -> Prop) n (m : DM A) R : (forall c, Q c -> P c) -> exact P Q E m R ->
  exact Q Q E (read_rep n m) (rep_in n R).
Proof.
  intros HP H. induction n as [|n IH]; cbn [read_rep rep_in]; [apply exact_ret|].
  eapply exact_bind; [eapply exact_weaken; [exact HP|intros c Hc; exact Hc|exact H]|].
  intro a. apply (exact_fmap _ _ _ (cons a)). exact IH.
Qed.
Lemma exact_each {A} E (P Q : option order -> Prop) (f : val -> DM A) R ps : (forall c, Q c -> P c) -> (forall p, exact P Q E (f p) (R p)) ->
  exact Q Q E (each_dec f ps) (each_in R ps).
Proof.
  intros HP H. induction ps as [|p ps IH]; cbn [each_dec each_in]; [apply exact_ret|].
  eapply exact_bind; [eapply exact_weaken; [exact HP|intros c Hc; exact Hc|apply H]|].
  intro a. apply (exact_fmap _ _ _ (cons a)). exact IH.
Qed.

Lemma assign_set kt m k v : map_set kt m k v = assign kt m k v.
Proof. induction m as [|[a b] m IH]; [reflexivity|]. cbn [map_set assign fst]. now rewrite IH. Qed.

Lemma exact_dec_map E kt (P Q : option order -> Prop) (mk mv : DM val) Rk Rv : (forall c, Q c -> P c) ->
  exact P Q E mk Rk -> exact P Q E mv Rv -> forall n m0,
  exact Q Q E (dec_map kt n mk mv m0)
    (image (fun es => fold_left (fun m e => assign kt m (fst e) (snd e)) es m0)
       (rep_in n (followed Rk (fun k => image (pair k) Rv)))).
Proof.
  intros HP Hk Hv. induction n as [|n IH]; intro m0; cbn [dec_map rep_in].
  - eapply exact_iff; [|apply exact_ret]. intros b rest y _. unfold image, yields. split.
    + intros [-> ->]. exists []. auto.
    + intros (es & -> & -> & ->). auto.
  - eapply exact_iff; [|eapply exact_bind; [eapply exact_weaken; [exact HP|intros c Hc; exact Hc|exact Hk]|
      intro k; eapply exact_bind; [eapply exact_weaken; [exact HP|intros c Hc; exact Hc|exact Hv]|intro v; apply IH]]].
    intros b rest y _. split.
    + intros (b1 & b2 & k & -> & H1 & b3 & b4 & v & -> & H2 & es & -> & H3).
      exists ((k, v) :: es). cbn [fold_left fst snd]. rewrite assign_set. split; [reflexivity|].
      exists (b1 ++ b3), b4, (k, v). rewrite app_assoc. split; [reflexivity|]. split.
      * exists b1, b3, k. split; [reflexivity|]. split; [now rewrite app_assoc|]. exists v. auto.
      * exists es. auto.
    + intros (es & -> & b1 & b2 & e & -> & (c1 & c2 & k & -> & H1 & v & -> & H2) & es' & -> & H3).
      exists c1, (c2 ++ b2), k. rewrite <- app_assoc in *. split; [reflexivity|]. split; [now rewrite <- app_assoc|].
      exists c2, b2, v. split; [reflexivity|]. split; [exact H2|]. exists es'. cbn [fold_left fst snd].
      rewrite assign_set. auto.
Qed.

(** Unsigned numbers in a row. *)
Lemma rep_fixed w n : forall b rest zs, bytes_ok (b ++ rest) ->
  rep_in n (unsigned (wbytes w) LE) b rest zs <->
  length zs = n /\ Forall (fun z => 0 <= z < 2 ^ wbits w) zs /\ b = flat_map (fixed LE (wbytes w)) zs.
Proof.
  induction n as [|n IH]; intros b rest zs Hb; cbn [rep_in].
  - split.
    + intros [-> ->]. auto.
    + intros (Hl & _ & ->). destruct zs; [split; reflexivity|discriminate].
  - split.
    + intros (b1 & b2 & z & -> & [Hz ->] & zs' & -> & H). rewrite wbytes_pow in Hz.
      apply IH in H; [|rewrite <- app_assoc in Hb; apply bytes_ok_app in Hb; tauto].
      destruct H as (Hl & Hf & ->). cbn [length flat_map]. repeat split; auto.
    + intros (Hl & Hf & ->). destruct zs as [|z zs]; [discriminate|]. inversion Hf; subst.
      cbn [flat_map] in *. exists (fixed LE (wbytes w) z), (flat_map (fixed LE (wbytes w)) zs), z.
      split; [reflexivity|]. split; [split; [now rewrite wbytes_pow|reflexivity]|]. exists zs. split; [reflexivity|].
      apply IH; [rewrite <- app_assoc in Hb; apply bytes_ok_app in Hb; tauto|]. cbn [length] in Hl. auto.
Qed.

Lemma flat_fixed_zlen w zs : zlen (flat_map (fixed LE (wbytes w)) zs) = zlen zs * Z.of_nat (wbytes w).
Proof.
  induction zs as [|z zs IH]; cbn [flat_map]; [reflexivity|].
  rewrite zlen_app, IH, fixed_zlen, zlen_cons. lia.
Qed.

Lemma flat_fixed_bytes zs : Forall is_byte zs -> flat_map (fixed LE 1) zs = zs.
Proof.
  induction 1 as [|z zs Hz Hf IH]; [reflexivity|]. cbn [flat_map]. rewrite IH, fixed_1.
  unfold is_byte in Hz. rewrite Z.mod_small by lia. reflexivity.
Qed.

Lemma exact_uints E P w l : exact P P E (read_uints w l) (bulk_in w l).
Proof.
  unfold read_uints.
  set (need := if l <? 0 then swrap 64 (l * Z.of_nat (wbytes w)) else l * Z.of_nat (wbytes w)).
  set (R := match w with
            | W8 => fun b _ a => zlen b = l /\ a = b /\ l <= bulk_max
            | _ => if l <? 0 then nothing else rep_in (Z.to_nat l) (unsigned (wbytes w) LE)
            end : rel (list Z)).
  eapply exact_iff; [|apply (exact_left _ _ _ _ (fun r => if r <? need then nothing else R)); intros r Hr;
    fold need; cbv zeta; destruct (r <? need); [apply exact_never; intros; discriminate|]].
  - intros b rest zs Hb.
    assert (HR : R b rest zs <-> bulk_in w l b rest zs).
    { unfold R, bulk_in. assert (Hbb : bytes_ok b) by (apply bytes_ok_app in Hb; tauto).
      assert (Hw : w <> W8 -> (if l <? 0 then nothing else rep_in (Z.to_nat l) (unsigned (wbytes w) LE)) b rest zs <->
         l = zlen zs /\ Forall (fun z => 0 <= z < 2 ^ wbits w) zs /\ b = flat_map (fixed LE (wbytes w)) zs /\ (w = W8 -> l <= bulk_max)).
      { intro Hn. pose proof (zlen_nonneg zs). destruct (l <? 0) eqn:El.
        - split; [intros []|]. intros [? _]. lia.
        - rewrite rep_fixed by exact Hb. unfold zlen in *. split.
          + intros (? & ? & ?). repeat split; auto; lia || (intros ->; easy).
          + intros (? & ? & ? & _). repeat split; auto; lia. }
      destruct w; try (apply Hw; discriminate). cbn [wbytes wbits]. clear Hw. split.
      - intros (Hl & -> & Hm). assert (Hf : Forall (fun z => 0 <= z < 2 ^ 8) b) by (eapply Forall_impl; [|exact Hbb]; unfold is_byte; cbn; lia).
        repeat split; auto. symmetry. now apply flat_fixed_bytes.
      - intros (-> & Hf & Hz & Hm). rewrite flat_fixed_bytes in Hz by (eapply Forall_impl; [|exact Hf]; unfold is_byte; cbn; lia).
        subst b. auto. }
    unfold left_in. destruct (zlen (b ++ rest) <? need) eqn:El; [|exact HR].
    split; [intros []|]. intros (Hl & Hf & -> & _). rewrite zlen_app, flat_fixed_zlen in El.
    pose proof (zlen_nonneg rest). pose proof (zlen_nonneg zs). unfold need in El. destruct (l <? 0) eqn:E0; nia.
  - unfold R. destruct w; [apply exact_n_bytes| | |]; (destruct (l <? 0); [apply exact_never; intros; discriminate|]);
      (eapply exact_rep; [intros c Hc; exact Hc|apply exact_uintw]).
Qed.

(** * Unfolding the specification *)
Definition core_in (E : encoding) (t : ty) (sz : option Z) (o : order) (old : val) : rel val :=
  match t with
  | TBool => image VBool truth
  | TUint _ w => image VNum (unsigned (wbytes w) (num_order E o))
  | TInt _ w => image VNum (signed w (num_order E o))
  | TFloat f => image (fun z => VFloat (quiet f z)) (float E f (num_order E o))
  | TString => image VStr (text_in E)
  | TIface => yields old
  | TArray n t' =>
      match uint_kind t', old with
      | Some w, _ => image (fun zs => VSeq (map VNum zs)) (bulk_in w (Z.of_nat n))
      | None, VSeq ps => image VSeq (each_in (accepts E t' (Front false false) None LE) ps)
      | None, _ => nothing
      end
  | TSlice t' =>
      followed (match sz with Some n => yields n | None => count_in E end) (fun n =>
        if is_borsh E && (n =? 0) then yields old
        else left_in (fun r =>
          if r <? n then nothing
          else
            match uint_kind t' with
            | Some w => image (fun zs => VSlice (Some (map VNum zs))) (bulk_in w n)
            | None => image (fun vs => VSlice (Some vs)) (rep_in (Z.to_nat n) (accepts E t' (Front false false) None LE (zero_val t')))
            end))
  | TMap kt vt =>
      followed (count_in E) (fun n =>
        if n =? 0 then yields old
        else image (fun es => VMap (Some (assign_all kt es)))
          (rep_in (Z.to_nat n)
             (followed (accepts E kt (Front false false) None LE (zero_val kt)) (fun k =>
              image (pair k) (accepts E vt (Front false false) None LE (zero_val vt))))))
  | TStruct fs =>
      match old with
      | VStruct ps =>
          if enum_struct E fs then
            followed (unsigned 1 LE) (fun n =>
              match fs, ps with
              | (h, _) :: fs', _ :: ps' =>
                  if f_exported h then image (fun vs => VStruct (VNum n :: vs)) (nth_in (accepts E) fs' ps' (Z.to_nat n)) else nothing
              | _, _ => nothing
              end)
          else image VStruct (fields_in E (accepts E) fs ps no_sizes false)
      | _ => nothing
      end
  | _ => nothing
  end.

Lemma accepts_below E t pend sz o old :
  accepts E t (Below pend) sz o old =
  match t with
  | TPtr t' => image (fun x => VPtr (Some x)) (accepts E t' (Below pend) sz o (deref t' old))
  | TCodec c u =>
      match c_unmarshal c with
      | Some f => if pend then nothing else own_in E o f old
      | None => accepts E u (Below pend) sz o old
      end
  | TDeep => nothing
  | _ => if pend then followed cflag_in (fun p => if p then core_in E t sz o old else yields (zero_val t)) else core_in E t sz o old
  end.
Proof. destruct t; reflexivity. Qed.

Definition flags_in (E : encoding) (t : ty) (opt copt : bool) (sz : option Z) (o : order) (old : val) : rel val :=
  if opt then followed (flag_in E) (fun p => if p then accepts E t (Below copt) sz o old else yields (zero_val t))
  else followed cflag_in (fun p => if p then accepts E t (Below false) sz o old else yields (zero_val t)).

Lemma accepts_front E t opt copt sz o old :
  accepts E t (Front opt copt) sz o old =
  if opt || copt then
    match t, old with
    | TPtr t', VPtr (Some x) =>
        if is_pointer t' then image (fun y => VPtr (Some y)) (accepts E t' (Front opt copt) sz o x) else flags_in E t opt copt sz o old
    | TCodec c _, _ => match c_unmarshal c with Some _ => nothing | None => flags_in E t opt copt sz o old end
    | TDeep, _ => nothing
    | _, _ => flags_in E t opt copt sz o old
    end
  else accepts E t (Below false) sz o old.
Proof. destruct t; unfold flags_in; reflexivity. Qed.

Lemma size_of_val t v : size_of t v = sizeof_val t v.
Proof.
  assert (H : forall z, (if z mod 2 ^ 64 <? 2 ^ 63 then z mod 2 ^ 64 else 0) = (if swrap 64 z <? 0 then 0 else swrap 64 z)).
  { intro z. unfold swrap. change (2 ^ (64 - 1)) with (2 ^ 63). pose proof (Z.mod_pos_bound z (2 ^ 64) ltac:(lia)).
    destruct (z mod 2 ^ 64 <? 2 ^ 63) eqn:E1.
    - destruct (z mod 2 ^ 64 <? 0) eqn:E2; [lia|reflexivity].
    - destruct (z mod 2 ^ 64 - 2 ^ 64 <? 0) eqn:E2; [reflexivity|lia]. }
  induction t using ty_strong_ind.
  destruct t; cbn [size_of sizeof_val]; try reflexivity; try (destruct v; try reflexivity; now rewrite H).
  - apply H0. cbn [ty_size]. lia.
Qed.

Lemma is_pointer_ptr t : is_pointer t = is_ptr t.
Proof. destruct t; reflexivity. Qed.
Lemma enum_struct_is E fs : enum_struct E fs = is_borsh E && is_enum fs.
Proof. destruct E; try reflexivity. Qed.

Lemma gather_incl {A} (f : fhdr -> ty -> list A) fs h t : In (h, t) fs -> incl (f h t) (gather f fs).
Proof.
  induction fs as [|[h' t'] fs IH]; [easy|]. cbn [In gather]. intros [Heq|Hin] x Hx; apply in_or_app.
  - injection Heq as -> ->. now left.
  - right. now apply IH.
Qed.

(** * Unexported variants *)
Lemma hidden_exact rec fs : forall ps sizes seen, exact (at_order LE) (at_order LE) Borsh (dec_fields Borsh rec (hide fs) ps sizes seen)
  (if in_order fs seen && Nat.eqb (length fs) (length ps) then yields ps else nothing).
Proof.
  induction fs as [|[h t] fs IH]; intros [|p ps] sizes seen; cbn [hide map dec_fields in_order length Nat.eqb andb].
  - apply exact_ret.
  - apply exact_never; intros; discriminate.
  - rewrite andb_false_r. apply exact_never; intros; discriminate.
  - cbn [fst snd f_name f_tag f_exported negb]. fold (hide fs). cbv zeta. set (tg := parse_field_tag (f_tag h)).
    assert (Hk : forall sn, exact (at_order LE) (at_order LE) Borsh (fmap (cons p) (dec_fields Borsh rec (hide fs) ps sizes sn))
        (if in_order fs sn && Nat.eqb (length fs) (length ps) then yields (p :: ps) else nothing)).
    { intro sn. eapply exact_iff; [|apply exact_fmap, (IH ps sizes sn)]. intros b rest a _.
      destruct (in_order fs sn && Nat.eqb (length fs) (length ps)); unfold image, yields, nothing; split.
      - intros (x & -> & -> & ->). now split.
      - intros [-> ->]. now exists ps.
      - now intros (x & _ & []).
      - intros []. }
    destruct (ft_skip tg); [apply Hk|]. destruct (ft_ext tg); cbn [negb andb orb].
    + eapply exact_iff; [|apply (exact_rest _ _ _ _ (fun _ => if in_order fs (seen || true) && Nat.eqb (length fs) (length ps) then yields (p :: ps) else nothing));
        intros [|x l]; apply Hk]. intros b rest a _. reflexivity.
    + destruct seen; cbn [negb andb]; [apply exact_never; intros; discriminate|]. apply Hk.
Qed.

Lemma sealed_exact t : forall v, exact (at_order LE) (at_order LE) Borsh (dec_sealed t v) (sealed_in t v).
Proof.
  assert (Hc : forall (k : Z -> DM unit) (K : rel unit), exact (at_order LE) (at_order LE) Borsh (k 0) K -> (forall l, l <> 0 -> forall s x s', k l s <> (Ok x, s')) ->
    exact (at_order LE) (at_order LE) Borsh (l <- read_count Borsh ;; k l) (followed (count_in Borsh) (fun l => if l =? 0 then K else nothing))).
  { intros k K H0 H1. eapply exact_bind; [apply exact_count|]. intro l. destruct (Z.eqb_spec l 0) as [El|Hl]; [rewrite El; exact H0|].
    apply exact_never. intros s a s'. now apply (H1 l Hl s a s'). }
  assert (Hz : forall b rest (a : unit), followed (count_in Borsh) (fun l => if l =? 0 then yields tt else nothing) b rest a <-> b = fixed LE 4 0).
  { intros b rest a. unfold followed, count_in, unsigned, yields. split.
    - intros (b1 & b2 & l & -> & (_ & ->) & H). destruct (l =? 0) eqn:El; [|destruct H]. apply Z.eqb_eq in El. rewrite El. destruct H as [-> _]. apply app_nil_r.
    - intros ->. exists (fixed LE 4 0), [], 0. rewrite app_nil_r. repeat split; try lia. now destruct a. }
  induction t as [t IH] using ty_strong_ind. intro v.
  destruct t as [|un w|nm w|f| |sg| | |t|n t|t|t1 t2|fs|c t|]; cbn [dec_sealed sealed_in];
    try solve [apply exact_never; intros; first [apply hopeless_never|apply then_panic_never|discriminate]].
  - apply exact_ret.
  - destruct v as [| | | |[x|]| | | | | |]; try solve [apply exact_never; discriminate]. apply IH. cbn. lia.
  - destruct (uint_kind t) as [w|] eqn:Ek.
    + destruct n as [|n].
      2: { apply exact_never. intros s x s'. unfold bind. destruct (read_uints _ _ s) as [[a|e| | |] s1]; discriminate. }
      change (Z.of_nat 0) with 0.
      assert (H : plain_uint t = true \/ plain_uint t = false) by (destruct (plain_uint t); auto).
      destruct H as [H|H]; rewrite H.
      * replace (match t with TUint UPlain _ => nothing | _ => yields tt end) with (@nothing unit).
        -- apply exact_never. intros s x s'. unfold bind. destruct (read_uints _ _ s) as [[a|e| | |] s1]; discriminate.
        -- destruct t as [|u ?| | | | | | | | | | | | |]; try discriminate H. now destruct u.
      * replace (match t with TUint UPlain _ => nothing | _ => yields tt end) with (yields tt).
        -- eapply exact_iff; [|eapply exact_bind; [apply (exact_uints Borsh _ w 0)|intro; apply exact_ret]].
           intros b rest a _. unfold followed, bulk_in, yields. split.
           ++ intros (b1 & b2 & x & -> & (Hl & _ & -> & _) & -> & ->). destruct x; [now split|]. rewrite zlen_cons in Hl.
              pose proof (zlen_nonneg x). lia.
           ++ intros [-> ->]. exists [], [], []. repeat split; try constructor. unfold bulk_max. lia.
        -- destruct t as [|u ?| | | | | | | | | | | | |]; try reflexivity. now destruct u.
    + destruct v as [| | | | |ps| | | | |]; try solve [apply exact_never; discriminate].
      apply (exact_fmap _ _ _ (fun _ => tt)). eapply exact_each; [intros c Hc'; exact Hc'|]. intro p.
      apply exact_set_cur, IH. cbn. lia.
  - eapply exact_iff; [intros b rest a _; apply Hz|]. apply (Hc (fun l => if l =? 0 then ret tt else _)); [apply exact_ret|].
    intros l Hl s x s'. destruct (Z.eqb_spec l 0); [easy|].
    unfold bind at 1, d_remaining. cbn. destruct (_ <? l); [discriminate|].
    destruct (uint_kind t); [apply then_panic_never|discriminate].
  - eapply exact_iff; [intros b rest a _; apply Hz|]. apply (Hc (fun l => if l =? 0 then ret tt else panic)); [apply exact_ret|].
    intros l Hl s x s'. now destruct (Z.eqb_spec l 0).
  - destruct v as [| | | | | | | |ps| |]; try solve [apply exact_never; discriminate].
    rewrite enum_struct_is. cbn [is_borsh andb]. destruct (is_enum fs); cbn [negb andb]; [apply exact_never; intros; apply then_panic_never|].
    eapply exact_iff; [|apply (exact_fmap _ _ _ (fun _ => tt)), (hidden_exact _ fs ps [] false)].
    intros b rest a _. destruct (in_order fs false && Nat.eqb (length fs) (length ps)); unfold image, yields, nothing; split.
    + intros (x & -> & -> & ->). now split.
    + intros [-> ->]. now exists ps.
    + now intros (x & _ & []).
    + intros [].
  - apply IH. cbn. lia.
Qed.

(** * The decoder *)
Section Main.
  Variable E : encoding.
  Variable G : option order -> Prop.
  Variable M : list (val -> DM val).
  Variable O : list order.
  Hypothesis HM : forall f, In f M -> forall o old, G (Some o) -> exact (at_order o) G E (f old) (own_in E o f old).
  Hypothesis HB : E = Borsh -> M <> [] -> forall c, G c -> c = Some LE.
  Hypothesis HO : forall o, In o O -> G (Some o).
  Hypothesis HLE : G (Some LE).

  Definition walks (t : ty) : Prop := forall o pend old, G (Some (o_order o)) ->
    exact (at_order (o_order o)) G E (dec_val E t (DWalk o pend) old) (accepts E t (Below pend) (o_size o) (o_order o) old).
  Definition nulls (t : ty) : Prop := forall o old, G (Some (o_order o)) -> o_opt o || (is_borsh E && o_copt o) = true ->
    exact (at_order (o_order o)) G E (dec_val E t (DNull o) old)
      (accepts E t (Front (o_opt o) (is_borsh E && o_copt o)) (o_size o) (o_order o) old).
  Definition starts (t : ty) : Prop := forall o old, G (Some (o_order o)) ->
    exact (fun _ => True) G E (dec_val E t (DStart o) old)
      (accepts E t (Front (o_opt o) (is_borsh E && o_copt o)) (o_size o) (o_order o) old).

  Lemma starts_of t : walks t -> nulls t -> starts t.
  Proof.
    intros Hw Hn o old Ho. rewrite dec_start_eq. apply exact_set_cur.
    destruct (o_opt o || (is_borsh E && o_copt o)) eqn:Ef.
    - now apply Hn.
    - rewrite accepts_front, Ef. now apply Hw.
  Qed.

  Lemma at_G o : G (Some o) -> forall c, at_order o c -> G c.
  Proof. intros H c ->. exact H. Qed.

  Lemma nulls_of t : walks t -> (forall t', (ty_size t' < ty_size t)%nat -> incl (methods t') (methods t) -> incl (orders t') (orders t) -> nulls t') -> nulls t.
  Proof.
    intros Hw IH o old Ho Hf. rewrite dec_null_eq, accepts_front, Hf.
    assert (Hfl : exact (at_order (o_order o)) G E (dec_flagged E t o old)
              (flags_in E t (o_opt o) (is_borsh E && o_copt o) (o_size o) (o_order o) old)).
    { unfold dec_flagged, flags_in. destruct (o_opt o).
      - eapply exact_bind; [apply exact_flag|]. intros [|].
        + now apply Hw.
        + eapply exact_weaken; [intros c Hc; exact Hc|apply at_G; exact Ho|apply exact_ret].
      - eapply exact_bind; [apply exact_cflag|]. intros [|].
        + now apply Hw.
        + eapply exact_weaken; [intros c Hc; exact Hc|apply at_G; exact Ho|apply exact_ret]. }
    destruct t; try exact Hfl.
    - change (is_pointer t) with (is_ptr t). destruct old as [| | | |[x|]| | | | | |]; try (destruct (is_ptr t); exact Hfl).
      destruct (is_ptr t); [|exact Hfl]. apply exact_fmap. apply IH; auto; try (cbn [ty_size]; lia); apply incl_refl.
    - destruct (c_unmarshal c); [apply exact_never; intros; discriminate|exact Hfl].
    - apply exact_never; intros; discriminate.
  Qed.

  (** The methods of fields in Borsh. *)
  Lemma borsh_method_exact t m : E = Borsh -> incl (methods t) M -> borsh_field_unmarshaler t = Some m ->
    exists R, borsh_method E t = Some R /\ exact G G E m R.
  Proof.
    intros EE Hi Hm.
    assert (Hone : forall f x, In f M -> exact G G E (f x) (own_in E LE f x)).
    { intros f x Hf. eapply exact_weaken; [|intros c Hc; exact Hc|apply HM; auto].
      intros c Hc. unfold at_order. apply HB; auto. intro Hnil. rewrite Hnil in Hf. destruct Hf. }
    rewrite EE. destruct t; try discriminate; cbn [borsh_field_unmarshaler borsh_method] in *.
    - destruct t; try discriminate. destruct (c_unmarshal c) as [f|] eqn:Ec; [|discriminate].
      injection Hm as <-. eexists. split; [reflexivity|]. rewrite <- EE. apply exact_fmap, Hone.
      apply Hi. cbn [methods]. rewrite Ec. now left.
    - destruct (c_unmarshal c) as [f|] eqn:Ec; [|discriminate].
      injection Hm as <-. eexists. split; [reflexivity|]. rewrite <- EE. apply Hone.
      apply Hi. cbn [methods]. rewrite Ec. now left.
  Qed.
  Lemma borsh_method_none t : borsh_method E t = None <-> (is_borsh E = true -> borsh_field_unmarshaler t = None).
  Proof.
    destruct E; cbn [is_borsh borsh_method]; try (split; [intros _ H; discriminate|intros _; destruct t; try reflexivity; destruct t; reflexivity]).
    destruct t; cbn [borsh_field_unmarshaler]; try (split; auto; fail).
    - destruct t; cbn; try (split; auto; fail). destruct (c_unmarshal c); split; auto; try discriminate. intro H. now specialize (H eq_refl).
    - destruct (c_unmarshal c); split; auto; try discriminate. intro H. now specialize (H eq_refl).
  Qed.

  Lemma fields_exact fs : (forall h t, In (h, t) fs -> starts t /\ incl (methods t) M /\ G (Some (ft_order (parse_field_tag (f_tag h))))) ->
    forall ps m s seen, (forall n, sm_get m n = s n) ->
    exact G G E (dec_fields E (fun t o v => dec_val E t (DStart o) v) fs ps m seen)
      (fields_in E (accepts E) fs ps s seen).
  Proof.
    induction fs as [|[h t] fs IH]; intros Hfs ps m s seen Hs.
    - destruct ps; cbn [dec_fields fields_in]; [apply exact_ret|apply exact_never; intros; discriminate].
    - destruct ps as [|p ps]; cbn [dec_fields fields_in]; [apply exact_never; intros; discriminate|].
      assert (IH' : forall ps m s seen, (forall n, sm_get m n = s n) ->
        exact G G E (dec_fields E (fun t o v => dec_val E t (DStart o) v) fs ps m seen) (fields_in E (accepts E) fs ps s seen)).
      { apply IH. intros h' t' Hin. apply Hfs. now right. }
      clear IH. destruct (Hfs h t (or_introl eq_refl)) as (Hst & Hinc & Hord). clear Hfs.
      set (tg := parse_field_tag (f_tag h)) in *.
      assert (Hkeep : forall sn, exact G G E (fmap (cons p) (dec_fields E (fun t o v => dec_val E t (DStart o) v) fs ps m sn))
                 (image (cons p) (fields_in E (accepts E) fs ps s sn))).
      { intro sn. apply exact_fmap. now apply IH'. }
      destruct (ft_skip tg); [apply Hkeep|].
      rewrite (andb_comm seen). destruct (negb (ft_ext tg) && seen); [apply exact_never; intros; discriminate|].
      cbv zeta. destruct (f_exported h) eqn:Eex; cbn [negb].
      2: { destruct (ft_ext tg) eqn:Eext; [|apply Hkeep].
           eapply exact_iff; [|apply (exact_rest _ _ _ _ (fun _ => image (cons p) (fields_in E (accepts E) fs ps s (seen || true))))].
           - intros b rest vs _. tauto.
           - intros [|x l]; apply Hkeep. }
      set (seen' := seen || ft_ext tg) in *.
      assert (Hbody : exact G G E
        (match is_borsh E, borsh_field_unmarshaler t with
         | true, Some m0 => x <- m0 ;; fmap (cons x) (dec_fields E (fun t o v => dec_val E t (DStart o) v) fs ps m seen')
         | _, _ =>
             x <- map_err EWrap (dec_val E t (DStart (field_opt E tg (f_name h) m)) p) ;;
             if String.eqb (ft_sizeof tg) "" then fmap (cons x) (dec_fields E (fun t o v => dec_val E t (DStart o) v) fs ps m seen')
             else match sizeof_val t x with
                  | None => panic
                  | Some n => fmap (cons x) (dec_fields E (fun t o v => dec_val E t (DStart o) v) fs ps ((ft_sizeof tg, n) :: m) seen')
                  end
         end)
        (match borsh_method E t with
         | Some R => followed R (fun x => image (cons x) (fields_in E (accepts E) fs ps s seen'))
         | None =>
             followed (accepts E t (Front (ft_option tg) (is_borsh E && ft_coption tg)) (s (f_name h)) (ft_order tg) p)
               (fun x => match ft_sizeof tg, size_of t x with
                         | EmptyString, _ => image (cons x) (fields_in E (accepts E) fs ps s seen')
                         | n, Some z => image (cons x) (fields_in E (accepts E) fs ps (fun y => if String.eqb n y then Some z else s y) seen')
                         | _, None => nothing
                         end)
         end)).
      { assert (Hgen : exact G G E
          (x <- map_err EWrap (dec_val E t (DStart (field_opt E tg (f_name h) m)) p) ;;
             if String.eqb (ft_sizeof tg) "" then fmap (cons x) (dec_fields E (fun t o v => dec_val E t (DStart o) v) fs ps m seen')
             else match sizeof_val t x with
                  | None => panic
                  | Some n => fmap (cons x) (dec_fields E (fun t o v => dec_val E t (DStart o) v) fs ps ((ft_sizeof tg, n) :: m) seen')
                  end)
          (followed (accepts E t (Front (ft_option tg) (is_borsh E && ft_coption tg)) (s (f_name h)) (ft_order tg) p)
               (fun x => match ft_sizeof tg, size_of t x with
                         | EmptyString, _ => image (cons x) (fields_in E (accepts E) fs ps s seen')
                         | n, Some z => image (cons x) (fields_in E (accepts E) fs ps (fun y => if String.eqb n y then Some z else s y) seen')
                         | _, None => nothing
                         end))).
        { eapply exact_bind.
          - apply exact_map_err. eapply exact_weaken; [intros c _; exact I|intros c Hc; exact Hc|].
            pose proof (Hst (field_opt E tg (f_name h) m) p Hord) as Hx. cbn [field_opt o_opt o_copt o_size o_order] in Hx.
            replace (is_borsh E && (is_borsh E && ft_coption tg)) with (is_borsh E && ft_coption tg) in Hx by (destruct (is_borsh E); reflexivity).
            rewrite Hs in Hx. exact Hx.
          - intro x. rewrite size_of_val. destruct (ft_sizeof tg) as [|ch n].
            + cbn [String.eqb]. apply exact_fmap. now apply IH'.
            + cbn [String.eqb]. destruct (sizeof_val t x) as [z|]; [|apply exact_never; intros; discriminate].
              apply exact_fmap. apply IH'. intro y. cbn [sm_get]. now rewrite Hs. }
        destruct (borsh_method E t) as [R|] eqn:Ebm.
        - assert (EE : E = Borsh) by (destruct E; [discriminate|discriminate|reflexivity]).
          destruct (borsh_field_unmarshaler t) as [m0|] eqn:Em.
          + destruct (borsh_method_exact t m0 EE Hinc Em) as (R' & HR' & Hex). rewrite HR' in Ebm. injection Ebm as <-.
            replace (is_borsh E) with true by (rewrite EE; reflexivity).
            eapply exact_bind; [exact Hex|]. intro x. apply exact_fmap. now apply IH'.
          + exfalso. assert (Hn : borsh_method E t = None) by (apply borsh_method_none; auto). congruence.
        - pose proof (proj1 (borsh_method_none t) Ebm) as Hbn. revert Hbn Hgen.
          destruct (is_borsh E); intros Hbn Hgen; [rewrite Hbn by reflexivity|]; exact Hgen. }
      destruct (ft_ext tg) eqn:Eext.
      + match type of Hbody with exact _ _ _ _ ?R =>
          eapply exact_iff; [|apply (exact_rest _ _ _ _ (fun l => match l with [] => image (cons p) (fields_in E (accepts E) fs ps s seen') | _ => R end));
            intros [|x l]; [apply Hkeep|exact Hbody]] end.
        intros b rest vs _. cbv beta. cbn [andb]. destruct (b ++ rest) as [|x l]; [rewrite zlen_nil|rewrite zlen_cons].
        * change (0 =? 0) with true. cbv iota. reflexivity.
        * pose proof (zlen_nonneg l). destruct (1 + zlen l =? 0) eqn:Ez; [lia|]. destruct (borsh_method E t); reflexivity.
      + eapply exact_iff; [|exact Hbody]. intros b rest vs _. cbn [andb]. destruct (borsh_method E t); reflexivity.
  Qed.

  Lemma nth_exact fs : E = Borsh -> (forall h t, In (h, t) fs -> starts t) -> forall ps n,
    exact G G E (dec_variant (fun t o v => dec_val E t (DStart o) v) fs ps n) (nth_in (accepts E) fs ps n).
  Proof.
    intro EE. induction fs as [|[h t] fs IH]; intros Hfs ps n.
    - destruct ps; cbn [dec_variant nth_in]; apply exact_never; intros; discriminate.
    - destruct ps as [|p ps]; [destruct n; apply exact_never; intros; discriminate|].
      destruct n as [|n]; cbn [dec_variant nth_in].
      + destruct (f_exported h); cbn [negb].
        2: { pose proof (sealed_exact t p) as Hs. rewrite <- EE in Hs.
             apply exact_set_cur. apply (exact_fmap _ _ _ (fun _ => p :: ps)).
             eapply exact_weaken; [intros c Hc; exact Hc|intros c Hc; exact (at_G LE HLE c Hc)|exact Hs]. }
        apply (exact_fmap _ _ _ (fun x => x :: ps)).
        eapply exact_weaken; [intros c _; exact I|intros c Hc; exact Hc|].
        pose proof (Hfs h t (or_introl eq_refl) opt0 p HLE) as H. cbn [opt0 o_opt o_copt o_size o_order] in H.
        rewrite andb_false_r in H. exact H.
      + apply exact_fmap, IH. intros h' t' Hin. apply (Hfs h' t'). now right.
  Qed.

  Lemma walks_all t : incl (methods t) M -> incl (orders t) O -> walks t /\ nulls t.
  Proof.
    induction t as [t IH] using ty_strong_ind. intros Hm Ho.
    assert (IH' : forall t', (ty_size t' < ty_size t)%nat -> incl (methods t') (methods t) -> incl (orders t') (orders t) -> walks t' /\ nulls t' /\ starts t').
    { intros t' Hs H1 H2. destruct (IH t' Hs) as [Hw Hn]; [now apply (incl_tran H1)|now apply (incl_tran H2)|].
      split; [exact Hw|]. split; [exact Hn|]. now apply starts_of. }
    enough (Hw : walks t) by (split; [exact Hw|]; apply nulls_of; [exact Hw|]; intros t' Hs H1 H2; now apply IH').
    intros o pend old Hg. rewrite dec_walk_eq, accepts_below.
    pose proof (at_G _ Hg) as HG.
    assert (Hplain : forall (m : DM val), exact (at_order (o_order o)) G E m (core_in E t (o_size o) (o_order o) old) ->
      exact (at_order (o_order o)) G E (with_pend pend t m)
        (if pend then followed cflag_in (fun p => if p then core_in E t (o_size o) (o_order o) old else yields (zero_val t)) else core_in E t (o_size o) (o_order o) old)).
    { intros m H. unfold with_pend. destruct pend; [|exact H].
      eapply exact_bind; [apply exact_cflag|]. intros [|]; [exact H|].
      eapply exact_weaken; [intros c Hc; exact Hc|exact HG|apply exact_ret]. }
    assert (Hkeepcur : forall (m : DM val) R, exact (at_order (o_order o)) (at_order (o_order o)) E m R -> exact (at_order (o_order o)) G E m R).
    { intros m R H. eapply exact_weaken; [intros c Hc; exact Hc|exact HG|exact H]. }
    assert (Hopt0 : forall t', starts t' -> forall x, exact (fun _ => True) G E (dec_val E t' (DStart opt0) x) (accepts E t' (Front false false) None LE x)).
    { intros t' H x. specialize (H opt0 x HLE). cbn [opt0 o_opt o_copt o_size o_order] in H. rewrite andb_false_r in H. exact H. }
    assert (HGat : forall (m : DM val) R, exact G G E m R -> exact (at_order (o_order o)) G E m R).
    { intros m R H. eapply exact_weaken; [exact HG|intros c Hc; exact Hc|exact H]. }
    destruct t as [|nm w|nm w|f| |sg| | |t|n t|t|kt vt|fs|c u|]; try apply Hplain; cbn [core_in].
    - apply Hkeepcur, exact_fmap, exact_bool.
    - apply Hkeepcur, exact_fmap. destruct E; apply exact_uintw.
    - apply Hkeepcur, exact_fmap. destruct E; apply exact_intw.
    - apply Hkeepcur.
      eapply exact_iff; [|apply (exact_fmap _ _ _ (fun b => VFloat (f32_through64 f b)))].
      2: { instantiate (1 := float E f (num_order E (o_order o))). destruct E; apply exact_read_float. }
      intros b rest v _. unfold image. split; intros (z & -> & H); exists z; rewrite quiet_spec; auto.
    - apply Hkeepcur, exact_fmap, exact_text.
    - apply exact_never; intros; discriminate.
    - apply exact_never; intros; discriminate.
    - apply Hkeepcur, exact_ret.
    - apply exact_fmap. apply IH'; try (cbn [ty_size]; lia); try apply incl_refl. exact Hg.
    - destruct (IH' t) as (_ & _ & Hst); try (cbn [ty_size]; lia); try apply incl_refl.
      destruct (uint_kind t) as [w|]; [apply Hkeepcur, exact_fmap, exact_uints|].
      destruct old; try (apply exact_never; intros; discriminate).
      apply HGat, exact_fmap. eapply exact_each; [intros c _; exact I|]. now apply Hopt0.
    - destruct (IH' t) as (_ & _ & Hst); try (cbn [ty_size]; lia); try apply incl_refl.
      eapply exact_bind.
      { instantiate (1 := at_order (o_order o)). destruct (o_size o); [apply exact_ret|apply exact_count]. }
      intro n. destruct (is_borsh E && (n =? 0)); [apply Hkeepcur, exact_ret|].
      apply exact_left. intros r Hr. destruct (r <? n); [apply exact_never; intros; discriminate|].
      destruct (uint_kind t) as [w|]; [apply Hkeepcur, exact_fmap, exact_uints|].
      apply HGat, exact_fmap. eapply exact_rep; [intros c _; exact I|]. now apply Hopt0.
    - destruct (IH' kt) as (_ & _ & Hk); try (cbn [ty_size]; lia); try (cbn [methods orders]; apply incl_appl, incl_refl).
      destruct (IH' vt) as (_ & _ & Hv); try (cbn [ty_size]; lia); try (cbn [methods orders]; apply incl_appr, incl_refl).
      eapply exact_bind; [apply exact_count|]. intro n.
      destruct (n =? 0); [apply Hkeepcur, exact_ret|]. apply HGat.
      eapply exact_iff; [|apply exact_fmap; eapply exact_dec_map; [intros c _; exact I|now apply Hopt0|now apply Hopt0]].
      intros b rest v _. unfold image, assign_all. split.
      + intros (es & -> & es' & -> & H). exists es'. auto.
      + intros (es & -> & H). eexists. split; [reflexivity|]. exists es. auto.
    - assert (Hfs : forall h t, In (h, t) fs -> starts t /\ incl (methods t) M /\ G (Some (ft_order (parse_field_tag (f_tag h))))).
      { intros h t Hin.
        assert (H1 : incl (methods t) (methods (TStruct fs))) by (cbn [methods]; apply (gather_incl (fun _ => methods) fs h t Hin)).
        pose proof (gather_incl (fun h t' => ft_order (parse_field_tag (f_tag h)) :: orders t') fs h t Hin) as H2. cbv beta in H2.
        split; [|split].
        - apply IH'; [now apply (ty_size_field fs h)|exact H1|]. intros x Hx. apply H2. now right.
        - now apply (incl_tran H1).
        - apply HO, Ho. cbn [orders]. apply H2. now left. }
      destruct old as [| | | | | | | |vs| |]; try (apply exact_never; intros; discriminate).
      unfold dec_struct. rewrite enum_struct_is. destruct (is_borsh E && is_enum fs) eqn:Ebe.
      + eapply exact_bind; [|intro n].
        * eapply exact_iff; [|apply exact_byte]. intros b rest z Hb.
          pose proof (exact_uintw E (fun _ => True) W8 LE [] (b ++ rest) None I Hb) as [_ HU].
          unfold unsigned. change (256 ^ Z.of_nat 1) with 256. rewrite fixed_1. split.
          -- intros ->. apply bytes_ok_app in Hb. destruct Hb as [Hb _]. inversion Hb; subst. unfold is_byte in *.
             rewrite Z.mod_small by lia. auto.
          -- intros [Hz ->]. now rewrite Z.mod_small.
        * apply HGat. destruct fs as [|[h t0] fs]; [apply exact_never; intros; discriminate|].
          destruct vs as [|p ps]; [apply exact_never; intros; discriminate|].
          destruct (f_exported h); cbn [negb]; [|apply exact_never; intros; discriminate].
          apply (exact_fmap _ _ _ (fun rest => VStruct (VNum n :: rest))). apply nth_exact; [now destruct E|].
          intros h' t' Hin. apply (Hfs h' t'). now right.
      + apply HGat, exact_fmap. apply fields_exact; [exact Hfs|]. intro n. reflexivity.
    - destruct (c_unmarshal c) as [f|] eqn:Ec.
      + destruct pend; [apply exact_never; intros; discriminate|]. apply HM; auto. apply Hm. cbn [methods]. rewrite Ec. now left.
      + apply IH'; try (cbn [ty_size]; lia); cbn [methods orders]; rewrite ?Ec; try apply incl_refl. exact Hg.
    - apply exact_never; intros; discriminate.
  Qed.
End Main.
