(** The equations of SameSpec.v hold for the bytes (C77). *)
From Coq Require Import String.
From Verif Require Import Types EncPrim DecPrim Enc Dec Builtin Spec NumFacts TyInd EncWire DecWire RoundTrip SameSpec.
Notation length := Datatypes.length.

Lemma fixed_le_congr n : forall z z', z mod 256 ^ Z.of_nat n = z' mod 256 ^ Z.of_nat n -> fixed_le n z = fixed_le n z'.
Proof.
  induction n as [|n IH]; intros z z' H; [reflexivity|]. rewrite !fixed_le_S.
  rewrite Nat2Z.inj_succ, Z.pow_succ_r in H by lia. set (p := 256 ^ Z.of_nat n) in *.
  assert (Hp : 0 < p) by (unfold p; apply Z.pow_pos_nonneg; lia).
  rewrite !(Z.rem_mul_r _ 256 p) in H by lia.
  pose proof (Z.mod_pos_bound z 256). pose proof (Z.mod_pos_bound z' 256).
  pose proof (Z.mod_pos_bound (z / 256) p). pose proof (Z.mod_pos_bound (z' / 256) p).
  assert (z mod 256 = z' mod 256 /\ (z / 256) mod p = (z' / 256) mod p) as [Ha Hb] by nia.
  rewrite Ha. f_equal. apply IH. exact Hb.
Qed.
Lemma fixed_congr o w z z' : z mod 2 ^ wbits w = z' mod 2 ^ wbits w -> fixed o (wbytes w) z = fixed o (wbytes w) z'.
Proof.
  intro H. assert (fixed_le (wbytes w) z = fixed_le (wbytes w) z') as Hf by (apply fixed_le_congr; now destruct w).
  unfold fixed. now rewrite Hf.
Qed.

Section Facts.
  Variable E : encoding.
  Notation W := (wire E).

  Lemma wire_struct fs vs o : simple E fs -> W (TStruct fs) None o (VStruct vs) = wire_fields E W fs vs no_sizes.
  Proof. intros [H _]. cbn [wire]. now rewrite H. Qed.
  Lemma sizeless_bind h t fs v s : sizeless ((h, t) :: fs) -> bind_size (parse_field_tag (f_tag h)) v s = s.
  Proof. intro H. inversion_clear H as [|? ? H1 _]. cbn [fst] in H1. unfold bind_size. now rewrite H1. Qed.
  Lemma fields_cons h t fs v vs : sizeless ((h, t) :: fs) ->
    wire_fields E W ((h, t) :: fs) (v :: vs) no_sizes =
    (if live h then with_flags E (parse_field_tag (f_tag h)) v (W t None (ft_order (parse_field_tag (f_tag h))) v) else []) ++
    wire_fields E W fs vs no_sizes.
  Proof.
    intro H. cbn [wire_fields]. cbv zeta. rewrite (sizeless_bind h t fs v no_sizes H). now destruct (live h).
  Qed.
  Lemma bare_cons h o t fs v vs : bare E h o -> sizeless ((h, t) :: fs) ->
    wire_fields E W ((h, t) :: fs) (v :: vs) no_sizes = W t None o v ++ wire_fields E W fs vs no_sizes.
  Proof.
    intros (Hl & Hf & Ho) Hs. rewrite fields_cons by exact Hs. rewrite Hl, Ho. f_equal.
    unfold flagged_field in Hf. apply orb_false_iff in Hf as [H1 H2]. unfold with_flags. cbv zeta. rewrite H1, H2. reflexivity.
  Qed.
  Lemma sizeless_tail h t fs : sizeless ((h, t) :: fs) -> sizeless fs.
  Proof. intro H. now inversion H. Qed.
  Lemma fields_app gs ws fs vs : sizeless gs -> length ws = length gs ->
    wire_fields E W (gs ++ fs) (ws ++ vs) no_sizes = wire_fields E W gs ws no_sizes ++ wire_fields E W fs vs no_sizes.
  Proof.
    revert ws. induction gs as [|[h t] gs IH]; intros [|w ws] Hs Hl; try discriminate; [reflexivity|].
    cbn [app]. cbn [wire_fields]. cbv zeta. rewrite !(sizeless_bind h t gs w no_sizes Hs).
    rewrite (IH ws (sizeless_tail _ _ _ Hs)) by (cbn in Hl; lia). destruct (live h); [now rewrite app_assoc|reflexivity].
  Qed.
  Lemma wire_elems t l : uint_kind t = None ->
    flat_map (fun x => match uint_kind t, x with Some w, VNum z => fixed LE (wbytes w) z | _, _ => W t None LE x end) l =
    flat_map (W t None LE) l.
  Proof. intro H. apply flat_map_ext. intro x. now rewrite H. Qed.
  Lemma elems_same t t' l l' : uint_kind t = None -> uint_kind t' = None ->
    Forall2 (fun x x' => W t None LE x = W t' None LE x') l l' ->
    flat_map (fun x => match uint_kind t, x with Some w, VNum z => fixed LE (wbytes w) z | _, _ => W t None LE x end) l =
    flat_map (fun x => match uint_kind t', x with Some w, VNum z => fixed LE (wbytes w) z | _, _ => W t' None LE x end) l'.
  Proof.
    intros H H' F. rewrite !wire_elems by assumption. induction F as [|x x' l l' Hx _ IH]; [reflexivity|].
    cbn [flat_map]. now rewrite Hx, IH.
  Qed.
  Lemma uints_same t t' l : uint_kind t <> None -> uint_kind t = uint_kind t' -> Forall (fun x => exists z, x = VNum z) l ->
    flat_map (fun x => match uint_kind t, x with Some w, VNum z => fixed LE (wbytes w) z | _, _ => W t None LE x end) l =
    flat_map (fun x => match uint_kind t', x with Some w, VNum z => fixed LE (wbytes w) z | _, _ => W t' None LE x end) l.
  Proof.
    intros H H' F. rewrite <- H'. destruct (uint_kind t) as [w|]; [|congruence].
    induction F as [|x l (z & ->) _ IH]; [reflexivity|]. cbn [flat_map]. now rewrite IH.
  Qed.
  Lemma entries_length kt m : length (entries E kt m) = length m.
  Proof.
    destruct E; try reflexivity. cbn [entries]. unfold sort. induction m as [|e m IH]; [reflexivity|].
    cbn [fold_right length]. rewrite <- IH. generalize (fold_right (put (fun a b => key_before kt (fst a) (fst b))) [] m).
    intro l. induction l as [|y l IHl]; [reflexivity|]. cbn [put]. destruct (key_before _ _ _); cbn [length] in *; lia.
  Qed.
  Lemma flag_wire h b : bare E h LE -> W (flag_type E) None LE (flag_value E b) = flag E b.
  Proof.
    intros _. unfold flag_type, flag_value, flag. destruct E, b; reflexivity.
  Qed.
  Lemma variant_wire : forall fs vs n g t v, nth_error fs n = Some (g, t) -> nth_error vs n = Some v ->
    forall P : ty -> option Z -> order -> val -> list Z, wire_nth P fs vs n = P t None LE v.
  Proof.
    induction fs as [|f fs IH]; intros [|x vs] [|n] g t v Hf Hv P; try discriminate.
    - cbn in Hf, Hv. cbn [wire_nth]. assert (f = (g, t)) as -> by congruence. congruence.
    - cbn [nth_error] in Hf, Hv. cbn [wire_nth]. destruct f. eapply IH; eassumption.
  Qed.

  Theorem same_wire o t v t' v' : same E o t v t' v' -> W t None o v = W t' None o v'.
  Proof.
    revert o t v t' v'. fix IH 6. intros o t v t' v' H.
    destruct H as [o t v|o t v t' v' H|o t v t' v' t'' v'' H1 H2|o n w z nm z' Hz|o n b|o n b|o n b|o n s HE Hs
      |o c u v Hc|o t x Hp Ho|o c u x Hb Hm|o t HE Hp
      |o n n' t t' l l' Hu Hu' Hl|o n t t' l Hu Hu' Hl|o t t' l l' Hu Hu' Hl|o t t' l Hu Hu' Hl|o t|o kt vt
      |o kt vt m h1 h2 Hb1 Hb2 Hs
      |o h t v h' t' v' fs vs Ha Hs Hs' H Hz|o h t v fs vs fs' vs' Hs1 Hs2 Hs3 Hs4 H|o h t v fs vs Hd Hs1 Hs2
      |o o' h gs ws fs vs Hb Hs1 Hs2 Hs3 Hl|o h t v Hb Hs|o n h h' t x l Hu Hb1 Hb2 Hs|o t
      |o o' h t v fs vs h1 h2 tg Hl Ho Hc Hoo Hz Hb1 Hb2 Hs1 Hs2|o h t v fs vs h1 tg Hl Ho Hz Hb1 Hs1 Hs2
      |o f fs z vs g t v h1 h2 HE He Hz Hf Hv Hb1 Hb2 Hs].
    - reflexivity.
    - exact (eq_sym (IH _ _ _ _ _ H)).
    - exact (eq_trans (IH _ _ _ _ _ H1) (IH _ _ _ _ _ H2)).
    - cbn [wire]. now apply fixed_congr.
    - cbn [wire]. rewrite fixed_1. now destruct b.
    - reflexivity.
    - reflexivity.
    - cbn [wire uint_kind]. unfold text. replace (zlen (map VNum s)) with (zlen s) by (unfold zlen; now rewrite map_length).
      match goal with |- context [flat_map ?f (map VNum s)] => assert (Hm : flat_map f (map VNum s) = s) end.
      { clear HE. induction s as [|x s IHs]; [reflexivity|]. inversion_clear Hs as [|? ? Hx Hs']. cbn [map flat_map].
        rewrite IHs by exact Hs'. change (wbytes W8) with 1%nat. rewrite fixed_1. unfold is_byte in Hx. now rewrite Z.mod_small by lia. }
      rewrite Hm. clear IH. destruct E; [congruence|reflexivity|reflexivity].
    - cbn [wire]. now rewrite Hc.
    - cbn [wire]. rewrite Hp. clear IH. destruct E; [reflexivity|reflexivity|]. now rewrite (Ho eq_refl).
    - cbn [wire ptr_marshal]. unfold val_marshal. rewrite Hb. destruct (c_marshal c); [reflexivity|congruence].
    - cbn [wire]. rewrite Hp, HE. reflexivity.
    - cbn [wire]. apply elems_same; [assumption..|]. clear Hu Hu'. induction Hl as [|x x' l l' Hx _ IHl]; constructor; [now apply IH|exact IHl].
    - cbn [wire]. now apply uints_same.
    - cbn [wire]. f_equal.
      + f_equal. unfold zlen. f_equal. clear -Hl. induction Hl; cbn; congruence.
      + apply elems_same; [assumption..|]. clear Hu Hu'. induction Hl as [|x x' l l' Hx _ IHl]; constructor; [now apply IH|exact IHl].
    - cbn [wire]. f_equal. now apply uints_same.
    - reflexivity.
    - reflexivity.
    - cbn [wire]. f_equal.
      + f_equal. unfold zlen. now rewrite map_length, entries_length.
      + cbn [uint_kind]. generalize (entries E kt m). intro es. induction es as [|e es IHe]; [reflexivity|].
        cbn [map flat_map]. rewrite IHe. f_equal. destruct Hs as [Hs1 Hs2]. rewrite Hs1.
        rewrite (bare_cons h1 LE) by assumption. rewrite (bare_cons h2 LE); [|exact Hb2|now apply sizeless_tail in Hs2].
        now rewrite app_nil_r.
    - rewrite !wire_struct by assumption. destruct Hs as [_ Hs], Hs' as [_ Hs']. rewrite !fields_cons by assumption.
      f_equal. destruct Ha as (Ha1 & Ha2 & Ha3 & Ha4). rewrite <- Ha1. destruct (live h); [|reflexivity].
      rewrite <- Ha4, (IH _ _ _ _ _ H). unfold with_flags. cbv zeta. rewrite <- Ha2, <- Ha3.
      unfold flagged_field in Hz. destruct (ft_option (parse_field_tag (f_tag h))); cbn [orb] in Hz.
      + now rewrite (Hz eq_refl).
      + destruct (is_borsh E && ft_coption (parse_field_tag (f_tag h))); [now rewrite (Hz eq_refl)|reflexivity].
    - pose proof (IH _ _ _ _ _ H) as K. rewrite !wire_struct in * by assumption. destruct Hs1 as [_ Hs1], Hs2 as [_ Hs2].
      rewrite !fields_cons by assumption. now rewrite K.
    - rewrite !wire_struct by assumption. destruct Hs1 as [_ Hs1]. rewrite fields_cons by exact Hs1. now rewrite Hd.
    - rewrite !wire_struct by assumption. rewrite fields_app; [|apply Hs2|exact Hl].
      rewrite (bare_cons h o') by (try apply Hs1; assumption). now rewrite wire_struct.
    - rewrite wire_struct by exact Hs. rewrite (bare_cons h o); [apply app_nil_r|exact Hb|apply Hs].
    - rewrite wire_struct by exact Hs. rewrite (bare_cons h LE); [|exact Hb1|apply Hs].
      rewrite (bare_cons h' LE); [|exact Hb2|eapply sizeless_tail, Hs]. cbn [wire wire_fields]. rewrite app_nil_r.
      cbn [flat_map]. now rewrite Hu.
    - cbn [wire wire_fields enum_struct]. clear IH. now destruct E.
    - rewrite !wire_struct by assumption. rewrite (bare_cons h1 LE); [|exact Hb1|apply Hs2].
      rewrite (bare_cons h2 o'); [|exact Hb2|eapply sizeless_tail, Hs2]. rewrite fields_cons by apply Hs1.
      rewrite Hl, app_assoc. f_equal. rewrite (flag_wire h1 true Hb1). unfold with_flags. cbv zeta. fold tg.
      rewrite Ho, Hz, Hc, Hoo. reflexivity.
    - rewrite !wire_struct by assumption. rewrite (bare_cons h1 LE); [|exact Hb1|apply Hs2]. rewrite fields_cons by apply Hs1.
      rewrite Hl. f_equal. rewrite (flag_wire h1 false Hb1). unfold with_flags. cbv zeta. fold tg. now rewrite Ho, Hz.
    - assert (Hsim : simple E [(h1, TUint UPlain W8); (h2, fst (payload t v))]).
      { split; [now rewrite HE|]. inversion_clear Hs as [|? ? X1 X2]. inversion_clear X2 as [|? ? X3 _]. repeat constructor; assumption. }
      rewrite (wire_struct [(h1, TUint UPlain W8); (h2, fst (payload t v))]) by exact Hsim.
      rewrite (bare_cons h1 LE); [|exact Hb1|apply Hsim]. rewrite (bare_cons h2 LE); [|exact Hb2|eapply sizeless_tail, Hsim].
      cbn [wire wire_fields]. rewrite He, app_nil_r. destruct f as [h0 t0]. cbn [wire_nth].
      rewrite (variant_wire fs vs (Z.to_nat z) g t v Hf Hv). change (wbytes W8) with 1%nat. rewrite fixed_1, Z.mod_small by lia.
      cbn [app]. f_equal. unfold payload.
      destruct t as [|nm w|nm w|f1| |sg| | |t|nn t|t|kt vt|fs1|c u|]; try reflexivity.
      destruct v as [| | | |[x|]| | | | | |], t; reflexivity.
  Qed.
End Facts.

Theorem same_marshal E t v t' v' : same E LE t v t' v' -> ok E t None LE v -> ok E t' None LE v' ->
  marshal E t v = marshal E t' v'.
Proof. intros H H1 H2. rewrite !marshal_wire by assumption. now rewrite (same_wire _ _ _ _ _ _ H). Qed.
Theorem same_unmarshal E t v t' v' p : same E LE t v t' v' -> ok E t None LE v -> ok E t' None LE v' -> fits t' p ->
  exists b, marshal E t v = (Ok tt, b) /\ unmarshal E t' p b = Ok (back E t' None LE p v').
Proof.
  intros H H1 H2 Hp. exists (wire E t' None LE v'). rewrite <- (same_wire _ _ _ _ _ _ H) at 1.
  split; [now apply marshal_wire|]. destruct (decode_run E t' v' p [] [] None H2 Hp) as (c' & D).
  unfold unmarshal. cbn [app] in D. rewrite app_nil_r in D. change (zlen []) with 0 in D. unfold new_decoder. now rewrite D.
Qed.

(** Variants added to an enum. *)
Theorem same_more_variants o f fs gs z vs ws : enum_struct Borsh (f :: fs) = true -> 0 <= z < 256 -> z < zlen fs ->
  length vs = length fs ->
  same Borsh o (TStruct (f :: fs)) (VStruct (VNum z :: vs)) (TStruct (f :: fs ++ gs)) (VStruct (VNum z :: vs ++ ws)).
Proof.
  intros He Hz Hl Hn. unfold zlen in Hl. set (n := Z.to_nat z). assert (Hi : (n < length fs)%nat) by (unfold n; lia).
  destruct (nth_error fs n) as [[g t]|] eqn:Ef; [|apply nth_error_None in Ef; lia].
  destruct (nth_error vs n) as [v|] eqn:Ev; [|apply nth_error_None in Ev; lia].
  set (h := mkF "" true (mkTag "" "" "")).
  assert (Hb : bare Borsh h LE) by (repeat split).
  assert (Hs : sizeless [(h, TUint UPlain W8); (h, t)]) by (repeat constructor).
  eapply same_trans; [apply (same_variant Borsh o f fs z vs g t v h h); assumption||reflexivity|].
  apply same_sym. apply (same_variant Borsh o f (fs ++ gs) z (vs ++ ws) g t v h h); try assumption; try reflexivity.
  - fold n. rewrite nth_error_app1 by exact Hi. exact Ef.
  - fold n. rewrite nth_error_app1 by lia. exact Ev.
Qed.
