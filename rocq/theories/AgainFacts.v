(** Encode, decode, encode again. *)
From Coq Require Import String Permutation Sorted.
From Verif Require Import Types DecPrim Enc Dec Spec NumFacts TyInd EncWire DecWire RoundTrip AccSpec FieldFacts SteadySpec SteadyFacts MapFacts AgainSpec.
Notation length := Datatypes.length.

Definition again (E : encoding) (t : ty) : Prop :=
  forall sz o v, lasting E t -> (E = Borsh -> o = LE) -> fits t v -> ok E t sz o v ->
  let v' := back E t sz o (zero_val t) v in
  fits t v' /\ ok E t sz o v' /\ canon E t sz o v' /\ wire E t sz o v' = wire E t sz o v.

(** ** Fields *)
Lemma fields_again E fs : (forall h t, In (h, t) fs -> again E t) -> forall vs s seen,
  lasting_fields E (lasting E) fs -> fits_fields fits fs vs -> ok_fields E (ok E) (back E) (wire E) fs vs s seen ->
  let vs' := back_fields E (back E) fs (map (fun ht => zero_val (snd ht)) fs) vs s in
  fits_fields fits fs vs' /\ ok_fields E (ok E) (back E) (wire E) fs vs' s seen /\
  canon_fields E (canon E) fs vs' s /\ wire_fields E (wire E) fs vs' s = wire_fields E (wire E) fs vs s.
Proof.
  induction fs as [|[h t] fs IH]; intros Hall vs s seen HL HF HO; destruct vs as [|v vs]; try (destruct HF; fail).
  { cbn. auto. }
  assert (IH' := IH (fun h' t' Hin => Hall h' t' (or_intror Hin))). clear IH.
  assert (Ht := Hall h t (or_introl eq_refl)). clear Hall.
  cbn [lasting_fields fits_fields ok_fields snd] in HL, HF, HO. set (tg := parse_field_tag (f_tag h)) in *.
  destruct HL as [HL1 HL2]. destruct HF as [HF1 HF2].
  cbn [map snd back_fields fits_fields ok_fields canon_fields wire_fields]. fold tg.
  destruct (ft_skip tg) eqn:Esk.
  { assert (Hl : live h = false) by (unfold live; fold tg; now rewrite Esk).
    rewrite Hl. destruct (IH' vs s seen HL2 HF2 HO) as (A & B & C & D). repeat split; auto. apply fits_zero. }
  destruct HO as [HO1 HO2]. destruct (f_exported h) eqn:Eex.
  2:{ assert (Hl : live h = false) by (unfold live; rewrite Eex; now destruct (negb _)).
      rewrite Hl. destruct HO2 as [HO2 HO3]. destruct (IH' vs s _ HL2 HF2 HO3) as (A & B & C & D). repeat split; auto. apply fits_zero. }
  assert (Hl : live h = true) by (unfold live; fold tg; now rewrite Esk, Eex).
  rewrite Hl. destruct (HL1 Hl) as [HLt Hmark]. destruct HO2 as (Hfield & Hsize & Hext & HO).
  set (v' := back_field E (back E) t tg (s (f_name h)) (zero_val t) v).
  assert (Hv' : (flagged_field E tg && is_zero v = true /\ v' = zero_val t) \/
                (flagged_field E tg && is_zero v = false /\ v' = back E t (s (f_name h)) (ft_order tg) (zero_val t) v /\
                 ok E t (s (f_name h)) (ft_order tg) v)).
  { destruct Hfield as (_ & _ & Ho & _). subst v'. unfold back_field.
    destruct (flagged_field E tg && is_zero v) eqn:Ef; [now left|right]. split; [reflexivity|]. split; [|destruct Ho; [discriminate|assumption]].
    f_equal. destruct E; try reflexivity. destruct t as [| | | | | | | |t| | | | |c u|]; try reflexivity.
    - destruct t as [| | | | | | | | | | | | |c u|]; try reflexivity. now destruct (c_unmarshal c).
    - now destruct (c_unmarshal c). }
  assert (Hbind : bind_size tg v' s = bind_size tg v s).
  { unfold bind_size. destruct Hsize as [->|(_ & _ & _ & z & -> & _ & Hz)]; [reflexivity|].
    subst v'. rewrite (Hz (s (f_name h)) (zero_val t) (fits_zero t)). reflexivity. }
  assert (Hgo : fits t v' /\ ok_field E (ok E) t tg (s (f_name h)) v' /\
    (if flagged_field E tg && is_zero v' then v' = zero_val t else canon E t (s (f_name h)) (ft_order tg) v') /\
    with_flags E tg v' (wire E t (s (f_name h)) (ft_order tg) v') = with_flags E tg v (wire E t (s (f_name h)) (ft_order tg) v)).
  { destruct Hfield as (Ho1 & Ho2 & _ & _).
    destruct Hv' as [[Hz ->]|(Hz & -> & Hok)].
    - apply andb_true_iff in Hz. destruct Hz as [Hz1 Hz2].
      split; [apply fits_zero|]. split.
      { repeat split; auto; try tauto; try apply fits_zero. left. now rewrite Hz1, zero_is_zero. }
      split; [now rewrite Hz1, zero_is_zero|].
      unfold with_flags. rewrite zero_is_zero, Hz2. unfold flagged_field in Hz1.
      destruct (ft_option tg); [reflexivity|]. cbn [orb] in Hz1. now rewrite Hz1.
    - destruct (Ht (s (f_name h)) (ft_order tg) v HLt Ho1 HF1 Hok) as (A & B & C & D).
      split; [exact A|]. split; [repeat split; auto; tauto|].
      assert (Hf : flagged_field E tg && is_zero (back E t (s (f_name h)) (ft_order tg) (zero_val t) v) = false).
      { destruct (flagged_field E tg) eqn:Efl; [|reflexivity]. cbn [andb] in *. now apply (Hmark eq_refl). }
      rewrite Hf. split; [exact C|]. rewrite D. unfold with_flags, flagged_field in *.
      destruct (ft_option tg); cbn [orb andb] in *; [now rewrite Hz, Hf|].
      destruct (is_borsh E && ft_coption tg); cbn [andb] in *; [now rewrite Hz, Hf|reflexivity]. }
  destruct Hgo as (A & B & C & D).
  rewrite <- Hbind in HO.
  destruct (IH' vs (bind_size tg v' s) _ HL2 HF2 HO) as (A' & B' & C' & D'). rewrite Hbind in *.
  split; [split; auto|]. split.
  { split; [exact HO1|]. split; [exact B|]. split.
    - destruct Hsize as [Hs|(H1 & H2 & H3 & z & -> & H4 & Hz)]; [now left|right].
      assert (Hvz : v' = VNum z) by (subst v'; apply Hz, fits_zero).
      rewrite Hvz. split; [exact H1|]. split; [exact H2|]. split; [exact H3|]. exists z. auto.
    - split; [|exact B']. intro He. rewrite D. auto. }
  split; [split; auto|]. now rewrite D, D'.
Qed.

(** ** Variants *)
Definition vback (t : ty) (_ : option Z) (_ : order) (p v : val) : val :=
  match t, v with
  | TPtr (TCodec c u), VPtr (Some x) =>
      match c_unmarshal c with
      | Some f => VPtr (Some (codec_back f Borsh LE (deref u p) (wire Borsh u None LE x)))
      | None => VPtr (Some (back Borsh u None LE (deref u p) x))
      end
  | TCodec c u, _ =>
      match c_unmarshal c with
      | Some f => codec_back f Borsh LE p (wire Borsh u None LE v)
      | None => back Borsh u None LE p v
      end
  | _, _ => back Borsh t None LE p v
  end.

Lemma fits_zeros fs : fits_fields fits fs (map (fun ht => zero_val (snd ht)) fs).
Proof. induction fs as [|[h t] fs IH]; cbn [map fits_fields snd]; auto using fits_zero. Qed.

Lemma variant_again t : (forall t', (ty_size t' <= ty_size t)%nat -> again Borsh t') ->
  variant_ok t = true -> lasting Borsh t -> forall v, fits t v -> vok t None LE v ->
  let v' := vback t None LE (zero_val t) v in
  fits t v' /\ vok t None LE v' /\ vcanon t None LE v' /\ vwire t None LE v' = vwire t None LE v.
Proof.
  intros IH Hv HL v HF HO. unfold variant_ok in Hv.
  assert (Hgen : ok Borsh t None LE v -> let v' := back Borsh t None LE (zero_val t) v in
    fits t v' /\ ok Borsh t None LE v' /\ canon Borsh t None LE v' /\ wire Borsh t None LE v' = wire Borsh t None LE v).
  { intro Hok. exact (IH t (le_n _) None LE v HL (fun _ => eq_refl) HF Hok). }
  unfold vback, vok, vcanon, vwire in *.
  destruct t as [| | | | | | | |t| | | | |c u|]; try (destruct HO as [HO1 HO2]; destruct (Hgen HO2) as (A & B & C & D); auto; fail).
  - assert (Hstep : forall t0, t = t0 -> payload t0 = true -> (exists x, v = VPtr (Some x) /\ payload t = true /\ ok Borsh (TPtr t) None LE v) ->
      let v' := back Borsh (TPtr t) None LE (zero_val (TPtr t)) v in
      fits (TPtr t) v' /\ (exists x, v' = VPtr (Some x) /\ payload t = true /\ ok Borsh (TPtr t) None LE v') /\
      canon Borsh (TPtr t) None LE v' /\ wire Borsh (TPtr t) None LE v' = wire Borsh (TPtr t) None LE v).
    { intros t0 _ _ (x & -> & Hp & Hok). destruct (Hgen Hok) as (A & B & C & D). split; [exact A|]. split; [|split; assumption].
      eexists. split; [reflexivity|]. split; [exact Hp|exact B]. }
    destruct t as [| | | | | | | | | | | | |c u|]; try discriminate Hv; try exact (Hstep _ eq_refl Hv HO).
    clear Hgen Hstep. apply andb_true_iff in Hv. destruct Hv as [Hc Hp]. destruct (no_codec_none c Hc) as [Em Eu].
    cbn [lasting] in HL. rewrite Hc in HL. destruct HO as (x & -> & _ & Hok & _). rewrite Eu. cbn [zero_val deref].
    assert (HFx : fits u x). { destruct HF as (q & Hq & Hx). injection Hq as <-. exact (Hx x eq_refl). }
    destruct (IH u ltac:(cbn; lia) None LE x HL (fun _ => eq_refl) HFx Hok) as (A & B & C & D).
    split; [eexists; split; [reflexivity|]; intros y Hy; injection Hy as <-; exact A|].
    split; [eexists; split; [reflexivity|]; repeat split; auto; discriminate|]. auto.
  - clear Hgen. apply andb_true_iff in Hv. destruct Hv as [Hc Hp]. destruct (no_codec_none c Hc) as [Em Eu].
    cbn [lasting] in HL. rewrite Hc in HL. destruct HO as (_ & Hok & _). rewrite Eu. cbn [zero_val].
    destruct (IH u ltac:(cbn; lia) None LE v HL (fun _ => eq_refl) HF Hok) as (A & B & C & D).
    split; [exact A|]. split; [repeat split; auto; discriminate|]. auto.
Qed.

Lemma nth_again fs : (forall h t, In (h, t) fs -> forall t', (ty_size t' <= ty_size t)%nat -> again Borsh t') ->
  lasting_variants (lasting Borsh) fs -> forall vs n, fits_fields fits fs vs -> ok_nth vok fs vs n ->
  let vs' := back_nth vback fs (map (fun ht => zero_val (snd ht)) fs) vs n in
  fits_fields fits fs vs' /\ ok_nth vok fs vs' n /\ canon_nth vcanon fs vs' n /\ wire_nth vwire fs vs' n = wire_nth vwire fs vs n.
Proof.
  induction fs as [|[h t] fs IH]; intros Hall HL vs n HF HO; destruct vs as [|v vs]; try (destruct HF; fail); [destruct n; destruct HO|].
  cbn [lasting_variants fits_fields snd] in HL, HF. destruct HL as (HL1 & HL2 & HL3). destruct HF as [HF1 HF2].
  destruct n as [|n]; cbn [ok_nth map snd back_nth fits_fields canon_nth wire_nth] in *.
  - destruct HO as (Hx & HO & Hl).
    destruct (variant_again t (Hall h t (or_introl eq_refl)) HL1 HL2 v HF1 HO) as (A & B & C & D).
    repeat split; auto; [apply fits_zeros|now rewrite map_length].
  - destruct (IH (fun h' t' Hin => Hall h' t' (or_intror Hin)) HL3 vs n HF2 HO) as (A & B & C & D).
    repeat split; auto. apply fits_zero.
Qed.

(** ** Maps *)
Lemma sort_fixed {A} (lt : A -> A -> bool) l : StronglySorted (fun a b => lt a b = true) l -> sort lt l = l.
Proof.
  induction 1 as [|x l Hs IH Hx]; [reflexivity|]. cbn [sort fold_right]. fold (sort lt l). rewrite IH.
  destruct l as [|y l]; [reflexivity|]. cbn [put]. inversion_clear Hx as [|? ? H _]. now rewrite H.
Qed.

Lemma entries_sorted kt m : Forall (fun e : val * val => key_eqb kt (fst e) (fst e) = true) m -> distinct kt (map fst m) ->
  ((2 <= length m)%nat -> key_sortable false kt = true) ->
  StronglySorted (fun a b => key_before kt (fst a) (fst b) = true) (entries Borsh kt m).
Proof.
  intros Hall Hd Hs. cbn [entries].
  apply (sort_sorted (fun a b => key_before kt (fst a) (fst b))).
  { intros x y z. apply key_before_trans. }
  destruct m as [|a [|b m']]; [constructor|constructor; constructor|].
  specialize (Hs ltac:(cbn; lia)). remember (a :: b :: m') as m. clear -Hall Hd Hs.
  induction m as [|e m IH]; [constructor|]. cbn [map] in Hd.
  inversion_clear Hall as [|? ? H1 H2]. inversion_clear Hd as [|? ? H3 H4].
  constructor; [|now apply IH]. apply Forall_forall. intros e' Hin.
  rewrite Forall_forall in H2, H3. specialize (H2 _ Hin).
  apply (key_before_total kt false); auto. apply H3. now apply in_map.
Qed.

(** ** All types *)
Lemma all_map {A} (P Q : A -> Prop) (f : A -> A) l : Forall P l -> (forall x, P x -> Q (f x)) -> Forall Q (map f l).
Proof. intros H HQ. apply Forall_map. eapply Forall_impl; [|exact H]. exact HQ. Qed.

Theorem again_all E t : again E t.
Proof.
  induction t as [t IH] using ty_strong_ind. intros sz o v HL Ho HF HO. cbv zeta.
  destruct t as [|u w|u w|f| |s| | |t|n t|t|kt vt|fs|c u|]; cbn [ok] in HO; try (destruct HO; fail).
  - destruct HO as (b & ->). cbn. repeat split; eauto.
  - destruct HO as (z & -> & Hz). cbn [back fits ok canon wire]. repeat split; eauto.
  - destruct HO as (z & -> & Hz). cbn [back fits ok canon wire]. repeat split; eauto.
  - destruct HO as (z & -> & Hz & Hnan). cbn [back fits ok canon wire].
    pose proof (quiet_range f z Hz) as Hq. rewrite quiet_idem by exact Hz. repeat split; eauto.
    + exists (quiet f z). split; [reflexivity|]. split; [exact Hq|]. intro HE. rewrite quiet_notnan; auto.
    + exists (quiet f z). split; [reflexivity|]. now apply quiet_idem.
  - destruct HO as (s & -> & Hs). cbn [back fits ok canon wire]. split; [exact HF|]. split; [eauto|]. auto.
  - cbn [back fits ok canon wire zero_val]. destruct v; repeat split; eauto.
  - (* pointers *)
    destruct HO as (q & -> & HO). cbn [lasting] in HL. cbn [fits ok canon wire back zero_val deref].
    assert (HFx : forall x, q = Some x -> fits t x). { destruct HF as (q' & Hq & HF). injection Hq as <-. exact HF. }
    assert (Hlt : (ty_size t < ty_size (TPtr t))%nat) by (cbn; lia).
    destruct (ptr_marshal t) as [fm|] eqn:Ep.
    + destruct HO as (x & u & fu & -> & Hu & (c & ->) & Hw & Hr). cbn [ptr_marshal has_unmarshal] in Ep, Hu.
      cbn [has_unmarshal]. rewrite Hu. cbn [lasting zero_val fits] in *.
      assert (Hc : no_codec c = false) by (unfold no_codec; now rewrite Ep). rewrite Hc in HL.
      destruct HL as (m & f & Hm & _ & Hf & Hst). assert (m = fm) by congruence. assert (f = fu) by congruence. subst m f.
      destruct (Hst o x Ho (HFx x eq_refl) Hw Hr) as (A & B & C). cbv zeta in *.
      set (x' := codec_back fu E o (zero_val u) (codec_bytes fm E o x)) in *.
      split; [exists (Some x'); split; [reflexivity|]; intros y Hy; congruence|].
      split; [exists (Some x'); split; [reflexivity|]; exists x', u, fu; repeat split; eauto; now rewrite C|].
      split; [exists x'; split; [reflexivity|]; now rewrite C|exact C].
    + set (x := match q with Some x => x | None => zero_val t end) in *.
      assert (Hx : fits t x). { destruct q; subst x; [auto|apply fits_zero]. }
      assert (Hgo : E = Borsh /\ sz = None /\ ok E t None LE x \/ E <> Borsh /\ q = Some x /\ ok E t sz o x).
      { destruct E; [right|right|left]; try (destruct HO as (x0 & -> & HO); repeat split; auto; discriminate). destruct HO; auto. }
      fold x. destruct Hgo as [(HE & -> & Hok)|(HE & Hq & Hok)].
      * destruct (IH t Hlt None LE x HL (fun _ => eq_refl) Hx Hok) as (A & B & C & D). subst E. cbv iota.
        split; [eexists; split; [reflexivity|]; intros y Hy; injection Hy as <-; exact A|].
        split; [eexists; split; [reflexivity|]; split; [reflexivity|exact B]|].
        split; [eexists; split; [reflexivity|exact C]|]. rewrite D. subst x. now destruct q.
      * destruct (IH t Hlt sz o x HL Ho Hx Hok) as (A & B & C & D). rewrite Hq.
        split; [eexists; split; [reflexivity|]; intros y Hy; injection Hy as <-; destruct E; try exact A; congruence|].
        split; [eexists; split; [reflexivity|]; destruct E; try congruence; eauto|].
        split; [eexists; split; [reflexivity|]; destruct E; try congruence; eauto|].
        destruct E; congruence.
  - (* arrays *)
    destruct HO as (l & -> & Hl & HO & H8). cbn [lasting] in HL. cbn [fits ok canon wire back zero_val].
    destruct HF as (l' & Hl' & _ & HF). injection Hl' as <-.
    destruct (uint_kind t) as [w|] eqn:Ek.
    + split; [eauto|]. split; [eauto 10|]. split; [|reflexivity]. exists l. repeat split; auto. apply Forall_forall. auto.
    + destruct HL as [HL|HL]; [congruence|]. subst n. rewrite zip_with_repeat.
      assert (Hall : Forall (fun x => let x' := back E t None LE (zero_val t) x in
        fits t x' /\ ok E t None LE x' /\ canon E t None LE x' /\ wire E t None LE x' = wire E t None LE x) l).
      { apply Forall_forall. intros x Hin. rewrite Forall_forall in HO, HF.
        apply (IH t ltac:(cbn; lia) None LE x HL); auto. }
      assert (Hlen : length (map (back E t None LE (zero_val t)) l) = length l) by apply map_length.
      split; [eexists; split; [reflexivity|]; split; [exact Hlen|]; eapply all_map; [exact Hall|]; cbv beta zeta; tauto|].
      split; [eexists; split; [reflexivity|]; split; [exact Hlen|]; split; [eapply all_map; [exact Hall|]; cbv beta zeta; tauto|discriminate]|].
      split; [eexists; split; [reflexivity|]; split; [exact Hlen|]; eapply all_map; [exact Hall|]; cbv beta zeta; tauto|].
      clear -Hall. induction Hall as [|x l (_ & _ & _ & D) _ IHl]; [reflexivity|]. cbn [map flat_map]. now rewrite D, IHl.
  - (* slices *)
    destruct HO as (ol & -> & Hsz & HO & H8 & Hw). cbn [lasting] in HL. cbn [fits ok canon wire back zero_val].
    set (l := match ol with Some l => l | None => [] end) in *.
    assert (HFl : Forall (fits t) l). { destruct HF as (ol' & Hol & HF). injection Hol as <-. destruct ol; subst l; auto. }
    clearbody l. clear HF ol.
    set (l' := match uint_kind t with Some _ => l | None => map (back E t None LE (zero_val t)) l end).
    assert (Hgo : zlen l' = zlen l /\ Forall (fits t) l' /\
      Forall (fun x => match uint_kind t with Some w => exists z, x = VNum z /\ 0 <= z < 2 ^ wbits w | None => ok E t None LE x end) l' /\
      (uint_kind t = None -> Forall (fun x => wire E t None LE x <> []) l') /\
      Forall (fun x => match uint_kind t with Some _ => True | None => canon E t None LE x end) l' /\
      flat_map (fun x => match uint_kind t with Some w => match x with VNum z => fixed LE (wbytes w) z | _ => wire E t None LE x end | None => wire E t None LE x end) l' =
      flat_map (fun x => match uint_kind t with Some w => match x with VNum z => fixed LE (wbytes w) z | _ => wire E t None LE x end | None => wire E t None LE x end) l).
    { subst l'. destruct (uint_kind t) as [w|] eqn:Ek.
      - repeat split; auto. apply Forall_forall. auto.
      - destruct HL as [HL|HL]; [congruence|].
        assert (Hall : Forall (fun x => wire E t None LE x <> [] /\ let x' := back E t None LE (zero_val t) x in
          fits t x' /\ ok E t None LE x' /\ canon E t None LE x' /\ wire E t None LE x' = wire E t None LE x) l).
        { specialize (Hw eq_refl). apply Forall_forall. intros x Hin. rewrite Forall_forall in HO, HFl, Hw. split; [auto|].
          apply (IH t ltac:(cbn; lia) None LE x HL); auto. }
        split; [unfold zlen; now rewrite map_length|].
        split; [eapply all_map; [exact Hall|]; cbv beta zeta; tauto|].
        split; [eapply all_map; [exact Hall|]; cbv beta zeta; tauto|].
        split; [intros _; eapply all_map; [exact Hall|]; cbn beta; cbv zeta; intros x (Hx & _ & _ & _ & ->); exact Hx|].
        split; [eapply all_map; [exact Hall|]; cbv beta zeta; tauto|].
        clear -Hall. induction Hall as [|x l (_ & _ & _ & _ & D) _ IHl]; [reflexivity|]. cbn [map flat_map]. now rewrite D, IHl. }
    destruct Hgo as (G1 & G2 & G3 & G4 & G5 & G6).
    assert (Hmain : let v' := VSlice (Some l') in (E = Borsh -> l <> []) ->
      fits (TSlice t) v' /\ ok E (TSlice t) sz o v' /\ canon E (TSlice t) sz o v' /\
      wire E (TSlice t) sz o v' = wire E (TSlice t) sz o (VSlice (Some l))).
    { intros v' Hne. subst v'. cbn [fits ok canon wire].
      split; [eexists; split; [reflexivity|]; intros y Hy; injection Hy as <-; exact G2|].
      split; [eexists; split; [reflexivity|]; cbv beta iota zeta; rewrite G1; repeat split; auto|].
      split; [|rewrite G1; f_equal; exact G6].
      destruct E; eauto. right. eexists. split; [reflexivity|]. split; [|exact G5].
      specialize (Hne eq_refl). intro H0. rewrite H0 in G1. destruct l; [easy|]. rewrite zlen_cons in G1. change (zlen (@nil val)) with 0 in G1. pose proof (zlen_nonneg l). lia. }
    cbn [fits ok canon wire] in Hmain. cbv zeta in Hmain.
    destruct E; try (apply Hmain; discriminate). destruct l as [|x l].
    + cbn. split; [exists None; split; [reflexivity|discriminate]|].
      split; [exists None; split; [reflexivity|]; repeat split; auto|]. split; [now left|reflexivity].
    + apply Hmain. discriminate.
  - (* maps *)
    destruct HO as (om & -> & Hl & HO & Hd & Hd' & Hs). cbn [lasting] in HL. destruct HL as (-> & Hk & HLk & HLv).
    set (m := match om with Some m => m | None => [] end) in *.
    assert (HFm : Forall (fun e => fits kt (fst e) /\ fits vt (snd e)) m).
    { destruct HF as (om' & Hom & HF). injection Hom as <-. destruct om; subst m; auto. }
    assert (Hnil : m = [] \/ exists e m', om = Some (e :: m')).
    { destruct om as [[|e m']|]; subst m; eauto. }
    destruct Hnil as [Hnil|(e0 & m0 & ->)].
    { replace (back Borsh (TMap kt vt) sz o (zero_val (TMap kt vt)) (VMap om)) with (VMap None)
        by (cbn [back zero_val]; subst m; destruct om as [[|]|]; congruence).
      cbn [fits ok canon wire].
      split; [exists None; split; [reflexivity|discriminate]|].
      split; [exists None; split; [reflexivity|]; unfold distinct; cbn [map length];
        split; [cbn; lia|]; split; [constructor|]; split; [constructor|]; split; [constructor|]; intros _ Hl'; inversion Hl'|].
      split; [now left|]. fold m. rewrite Hnil. reflexivity. }
    subst m. cbv iota in *. remember (e0 :: m0) as m eqn:Em. assert (Hne : m <> []) by (subst m; discriminate).
    assert (Hb : back Borsh (TMap kt vt) sz o (zero_val (TMap kt vt)) (VMap (Some m)) =
      VMap (Some (map (fun e => (fst e, back Borsh vt None LE (zero_val vt) (snd e))) (entries Borsh kt m)))).
    { transitivity (VMap (Some (map (fun e => (back Borsh kt None LE (zero_val kt) (fst e), back Borsh vt None LE (zero_val vt) (snd e))) (entries Borsh kt m)))).
      { rewrite Em. reflexivity. }
      do 2 f_equal. apply map_ext_in. intros e He. f_equal. apply Hk.
      rewrite Forall_forall in HO. apply HO. eapply Permutation_in; [apply (entries_perm Borsh kt)|exact He]. }
    rewrite Hb. clear Hb Em e0 m0.
    set (bk := fun e : val * val => (fst e, back Borsh vt None LE (zero_val vt) (snd e))).
    set (m' := map bk (entries Borsh kt m)).
    assert (Hperm : Permutation (entries Borsh kt m) m) by apply entries_perm.
    assert (Hall : Forall (fun e => fits kt (fst e) /\ fits vt (snd (bk e)) /\ ok Borsh kt None LE (fst e) /\ key_eqb kt (fst e) (fst e) = true /\
      (kt = TIface -> fst e = VIface None) /\ (vt = TIface -> snd (bk e) = VIface None) /\
      canon Borsh kt None LE (fst e) /\
      ok Borsh vt None LE (snd (bk e)) /\ canon Borsh vt None LE (snd (bk e)) /\
      wire Borsh vt None LE (snd (bk e)) = wire Borsh vt None LE (snd e)) (entries Borsh kt m)).
    { eapply Permutation_Forall; [symmetry; exact Hperm|]. apply Forall_forall. intros e He.
      rewrite Forall_forall in HO, HFm. destruct (HO e He) as (O1 & O2 & O3 & O4 & O5). destruct (HFm e He) as [F1 F2].
      destruct (IH kt ltac:(cbn; lia) None LE (fst e) HLk (fun _ => eq_refl) F1 O1) as (_ & _ & Ck & _). rewrite (Hk _ O1) in Ck.
      destruct (IH vt ltac:(cbn; lia) None LE (snd e) HLv (fun _ => eq_refl) F2 O2) as (Fv & Ov & Cv & Wv).
      unfold bk. cbn [fst snd]. repeat split; auto. intros ->. cbn [back zero_val]. now destruct (snd e). }
    assert (Hkeys : map fst m' = map fst (entries Borsh kt m)) by (subst m'; rewrite map_map; reflexivity).
    assert (Hlen : length m' = length m) by (subst m'; rewrite map_length; now apply Permutation_length).
    assert (Hd2 : distinct kt (map fst m')).
    { rewrite Hkeys. eapply distinct_perm; [|exact Hd]. apply Permutation_map. now symmetry. }
    assert (Hsort : entries Borsh kt m' = m').
    { cbn [entries]. apply sort_fixed. subst m'.
      assert (Hst : StronglySorted (fun a b => key_before kt (fst a) (fst b) = true) (entries Borsh kt m)).
      { apply entries_sorted; auto. eapply Forall_impl; [|exact HO]. cbn beta. tauto. }
      clear -Hst. induction Hst as [|e l _ IHl He]; [constructor|]. cbn [map]. constructor; [exact IHl|].
      apply Forall_map. exact He. }
    assert (Hback : map (fun e => back Borsh kt None LE (zero_val kt) (fst e)) m' = map fst m').
    { subst m'. rewrite !map_map. apply map_ext_in. intros e He. rewrite Forall_forall in Hall.
      unfold bk. cbn [fst]. apply Hk. now apply Hall. }
    assert (Hne' : m' <> []). { intro H0. rewrite H0 in Hlen. destruct m; [easy|discriminate]. }
    assert (Hz : zlen m' = zlen m) by (unfold zlen; now rewrite Hlen).
    cbn [fits ok canon wire].
    split; [eexists; split; [reflexivity|]; intros es Hes; injection Hes as <-; apply Forall_map; eapply Forall_impl; [|exact Hall]; cbn beta; unfold bk; cbn [fst]; tauto|].
    split; [eexists; split; [reflexivity|]; cbv beta iota zeta; rewrite Hz, Hlen, Hback; split; [exact Hl|]; split; [|auto];
      apply Forall_map; eapply Forall_impl; [|exact Hall]; cbn beta; unfold bk; cbn [fst]; tauto|].
    split; [right; exists m'; split; [reflexivity|]; split; [exact Hne'|]; split; [exact Hsort|];
      apply Forall_map; eapply Forall_impl; [|exact Hall]; cbn beta; unfold bk; cbn [fst]; tauto|].
    cbv beta iota zeta. rewrite Hz, Hsort. f_equal. subst m'. clear -Hall.
    induction Hall as [|e l He _ IHl]; [reflexivity|]. cbn [map flat_map]. rewrite IHl. unfold bk at 1 2. cbn [fst].
    f_equal. f_equal. tauto.
  - (* structs *)
    destruct HO as (vs & -> & HO). destruct HF as (vs' & Hvs & HF). injection Hvs as <-. cbn [lasting] in HL. cbn [fits ok canon wire back zero_val].
    destruct (enum_struct E fs) eqn:Ee.
    + destruct HO as (z & vs' & -> & Hz & Hx & HO). destruct fs as [|[h0 t0] fs]; [discriminate Ee + (destruct E; discriminate)|].
      assert (Ht0 : E = Borsh /\ t0 = TUint UBorshEnum W8).
      { unfold enum_struct in Ee. destruct E; try discriminate. destruct t0; try discriminate. destruct n; try discriminate.
        destruct w; try discriminate. auto. }
      destruct Ht0 as [-> ->]. cbn [map snd]. cbn [ok_nth] in HO. cbn [fits_fields snd] in HF. destruct HF as [HF1 HF2].
      destruct (nth_again fs) with (2 := HL) (3 := HF2) (4 := HO) as (A & B & C & D).
      { intros h t Hin t' Hle. apply IH. pose proof (ty_size_field ((h0, TUint UBorshEnum W8) :: fs) h t (or_intror Hin)). lia. }
      set (vs2 := back_nth vback fs (map (fun ht => zero_val (snd ht)) fs) vs' (Z.to_nat z)) in *.
      cbn [back_nth tl].
      change (back_nth _ fs (map (fun ht => zero_val (snd ht)) fs) vs' (Z.to_nat z)) with vs2.
      split; [eexists; split; [reflexivity|]; split; [exact HF1|exact A]|].
      split; [eexists; split; [reflexivity|]; exists z, vs2; split; [reflexivity|]; split; [exact Hz|]; split; [exact Hx|exact B]|].
      split; [eexists; split; [reflexivity|]; exists z, vs2; split; [reflexivity|]; cbn [canon_nth]; split; [reflexivity|exact C]|].
      cbn [wire_nth]. f_equal. exact D.
    + assert (Hall : forall h t, In (h, t) fs -> again E t) by (intros h t Hin; apply IH; exact (ty_size_field _ _ _ Hin)).
      destruct (fields_again E fs Hall vs no_sizes false HL HF HO) as (A & B & C & D). eauto 10.
  - (* codecs *)
    cbn [lasting fits] in *. destruct (no_codec c) eqn:Ec.
    + destruct (no_codec_none c Ec) as [Em Eu]. unfold val_marshal in HO. rewrite Em, Eu in HO.
      replace (if c_byval c then None else None) with (@None (val -> EM unit)) in HO by (now destruct (c_byval c)).
      cbn [ok canon wire back zero_val]. unfold val_marshal. rewrite Em, Eu.
      replace (if c_byval c then None else None) with (@None (val -> EM unit)) by (now destruct (c_byval c)).
      exact (IH u ltac:(cbn; lia) sz o v HL Ho HF HO).
    + destruct HL as (m & f & Hm & Hv & Hf & Hst). unfold val_marshal in HO. rewrite Hv, Hm, Hf in HO. destruct HO as [Hw Hr].
      destruct (Hst o v Ho HF Hw Hr) as (A & B & C). cbv zeta in *.
      cbn [ok canon wire back zero_val]. unfold val_marshal. rewrite Hv, Hm, Hf, C. auto.
Qed.
