(** Proofs about LayoutSpec.v. *)
From Coq Require Import String.
From Verif Require Import Types DecPrim Enc Dec Spec NumFacts TyInd EncWire DecWire AccSpec AccFacts AccLib SizeSpec SizeFacts LayoutSpec.
Notation length := Datatypes.length.

(** * Long enough inputs *)
Lemma split_at (l : list Z) n : 0 <= n <= zlen l -> exists a b, l = a ++ b /\ zlen a = n.
Proof.
  intro H. exists (firstn (Z.to_nat n) l), (skipn (Z.to_nat n) l). split; [symmetry; apply firstn_skipn|].
  unfold zlen in *. rewrite firstn_length. lia.
Qed.

Lemma fixed_onto o n b : bytes_ok b -> zlen b = Z.of_nat n -> exists z, 0 <= z < 256 ^ Z.of_nat n /\ b = fixed o n z.
Proof.
  intros Hb Hl. exists (get_uint o b). rewrite <- Hl. split; [now apply get_uint_range|].
  replace n with (length b) by (unfold zlen in Hl; lia). symmetry. now apply fixed_get.
Qed.

Lemma fixed_swrap o w u : 0 <= u < 2 ^ wbits w -> fixed o (wbytes w) u = fixed o (wbytes w) (swrap (wbits w) u).
Proof.
  intro Hu. rewrite <- (fixed_get o (fixed o (wbytes w) (swrap (wbits w) u))) by apply fixed_ok.
  rewrite fixed_length, get_fixed, wbytes_pow. f_equal.
  unfold swrap. rewrite (Z.mod_small u) by exact Hu.
  destruct (u <? 2 ^ (wbits w - 1)).
  - now rewrite Z.mod_small.
  - symmetry. replace (u - 2 ^ wbits w) with (u + (-1) * 2 ^ wbits w) by lia. rewrite Z.mod_add by lia. now apply Z.mod_small.
Qed.

Lemma bulk_onto w n : forall b, bytes_ok b -> zlen b = Z.of_nat n * Z.of_nat (wbytes w) ->
  exists zs, length zs = n /\ Forall (fun z => 0 <= z < 2 ^ wbits w) zs /\ b = flat_map (fixed LE (wbytes w)) zs.
Proof.
  induction n as [|n IH]; intros b Hb Hl.
  - exists []. destruct b; [auto|]. rewrite zlen_cons in Hl. pose proof (zlen_nonneg b). lia.
  - destruct (split_at b (Z.of_nat (wbytes w))) as (b1 & b2 & -> & H1); [nia|]. apply bytes_ok_app in Hb. destruct Hb as [Hb1 Hb2].
    rewrite zlen_app, H1 in Hl. destruct (IH b2 Hb2) as (zs & Hz & Hf & ->); [nia|].
    destruct (fixed_onto LE (wbytes w) b1 Hb1 H1) as (z & Hr & ->). rewrite wbytes_pow in Hr.
    exists (z :: zs). cbn [length flat_map]. auto.
Qed.

Lemma fst_span_0 own E t : (forall u, pos_bounds (own u)) -> 0 <= fst (span own E t false).
Proof. intro H. exact (proj1 (pos_span own E H t false)). Qed.

Section Solid.
  Variable own : ty -> bounds.
  Variable E : encoding.
  Hypothesis Hpos : forall u, pos_bounds (own u).

  (** An input that is long enough begins with a value. *)
  Definition begins (t : ty) : Prop := forall sz o old inp, fits t old -> bytes_ok inp -> fst (span own E t false) <= zlen inp ->
    exists b rest v, inp = b ++ rest /\ accepts E t (Below false) sz o old b rest v /\ zlen b = fst (span own E t false).

  Lemma begins_front t : begins t -> forall sz o old inp, fits t old -> bytes_ok inp -> fst (span own E t false) <= zlen inp ->
    exists b rest v, inp = b ++ rest /\ accepts E t (Front false false) sz o old b rest v /\ zlen b = fst (span own E t false).
  Proof. intros H sz o old inp Hf Hb Hl. destruct (H sz o old inp Hf Hb Hl) as (b & rest & v & ? & ? & ?). exists b, rest, v. now rewrite accepts_front. Qed.

  Lemma begins_each t : begins t -> forall ps inp, Forall (fits t) ps -> bytes_ok inp -> zlen ps * fst (span own E t false) <= zlen inp ->
    exists b rest vs, inp = b ++ rest /\ each_in (accepts E t (Front false false) None LE) ps b rest vs /\ zlen b = zlen ps * fst (span own E t false).
  Proof.
    intros Ht. pose proof (fst_span_0 own E t Hpos) as H0. induction ps as [|p ps IH]; intros inp Hf Hb Hl; cbn [each_in].
    - exists [], inp, []. rewrite zlen_nil. repeat split; auto. 
    - inversion Hf as [|? ? Hp Hps]; subst. rewrite zlen_cons in *. pose proof (zlen_nonneg ps).
      destruct (begins_front t Ht None LE p inp Hp Hb) as (b1 & r1 & v & -> & Ha & Hz); [nia|].
      rewrite zlen_app in Hl. apply bytes_ok_app in Hb. destruct Hb as [_ Hb].
      destruct (IH r1 Hps Hb) as (b2 & rest & vs & -> & He & Hz2); [nia|].
      exists (b1 ++ b2), rest, (v :: vs). rewrite app_assoc. split; [reflexivity|]. split; [|rewrite zlen_app; nia].
      exists b1, b2, v. split; [reflexivity|]. split; [exact Ha|]. exists vs. auto.
  Qed.

  Lemma begins_fields fs : (forall h t, In (h, t) fs -> solid E t -> begins t) ->
    all_fields (fun h t' =>
        let tg := parse_field_tag (f_tag h) in
        ft_ext tg = false /\
        (f_exported h = true ->
           ft_option tg = false /\ is_borsh E && ft_coption tg = false /\ ft_sizeof tg = EmptyString /\ solid E t')) fs ->
    forall ps s s' inp, fits_fields fits fs ps -> bytes_ok inp ->
    (forall n, s n = None) -> (forall n, s' n = false) ->
    fst (span_fields own E (span own E) fs s') <= zlen inp ->
    exists b rest vs, inp = b ++ rest /\ fields_in E (accepts E) fs ps s false b rest vs /\
      zlen b = fst (span_fields own E (span own E) fs s').
  Proof.
    induction fs as [|[h t] fs IH]; intros Hfs Hall ps s s' inp Hf Hb Hs Hs' Hl.
    - destruct ps; [|contradiction]. exists [], inp, []. repeat split; auto.
    - destruct ps as [|p ps]; [contradiction|]. cbn [fits_fields snd] in Hf. destruct Hf as [Hfp Hf].
      cbn [all_fields] in Hall. destruct Hall as [Hh Hall]. cbn [span_fields fields_in] in *. unfold live in *.
      specialize (IH (fun h' t' Hin => Hfs h' t' (or_intror Hin)) Hall). specialize (Hfs h t (or_introl eq_refl)).
      set (tg := parse_field_tag (f_tag h)) in *. cbv zeta.
      destruct (ft_skip tg); cbn [negb andb] in *.
      { destruct (IH ps s s' inp Hf Hb Hs Hs' Hl) as (b & rest & vs & Hi & Hfi & Hz). exists b, rest, (p :: vs). split; [exact Hi|]. split; [exists vs; auto|exact Hz]. }
      destruct Hh as [Hx Hh]. rewrite Hx in *. cbn [negb andb orb] in *. destruct (f_exported h); cbn [negb] in *.
      2: { destruct (IH ps s s' inp Hf Hb Hs Hs' Hl) as (b & rest & vs & Hi & Hfi & Hz). exists b, rest, (p :: vs). split; [exact Hi|]. split; [exists vs; auto|exact Hz]. }
      destruct (Hh eq_refl) as (Ho & Hc & Hz & Hst). rewrite Ho, Hc, Hz in *. cbn [flagged] in *.
      assert (Hbm : borsh_method E t = None /\ by_method E t = None).
      { destruct E; try (split; reflexivity). cbn [borsh_method by_method].
        destruct t as [| | | | | | | |t| | | | |c u|]; try (split; reflexivity).
        - destruct t as [| | | | | | | |t| | | | |c u|]; try (split; reflexivity). cbn [solid] in Hst. destruct Hst as [-> _]. split; reflexivity.
        - cbn [solid] in Hst. destruct Hst as [-> _]. split; reflexivity. }
      destruct Hbm as [Hbm1 Hbm2]. rewrite Hbm2 in *. unfold flagged in *. rewrite Hs' in *. cbn [plus fst] in *.
      assert (Hps : 0 <= fst (span_fields own E (span own E) fs s')).
      { assert (Hp : pos_bounds (span_fields own E (span own E) fs s')).
        { clear -Hpos. revert s'. induction fs as [|[h1 t1] fs IH]; intro s; cbn [span_fields]; [apply pos_exactly; lia|].
          destruct (live h1); [|apply IH]. destruct (by_method E t1) as [u|].
          * destruct (ft_ext _); [apply pos_maybe|]; apply pos_plus; auto.
          * destruct (ft_ext _); [apply pos_maybe|]; (apply pos_plus; [apply pos_flagged, pos_span; auto|apply IH]). }
        exact (proj1 Hp). }
      destruct (begins_front t (Hfs Hst) (s (f_name h)) (ft_order tg) p inp Hfp Hb) as (b1 & r1 & v & -> & Ha & Hz1); [lia|].
      rewrite zlen_app in Hl. apply bytes_ok_app in Hb. destruct Hb as [_ Hb].
      destruct (IH ps s s' r1 Hf Hb Hs Hs') as (b2 & rest & vs & -> & Hfi & Hz2); [lia|].
      exists (b1 ++ b2), rest, (v :: vs). rewrite app_assoc. split; [reflexivity|]. split; [|rewrite zlen_app; lia].
      rewrite Hbm1. exists b1, b2, v. split; [reflexivity|]. split; [exact Ha|]. exists vs. auto.
  Qed.

  Lemma solid_begins t : solid E t -> begins t.
  Proof.
    induction t as [t IH] using ty_strong_ind. intros Hs sz o old inp Hf Hb Hl. pose proof (fst_span_0 own E t Hpos) as H0.
    rewrite accepts_below.
    assert (Hcut : forall n, fst (span own E t false) = Z.of_nat n ->
      exists b rest, inp = b ++ rest /\ bytes_ok b /\ zlen b = Z.of_nat n).
    { intros n Hn. destruct (split_at inp (Z.of_nat n)) as (b & rest & -> & Hz); [lia|]. exists b, rest. split; [reflexivity|].
      apply bytes_ok_app in Hb. tauto. }
    destruct t as [|nm w|nm w|f| |sg| | |t|n t|t|kt vt|fs|c u|]; cbn [solid span core_in exactly fst] in *; try contradiction.
    - destruct (Hcut 1%nat eq_refl) as (b & rest & -> & Hbb & Hz). destruct b as [|x [|y b]]; try (rewrite ?zlen_cons, ?zlen_nil in Hz; pose proof (zlen_nonneg b); lia); [discriminate|].
      exists [x], rest, (VBool (negb (x =? 0))). repeat split; auto. eexists. split; [reflexivity|]. exists x. auto.
    - destruct (Hcut (wbytes w) eq_refl) as (b & rest & -> & Hbb & Hz). destruct (fixed_onto (num_order E o) _ b Hbb Hz) as (z & Hr & ->).
      eexists _, rest, (VNum z). repeat split; [|exact Hz]. exists z. split; [reflexivity|]. split; auto.
    - destruct (Hcut (wbytes w) eq_refl) as (b & rest & -> & Hbb & Hz). destruct (fixed_onto (num_order E o) _ b Hbb Hz) as (z & Hr & ->).
      eexists _, rest, (VNum (swrap (wbits w) z)). repeat split; [|exact Hz]. eexists. split; [reflexivity|].
      split; [apply swrap_range, wbits_pos|]. apply fixed_swrap. now rewrite wbytes_pow in Hr.
    - destruct (Hcut (fbytes f) eq_refl) as (b & rest & -> & Hbb & Hz). destruct (fixed_onto (num_order E o) _ b Hbb Hz) as (z & Hr & ->).
      rewrite fbytes_pow in Hr. eexists _, rest, (VFloat (quiet f z)). repeat split; [|exact Hz]. exists z. split; [reflexivity|]. repeat split; auto; try lia. contradiction.
    - exists [], inp, old. repeat split; auto.
    - destruct (IH t ltac:(cbn [ty_size]; lia) Hs sz o (deref t old) inp) as (b & rest & v & -> & Ha & Hz); auto using fits_deref.
      exists b, rest, (VPtr (Some v)). repeat split; auto. exists v. auto.
    - destruct Hf as (l & -> & Hn & Hf). destruct (uint_kind t) as [w|]; cbn [times exactly fst] in *.
      + destruct (split_at inp (Z.of_nat n * Z.of_nat (wbytes w))) as (b & rest & -> & Hz); [lia|]. apply bytes_ok_app in Hb. destruct Hb as [Hb _].
        destruct (bulk_onto w n b Hb Hz) as (zs & Hlz & Hr & ->). eexists _, rest, _. split; [reflexivity|]. split; [|exact Hz].
        exists zs. split; [reflexivity|]. split; [unfold zlen; lia|]. auto.
      + replace (Z.of_nat n) with (zlen l) in * by (unfold zlen; lia).
        destruct (begins_each t (IH t ltac:(cbn [ty_size]; lia) Hs) l inp Hf Hb Hl) as (b & rest & vs & -> & He & Hz).
        exists b, rest, (VSeq vs). repeat split; auto. exists vs. auto.
    - destruct Hs as [He Hall]. destruct Hf as (ps & -> & Hf). rewrite He in *.
      destruct (begins_fields fs) with (ps := ps) (s := no_sizes) (s' := fun _ : string => false) (inp := inp) as (b & rest & vs & -> & Hfi & Hz); auto.
      { intros h t Hin. apply IH. now apply (ty_size_field fs h). }
      exists b, rest, (VStruct vs). repeat split; auto. exists vs. auto.
    - destruct Hs as [Hn Hs]. rewrite Hn in *. apply (IH u); auto; cbn [ty_size]; lia.
  Qed.
End Solid.

Theorem solid_total own E t old pre inp c : solid E t -> tame E t -> kept own E t -> fits t old -> bytes_ok inp ->
  fst (span own E t false) <= zlen inp ->
  exists v c', decode t old (mkD (pre ++ inp) (zlen pre) c E) = (Ok v, mkD (pre ++ inp) (zlen pre + fst (span own E t false)) c' E).
Proof.
  intros Hs Ht [Hp _] Hf Hb Hl. destruct (solid_begins own E Hp t Hs None LE old inp Hf Hb Hl) as (b & rest & v & Hi & Ha & Hz).
  destruct (proj1 (accepts_exact E t old pre inp c Ht Hb b rest v Hi)) as (c' & Hd).
  { rewrite accepts_front. exact Ha. }
  exists v, c'. now rewrite <- Hz.
Qed.

(** * Bytes *)
Lemma bytes_flat_map {A} (f : A -> list Z) l : (forall x, In x l -> bytes_ok (f x)) -> bytes_ok (flat_map f l).
Proof.
  induction l as [|x l IH]; intro H; cbn [flat_map]; [constructor|]. apply bytes_ok_app. split; [apply H; now left|].
  apply IH. intros y Hy. apply H. now right.
Qed.
Lemma leb128_ok x : 0 <= x -> bytes_ok (leb128 x).
Proof.
  intro H. unfold leb128. apply Forall_forall. intros y Hy. apply in_map_iff in Hy. destruct Hy as (i & <- & _).
  pose proof (Z.mod_pos_bound (x / 128 ^ Z.of_nat i) 128 ltac:(lia)). unfold is_byte. destruct (Nat.ltb _ _); lia.
Qed.
Lemma count_ok E n : 0 <= n -> bytes_ok (count E n).
Proof. intro H. destruct E; cbn [count]; [apply leb128_ok; lia..|apply (fixed_ok LE)]. Qed.
Lemma text_ok E s : bytes_ok s -> bytes_ok (text E s).
Proof.
  intro H. unfold text. apply bytes_ok_app. split; [|exact H]. pose proof (zlen_nonneg s).
  destruct E; [apply (fixed_ok LE)|apply count_ok; lia..].
Qed.
Lemma sort_in {A} (lt : A -> A -> bool) l x : In x (sort lt l) -> In x l.
Proof.
  assert (Hput : forall y l, In x (put lt y l) -> x = y \/ In x l).
  { intros y l0. induction l0 as [|z r IH]; cbn [put]; [intros [->|[]]; auto|].
    destruct (lt y z); cbn [In]; [intros [->|[->|H]]; auto|]. intros [->|H]; auto. destruct (IH H); auto. }
  induction l as [|y l IH]; cbn [sort fold_right]; [easy|]. intro H. apply Hput in H. cbn [In]. destruct H as [->|H]; auto.
Qed.
Lemma entries_in E kt m e : In e (entries E kt m) -> In e m.
Proof. destruct E; cbn [entries]; auto. apply sort_in. Qed.

Lemma wire_bytes E : forall t sz o v, Forall (byte_writer E) (marshals t) -> ok E t sz o v -> bytes_ok (wire E t sz o v).
Proof.
  induction t as [t IH] using ty_strong_ind. intros sz o v Hm Hok.
  assert (Hel : forall t' (x : val), (ty_size t' < ty_size t)%nat -> Forall (byte_writer E) (marshals t') ->
    match uint_kind t' with
    | Some w => exists z, x = VNum z /\ 0 <= z < 2 ^ wbits w
    | None => ok E t' None LE x
    end ->
    bytes_ok (match uint_kind t', x with
    | Some w, VNum z => fixed LE (wbytes w) z
    | _, _ => wire E t' None LE x
    end)).
  { intros t' x Hs Hm' Hx. destruct (uint_kind t') as [w|].
    - destruct Hx as (z & -> & _). apply fixed_ok.
    - destruct x; apply IH; auto. }
  destruct t as [|nm w|nm w|f| |sg| | |t|n t|t|kt vt|fs|c u|]; cbn [ok wire] in *; try contradiction.
  - destruct Hok as [b ->]. destruct b; repeat constructor; unfold is_byte; lia.
  - destruct Hok as (z & -> & _). apply fixed_ok.
  - destruct Hok as (z & -> & _). apply fixed_ok.
  - destruct Hok as (z & -> & _). apply fixed_ok.
  - destruct Hok as (s & -> & Hs & _). now apply text_ok.
  - destruct Hok as (d & ->). constructor.
  - destruct Hok as (q & -> & Hok). cbn [marshals] in Hm.
    assert (Hin : forall f, ptr_marshal t = Some f -> byte_writer E f).
    { intros f Hf. rewrite Forall_forall in Hm. apply Hm. destruct t; try discriminate. cbn [ptr_marshal marshals] in *. rewrite Hf. now left. }
    destruct (ptr_marshal t) as [f|].
    + destruct Hok as (x & u & fu & -> & _ & _ & Hw & _). now apply Hin.
    + destruct E.
      * destruct Hok as (x & -> & Hok). apply IH; auto; cbn [ty_size]; lia.
      * destruct Hok as (x & -> & Hok). apply IH; auto; cbn [ty_size]; lia.
      * destruct Hok as (_ & Hok). destruct q; (apply IH; auto; cbn [ty_size]; lia).
  - destruct Hok as (l & -> & _ & Hf & _). apply bytes_flat_map. intros x Hx. rewrite Forall_forall in Hf. apply Hel; [cbn [ty_size]; lia|exact Hm|].
    now apply Hf.
  - destruct Hok as (ol & -> & _ & Hf & _). apply bytes_ok_app. split.
    + destruct sz; [constructor|apply count_ok, zlen_nonneg].
    + apply bytes_flat_map. intros x Hx. rewrite Forall_forall in Hf. apply Hel; [cbn [ty_size]; lia|exact Hm|]. now apply Hf.
  - destruct Hok as (om & -> & _ & Hf & _). apply bytes_ok_app. split; [apply count_ok, zlen_nonneg|].
    cbn [marshals] in Hm. apply Forall_app in Hm. destruct Hm as [Hmk Hmv].
    apply bytes_flat_map. intros e He. apply entries_in in He. rewrite Forall_forall in Hf. destruct (Hf e He) as (Hk & Hv & _).
    apply bytes_ok_app. split; apply IH; auto; cbn [ty_size]; lia.
  - destruct Hok as (vs & -> & Hok).
    assert (Hfs : forall h t, In (h, t) fs -> Forall (byte_writer E) (marshals t)).
    { intros h t Hin. cbn [marshals] in Hm. rewrite Forall_forall in *. intros f Hf. apply Hm.
      apply (gather_incl (fun _ => marshals) fs h t Hin), Hf. }
    assert (Hsz : forall h t, In (h, t) fs -> (ty_size t < ty_size (TStruct fs))%nat) by (intros h t; apply ty_size_field).
    clear Hm. destruct (enum_struct E fs).
    + destruct Hok as (z & vs' & -> & Hz & _ & Hn). constructor; [unfold is_byte; lia|].
      generalize dependent (VNum z :: vs'). generalize (S (Z.to_nat z)). intros n vs. revert n vs.
      assert (Hsub : forall h t, In (h, t) fs -> forall v', 
        match t with
             | TPtr (TCodec c u) =>
                 exists x, v' = VPtr (Some x) /\ payload u = true /\
                   ok E u None LE x /\
                   (forall f, c_unmarshal c = Some f ->
                      codec_reads f u E LE (wire E u None LE x))
             | TPtr t'' =>
                 exists x, v' = VPtr (Some x) /\ payload t'' = true /\
                   ok E t None LE v'
             | TCodec c u =>
                 payload u = true /\ ok E u None LE v' /\
                 (forall f, c_unmarshal c = Some f ->
                    codec_reads f u E LE (wire E u None LE v'))
             | _ => payload t = true /\ ok E t None LE v'
             end ->
        bytes_ok (match t, v' with
                      | TPtr (TCodec _ u), VPtr (Some x) => wire E u None LE x
                      | TCodec _ u, _ => wire E u None LE v'
                      | _, _ => wire E t None LE v'
                      end)).
      { intros h t Hin v' H. specialize (Hfs h t Hin). specialize (Hsz h t Hin).
        assert (Hu : forall c u, Forall (byte_writer E) (marshals (TCodec c u)) -> Forall (byte_writer E) (marshals u)).
        { intros c u Hx. cbn [marshals] in Hx. destruct (c_marshal c); [now apply Forall_inv_tail in Hx|exact Hx]. }
        destruct t as [|nm w|nm w|f| |sg| | |t|n t|t|kt vt|fs'|c u|]; try (destruct H as [_ H]; now apply IH).
        - destruct t as [|nm w|nm w|f| |sg| | |t|n t|t|kt vt|fs'|c u|]; try (destruct H as (x & -> & _ & H); now apply IH).
          destruct H as (x & -> & _ & H & _). apply IH; auto.
          + cbn [ty_size] in *. lia.
          + apply (Hu c). exact Hfs.
        - destruct H as (_ & H & _). apply IH; auto.
          + cbn [ty_size] in *. lia.
          + apply (Hu c). exact Hfs. }
      clear -Hsub. induction fs as [|[h t] fs IH]; intros n vs H; [contradiction|].
      destruct vs as [|v vs]; [destruct n; contradiction|]. destruct n as [|n]; cbn [ok_nth wire_nth] in *.
      * destruct H as (_ & H & _). exact (Hsub h t (or_introl eq_refl) v H).
      * apply IH; auto. intros h' t' Hin. apply (Hsub h' t'). now right.
    + revert vs Hok. generalize no_sizes. generalize false.
      assert (Hsub : forall h t, In (h, t) fs -> forall sz o v, ok E t sz o v -> bytes_ok (wire E t sz o v)).
      { intros h t Hin sz' o' v' H. apply IH; eauto. }
      clear -Hsub. induction fs as [|[h t] fs IH]; intros seen s vs H; destruct vs as [|v vs]; try contradiction; cbn [ok_fields wire_fields] in *; [constructor|].
      unfold live. specialize (IH (fun h' t' Hin => Hsub h' t' (or_intror Hin))). specialize (Hsub h t (or_introl eq_refl)).
      set (tg := parse_field_tag (f_tag h)) in *. destruct (ft_skip tg); cbn [negb andb]; [exact (IH _ _ _ H)|].
      destruct H as [_ H]. destruct (f_exported h); [|destruct H as [_ H]; exact (IH _ _ _ H)].
      destruct H as ((_ & _ & Hv & _) & _ & _ & H). apply bytes_ok_app. split; [|exact (IH _ _ _ H)].
      unfold with_flags, flagged_field in *.
      assert (Hfl : forall b, bytes_ok (flag E b)) by (intro b; apply (fixed_ok LE)).
      assert (Hcfl : forall b, bytes_ok (cflag b)) by (intro b; apply (fixed_ok LE)).
      destruct (ft_option tg); cbn [orb andb] in *.
      * destruct (is_zero v); [apply Hfl|]. destruct Hv as [Hv|Hv]; [discriminate|]. rewrite andb_false_r.
        apply bytes_ok_app. split; [apply Hfl|]. apply bytes_ok_app. split; [destruct (is_borsh E && ft_coption tg); [apply Hcfl|constructor]|]. now apply Hsub.
      * cbn [app]. destruct (is_borsh E && ft_coption tg); cbn [andb] in *.
        -- destruct (is_zero v); [apply Hcfl|]. destruct Hv as [Hv|Hv]; [discriminate|]. apply bytes_ok_app. split; [apply Hcfl|now apply Hsub].
        -- destruct Hv as [Hv|Hv]; [discriminate|]. now apply Hsub.
  - assert (Hu : Forall (byte_writer E) (marshals u)).
    { cbn [marshals] in Hm. destruct (c_marshal c); [now apply Forall_inv_tail in Hm|exact Hm]. }
    assert (Hin : forall f, val_marshal c = Some f -> byte_writer E f).
    { intros f Hf. rewrite Forall_forall in Hm. apply Hm. unfold val_marshal in Hf. destruct (c_byval c); [|discriminate].
      cbn [marshals]. rewrite Hf. now left. }
    destruct (val_marshal c) as [f|].
    + destruct (c_unmarshal c); [|contradiction]. destruct Hok as [Hw _]. now apply Hin.
    + destruct (c_unmarshal c); [destruct Hok as [Hok _]|]; apply IH; auto; cbn [ty_size]; lia.
Qed.

(** * Encodings that agree *)
Definition calm2 (E E' : encoding) (o : order) : Prop := o = LE \/ E <> Borsh /\ E' <> Borsh.

Lemma num_order_same E E' o : calm2 E E' o -> num_order E o = num_order E' o.
Proof. intros [->|[H1 H2]]; destruct E, E'; try reflexivity; congruence. Qed.

Theorem alike_wire E E' : forall t sz o v, alike E E' t (sized sz) -> calm2 E E' o -> ok E t sz o v -> ok E' t sz o v ->
  wire E t sz o v = wire E' t sz o v.
Proof.
  induction t as [t IH] using ty_strong_ind. intros sz o v Ha Hc Hok Hok'.
  assert (HLE : calm2 E E' LE) by now left.
  assert (Hel : forall t' l, (ty_size t' < ty_size t)%nat -> (uint_kind t' = None -> alike E E' t' false) ->
    Forall (fun x => match uint_kind t' with
    | Some w => exists z, x = VNum z /\ 0 <= z < 2 ^ wbits w
    | None => ok E t' None LE x
    end) l ->
    Forall (fun x => match uint_kind t' with
    | Some w => exists z, x = VNum z /\ 0 <= z < 2 ^ wbits w
    | None => ok E' t' None LE x
    end) l ->
    flat_map (fun x => match uint_kind t', x with
    | Some w, VNum z => fixed LE (wbytes w) z
    | _, _ => wire E t' None LE x
    end) l =
    flat_map (fun x => match uint_kind t', x with
    | Some w, VNum z => fixed LE (wbytes w) z
    | _, _ => wire E' t' None LE x
    end) l).
  { intros t' l Hs Hal H1 H2. induction l as [|x l IHl]; [reflexivity|]. cbn [flat_map]. inversion H1; subst. inversion H2; subst.
    f_equal; [|now apply IHl]. destruct (uint_kind t') as [w|].
    - destruct H3 as (z & -> & _). reflexivity.
    - assert (Hx : wire E t' None LE x = wire E' t' None LE x) by (apply IH; auto). destruct x; exact Hx. }
  destruct t as [|nm w|nm w|f| |sg| | |t|n t|t|kt vt|fs|c u|]; cbn [ok wire alike] in *; try contradiction; try reflexivity.
  - destruct v; try reflexivity. now rewrite (num_order_same E E').
  - destruct v; try reflexivity. now rewrite (num_order_same E E').
  - destruct v; try reflexivity. now rewrite (num_order_same E E').
  - destruct Ha as [Hp Ha]. rewrite Hp in *. destruct Hok as (q & -> & Hok). destruct Hok' as (q' & [= <-] & Hok').
    assert (Hlt : (ty_size t < ty_size (TPtr t))%nat) by (cbn [ty_size]; lia).
    assert (Hsame : forall x, ok E t sz o x -> ok E' t sz o x -> wire E t sz o x = wire E' t sz o x) by (intros x; now apply IH).
    assert (HsameN : sz = None -> forall x, ok E t None LE x -> ok E' t None LE x -> wire E t None LE x = wire E' t None LE x).
    { intros -> x. now apply IH. }
    destruct Hc as [->|[Hn Hn']].
    + destruct E, E'; cbv iota beta in *;
        repeat match goal with
        | H : exists _, _ /\ _ |- _ => destruct H as (? & ? & ?)
        | H : sz = None /\ _ |- _ => destruct H as [-> ?]
        | H : ?q = Some _ |- _ => subst q
        | H : Some _ = Some _ |- _ => injection H as <-
        end; try (now apply Hsame); try (destruct q; now apply HsameN).
    + destruct E; try contradiction; destruct E'; try contradiction; destruct Hok as (x & -> & Hok); destruct Hok' as (x' & [= <-] & Hok'); now apply Hsame.
  - destruct Hok as (l & -> & _ & Hf & _). destruct Hok' as (l' & [= <-] & _ & Hf' & _). apply Hel; auto; cbn [ty_size]; lia.
  - destruct Hok as (ol & -> & _ & Hf & _). destruct Hok' as (ol' & [= <-] & _ & Hf' & _). destruct Ha as [Hs Ha].
    f_equal; [|apply Hel; auto; cbn [ty_size]; lia].
    destruct sz; [reflexivity|]. destruct Hs as [Hs|[H1 H2]]; [discriminate|]. destruct E, E'; try reflexivity; congruence.
  - destruct Hok as (om & -> & _ & Hf & _). destruct Hok' as (om' & [= <-] & _ & Hf' & _). destruct Ha as ([Hn Hn'] & Hk & Hv).
    set (m := match om with Some m => m | None => [] end) in *.
    assert (Hcnt : count E (zlen m) = count E' (zlen m)) by (destruct E, E'; try reflexivity; congruence).
    rewrite Hcnt. f_equal.
    assert (He : entries E kt m = m /\ entries E' kt m = m) by (destruct E, E'; try (split; reflexivity); congruence).
    destruct He as [-> ->]. clear Hcnt. clearbody m. induction m as [|e m IHm]; [reflexivity|]. cbn [flat_map].
    inversion Hf as [|? ? (Hk1 & Hv1 & _) Hf1]; subst. inversion Hf' as [|? ? (Hk2 & Hv2 & _) Hf2]; subst.
    f_equal; [f_equal; apply IH; auto; cbn [ty_size]; lia|now apply IHm].
  - destruct Ha as [[He He'] Ha]. rewrite He, He' in *. destruct Hok as (vs & -> & Hok). destruct Hok' as (vs' & [= <-] & Hok').
    assert (Hsub : forall h t, In (h, t) fs -> forall sz o v, alike E E' t (sized sz) -> calm2 E E' o -> ok E t sz o v -> ok E' t sz o v ->
      wire E t sz o v = wire E' t sz o v).
    { intros h t Hin sz' o' v' H. apply IH; auto. now apply (ty_size_field fs h). }
    clear IH Hel He He'. revert vs Hok Hok'.
    assert (Hs : forall n, sized (no_sizes n) = (fun _ : string => false) n) by reflexivity.
    revert Ha Hs. generalize (fun _ : string => false). generalize no_sizes. generalize false at 1. generalize false.
    induction fs as [|[h t] fs IH]; intros seen seen' s s' Ha Hs vs Hok Hok'; destruct vs as [|v vs]; try contradiction; cbn [ok_fields wire_fields alike_fields] in *; [reflexivity|].
    unfold live in *. specialize (IH (fun h' t' Hin => Hsub h' t' (or_intror Hin))). specialize (Hsub h t (or_introl eq_refl)).
    set (tg := parse_field_tag (f_tag h)) in *. destruct (ft_skip tg); cbn [negb andb] in *; [exact (IH _ _ _ _ Ha Hs _ Hok Hok')|].
    destruct Hok as [_ Hok]. destruct Hok' as [_ Hok']. destruct (f_exported h).
    2: { destruct Hok as [_ Hok]. destruct Hok' as [_ Hok']. exact (IH _ _ _ _ Ha Hs _ Hok Hok'). }
    destruct Hok as ((_ & _ & Hv & _) & Hsz & _ & Hok). destruct Hok' as ((_ & _ & Hv' & _) & _ & _ & Hok').
    destruct Ha as (Hopt & Hcopt & Hord & Ht & Ha).
    f_equal.
    + assert (Hw : ok E t (s (f_name h)) (ft_order tg) v -> ok E' t (s (f_name h)) (ft_order tg) v ->
        wire E t (s (f_name h)) (ft_order tg) v = wire E' t (s (f_name h)) (ft_order tg) v).
      { apply Hsub; [|exact Hord]. now rewrite Hs. }
      assert (Hcc : is_borsh E && ft_coption tg = is_borsh E' && ft_coption tg).
      { destruct Hcopt as [->|[H1 H2]]; [now rewrite !andb_false_r|]. destruct E, E'; try reflexivity; congruence. }
      unfold with_flags, flagged_field in *. rewrite <- Hcc in *.
      destruct (ft_option tg) eqn:Eo; cbn [orb andb] in *.
      * assert (Hfl : forall b, flag E b = flag E' b) by (destruct Hopt as [Ho|[H1 H2]]; [discriminate|]; destruct E, E'; try reflexivity; congruence).
        rewrite !Hfl. destruct (is_zero v); [reflexivity|]. destruct Hv as [Hv|Hv]; [discriminate|]. destruct Hv' as [Hv'|Hv']; [discriminate|].
        now rewrite Hw.
      * cbn [app]. destruct (is_borsh E && ft_coption tg); cbn [andb] in *.
        -- destruct (is_zero v); [reflexivity|]. destruct Hv as [Hv|Hv]; [discriminate|]. destruct Hv' as [Hv'|Hv']; [discriminate|]. now rewrite Hw.
        -- destruct Hv as [Hv|Hv]; [discriminate|]. destruct Hv' as [Hv'|Hv']; [discriminate|]. now rewrite Hw.
    + refine (IH _ _ _ _ Ha _ _ Hok Hok'). intro n. unfold bind_size. destruct (ft_sizeof tg) as [|ch nm] eqn:Ez; [apply Hs|].
      destruct Hsz as [Hz|(_ & _ & _ & z & -> & _)]; [congruence|]. destruct (String.eqb (String ch nm) n); cbn [sized orb]; auto.
  - destruct Ha as [Hm Ha]. rewrite Hm in *. apply IH; auto.
    + destruct (c_unmarshal c); tauto.
    + destruct (c_unmarshal c); tauto.
Qed.

(** * Elements of slices and arrays at computed places *)
Lemma flat_map_nth {A} (f : A -> list Z) k : forall l i x, (forall y, In y l -> zlen (f y) = k) -> nth_error l i = Some x ->
  exists pre post, flat_map f l = pre ++ f x ++ post /\ zlen pre = Z.of_nat i * k.
Proof.
  induction l as [|y l IH]; intros i x Hk Hi; [destruct i; discriminate|]. destruct i as [|i]; cbn [nth_error flat_map] in *.
  - injection Hi as ->. exists [], (flat_map f l). split; reflexivity.
  - destruct (IH i x (fun z Hz => Hk z (or_intror Hz)) Hi) as (pre & post & -> & Hp).
    exists (f y ++ pre), post. rewrite app_assoc. split; [now rewrite <- app_assoc|]. rewrite zlen_app, Hp, (Hk y (or_introl eq_refl)). lia.
Qed.

Theorem slice_offset own E t k vs i x : kept own E t -> tame E t -> Forall (byte_writer E) (marshals t) -> uint_kind t = None ->
  span own E t false = exactly k -> ok E (TSlice t) None LE (VSlice (Some vs)) -> nth_error vs i = Some x ->
  exists pre post, wire E (TSlice t) None LE (VSlice (Some vs)) = pre ++ wire E t None LE x ++ post /\
    zlen pre = zlen (count E (zlen vs)) + Z.of_nat i * k.
Proof.
  intros Hk Ht Hm Hu Hsp Hok Hi. cbn [ok wire] in *. destruct Hok as (ol & [= <-] & _ & Hf & _). rewrite Hu in *. rewrite Forall_forall in Hf.
  destruct (flat_map_nth (fun x => wire E t None LE x) k vs i x) as (pre & post & He & Hz); auto.
  - intros y Hy. pose proof (wire_span own E t y Hk Ht (Hf y Hy) (wire_bytes E t None LE y Hm (Hf y Hy))) as [H1 H2].
    rewrite Hsp in *. cbn [exactly fst snd] in *. specialize (H2 _ eq_refl). lia.
  - exists (count E (zlen vs) ++ pre), post. rewrite He, app_assoc. split; [now rewrite <- app_assoc|]. rewrite zlen_app. lia.
Qed.
