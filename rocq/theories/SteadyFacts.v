(** Decoding, encoding, decoding again. *)
From Coq Require Import String.
From Verif Require Import Types DecPrim Enc Dec Spec NumFacts TyInd EncWire DecWire RoundTrip FieldFacts AccSpec AccFacts AccLib SteadySpec KeyEq.
Notation length := Datatypes.length.

Definition given (sz : option Z) : bool := match sz with Some _ => true | None => false end.

Definition settles (E : encoding) (t : ty) : Prop := forall sz o b rest v,
  steady E (given sz) t -> (forall n, sz = Some n -> 0 <= n) -> (E = Borsh -> o = LE) -> bytes_ok (b ++ rest) ->
  accepts E t (Below false) sz o (zero_val t) b rest v ->
  fits t v /\ ok E t sz o v /\ (orderly E t -> canon E t sz o v) /\ (strict E (given sz) t -> b = wire E t sz o v).

Lemma kind_fits t w z : uint_kind t = Some w -> 0 <= z < 2 ^ wbits w -> fits t (VNum z).
Proof.
  induction t as [t IH] using ty_strong_ind. destruct t; cbn [uint_kind fits]; try discriminate; intros Hk Hz.
  - injection Hk as ->. eauto.
  - apply IH; auto.
Qed.

(** ** Elements *)
Section Elements.
  Variables (E : encoding) (t : ty).
  Hypothesis Ht : settles E t.
  Hypothesis Hs : steady E false t.
  Let A := accepts E t (Front false false) None LE (zero_val t).

  Lemma elem_one b rest v : bytes_ok (b ++ rest) -> A b rest v ->
    fits t v /\ ok E t None LE v /\ (orderly E t -> canon E t None LE v) /\ (strict E false t -> b = wire E t None LE v).
  Proof.
    intros Hb H. unfold A in H. rewrite accepts_front in H. cbn [orb] in H.
    apply (Ht None LE b rest v); auto. discriminate.
  Qed.

  Lemma rep_all n : forall b rest vs, bytes_ok (b ++ rest) -> rep_in n A b rest vs ->
    length vs = n /\ Forall (fits t) vs /\ Forall (ok E t None LE) vs /\ (orderly E t -> Forall (canon E t None LE) vs) /\
    (strict E false t -> b = flat_map (wire E t None LE) vs).
  Proof.
    induction n as [|n IH]; intros b rest vs Hb H.
    - destruct H as [-> ->]. repeat split; auto.
    - destruct H as (b1 & b2 & x & -> & H1 & vs' & -> & H2). rewrite <- app_assoc in Hb.
      destruct (elem_one _ _ _ Hb H1) as (F1 & O1 & C1 & W1).
      apply bytes_ok_app in Hb. destruct Hb as [_ Hb].
      destruct (IH _ _ _ Hb H2) as (Hl & F2 & O2 & C2 & W2). cbn [length flat_map].
      repeat split; auto. intro HS. now rewrite <- W1, <- W2 by auto.
  Qed.

  Lemma each_rep n b rest vs :
    each_in (accepts E t (Front false false) None LE) (repeat (zero_val t) n) b rest vs -> rep_in n A b rest vs.
  Proof.
    revert b rest vs. induction n as [|n IH]; intros b rest vs H; [exact H|].
    destruct H as (b1 & b2 & x & -> & H1 & vs' & -> & H2). exists b1, b2, x. split; [reflexivity|]. split; [exact H1|].
    exists vs'. split; auto.
  Qed.
End Elements.

Lemma bulk_all w l b rest zs : bulk_in w l b rest zs -> forall t, uint_kind t = Some w ->
  l = zlen (map VNum zs) /\ Forall (fits t) (map VNum zs) /\
  Forall (fun x => exists z, x = VNum z /\ 0 <= z < 2 ^ wbits w) (map VNum zs) /\
  (w = W8 -> zlen (map VNum zs) <= bulk_max) /\
  forall g, b = flat_map (fun x => match x with VNum z => fixed LE (wbytes w) z | _ => g x end) (map VNum zs).
Proof.
  intros (Hl & Hz & Hb & H8) t Hk. unfold zlen in *. rewrite map_length. repeat split; auto.
  - apply Forall_map. eapply Forall_impl; [|exact Hz]. intros z Hz'. cbn beta in *. now apply (kind_fits _ w).
  - apply Forall_map. eapply Forall_impl; [|exact Hz]. eauto.
  - intro Hw. rewrite <- Hl. auto.
  - intro g. rewrite Hb. clear. induction zs as [|z zs IH]; [reflexivity|]. cbn [flat_map map]. now rewrite IH.
Qed.

(** ** Maps *)
Section Maps.
  Variables (kt : ty) (P Q : val -> Prop).
  Let good (e : val * val) : Prop := P (fst e) /\ Q (snd e).

  Lemma assign_good m k v : Forall good m -> P k -> Q v -> Forall good (assign kt m k v).
  Proof.
    induction m as [|[k' v'] m IH]; intros Hm Hk Hv; cbn [assign fst].
    - repeat constructor; auto.
    - inversion_clear Hm as [|? ? [H1 H2] H3]. destruct (key_eqb kt k' k); constructor; auto; split; auto.
  Qed.

  Lemma assign_len m k v : zlen (assign kt m k v) <= zlen m + 1.
  Proof.
    induction m as [|[k' v'] m IH]; cbn [assign fst]; [reflexivity|].
    destruct (key_eqb kt k' k); rewrite !zlen_cons; lia.
  Qed.

  Lemma assign_ne m k v : assign kt m k v <> [].
  Proof. destruct m as [|[k' v'] m]; cbn [assign fst]; [discriminate|]. destruct (key_eqb kt k' k); discriminate. Qed.

  Lemma assign_keys m k v : (forall a b, P a -> P b -> key_eqb kt a b = key_eqb kt b a) ->
    Forall (fun e => P (fst e)) m -> P k ->
    distinct kt (map fst m) -> distinct kt (map fst (assign kt m k v)).
  Proof.
    intro Hsym. unfold distinct. induction m as [|[k' v'] m IH]; intros Hm Hk Hd; cbn [assign fst].
    - repeat constructor.
    - inversion_clear Hm as [|? ? H1 H2]. cbn [fst] in *. cbn [map fst] in Hd. inversion_clear Hd as [|? ? D1 D2].
      destruct (key_eqb kt k' k) eqn:Ek; cbn [map fst]; constructor; auto.
      { eapply Forall_impl; [|exact D1]. intros x. cbn beta.
        destruct (key_eqb_same kt k' k Ek x) as [-> ->]. easy. }
      assert (Hi : forall x, In x (map fst (assign kt m k v)) -> In x (map fst m) \/ x = k).
      { clear. induction m as [|[k' v'] m IH]; cbn [assign fst map In].
        - intros x [<-|[]]. auto.
        - intro x. destruct (key_eqb kt k' k); cbn [map fst In]; [intros [<-|H]; auto|]. intros [<-|H]; [auto|]. destruct (IH x H); auto. }
      apply Forall_forall. intros x Hx. destruct (Hi x Hx) as [H| ->].
      + rewrite Forall_forall in D1. auto.
      + rewrite (Hsym k k') by auto. auto.
  Qed.

  Lemma assign_all_good es : (forall a b, P a -> P b -> key_eqb kt a b = key_eqb kt b a) -> Forall good es ->
    Forall good (assign_all kt es) /\ distinct kt (map fst (assign_all kt es)) /\ zlen (assign_all kt es) <= zlen es /\
    (es <> [] -> assign_all kt es <> []).
  Proof.
    intros Hsym Hes. unfold assign_all.
    assert (H : forall m, Forall good m -> distinct kt (map fst m) ->
      Forall good (fold_left (fun m e => assign kt m (fst e) (snd e)) es m) /\
      distinct kt (map fst (fold_left (fun m e => assign kt m (fst e) (snd e)) es m)) /\
      zlen (fold_left (fun m e => assign kt m (fst e) (snd e)) es m) <= zlen m + zlen es /\
      ((es <> [] \/ m <> []) -> fold_left (fun m e => assign kt m (fst e) (snd e)) es m <> [])).
    { induction Hes as [|e es He Hes IH]; intros m Hm Hd; cbn [fold_left].
      - change (zlen (@nil (val * val))) with 0. repeat split; auto; [lia|]. intros [H|H]; auto.
      - destruct He as [H1 H2].
        destruct (IH (assign kt m (fst e) (snd e))) as (I1 & I2 & I3 & I4).
        + apply assign_good; auto.
        + apply assign_keys; auto. eapply Forall_impl; [|exact Hm]. intros ? []; auto.
        + pose proof (assign_len m (fst e) (snd e)). rewrite zlen_cons. repeat split; auto; [lia|].
          intros _. apply I4. right. apply assign_ne. }
    destruct (H []) as (H1 & H2 & H3 & H4); [constructor|constructor|]. repeat split; auto.
  Qed.
End Maps.

(** ** Fields *)
Lemma borsh_method_below E t R sz : borsh_method E t = Some R ->
  E = Borsh /\ (exists c u f, (t = TCodec c u \/ t = TPtr (TCodec c u)) /\ c_unmarshal c = Some f) /\
  R = accepts E t (Below false) sz LE (zero_val t).
Proof.
  unfold borsh_method. destruct E; try discriminate. destruct t as [| | | | | | | |t| | | | |c u|]; try discriminate.
  - destruct t as [| | | | | | | | | | | | |c u|]; try discriminate. destruct (c_unmarshal c) as [f|] eqn:Ec; [|discriminate].
    intro H. injection H as <-. split; [reflexivity|]. split; [eauto 10|].
    rewrite !accepts_below, Ec. reflexivity.
  - destruct (c_unmarshal c) as [f|] eqn:Ec; [|discriminate].
    intro H. injection H as <-. split; [reflexivity|]. split; [eauto 10|]. rewrite !accepts_below, Ec. reflexivity.
Qed.

Lemma field_in E t tg sz o b rest v :
  (flagged_field E tg = true ->
     ft_option tg && (is_borsh E && ft_coption tg) = false /\
     has_unmarshal t = None /\ match t with TPtr (TPtr _) => False | _ => True end /\
     no_deep t = true /\ (E = Borsh -> bare t = true)) ->
  accepts E t (Front (ft_option tg) (is_borsh E && ft_coption tg)) sz o (zero_val t) b rest v ->
  (flagged_field E tg = false /\ accepts E t (Below false) sz o (zero_val t) b rest v) \/
  (flagged_field E tg = true /\
   exists b1 b2 p, b = b1 ++ b2 /\ (ft_option tg = false -> b1 = cflag p) /\
     if p : bool then accepts E t (Below false) sz o (zero_val t) b2 rest v else b2 = [] /\ v = zero_val t).
Proof.
  rewrite accepts_front. unfold flagged_field. intro Hf.
  destruct (ft_option tg || (is_borsh E && ft_coption tg)) eqn:Eo; [|now left].
  destruct (Hf eq_refl) as (Hx & Hu & Hp & Hd & _). clear Hf. intro H. right. split; [reflexivity|].
  assert (H' : flags_in E t (ft_option tg) (is_borsh E && ft_coption tg) sz o (zero_val t) b rest v).
  { destruct t; try exact H; try discriminate Hd. cbn [has_unmarshal] in Hu. rewrite Hu in H. exact H. }
  clear H. unfold flags_in in H'. destruct (ft_option tg).
  - cbn [andb] in Hx. rewrite Hx in H'. destruct H' as (b1 & b2 & p & -> & _ & H). exists b1, b2, p.
    repeat split; try discriminate. destruct p; exact H.
  - destruct H' as (b1 & b2 & p & -> & H1 & H). exists b1, b2, p. split; [reflexivity|]. split; [intros _; exact H1|].
    destruct p; exact H.
Qed.

Lemma field_settles E t tg name sz b rest v : settles E t -> steady E (given sz) t ->
  (E = Borsh -> ft_order tg = LE) -> (forall n, sz = Some n -> 0 <= n) -> bytes_ok (b ++ rest) ->
  (flagged_field E tg = true ->
     ft_option tg && (is_borsh E && ft_coption tg) = false /\
     has_unmarshal t = None /\ match t with TPtr (TPtr _) => False | _ => True end /\
     no_deep t = true /\ (E = Borsh -> bare t = true)) ->
  match ft_sizeof tg with
  | EmptyString => True
  | n => match t with TUint _ (W8 | W16 | W32) => True | _ => False end /\ n <> name
  end ->
  accepts E t (Front (ft_option tg) (is_borsh E && ft_coption tg)) sz (ft_order tg) (zero_val t) b rest v ->
  fits t v /\ ok_field E (ok E) t tg sz v /\ ok_sizeof E (back E) t tg name v /\
  (orderly E t -> if flagged_field E tg && is_zero v then v = zero_val t else canon E t sz (ft_order tg) v) /\
  (flagged_field E tg = false \/ (ft_option tg = false /\ is_pointer t = true) -> strict E (given sz) t ->
     b = with_flags E tg v (wire E t sz (ft_order tg) v)).
Proof.
  intros Ht Hs Ho Hn Hb Hf Hz H. pose proof (field_in E t tg sz _ b rest v Hf H) as Hin. clear H.
  assert (Hv : (v = zero_val t /\ flagged_field E tg = true) \/ (ok E t sz (ft_order tg) v /\ (orderly E t -> canon E t sz (ft_order tg) v) /\ fits t v)).
  { destruct Hin as [[_ H]|[Hfl (b1 & b2 & p & -> & _ & H)]].
    - destruct (Ht _ _ _ _ _ Hs Hn Ho Hb H) as (F & O & C & _). auto.
    - destruct p; [|destruct H; auto]. rewrite <- app_assoc in Hb. apply bytes_ok_app in Hb.
      destruct (Ht _ _ _ _ _ Hs Hn Ho (proj2 Hb) H) as (F & O & C & _). auto. }
  assert (F : fits t v) by (destruct Hv as [[-> _]|Hv]; [apply fits_zero|tauto]).
  split; [exact F|]. split; [|split; [|split]].
  - split; [exact Ho|]. split; [|split; [|exact F]].
    + intro Hfl. destruct (Hf Hfl) as (_ & H1 & H2 & H3 & H4). repeat split; auto.
      destruct t as [| | | | | | | |t| | | | | |]; auto; try discriminate.
    + destruct Hv as [[-> Hfl]|Hv]; [left|tauto]. rewrite Hfl. apply zero_is_zero.
  - unfold ok_sizeof. destruct (ft_sizeof tg) as [|a n]; [now left|]. right. destruct Hz as [Hz Hne].
    destruct t as [|? w| | | | | | | | | | | | |]; try destruct Hz. cbn [fits] in F. destruct F as (z & -> & Hz').
    assert (Hz2 : - 2 ^ 63 <= z < 2 ^ 63) by (destruct w; cbn [wbits] in Hz'; try destruct Hz; lia).
    repeat split; auto. exists z. repeat split; try tauto.
    intros sz' p _. unfold back_field. destruct (flagged_field E tg && is_zero (VNum z)) eqn:Ef.
    + apply andb_true_iff in Ef. destruct Ef as [_ Ef]. cbn [is_zero zero_val] in *. f_equal. lia.
    + destruct E; reflexivity.
  - intro Hord. destruct (flagged_field E tg && is_zero v) eqn:Ef.
    + apply andb_true_iff in Ef. destruct Ef as [Ef1 Ef2]. destruct (Hf Ef1) as (_ & _ & _ & Hd & _).
      now apply is_zero_zero.
    + destruct Hv as [[-> Hfl]|Hv]; [|tauto]. rewrite Hfl, zero_is_zero in Ef. discriminate.
  - intros Hst Hstr. unfold with_flags. unfold flagged_field in *.
    destruct Hin as [[Hfl H]|[Hfl (b1 & b2 & p & -> & Hc & H)]].
    + apply orb_false_iff in Hfl. destruct Hfl as [-> ->]. cbn [andb app].
      destruct (Ht _ _ _ _ _ Hs Hn Ho Hb H) as (_ & _ & _ & W). auto.
    + destruct Hst as [Hst|[Hopt Hp]]; [congruence|]. rewrite Hopt in *. cbn [orb andb app] in *. rewrite Hfl. cbn [andb].
      rewrite (Hc eq_refl). destruct t as [| | | | | | | |t| | | | | |]; try discriminate Hp. destruct p.
      * rewrite <- app_assoc in Hb. apply bytes_ok_app in Hb.
        destruct (Ht _ _ _ _ _ Hs Hn Ho (proj2 Hb) H) as (_ & _ & _ & W). rewrite <- (W Hstr).
        rewrite accepts_below in H. destruct H as (x & -> & _). reflexivity.
      * destruct H as [-> ->]. cbn [zero_val is_zero]. apply app_nil_r.
Qed.

Lemma fields_settle E fs : (forall h t, In (h, t) fs -> settles E t) -> forall names s seen b rest vs,
  (forall x, existsb (String.eqb x) names = given (s x)) -> (forall x n, s x = Some n -> 0 <= n) ->
  steady_fields E (steady E) fs names -> bytes_ok (b ++ rest) ->
  fields_in E (accepts E) fs (map (fun ht => zero_val (snd ht)) fs) s seen b rest vs ->
  fits_fields fits fs vs /\ ok_fields E (ok E) (back E) (wire E) fs vs s seen /\ (orderly_fields E (orderly E) fs -> canon_fields E (canon E) fs vs s) /\
  (strict_fields E (strict E) fs names -> b = wire_fields E (wire E) fs vs s).
Proof.
  induction fs as [|[h t] fs IH]; intros Hall names s seen b rest vs Hs Hs0 Hst Hb H.
  { destruct H as [-> ->]. repeat split. }
  cbn [map snd fields_in steady_fields] in *. set (tg := parse_field_tag (f_tag h)) in *.
  assert (IH' := IH (fun h' t' Hin => Hall h' t' (or_intror Hin))). clear IH.
  assert (Ht := Hall h t (or_introl eq_refl)). clear Hall.
  assert (Hkeep : forall sn, live h = false -> steady_fields E (steady E) fs names ->
    image (cons (zero_val t)) (fields_in E (accepts E) fs (map (fun ht => zero_val (snd ht)) fs) s sn) b rest vs ->
    exists vs', vs = zero_val t :: vs' /\
    fits_fields fits fs vs' /\ ok_fields E (ok E) (back E) (wire E) fs vs' s sn /\ (orderly_fields E (orderly E) fs -> canon_fields E (canon E) fs vs' s) /\
    (strict_fields E (strict E) ((h, t) :: fs) names -> b = wire_fields E (wire E) ((h, t) :: fs) vs s)).
  { intros sn Hl Hst' (vs' & -> & H'). exists vs'. split; [reflexivity|].
    destruct (IH' names s sn b rest vs' Hs Hs0 Hst' Hb H') as (F & O & C & W). repeat split; auto.
    cbn [strict_fields wire_fields]. rewrite Hl. exact W. }
  cbn [ok_fields canon_fields fits_fields]. fold tg.
  destruct (ft_skip tg) eqn:Esk.
  { assert (Hl : live h = false) by (unfold live; fold tg; now rewrite Esk).
    destruct (Hkeep seen Hl Hst H) as (vs' & -> & F & O & C & W). rewrite Hl. cbn [snd].
    split; [split; [apply fits_zero|exact F]|]. split; [exact O|]. split; [|exact W].
    cbn [orderly_fields]. intros (_ & _ & Hor). split; [reflexivity|]. now apply C. }
  assert (Hseen : seen = true -> ft_ext tg = true).
  { intros ->. destruct (ft_ext tg); [reflexivity|]. destruct H. }
  assert (H' : if negb (f_exported h) then image (cons (zero_val t)) (fields_in E (accepts E) fs (map (fun ht => zero_val (snd ht)) fs) s (seen || ft_ext tg)) b rest vs
    else (fun b rest vs => if ft_ext tg && (zlen (b ++ rest) =? 0) then image (cons (zero_val t)) (fields_in E (accepts E) fs (map (fun ht => zero_val (snd ht)) fs) s (seen || ft_ext tg)) b rest vs
      else match borsh_method E t with
      | Some R => followed R (fun x => image (cons x) (fields_in E (accepts E) fs (map (fun ht => zero_val (snd ht)) fs) s (seen || ft_ext tg))) b rest vs
      | None => followed (accepts E t (Front (ft_option tg) (is_borsh E && ft_coption tg)) (s (f_name h)) (ft_order tg) (zero_val t))
          (fun x => match ft_sizeof tg, size_of t x with
                    | EmptyString, _ => image (cons x) (fields_in E (accepts E) fs (map (fun ht => zero_val (snd ht)) fs) s (seen || ft_ext tg))
                    | n, Some z => image (cons x) (fields_in E (accepts E) fs (map (fun ht => zero_val (snd ht)) fs) (fun y => if String.eqb n y then Some z else s y) (seen || ft_ext tg))
                    | _, None => nothing
                    end) b rest vs
      end) b rest vs).
  { destruct (seen && negb (ft_ext tg)); [destruct H|]. destruct (f_exported h); exact H. }
  clear H. rename H' into H. set (sn := seen || ft_ext tg) in *.
  destruct (f_exported h) eqn:Eex; cbn [negb] in H.
  2:{ assert (Hl : live h = false) by (unfold live; rewrite Eex; now destruct (negb _)).
      destruct Hst as [Hz Hst]. destruct (Hkeep sn Hl Hst H) as (vs' & -> & F & O & C & W). rewrite Hl. cbn [snd].
      split; [split; [apply fits_zero|exact F]|]. split; [split; [exact Hseen|]; split; [exact Hz|exact O]|]. split; [|exact W].
      cbn [orderly_fields]. intros (_ & _ & Hor). split; [reflexivity|]. now apply C. }
  assert (Hl : live h = true) by (unfold live; fold tg; now rewrite Esk, Eex).
  destruct Hst as (Ho & Hf & He & Hp & Hz).
  destruct (ft_ext tg && (zlen (b ++ rest) =? 0)) eqn:Eab.
  { apply andb_true_iff in Eab. destruct Eab as [Ex Ez]. destruct (He Ex) as (Hnm & Hsz & Hok & Hne).
    assert (Hsn : s (f_name h) = None) by (rewrite Hs in Hnm; destruct (s (f_name h)); [discriminate|reflexivity]).
    rewrite Hsz in Hz. destruct H as (vs' & -> & H'). destruct (IH' names s sn b rest vs' Hs Hs0 Hz Hb H') as (F & O & C & W).
    rewrite Hl, Hsn. cbn [snd]. unfold bind_size. rewrite Hsz.
    assert (Hof : ok_field E (ok E) t tg None (zero_val t)).
    { split; [exact Ho|]. split; [|split; [|apply fits_zero]].
      - intro Hfl. destruct (Hf Hfl) as (_ & H1 & H2 & H3 & H4). repeat split; auto. destruct t as [| | | | | | | |t| | | | | |]; auto; discriminate.
      - destruct Hok as [Hfl|Hok]; [left; now rewrite Hfl, zero_is_zero|now right]. }
    split; [split; [apply fits_zero|exact F]|].
    split; [split; [exact Hseen|]; split; [exact Hof|]; split; [left; exact Hsz|]; split; [intros _; now apply Hne|exact O]|].
    split; [|cbn [strict_fields]; rewrite Hl; fold tg; intros (Hx & _); congruence].
    cbn [orderly_fields]. fold tg. intros (_ & Hz0 & Hor). split; [|now apply C].
    rewrite zero_is_zero, andb_true_r. destruct (flagged_field E tg) eqn:Efl; [reflexivity|]. auto. }
  clear Eab. rewrite Hs in Hp.
  assert (Hz1 : match ft_sizeof tg with
    | EmptyString => True
    | n => match t with TUint _ (W8 | W16 | W32) => True | _ => False end /\ n <> f_name h
    end) by (destruct (ft_sizeof tg); tauto).
  assert (Hgo : exists b1 b2 v vs', b = b1 ++ b2 /\ vs = v :: vs' /\
    accepts E t (Front (ft_option tg) (is_borsh E && ft_coption tg)) (s (f_name h)) (ft_order tg) (zero_val t) b1 (b2 ++ rest) v /\
    match ft_sizeof tg, size_of t v with
    | EmptyString, _ => fields_in E (accepts E) fs (map (fun ht => zero_val (snd ht)) fs) s sn b2 rest vs'
    | n, Some z => fields_in E (accepts E) fs (map (fun ht => zero_val (snd ht)) fs) (fun y => if String.eqb n y then Some z else s y) sn b2 rest vs'
    | _, None => False
    end).
  { destruct (borsh_method E t) as [R|] eqn:ER.
    - destruct (borsh_method_below E t R (s (f_name h)) ER) as (-> & (c & u & f & Hcu & Hc) & ->).
      destruct H as (b1 & b2 & v & -> & H1 & vs' & -> & H2). exists b1, b2, v, vs'. repeat split; auto.
      + rewrite Ho by reflexivity. rewrite accepts_front.
        destruct (ft_option tg || (is_borsh Borsh && ft_coption tg)) eqn:Efl; [|exact H1].
        destruct (Hf Efl) as (_ & Hu & _ & _ & Hba). specialize (Hba eq_refl).
        destruct Hcu as [->| ->]; cbn [has_unmarshal bare] in *; rewrite Hc in *; discriminate.
      + destruct (ft_sizeof tg); [exact H2|]. destruct Hcu as [->| ->]; destruct Hz1 as [[] _].
    - destruct H as (b1 & b2 & v & -> & H1 & H2). destruct (ft_sizeof tg) as [|a n].
      + destruct H2 as (vs' & -> & H2). exists b1, b2, v, vs'. auto.
      + destruct (size_of t v) as [z|] eqn:Ez; [|destruct H2]. destruct H2 as (vs' & -> & H2). exists b1, b2, v, vs'.
        rewrite Ez. auto. }
  clear H. destruct Hgo as (b1 & b2 & v & vs' & -> & -> & H1 & H2). rewrite <- app_assoc in Hb.
  destruct (field_settles E t tg (f_name h) (s (f_name h)) b1 (b2 ++ rest) v Ht Hp Ho (Hs0 _) Hb Hf Hz1 H1) as (F & O & Oz & C & W).
  apply bytes_ok_app in Hb. destruct Hb as [_ Hb]. rewrite Hl. cbn [snd].
  assert (Hnext : fits_fields fits fs vs' /\ ok_fields E (ok E) (back E) (wire E) fs vs' (bind_size tg v s) sn /\
    (orderly_fields E (orderly E) fs -> canon_fields E (canon E) fs vs' (bind_size tg v s)) /\
    (strict_fields E (strict E) fs (match ft_sizeof tg with EmptyString => names | n => n :: names end) ->
       b2 = wire_fields E (wire E) fs vs' (bind_size tg v s))).
  { unfold bind_size. destruct (ft_sizeof tg) as [|a n].
    - apply (IH' names s sn b2 rest vs'); auto.
    - destruct Hz1 as [Hk _]. destruct t as [|? w| | | | | | | | | | | | |]; try destruct Hk. cbn [fits] in F. destruct F as (z & -> & Hz').
      assert (Hz2 : 0 <= z < 2 ^ 63) by (destruct w; cbn [wbits] in Hz'; try destruct Hk; lia).
      cbn [size_of] in H2. rewrite (Z.mod_small z (2 ^ 64)) in H2 by lia.
      replace (z <? 2 ^ 63) with true in H2 by (symmetry; lia).
      apply (IH' (String a n :: names) (fun y => if String.eqb (String a n) y then Some z else s y) sn b2 rest vs'); auto; try tauto.
      + intro x. cbn [existsb]. rewrite Hs, String.eqb_sym. now destruct (String.eqb (String a n) x).
      + intros x m. destruct (String.eqb (String a n) x); [|apply Hs0]. intro Hm. injection Hm as <-. lia. }
  destruct Hnext as (F' & O' & C' & W').
  split; [split; [exact F|exact F']|].
  split; [split; [exact Hseen|]; split; [exact O|]; split; [exact Oz|]; split; [|exact O']|].
  { intro Hx. destruct (He Hx) as (Hnm & _ & _ & Hne). rewrite Hs in Hnm. destruct (s (f_name h)); [discriminate|]. now apply Hne. }
  split; [cbn [orderly_fields]; intros (Hor & _ & Hor'); split; [now apply C|now apply C']|].
  cbn [strict_fields wire_fields]. rewrite Hl. fold tg. rewrite Hs. intros (_ & S1 & S2 & S3).
  rewrite <- (W S1 S2), <- (W' S3). reflexivity.
Qed.

(** ** Variants *)
Lemma nth_settle E (F G : ty -> option Z -> order -> val -> Prop) (W : ty -> option Z -> order -> val -> list Z) fs :
  (forall h t, In (h, t) fs -> variant_ok t = true -> steady E false t -> forall b rest v, bytes_ok (b ++ rest) ->
     accepts E t (Front false false) None LE (zero_val t) b rest v ->
     fits t v /\ F t None LE v /\ (orderly E t -> G t None LE v) /\ (strict E false t -> b = W t None LE v)) ->
  forall n b rest vs, steady_variants (steady E) fs -> bytes_ok (b ++ rest) ->
  nth_in (accepts E) fs (map (fun ht => zero_val (snd ht)) fs) n b rest vs ->
  fits_fields fits fs vs /\ ok_nth F fs vs n /\ (orderly_fields E (orderly E) fs -> canon_nth G fs vs n) /\
  (strict_variants (strict E) fs -> b = wire_nth W fs vs n).
Proof.
  induction fs as [|[h t] fs IH]; intros Hall n b rest vs Hst Hb H; [destruct H|].
  cbn [map snd steady_variants strict_variants nth_in] in *. destruct Hst as (Ex & Hv & Hs & Hst). destruct n as [|n].
  - rewrite Ex in H. destruct H as (x & -> & H).
    destruct (Hall h t (or_introl eq_refl) Hv Hs b rest x Hb H) as (A & B & C & D).
    cbn [fits_fields ok_nth canon_nth wire_nth snd]. rewrite map_length. split; [|split; [auto|split; [|tauto]]].
    2:{ cbn [orderly_fields]. intros (Hor & _ & _). split; [now apply C|reflexivity]. }
    split; [exact A|]. clear. induction fs as [|[h t] fs IH]; cbn [map fits_fields snd]; auto using fits_zero.
  - destruct H as (vs' & -> & H).
    destruct (IH (fun h t Hin => Hall h t (or_intror Hin)) n b rest vs' Hst Hb H) as (A & B & C & D).
    cbn [fits_fields ok_nth canon_nth wire_nth snd]. split; [auto using fits_zero|]. split; [exact B|]. split; [|intros [_ S]; auto].
    cbn [orderly_fields]. intros (_ & _ & Hor). split; [reflexivity|]. now apply C.
Qed.

Lemma no_codec_none c : no_codec c = true -> c_marshal c = None /\ c_unmarshal c = None.
Proof. unfold no_codec. destruct (c_marshal c), (c_unmarshal c); auto; discriminate. Qed.

Lemma firm_at E c u sz o b rest v : firm E c u -> (E = Borsh -> o = LE) -> bytes_ok (b ++ rest) ->
  accepts E (TCodec c u) (Below false) sz o (zero_val u) b rest v ->
  exists m f, c_marshal c = Some m /\ c_byval c = true /\ c_unmarshal c = Some f /\
    fits u v /\ codec_writes m E o v /\ codec_reads f u E o (codec_bytes m E o v) /\
    codec_back f E o (zero_val u) (codec_bytes m E o v) = v /\ (same_bytes E c u -> b = codec_bytes m E o v).
Proof.
  intros (m & f & Hm & Hv & Hf & H) Ho Hb Ha. rewrite accepts_below, Hf in Ha. exists m, f.
  destruct (H o b rest v Ho Hb Ha) as (H1 & H2 & H3 & H4). repeat split; auto.
  intro Hs. symmetry. eapply Hs; eauto.
Qed.

(** The functions for variants in [ok], [canon] and [wire]. *)
Definition vok (t : ty) (_ : option Z) (_ : order) (v : val) : Prop :=
  match t with
  | TPtr (TCodec c u) =>
      exists x, v = VPtr (Some x) /\ payload u = true /\ ok Borsh u None LE x /\
        (forall f, c_unmarshal c = Some f -> codec_reads f u Borsh LE (wire Borsh u None LE x))
  | TPtr t' => exists x, v = VPtr (Some x) /\ payload t' = true /\ ok Borsh t None LE v
  | TCodec c u =>
      payload u = true /\ ok Borsh u None LE v /\
      (forall f, c_unmarshal c = Some f -> codec_reads f u Borsh LE (wire Borsh u None LE v))
  | _ => payload t = true /\ ok Borsh t None LE v
  end.
Definition vcanon (t : ty) (_ : option Z) (_ : order) (v : val) : Prop :=
  match t, v with
  | TPtr (TCodec c u), VPtr (Some x) =>
      match c_unmarshal c with
      | Some f => codec_back f Borsh LE (zero_val u) (wire Borsh u None LE x) = x
      | None => canon Borsh u None LE x
      end
  | TCodec c u, _ =>
      match c_unmarshal c with
      | Some f => codec_back f Borsh LE (zero_val u) (wire Borsh u None LE v) = v
      | None => canon Borsh u None LE v
      end
  | _, _ => canon Borsh t None LE v
  end.
Definition vwire (t : ty) (_ : option Z) (_ : order) (v : val) : list Z :=
  match t, v with
  | TPtr (TCodec _ u), VPtr (Some x) => wire Borsh u None LE x
  | TCodec _ u, _ => wire Borsh u None LE v
  | _, _ => wire Borsh t None LE v
  end.

Lemma variant_settles t : (forall t', (ty_size t' <= ty_size t)%nat -> settles Borsh t') ->
  variant_ok t = true -> steady Borsh false t -> forall b rest v, bytes_ok (b ++ rest) ->
  accepts Borsh t (Front false false) None LE (zero_val t) b rest v ->
  fits t v /\ vok t None LE v /\ (orderly Borsh t -> vcanon t None LE v) /\ (strict Borsh false t -> b = vwire t None LE v).
Proof.
  intros IH Hv Hs b rest v Hb H. rewrite accepts_front in H. cbn [orb] in H.
  destruct (IH t (le_n _) None LE b rest v Hs ltac:(discriminate) ltac:(auto) Hb H) as (F & O & C & W).
  split; [exact F|]. unfold vok, vcanon, vwire, variant_ok in *.
  destruct t as [| | | | | | | |t| | | | |c u|]; auto.
  - rewrite accepts_below in H. destruct H as (x & -> & H).
    destruct t as [| | | | | | | | | | | | |c u|]; eauto 10.
    apply andb_true_iff in Hv. destruct Hv as [Hc Hp]. destruct (no_codec_none c Hc) as [Em Eu].
    cbn [steady] in Hs. rewrite Hc in Hs. destruct Hs as [_ Hs].
    rewrite accepts_below, Eu in H.
    destruct (IH u ltac:(cbn; lia) None LE b rest x Hs ltac:(discriminate) ltac:(auto) Hb H) as (F' & O' & C' & W').
    rewrite Eu. split; [exists x; repeat split; auto; discriminate|]. split; [cbn [orderly]; rewrite Hc; exact C'|]. cbn [strict]. rewrite Hc. exact W'.
  - apply andb_true_iff in Hv. destruct Hv as [Hc Hp]. destruct (no_codec_none c Hc) as [Em Eu].
    cbn [steady] in Hs. rewrite Hc in Hs. rewrite accepts_below, Eu in H.
    destruct (IH u ltac:(cbn; lia) None LE b rest v Hs ltac:(discriminate) ltac:(auto) Hb H) as (F' & O' & C' & W').
    rewrite Eu. split; [repeat split; auto; discriminate|]. split; [cbn [orderly]; rewrite Hc; exact C'|]. cbn [strict]. rewrite Hc. exact W'.
Qed.

Theorem settles_all E t : settles E t.
Proof.
  induction t as [t IH] using ty_strong_ind. intros sz o b rest v Hs Hn Ho Hb H.
  rewrite accepts_below in H.
  destruct t as [|u w|u w|f| |s| | |t|n t|t|kt vt|fs|c u|]; cbn [core_in] in H; try (destruct H; fail).
  - destruct H as (x & -> & z & -> & ->). cbn [fits ok canon strict wire]. repeat split; eauto. intros [].
  - destruct H as (z & -> & Hz & ->). replace (256 ^ Z.of_nat (wbytes w)) with (2 ^ wbits w) in Hz by (now destruct w). cbn [fits ok canon strict wire]. repeat split; eauto.
  - destruct H as (z & -> & Hz & ->). cbn [fits ok canon strict wire]. repeat split; eauto.
  - destruct H as (z & -> & Hz & -> & Hnan). cbn [fits ok canon strict wire].
    pose proof (quiet_range f z Hz). repeat split; eauto.
    + exists (quiet f z). repeat split; try tauto. intro HE. rewrite quiet_notnan; auto.
    + exists (quiet f z). split; auto. now apply quiet_idem.
    + intro HS. rewrite quiet_idem by auto. destruct f; [|reflexivity]. now rewrite quiet_notnan by auto.
  - destruct H as (s & -> & Hl & ->). cbn [fits ok canon strict wire].
    assert (bytes_ok s). { apply bytes_ok_app in Hb. destruct Hb as [Hb _]. unfold text in Hb. apply bytes_ok_app in Hb. tauto. }
    repeat split; eauto.
  - destruct H as [-> ->]. cbn [fits ok canon strict wire zero_val]. repeat split; eauto.
  - (* pointers *)
    destruct H as (x & -> & H). cbn [steady] in Hs. destruct Hs as [Hsz Hs]. cbn [zero_val deref] in H.
    cbn [fits ok canon strict wire].
    assert (Hlt : (ty_size t < ty_size (TPtr t))%nat) by (cbn; lia).
    destruct (ptr_marshal t) as [fm|] eqn:Ep.
    + destruct t as [| | | | | | | | | | | | |c u|]; try discriminate Ep. cbn [ptr_marshal] in Ep.
      assert (Hc : no_codec c = false) by (unfold no_codec; now rewrite Ep).
      cbn [steady] in Hs. rewrite Hc in Hs.
      destruct (firm_at E c u sz o b rest x Hs Ho Hb H) as (m & f & Hm & Hv & Hf & H1 & H2 & H3 & H4 & H5).
      assert (m = fm) by congruence. subst m. cbn [has_unmarshal fits zero_val strict]. rewrite Hf, Hc.
      split; [exists (Some x); split; [reflexivity|]; intros y Hy; congruence|].
      split; [exists (Some x); split; [reflexivity|]; exists x, u, f; eauto 10|].
      split; [exists x; auto|]. auto.
    + assert (Hcase : E = Borsh /\ sz = None /\ o = LE \/ E <> Borsh).
      { destruct E; auto; try (right; discriminate). left. repeat split; auto. destruct sz; auto. discriminate (Hsz eq_refl). }
      destruct (IH t Hlt sz o b rest x Hs Hn Ho Hb H) as (F & O & C & W).
      split; [exists (Some x); split; [reflexivity|]; intros y Hy; congruence|].
      split; [exists (Some x); split; [reflexivity|]; destruct Hcase as [(-> & -> & ->)|Hne]; [auto|destruct E; eauto; congruence]|].
      split; [cbn [orderly]; intro Hor; specialize (C Hor); exists x; split; [reflexivity|]; destruct Hcase as [(-> & -> & ->)|Hne]; [auto|destruct E; eauto; congruence]|].
      intro HS. rewrite (W HS). destruct Hcase as [(-> & -> & ->)|Hne]; [reflexivity|destruct E; congruence].
  - (* arrays *)
    cbn [fits ok canon strict wire steady zero_val] in *. destruct (uint_kind t) as [w|] eqn:Ek.
    + destruct H as (zs & -> & H). destruct (bulk_all _ _ _ _ _ H t Ek) as (A1 & A2 & A3 & A4 & A5).
      assert (Hl : length (map VNum zs) = n) by (unfold zlen in A1; lia).
      repeat split; eauto.
      * exists (map VNum zs). repeat split; auto. intro Hw. apply A4. congruence.
      * exists (map VNum zs). repeat split; auto. apply Forall_forall. auto.
    + destruct H as (vs & -> & H). apply each_rep in H. destruct Hs as [Hs|Hs]; [congruence|].
      destruct (rep_all E t (IH t ltac:(cbn; lia)) Hs n _ _ _ Hb H) as (A1 & A2 & A3 & A4 & A5).
      repeat split; eauto.
      * exists vs. repeat split; auto. discriminate.
      * intros [HS|HS]; [congruence|]. rewrite (A5 HS). reflexivity.
  - (* slices *)
    destruct H as (b1 & b2 & n & -> & Hc & H). cbn [fits ok canon strict wire steady zero_val] in *.
    assert (Hb2 : bytes_ok (b2 ++ rest)) by (rewrite <- app_assoc in Hb; apply bytes_ok_app in Hb; tauto).
    assert (Hn0 : 0 <= n /\ match sz with Some m => m = n /\ b1 = [] | None => n <= count_max E /\ (E <> Bin -> b1 = count E n) end).
    { destruct sz as [m|].
      - destruct Hc as [-> ->]. auto.
      - rewrite <- app_assoc in Hb. destruct E; cbn [count_in count_max count] in *.
        + destruct Hc as [Hc Hm]. destruct Hc as (init & last & -> & _ & _ & _ & -> & _). repeat split; try lia; [|congruence].
          apply bytes_ok_app in Hb. destruct Hb as [Hb _]. clear -Hb. set (l := init ++ [last]) in *. clearbody l.
          induction Hb as [|x l Hx _ IHl]; cbn [groups]; [lia|]. pose proof (Z.mod_pos_bound x 128). lia.
        + destruct Hc as [Hc ->]. repeat split; try lia; auto.
        + destruct Hc as [Hc ->]. cbn in Hc. repeat split; try lia; auto. }
    assert (Hempty : is_borsh E && (n =? 0) = true -> E = Borsh /\ n = 0).
    { destruct E; cbn [is_borsh andb]; try discriminate. intro Hz. split; [reflexivity|lia]. }
    destruct (is_borsh E && (n =? 0)) eqn:Ez.
    + destruct (Hempty eq_refl) as [-> ->]. destruct H as [-> ->]. clear Hempty Ez.
      split; [exists None; split; [reflexivity|discriminate]|].
      split; [exists None; split; [reflexivity|]; change (zlen (@nil val)) with 0; repeat split; auto|].
      * destruct sz; [tauto|cbn; lia].
      * cbn. lia.
      * split; [now left|]. intros _. rewrite !app_nil_r. destruct sz as [m|]; [tauto|]. destruct Hn0 as (_ & _ & Hn0).
        apply Hn0. discriminate.
    + unfold left_in in H. destruct (_ <? n) eqn:Er; [destruct H|].
      assert (Hconc : forall l, v = VSlice (Some l) -> zlen l = n -> Forall (fits t) l ->
        Forall (fun x => match uint_kind t with Some w => exists z, x = VNum z /\ 0 <= z < 2 ^ wbits w | None => ok E t None LE x end) l ->
        (uint_kind t = Some W8 -> zlen l <= bulk_max) ->
        (uint_kind t = None -> Forall (fun x => wire E t None LE x <> []) l) ->
        (orderly E t -> Forall (fun x => match uint_kind t with Some _ => True | None => canon E t None LE x end) l) ->
        (uint_kind t <> None \/ strict E false t -> b2 = flat_map (fun x => match uint_kind t, x with Some w, VNum z => fixed LE (wbytes w) z | _, _ => wire E t None LE x end) l) ->
        fits (TSlice t) v /\ ok E (TSlice t) sz o v /\ (orderly E (TSlice t) -> canon E (TSlice t) sz o v) /\
        (strict E (given sz) (TSlice t) -> b1 ++ b2 = wire E (TSlice t) sz o v)).
      { intros l -> Hl F O O8 Ow C W. cbn [fits ok canon strict wire].
        split; [exists (Some l); split; [reflexivity|]; intros l' Hl'; congruence|].
        split; [exists (Some l); split; [reflexivity|]; repeat split; auto; destruct sz; [symmetry|]; intuition congruence|].
        split.
        - cbn [orderly]. intro Hor. specialize (C Hor). destruct E; eauto. right. exists l. repeat split; auto. intros ->. cbn in Hl. subst n. discriminate.
        - intros [S1 S2]. rewrite <- (W S2). f_equal. destruct sz as [m|]; [tauto|]. rewrite Hl. destruct Hn0 as (_ & _ & Hn0).
          apply Hn0. destruct S1; [discriminate|assumption]. }
      cbn [fits ok canon strict wire] in Hconc. destruct (uint_kind t) as [w|] eqn:Ek.
      * destruct H as (zs & -> & H). destruct (bulk_all _ _ _ _ _ H t Ek) as (A1 & A2 & A3 & A4 & A5).
        apply (Hconc (map VNum zs)); auto; try discriminate.
        -- intro Hw. apply A4. congruence.
        -- intros _. apply Forall_forall. auto.
      * destruct H as (vs & -> & H). destruct Hs as [Hs|[Hs Hw]]; [congruence|].
        destruct (rep_all E t (IH t ltac:(cbn; lia)) Hs _ _ _ _ Hb2 H) as (A1 & A2 & A3 & A4 & A5).
        apply (Hconc vs); auto; try discriminate.
        -- unfold zlen. lia.
        -- intros _. eapply Forall_impl; [|exact A3]. exact Hw.
        -- intros [S|S]; [congruence|]. now apply A5.
  - (* maps *)
    destruct H as (b1 & b2 & n & -> & Hc & H). cbn [fits ok canon strict wire steady zero_val] in *.
    destruct Hs as (HE & Hord & Hk & Hv & Hplain). rewrite <- app_assoc in Hb.
    assert (Hn1 : 0 <= n <= count_max E).
    { destruct E; cbn [count_in count_max] in *.
      - destruct Hc as [Hc Hm]. destruct Hc as (init & last & -> & _ & _ & _ & -> & _). split; [|lia].
        apply bytes_ok_app in Hb. destruct Hb as [Hb _]. clear -Hb. set (l := init ++ [last]) in *. clearbody l.
        induction Hb as [|x l Hx _ IHl]; cbn [groups]; [lia|]. pose proof (Z.mod_pos_bound x 128). lia.
      - tauto.
      - destruct Hc as [Hc ->]. cbn in Hc. lia. }
    apply bytes_ok_app in Hb. destruct Hb as [_ Hb].
    destruct (n =? 0) eqn:Ez.
    + destruct H as [-> ->]. split; [exists None; split; [reflexivity|discriminate]|].
      split; [exists None; split; [reflexivity|]; change (zlen (@nil (val * val))) with 0|].
      * unfold distinct. cbn [map length]. split; [destruct E; cbn; lia|]. split; [constructor|]. split; [constructor|].
        split; [constructor|]. intros _ Hl. inversion Hl.
      * split; [now left|]. intros [].
    + destruct H as (es & -> & H).
      assert (Hes : length es = Z.to_nat n /\
        Forall (fun e => (fits kt (fst e) /\ ok E kt None LE (fst e) /\ canon E kt None LE (fst e)) /\
                         (fits vt (snd e) /\ ok E vt None LE (snd e) /\ (orderly E vt -> canon E vt None LE (snd e)))) es).
      { clear Hc. revert b2 es Hb H. generalize (Z.to_nat n) as k. clear -IH Hk Hv Hord. induction k as [|k IHk]; intros b2 es Hb H.
        - destruct H as [-> ->]. auto.
        - destruct H as (c1 & c2 & e & -> & (d1 & d2 & kx & -> & H1 & x & -> & H2) & es' & -> & H3).
          rewrite <- !app_assoc in Hb.
          destruct (elem_one E kt (IH kt ltac:(cbn; lia)) Hk _ _ _ Hb H1) as (K1 & K2 & K3 & _).
          apply bytes_ok_app in Hb. destruct Hb as [_ Hb].
          destruct (elem_one E vt (IH vt ltac:(cbn; lia)) Hv _ _ _ Hb H2) as (V1 & V2 & V3 & _).
          apply bytes_ok_app in Hb. destruct Hb as [_ Hb].
          destruct (IHk _ _ Hb H3) as (L & A). cbn [length]. split; [now rewrite L|]. constructor; auto. }
      destruct Hes as [Hlen Hes].
      destruct (assign_all_good kt (fun k => fits kt k /\ ok E kt None LE k /\ canon E kt None LE k)
                  (fun x => fits vt x /\ ok E vt None LE x /\ (orderly E vt -> canon E vt None LE x)) es) with (2 := Hes) as (M1 & M2 & M3 & M4).
      { intros a b' Ha Hb'. cbn beta in *. apply Hplain; tauto. }
      set (m := assign_all kt es) in *. clearbody m.
      assert (Hback : map (fun e => back E kt None LE (zero_val kt) (fst e)) m = map fst m).
      { clear -M1. induction M1 as [|e m ((_ & _ & Hc) & _) _ IHm]; [reflexivity|]. cbn [map]. rewrite IHm, back_canon; auto. }
      split; [exists (Some m); split; [reflexivity|]; intros m' Hm'; injection Hm' as <-; eapply Forall_impl; [|exact M1]; cbn beta; tauto|].
      split.
      { exists (Some m). split; [reflexivity|]. unfold zlen in *. split; [lia|]. split; [|rewrite Hback; repeat split; auto; congruence].
        eapply Forall_impl; [|exact M1]. cbn beta. intros e ((K1 & K2 & K3) & V1 & V2 & V3). repeat split; auto.
        - exact (proj1 (Hplain _ _ K1 K1)).
        - intros ->. exact K3.
        - intros ->. exact (V3 I). }
      split; [|intros []]. cbn [orderly]. intro Hor. right. exists m. split; [reflexivity|]. split.
      { apply M4. intros ->. cbn in Hlen. lia. }
      destruct Hor as (Hor1 & _ & Hor2). split; [destruct E; try reflexivity; congruence|].
      eapply Forall_impl; [|exact M1]. cbn beta. tauto.
  - (* structs *)
    cbn [zero_val] in H. cbn [steady strict] in *. destruct (enum_struct E fs) eqn:Ee.
    + destruct fs as [|[h0 t0] fs]; [destruct H as (? & ? & ? & _ & _ & []) |].
      assert (Ht0 : E = Borsh /\ t0 = TUint UBorshEnum W8).
      { unfold enum_struct in Ee. destruct E; try discriminate. destruct t0; try discriminate. destruct n; try discriminate.
        destruct w; try discriminate. auto. }
      destruct Ht0 as [-> ->]. cbn [map] in H. destruct H as (b1 & b2 & n & -> & [Hn1 Hb1] & H). cbn in Hn1.
      destruct (f_exported h0) eqn:Ex; [|destruct H]. destruct H as (vs & -> & H).
      assert (Hb2 : bytes_ok (b2 ++ rest)) by (rewrite <- app_assoc in Hb; apply bytes_ok_app in Hb; tauto).
      destruct (nth_settle Borsh vok vcanon vwire fs) with (3 := Hb2) (4 := H) as (A & B & C & D).
      { intros h t Hin. apply variant_settles. intros t' Hle. apply IH.
        pose proof (ty_size_field ((h0, TUint UBorshEnum W8) :: fs) h t (or_intror Hin)). lia. }
      { exact Hs. }
      cbn [fits ok canon wire fits_fields snd]. rewrite Ee.
      split; [exists (VNum n :: vs); split; [reflexivity|]; split; [exists n; split; [reflexivity|]; cbn; lia|exact A]|].
      split; [exists (VNum n :: vs); split; [reflexivity|]; exists n, vs; split; [reflexivity|]; split; [lia|]; split; [intros h t' Hh; cbn in Hh; congruence|]; exact B|].
      split; [cbn [orderly orderly_fields]; intros (_ & _ & Hor); exists (VNum n :: vs); split; [reflexivity|]; exists n, vs; split; [reflexivity|]; cbn [canon_nth]; split; [reflexivity|exact (C Hor)]|].
      intro HS. specialize (D HS). cbn [wire_nth]. rewrite Hb1. cbn. rewrite Z.div_1_r, Z.mod_small by lia. f_equal. exact D.
    + destruct H as (vs & -> & H). cbn [fits ok canon wire]. rewrite Ee.
      assert (Hall : forall h t, In (h, t) fs -> settles E t) by (intros h t Hin; apply IH; exact (ty_size_field _ _ _ Hin)).
      destruct (fields_settle E fs Hall [] no_sizes false b rest vs) as (A & B & C & D); auto; [discriminate|].
      split; [eauto|]. split; [eauto|]. split; [|exact D]. intro Hor. exists vs. split; [reflexivity|]. exact (C Hor).
  - (* codecs *)
    cbn [steady strict] in *. destruct (no_codec c) eqn:Ec.
    + destruct (no_codec_none c Ec) as [Em Eu]. rewrite Eu in H.
      cbn [fits ok canon wire]. unfold val_marshal. rewrite Eu, Em.
      replace (if c_byval c then None else None) with (@None (val -> EM unit)) by (now destruct (c_byval c)).
      destruct (IH u ltac:(cbn; lia) sz o b rest v Hs Hn Ho Hb H) as (A & B & C & D). cbn [orderly]. rewrite Ec. auto.
    + assert (Ha : accepts E (TCodec c u) (Below false) sz o (zero_val u) b rest v) by (rewrite accepts_below; exact H).
      destruct (firm_at E c u sz o b rest v Hs Ho Hb Ha) as (m & f & Hm & Hv & Hf & H1 & H2 & H3 & H4 & H5).
      cbn [fits ok canon wire]. unfold val_marshal. rewrite Hv, Hm, Hf. auto.
Qed.
