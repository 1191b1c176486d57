(** Which values can be encoded: proofs (C79). *)
From Verif Require Import Types EncPrim Enc Builtin Spec NumFacts TyInd EncFacts EncWire DecWire RoundTrip EncProps NumProps DecWire AccSpec AccFacts WriteSpec.
From Verif Require DecBound.

(** An encoder whose writer takes everything, in the course of an Encode. *)
Definition tolerant (E : encoding) (s : est) : Prop := e_enc s = E /\ e_w s = buffer /\ e_cur s <> None.

(** [m] succeeds exactly if [P]; [d]: it may run into a cut; if [q], it does not
    panic. *)
Definition wins (E : encoding) (d : bool) (q : Prop) (m : EM unit) (P : Prop) : Prop :=
  forall s, tolerant E s -> exists r s', m s = (r, s') /\ tolerant E s' /\
    (r = Ok tt <-> P) /\ r <> Stuck /\ (r = Deep -> d = true) /\ (q -> r <> Panic).

Lemma wins_iff E d q m P Q : wins E d q m P -> (P <-> Q) -> wins E d q m Q.
Proof. intros H HPQ s Hs. destruct (H s Hs) as (r & s' & H1 & H2 & H3 & H4). exists r, s'. rewrite <- HPQ. auto. Qed.
Lemma wins_calm E d (q q' : Prop) m P : wins E d q m P -> (q' -> q) -> wins E d q' m P.
Proof. intros H Hq s Hs. destruct (H s Hs) as (r & s' & H1 & H2 & H3 & H4 & H5 & H6). exists r, s'. repeat (split; [assumption|]). auto. Qed.
Lemma wins_ret E d q : wins E d q (ret tt) True.
Proof. intros s Hs. exists (Ok tt), s. split; [reflexivity|split; [exact Hs|split; [tauto|split; [discriminate|split; discriminate]]]]. Qed.
Lemma wins_fail E d q e : wins E d q (fail e) False.
Proof. intros s Hs. exists (Err e), s. split; [reflexivity|split; [exact Hs|split; [split; [discriminate|easy]|split; [discriminate|split; discriminate]]]]. Qed.
Lemma wins_panic E d (q : Prop) : ~ q -> wins E d q panic False.
Proof. intros Hq s Hs. exists Panic, s. split; [reflexivity|split; [exact Hs|split; [split; [discriminate|easy]|split; [discriminate|split; [discriminate|]]]]]. intro H. now destruct (Hq H). Qed.
Lemma wins_deep E q : wins E true q deep False.
Proof. intros s Hs. exists Deep, s. split; [reflexivity|split; [exact Hs|split; [split; [discriminate|easy]|split; [discriminate|split; [auto|discriminate]]]]]. Qed.
Lemma wins_to_writer E d q b : wins E d q (to_writer b) True.
Proof.
  intros s (H1 & H2 & H3). unfold to_writer. rewrite H2. cbn [buffer]. do 2 eexists. split; [reflexivity|].
  split; [split; auto|split; [tauto|split; [discriminate|split; discriminate]]].
Qed.
Lemma wins_set_cur E d q o : wins E d q (e_set_cur o) True.
Proof.
  intros s (H1 & H2 & H3). do 2 eexists. split; [reflexivity|].
  split; [split; [exact H1|split; [exact H2|discriminate]]|split; [tauto|split; [discriminate|split; discriminate]]].
Qed.
Lemma wins_next E d q m k P Q : wins E d q m P -> (P -> wins E d q k Q) -> wins E d q (m ;;; k) (P /\ Q).
Proof.
  intros Hm Hk s Hs. destruct (Hm s Hs) as (r & s' & H1 & H2 & H3 & H4 & H5 & H6). unfold bind. rewrite H1.
  assert (Hno : r <> Ok tt -> forall r', r' <> Ok tt -> (r' = Ok tt <-> P /\ Q)).
  { intros Hr r' Hr'. split; [congruence|]. intros [HP _]. apply H3 in HP. congruence. }
  destruct r as [[]|e| | |].
  - destruct (Hk (proj1 H3 eq_refl) s' H2) as (r' & s2 & K1 & K2 & K3 & K4). exists r', s2. split; [exact K1|]. split; [exact K2|].
    split; [rewrite K3; tauto|exact K4].
  - exists (Err e), s'. split; [reflexivity|]. split; [exact H2|]. split; [apply Hno; discriminate|]. split; [discriminate|split; discriminate].
  - exists Panic, s'. split; [reflexivity|]. split; [exact H2|]. split; [apply Hno; discriminate|]. split; [discriminate|split; [discriminate|exact H6]].
  - exists Deep, s'. split; [reflexivity|]. split; [exact H2|]. split; [apply Hno; discriminate|]. split; [discriminate|split; [exact H5|discriminate]].
  - congruence.
Qed.
Lemma wins_then E d q m k P Q : wins E d q m P -> wins E d q k Q -> wins E d q (m ;;; k) (P /\ Q).
Proof. intros H1 H2. now apply wins_next. Qed.
Lemma wins_get_enc E d q k P : wins E d q (k E) P -> wins E d q (bind e_get_enc k) P.
Proof. intros H s Hs. destruct (H s Hs) as (r & s' & H1 & H2). exists r, s'. unfold bind, e_get_enc. destruct Hs as [-> _]. auto. Qed.
Lemma wins_map_err E d q f m P : wins E d q m P -> wins E d q (map_err f m) P.
Proof.
  intros H s Hs. destruct (H s Hs) as (r & s' & H1 & H2 & H3 & H4). unfold map_err. rewrite H1.
  destruct r; do 2 eexists; (split; [reflexivity|]); (split; [exact H2|]); try (split; [exact H3|exact H4]).
  split; [|split; [discriminate|split; discriminate]].
  split; [discriminate|]. intro HP. apply H3 in HP. discriminate.
Qed.
Lemma wins_both E d q m k P : wins E d q m True -> wins E d q k P -> wins E d q (m ;;; k) P.
Proof. intros H1 H2. eapply wins_iff; [apply (wins_then _ _ _ _ _ _ _ H1 H2)|]. tauto. Qed.
Lemma wins_if E d q (b : bool) m k P Q : (b = true -> wins E d q m P) -> (b = false -> wins E d q k Q) ->
  wins E d q (if b then m else k) (if b then P else Q).
Proof. destruct b; auto. Qed.

(** * Primitives *)
Lemma wins_bytes_nolen E d q b : wins E d q (write_bytes_nolen b) True.
Proof. unfold write_bytes_nolen. destruct b; [apply wins_ret|apply wins_to_writer]. Qed.
Lemma wins_uvarint E d (q : Prop) n : 0 <= n < 2 ^ 63 -> (q -> n < 2 ^ 56) -> wins E d q (write_uvarint n) (n < 2 ^ 56).
Proof.
  intros Hn Hq. destruct (Z.lt_ge_cases n (2 ^ 56)) as [H|H].
  - unfold write_uvarint, put_uvarint, uwrap. rewrite Z.mod_small by lia. rewrite uvarint_bytes_leb by lia.
    pose proof (leb128_len56 n ltac:(lia)). destruct (Z.leb_spec (zlen (leb128 n)) 8); [|lia].
    eapply wins_iff; [apply wins_to_writer|tauto].
  - intros s Hs. rewrite uvarint_limit by lia. exists Panic, s.
    split; [reflexivity|split; [exact Hs|split; [split; [discriminate|lia]|split; [discriminate|split; [discriminate|]]]]]. intro K. specialize (Hq K). lia.
Qed.
Lemma wins_count E d (q : Prop) n : 0 <= n < 2 ^ 63 -> (q -> n < 2 ^ 56) -> wins E d q (write_count E n) (countable E n).
Proof.
  intros Hn Hq. unfold countable. destruct E; cbn [write_count].
  - eapply wins_iff; [now apply wins_uvarint|]. split; auto.
  - eapply wins_iff; [apply wins_to_writer|]. split; [discriminate|auto].
  - eapply wins_iff; [apply wins_to_writer|]. split; [discriminate|auto].
Qed.
Lemma wins_str E d q s : wins E d q (write_str E s) True.
Proof.
  destruct E; cbn [write_str]; unfold write_rust_string, write_string, write_bytes, write_length.
  1: apply wins_both; [apply wins_to_writer|apply wins_bytes_nolen].
  all: apply wins_both; [|apply wins_bytes_nolen]; apply wins_get_enc; [apply wins_bytes_nolen||apply wins_to_writer].
Qed.
Lemma wins_string d q s : wins Borsh d q (write_string s) True.
Proof. exact (wins_str Borsh d q s). Qed.
Lemma wins_int E d q w z o : wins E d q (write_int E w z o) True.
Proof. unfold write_int. destruct w; apply wins_to_writer. Qed.
Lemma quiet_nan f b : f_isnan f (quiet f b) = f_isnan f b.
Proof.
  destruct f; [|reflexivity]. unfold quiet. destruct (f_isnan F32 b) eqn:En; cbn [andb]; [|exact En].
  destruct (Z.testbit b 22) eqn:Eb; cbn [negb]; [exact En|].
  rewrite Z.testbit_odd, Z.shiftr_div_pow2 in Eb by lia.
  unfold f_isnan, fmag in *. cbn [finf fbits] in *. change (2 ^ (32 - 1)) with (512 * 2 ^ 22) in *. apply Z.ltb_lt in En. apply Z.ltb_lt.
  rewrite <- Z.negb_even in Eb. apply negb_false_iff, Zeven_bool_iff, Zeven_div2 in Eb. rewrite Z.div2_div in Eb. lia.
Qed.
Lemma wins_float E d q f b o : wins E d q (write_float f (f32_through64 f b) o) (E = Borsh -> f_isnan f b = false).
Proof.
  unfold write_float. apply wins_get_enc. rewrite quiet_spec, quiet_nan.
  destruct E; cbn [is_borsh andb]; try (eapply wins_iff; [apply wins_to_writer|split; [discriminate|auto]]).
  destruct (f_isnan f b); [eapply wins_iff; [apply wins_fail|split; [easy|intro H; now specialize (H eq_refl)]]|].
  eapply wins_iff; [apply wins_to_writer|tauto].
Qed.
Lemma nums_fits w t vs : uint_kind t = Some w -> Forall (fits t) vs -> exists zs, nums vs = Some zs.
Proof.
  intros Hk H. induction H as [|v vs Hv _ (zs & IH)]; [now exists []|]. cbn [nums].
  assert (Hz : exists z, v = VNum z).
  { clear -Hk Hv. revert Hk Hv. induction t; intros; try discriminate; cbn [uint_kind fits] in *; auto. destruct Hv as (z & -> & _). eauto. }
  destruct Hz as (z & ->). rewrite IH. eauto.
Qed.
Lemma wins_uints E d (q : Prop) t w n l : uint_kind t = Some w -> Forall (fits t) l -> (q -> 0 <= n <= zlen l) -> wins E d q (write_uints w n l) (0 <= n <= zlen l).
Proof.
  intros Hk Hl Hq. unfold write_uints.
  destruct (Z.ltb_spec n 0); cbn [orb]; [eapply wins_iff; [apply wins_panic; intro K; specialize (Hq K); lia|lia]|].
  destruct (Z.ltb_spec (zlen l) n); [eapply wins_iff; [apply wins_panic; intro K; specialize (Hq K); lia|lia]|].
  destruct (nums_fits _ _ _ Hk Hl) as (zs & ->). eapply wins_iff; [apply wins_bytes_nolen|]. lia.
Qed.
Lemma wins_each {A} E d q (f : A -> EM unit) (P : A -> Prop) l : Forall (fun a => wins E d q (f a) (P a)) l -> wins E d q (each f l) (Forall P l).
Proof.
  induction 1 as [|a l Ha _ IH]; cbn [each].
  - eapply wins_iff; [apply wins_ret|]. split; [constructor|auto].
  - eapply wins_iff; [apply (wins_then _ _ _ _ _ _ _ Ha IH)|]. split; [intros []; now constructor|]. intro H; now inversion H.
Qed.


(** * Structs *)
Lemma sm_get_sizes (sm : smap) (s : sizes) : (forall y, sm_get sm y = s y) -> forall n z y,
  sm_get ((n, z) :: sm) y = (if String.eqb n y then Some z else s y).
Proof. intros H n z y. cbn [sm_get]. destruct (String.eqb n y); auto. Qed.

Definition unsized (fs : list (fhdr * ty)) : Prop := forall h t, In (h, t) fs -> ft_sizeof (parse_field_tag (f_tag h)) = EmptyString.
Lemma wins_fields E d (q : Prop) W rec fs : forall vs sm s, (forall y, sm_get sm y = s y) -> (q -> unsized fs) -> (q -> forall y, s y = None) ->
  Forall2 (fun ht v => forall opt copt sz o, wins E d (q /\ sz = None) (rec (snd ht) (mkOpt opt copt sz o) v) (W (snd ht) (At opt (copt && is_borsh E) sz) v)) fs vs ->
  wins E d q (enc_fields E rec fs vs sm) (fields_writable E W fs vs s).
Proof.
  induction fs as [|[h t] fs IH]; intros vs sm s Hs Hq Hqs Hf; inversion_clear Hf as [|? v ? vs' Hv Hf']; cbn [enc_fields fields_writable]; [apply wins_ret|].
  assert (Hq' : q -> unsized fs) by (intros K h' t' Hin; apply (Hq K h' t'); now right).
  cbn [snd] in Hv. set (tg := parse_field_tag (f_tag h)).
  destruct (ft_skip tg); [now apply IH|]. rewrite <- (size_of_val t v).
  assert (Hhere : forall sm' s', (forall y, sm_get sm' y = s' y) -> (q -> forall y, s' y = None) ->
    wins E d q (if negb (f_exported h) then enc_fields E rec fs vs' sm'
              else map_err EWrap (rec t (field_opt E tg (f_name h) sm') v) ;;; enc_fields E rec fs vs' sm')
      ((f_exported h = true -> W t (At (ft_option tg) (ft_coption tg && is_borsh E) (s' (f_name h))) v) /\ fields_writable E W fs vs' s')).
  { intros sm' s' Hs' Hqs'. destruct (f_exported h); cbn [negb].
    - eapply wins_iff; [apply wins_then; [apply wins_map_err; eapply wins_calm; [apply Hv|]|apply (IH _ _ s' Hs' Hq' Hqs' Hf')]|].
      { intro K. split; [exact K|]. rewrite Hs'. now apply Hqs'. }
      rewrite (Hs' (f_name h)). unfold tg. replace (is_borsh E && ft_coption (parse_field_tag (f_tag h)) && is_borsh E) with (ft_coption (parse_field_tag (f_tag h)) && is_borsh E) by (destruct (is_borsh E), (ft_coption (parse_field_tag (f_tag h))); reflexivity). tauto.
    - eapply wins_iff; [apply (IH _ _ s' Hs' Hq' Hqs' Hf')|]. split; [split; [discriminate|]; assumption|tauto]. }
  destruct (ft_sizeof tg) as [|ch st] eqn:En; [now apply Hhere|].
  change (String.eqb (String ch st) "") with false. cbv iota.
  assert (Hnq : ~ q) by (intro K; pose proof (Hq K h t (or_introl eq_refl)) as Hz; fold tg in Hz; congruence).
  destruct (size_of t v) as [z|]; [|now apply wins_panic].
  apply (Hhere ((String ch st, z) :: sm) (fun y => if String.eqb (String ch st) y then Some z else s y)); [now apply sm_get_sizes|tauto].
Qed.
Lemma wins_chosen E d q (f : fhdr -> ty -> val -> EM unit) P fs : forall vs n,
  Forall2 (fun ht v => wins E d q (f (fst ht) (snd ht) v) (P (fst ht) (snd ht) v)) fs vs ->
  wins E d q (nth_field f (fail EMsg) stuck fs vs n) (chosen P fs vs n).
Proof.
  induction fs as [|[h t] fs IH]; intros vs n H; inversion_clear H as [|? v ? vs' Hv H']; cbn [nth_field chosen]; [apply wins_fail|].
  destruct n as [|n]; [exact Hv|now apply IH].
Qed.
Lemma fields_both (P : fhdr -> ty -> val -> Prop) fs : forall vs, fits_fields fits fs vs -> each_field (real (2 ^ 63)) fs vs ->
  (forall h t v, In (h, t) fs -> fits t v -> real (2 ^ 63) t v -> P h t v) -> Forall2 (fun ht v => P (fst ht) (snd ht) v) fs vs.
Proof.
  induction fs as [|[h t] fs IH]; intros [|v vs] Hf Hr H; try easy. destruct Hf as [Hv Hf]. destruct Hr as [Hr' Hr].
  constructor; [apply H; auto; now left|].
  apply IH; [exact Hf|exact Hr|]. intros h' t' v' Hin. apply H. now right.
Qed.
Lemma fields_fit (P : fhdr -> ty -> val -> Prop) fs : forall vs, fits_fields fits fs vs ->
  (forall h t v, In (h, t) fs -> fits t v -> P h t v) -> Forall2 (fun ht v => P (fst ht) (snd ht) v) fs vs.
Proof.
  induction fs as [|[h t] fs IH]; intros [|v vs] Hf H; try easy. destruct Hf as [Hv Hf].
  constructor; [apply H; auto; now left|].
  apply IH; [exact Hf|]. intros h' t' v' Hin. apply H. now right.
Qed.
Lemma enum_first fs vs E : enum_struct E fs = true -> fits_fields fits fs vs -> exists z r, vs = VNum z :: r /\ 0 <= z < 256.
Proof.
  intros En Hf. destruct E; try discriminate. destruct fs as [|[h0 t0] fs]; [discriminate|]. cbn [enum_struct] in En.
  destruct t0 as [|un w| | | | | | | | | | | | |]; try discriminate.
  destruct un; try discriminate. destruct w; try discriminate. destruct vs as [|v0 r]; [easy|]. destruct Hf as [(z & -> & Hz) _].
  now exists z, r.
Qed.
Lemma wins_hidden d (q : Prop) rec fs : forall vs sm, fits_fields fits fs vs -> (q -> unsized fs) -> wins Borsh d q (enc_fields Borsh rec (hide fs) vs sm) (counts_given fs vs).
Proof.
  induction fs as [|[h t] fs IH]; intros [|v vs] sm Hf Hq; try easy; [apply wins_ret|]. destruct Hf as [_ Hf].
  assert (Hq' : q -> unsized fs) by (intros K h' t' Hin; apply (Hq K h' t'); now right).
  cbn [hide map enc_fields counts_given fst snd f_tag f_exported negb]. fold (hide fs). cbv zeta.
  destruct (ft_skip (parse_field_tag (f_tag h))).
  { eapply wins_iff; [now apply IH|]. split; [split; [discriminate|assumption]|tauto]. }
  destruct (ft_sizeof (parse_field_tag (f_tag h))) as [|ch st] eqn:En.
  { eapply wins_iff; [now apply IH|]. split; [split; [easy|assumption]|tauto]. }
  change (String.eqb (String ch st) "") with false. cbv iota. rewrite <- size_of_val. destruct (size_of t v) as [z|].
  - eapply wins_iff; [now apply IH|]. split; [split; [discriminate|assumption]|tauto].
  - eapply wins_iff; [apply wins_panic|].
    { intro K. pose proof (Hq K h t (or_introl eq_refl)). congruence. }
    split; [easy|]. intros [H _]. apply H; [reflexivity|discriminate|reflexivity].
Qed.
Lemma uncut_field d fs h t : (d || uncut (TStruct fs))%bool = true -> In (h, t) fs -> (d || uncut t)%bool = true.
Proof.
  intros H Hin. destruct d; [reflexivity|]. cbn [orb uncut] in *. rewrite forallb_forall in H. exact (H _ Hin).
Qed.
Lemma smooth_field E fs h t : smooth E (TStruct fs) = true -> In (h, t) fs -> smooth E t = true.
Proof. intros H Hin. cbn [smooth] in H. rewrite forallb_forall in H. specialize (H _ Hin). now apply andb_prop in H. Qed.
Lemma smooth_unsized E fs : smooth E (TStruct fs) = true -> unsized fs.
Proof.
  intros H h t Hin. cbn [smooth] in H. rewrite forallb_forall in H. specialize (H _ Hin). apply andb_prop in H as [H _]. cbn [fst] in H.
  now destruct (ft_sizeof (parse_field_tag (f_tag h))).
Qed.
Lemma wins_sealed d (q : Prop) t : forall v, (d || uncut t)%bool = true -> fits t v -> (q -> smooth Borsh t = true) -> wins Borsh d q (enc_sealed t v) (veiled t v).
Proof.
  induction t as [t IH] using ty_strong_ind. intros v Hd Hf Hq.
  destruct t as [|un w|nm w|f| |sg| | |t|n t|t|t1 t2|fs|cd t|]; cbn [enc_sealed veiled];
    try (destruct v; apply wins_ret).
  - destruct Hf as (x & ->). apply wins_to_writer.
  - destruct Hf as (x & -> & _). apply (wins_int Borsh).
  - destruct Hf as (x & -> & _). apply (wins_int Borsh).
  - destruct Hf as (x & -> & _). eapply wins_iff; [apply (wins_float Borsh)|]. split; auto.
  - destruct Hf as (x & -> & _). apply wins_string.
  - destruct Hf as (vs & -> & Hf). pose proof (EncWire.is_enum_spec Borsh fs) as He. cbn [is_borsh andb] in He. rewrite He.
    destruct (enum_struct Borsh fs) eqn:En; [|apply wins_hidden; [exact Hf|intro K; exact (smooth_unsized _ _ (Hq K))]].
    destruct (enum_first _ _ _ En Hf) as (z & r & -> & Hz). apply wins_both; [apply wins_to_writer|].
    rewrite Z.mod_small by lia. apply wins_chosen.
    apply (fields_fit (fun h t v => wins Borsh d q (match t with TPtr t'' => match v with VPtr (Some x) => enc_sealed t'' x | VPtr None => ret tt | _ => stuck end | _ => enc_sealed t v end)
       (match t with TPtr t'' => match v with VPtr (Some x) => veiled t'' x | _ => True end | _ => veiled t v end))); [exact Hf|].
    intros h t v Hin Hv. pose proof (ty_size_field _ _ _ Hin) as Hs. pose proof (uncut_field d fs h t Hd Hin) as Hd'.
    assert (Hq' : q -> smooth Borsh t = true) by (intro K; exact (smooth_field _ _ _ _ (Hq K) Hin)).
    destruct t; try (apply IH; auto; fail).
    destruct Hv as (p & -> & Hx). destruct p as [x|]; [|apply wins_ret]. apply (IH t); [cbn [ty_size] in *; lia|exact Hd'|exact (Hx x eq_refl)|]. intro K. specialize (Hq' K). cbn [smooth] in Hq'. now apply andb_prop in Hq'.
  - cbn [fits uncut] in *. assert (Hw : wins Borsh d q (enc_sealed t v) (veiled t v)) by (apply IH; auto).
    destruct v; exact Hw.
  - cbn [uncut] in Hd. rewrite orb_false_r in Hd. subst d. destruct v; apply wins_deep.
Qed.

(** * Maps *)
Lemma find_none_distinct kt m e : distinct kt (map fst m) -> In e m -> key_eqb kt (fst e) (fst e) = false -> map_index kt m (fst e) = None.
Proof.
  intros Hd Hin He. unfold map_index.
  assert (H : forall x, In x m -> key_eqb kt (fst x) (fst e) = false).
  { induction m as [|y m IH]; [easy|]. inversion_clear Hd as [|? ? Hy Hm]. rewrite Forall_forall in Hy.
    intros x [->|Hx].
    - destruct Hin as [->|Hin]; [exact He|]. now destruct (Hy (fst e) (in_map fst _ _ Hin)).
    - destruct Hin as [->|Hin]; [now destruct (Hy (fst x) (in_map fst _ _ Hx))|]. now apply IH. }
  destruct (find _ m) as [x|] eqn:Ef; [|reflexivity]. apply find_some in Ef as [E1 E2]. rewrite (H x E1) in E2. discriminate.
Qed.
Lemma unsortable_none t d : key_sortable d t = false -> key_ltb_k (negb d) t = None.
Proof.
  revert d. induction t; intros d H; cbn [key_sortable key_ltb_k] in *; try discriminate; try reflexivity; auto.
  - destruct w; try discriminate. destruct n, d; try discriminate; reflexivity.
  - destruct w; try discriminate. destruct named, d; try discriminate; reflexivity.
  - now apply (IHt true).
Qed.
Lemma each_map {A B} (f : B -> EM unit) (g : A -> B) l s : each f (map g l) s = each (fun a => f (g a)) l s.
Proof. revert s. induction l as [|a l IH]; intro s; [reflexivity|]. cbn [map each]. unfold bind. destruct (f (g a) s) as [[] s']; auto. Qed.
Lemma wins_ext E d q m m' P : (forall s, m s = m' s) -> wins E d q m P -> wins E d q m' P.
Proof. intros H Hm s Hs. rewrite <- H. now apply Hm. Qed.
Lemma keys_entries E kt m : (E = Borsh -> (2 <= length m)%nat -> key_sortable false kt = true) ->
  exists m', ordered_keys E kt (map fst m) = Some (map fst m') /\ forall e : val * val, In e m' <-> In e m.
Proof.
  intro Hs. destruct E; [exists m; split; [reflexivity|tauto]|exists m; split; [reflexivity|tauto]|]. specialize (Hs eq_refl).
  destruct m as [|e1 [|e2 m]]; [exists []; split; [reflexivity|tauto]|exists [e1]; split; [reflexivity|tauto]|].
  set (l := e1 :: e2 :: m) in *.
  destruct (key_ltb_before kt false) as (lt & H1 & _). { apply Hs. unfold l. cbn. lia. }
  exists (sort (fun a b => lt (fst a) (fst b)) l). split; [|intro; apply sort_in].
  change (ordered_keys Borsh kt (map fst l)) with (match key_ltb kt with Some lt => Some (isort lt (map fst l)) | None => None end).
  unfold key_ltb. cbn [negb] in H1. rewrite H1, isort_sort, sort_map. reflexivity.
Qed.
Lemma wins_map E d (q : Prop) kt vt enck encv (Pk Pv : val -> Prop) m :
  no_iface kt = true -> no_iface vt = true -> zlen m < 2 ^ 63 -> distinct kt (map fst m) ->
  (q -> zlen m < 2 ^ 56) -> (q -> E = Borsh -> key_sortable false kt = true) ->
  (q -> forall e, In e m -> Pk (fst e) -> key_eqb kt (fst e) (fst e) = true) ->
  Forall (fun e => wins E d q (enck (fst e)) (Pk (fst e)) /\ wins E d q (encv (snd e)) (Pv (snd e))) m ->
  wins E d q (match ordered_keys E kt (map fst m) with
            | None => unsortable kt
            | Some keys => write_count E (zlen m) ;;; enc_map kt vt enck encv m keys
            end)
    ((E = Borsh -> (2 <= length m)%nat -> key_sortable false kt = true) /\ countable E (zlen m) /\
     Forall (fun e => Pk (fst e) /\ key_eqb kt (fst e) (fst e) = true /\ Pv (snd e)) m).
Proof.
  intros Hik Hiv Hlen Hdist Hq1 Hq2 Hq3 Hall.
  assert (Hcase : (E = Borsh -> (2 <= length m)%nat -> key_sortable false kt = true) \/
    (E = Borsh /\ (2 <= length m)%nat /\ key_sortable false kt = false)).
  { destruct E; try (left; discriminate). destruct (key_sortable false kt); [left; auto|].
    destruct (Nat.le_gt_cases 2 (length m)); [right; auto|left; lia]. }
  destruct Hcase as [Hs|(-> & H2 & Hs)].
  - destruct (keys_entries E kt m Hs) as (m' & -> & Hin).
    eapply wins_iff; [apply wins_then; [apply wins_count; [pose proof (zlen_nonneg m); lia|exact Hq1]|]|].
    + unfold enc_map. eapply wins_ext; [intro s; symmetry; apply each_map|].
      apply (wins_each E d q _ (fun e => Pk (fst e) /\ key_eqb kt (fst e) (fst e) = true /\ Pv (snd e)) m').
      apply Forall_forall. intros e He. apply Hin in He. rewrite Forall_forall in Hall. destruct (Hall e He) as [Hk Hv].
      rewrite iface_elem_true by (intros ->; discriminate). cbn [negb]. apply wins_next; [exact Hk|]. intro HPk.
      destruct (key_eqb kt (fst e) (fst e)) eqn:Ek.
      * rewrite (find_distinct kt m e Hdist He Ek). rewrite iface_elem_true by (intros ->; discriminate). cbn [negb].
        eapply wins_iff; [exact Hv|tauto].
      * rewrite (find_none_distinct kt m e Hdist He Ek). eapply wins_iff; [apply wins_panic|split; [easy|intros [? _]; discriminate]].
        intro K. specialize (Hq3 K e He HPk). congruence.
    + rewrite !Forall_forall. split.
      * intros [H1 H3]. split; [exact Hs|]. split; [exact H1|]. intros e He. apply H3. now apply Hin.
      * intros (_ & H1 & H3). split; [exact H1|]. intros e He. apply H3. now apply Hin.
  - assert (Hk : ordered_keys Borsh kt (map fst m) = None).
    { destruct m as [|e1 [|e2 m]]; cbn [length] in H2; try lia. cbn [map ordered_keys]. unfold key_ltb.
      change true with (negb false). now rewrite (unsortable_none kt false Hs). }
    rewrite Hk. unfold unsortable. eapply wins_iff with (P := False).
    + destruct kt; try (apply wins_panic; intro K; specialize (Hq2 K eq_refl); congruence). discriminate.
    + split; [easy|]. intros [H _]. rewrite (H eq_refl H2) in Hs. discriminate.
Qed.

(** * Values *)

(** What is known about the methods: on every value they succeed exactly if
    [own] says so; if [K], they do not panic either, as long as lengths are below
    2^56 and there is something to call them on. *)
Definition obeys (E : encoding) (K : Prop) (own : codec -> option val -> Prop) (c : codec) (u : ty) : Prop :=
  forall f, c_marshal c = Some f ->
    (forall v, fits u v -> real (2 ^ 63) u v -> wins E false (K /\ real (2 ^ 56) u v) (f v) (own c (Some v))) /\
    (c_byval c = false -> wins E false K (c_marshal_nil c) (own c None)).

Lemma wins_weak E d q m P : wins E false q m P -> wins E d q m P.
Proof. intros H s Hs. destruct (H s Hs) as (r & s' & H1 & H2 & H3 & H4 & H5 & H6). exists r, s'. repeat (split; [assumption|]). split; [|exact H6]. intro K. now specialize (H5 K). Qed.

Lemma real_zero lim t : 0 < lim -> real lim t (zero_val t).
Proof.
  intro Hlim.
  induction t as [t IH] using ty_strong_ind.
  destruct t as [|un w|nm w|f| |sg| | |t|n t|t|t1 t2|fs|cd t|]; cbn [zero_val real]; auto.
  - apply Forall_forall. intros x Hx. apply repeat_spec in Hx. subst x. apply IH. cbn. lia.
  - assert (H : forall h t, In (h, t) fs -> real lim t (zero_val t)) by (intros h t Hin; apply IH; now apply (ty_size_field _ h)).
    clear IH. induction fs as [|[h t] fs IHf]; [exact I|]. cbn [map each_field snd]. split; [apply (H h); now left|].
    apply IHf. intros h' t' Hin. apply (H h'). now right.
Qed.
Lemma Forall_plain (P : val -> Prop) (Q : val -> Prop) l : (forall x, Q x -> P x) -> Forall Q l -> Forall P l.
Proof. intros H. apply Forall_impl. exact H. Qed.

Lemma firstn_in' {A} (l : list A) n x : In x (firstn n l) -> In x l.
Proof. intro H. rewrite <- (firstn_skipn n l). apply in_or_app. now left. Qed.
Definition site_of (E : encoding) (m : emode) : site :=
  match m with EFull o => At (o_opt o) (o_copt o && is_borsh E) (o_size o) | EPayload => InEnum end.

Lemma wins_flag E d q b : wins E d q (write_flag E b) True.
Proof. destruct E; apply wins_to_writer. Qed.

Lemma wins_frame E d q o v core P : wins E d q core P ->
  wins E d q (e_set_cur (o_order o) ;;;
      let rest :=
        if is_borsh E && o_copt o then
          if is_zero v then write_coption false else write_coption true ;;; core
        else core in
      if o_opt o then
        if is_zero v then write_flag E false else write_flag E true ;;; rest
      else rest)
    (if (o_opt o || (o_copt o && is_borsh E)) && is_zero v then True else P).
Proof.
  intro H. apply wins_both; [apply wins_set_cur|]. cbv zeta. rewrite (andb_comm (o_copt o)).
  destruct (o_opt o), (is_borsh E && o_copt o), (is_zero v); cbn [orb andb];
    repeat (apply wins_flag || apply wins_to_writer || exact H || (apply wins_both; [apply wins_flag || apply wins_to_writer|])).
Qed.


Lemma selfsame_refl t : selfsame t = true -> forall v, fits t v -> key_eqb t v v = true.
Proof.
  induction t as [t IH] using ty_strong_ind. intros Hs v Hf.
  destruct t as [|un w|nm w|f| |sg| | |t|n t|t|t1 t2|fs|cd t|]; try discriminate.
  - destruct Hf as (x & ->). now destruct x.
  - destruct Hf as (x & -> & _). apply Z.eqb_refl.
  - destruct Hf as (x & -> & _). apply Z.eqb_refl.
  - destruct Hf as (x & -> & _). cbn [key_eqb]. now destruct (list_eq_dec Z.eq_dec x x).
  - destruct Hf as (x & -> & _). apply Z.eqb_refl.
  - destruct Hf as (l & -> & _ & Hf). cbn [key_eqb selfsame] in *. induction Hf as [|x l Hx _ IHl]; [reflexivity|].
    rewrite IHl, (IH t ltac:(cbn; lia) Hs x Hx). reflexivity.
  - destruct Hf as (vs & -> & Hf). cbn [key_eqb selfsame] in *. rewrite forallb_forall in Hs.
    assert (H : forall h t, In (h, t) fs -> forall v, fits t v -> key_eqb t v v = true).
    { intros h t Hin. apply IH; [now apply (ty_size_field _ h)|exact (Hs _ Hin)]. }
    clear IH Hs. revert vs Hf. induction fs as [|[h t] fs IHf]; intros [|v vs] Hf; try easy. destruct Hf as [Hv Hf].
    rewrite (IHf (fun h' t' Hin => H h' t' (or_intror Hin)) vs Hf). cbn [snd]. rewrite (H h t (or_introl eq_refl) v Hv). now rewrite orb_true_r.
  - cbn [key_eqb selfsame fits] in *. apply IH; auto.
Qed.
Definition calmly (E : encoding) (K : Prop) (t : ty) (m : emode) (v : val) : Prop :=
  K /\ smooth E t = true /\ real (2 ^ 56) t v /\ match m with EFull o => o_size o = None | EPayload => True end.

Lemma fields_both3 (q : Prop) (P : fhdr -> ty -> val -> Prop) fs : forall vs, fits_fields fits fs vs -> each_field (real (2 ^ 63)) fs vs ->
  (q -> each_field (real (2 ^ 56)) fs vs) ->
  (forall h t v, In (h, t) fs -> fits t v -> real (2 ^ 63) t v -> (q -> real (2 ^ 56) t v) -> P h t v) -> Forall2 (fun ht v => P (fst ht) (snd ht) v) fs vs.
Proof.
  induction fs as [|[h t] fs IH]; intros [|v vs] Hf Hr Hq H; try easy. destruct Hf as [Hv Hf]. destruct Hr as [Hr' Hr].
  constructor; [apply H; [now left|exact Hv|exact Hr'|exact (fun Q => proj1 (Hq Q))]|].
  apply IH; [exact Hf|exact Hr|exact (fun Q => proj2 (Hq Q))|]. intros h' t' v' Hin. apply H. now right.
Qed.
Lemma wins_enc E K own d t : all_codecs (obeys E K own) t -> plain_maps t = true -> (d || uncut t)%bool = true ->
  forall m v, (m = EPayload -> E = Borsh) -> fits t v -> real (2 ^ 63) t v ->
  wins E d (calmly E K t m v) (enc_val E t m v) (writable E own t (site_of E m) v).
Proof.
  induction t as [t IH] using ty_strong_ind. intros Hc Hp Hd m v Hm Hf Hr.
  destruct t as [|un w|nm w|f| |sg| | |t|n t|t|t1 t2|fs|cd t|]; cbn [enc_val writable];
  lazymatch goal with
  | |- wins _ _ ?q (match m with EFull _ => _ | EPayload => ?core end) (match site_of E m with At _ _ _ => _ | InEnum => ?P end) =>
      assert (Hcore : wins E d q core P); [|destruct m as [o|]; [exact (wins_frame E d _ o v _ _ Hcore)|exact Hcore]]
  end.
  all: match goal with |- wins _ _ ?q0 _ _ => set (q := q0) end.
  - destruct Hf as (b & ->). apply wins_to_writer.
  - destruct Hf as (z & -> & _). apply wins_int.
  - destruct Hf as (z & -> & _). apply wins_int.
  - destruct Hf as (z & -> & _). apply wins_float.
  - destruct Hf as (z & -> & _). apply wins_str.
  - destruct v; (destruct m; [apply wins_fail|apply wins_ret]).
  - destruct v; (destruct m; [apply wins_fail|apply wins_ret]).
  - destruct Hf as (x & ->). destruct m; apply wins_ret.
  - (* pointer *)
    destruct Hf as (p & -> & Hx). destruct m as [o|]; [|apply wins_ret]. cbn [site_of real plain_maps uncut all_codecs] in *.
    assert (IHt : forall m v, (m = EPayload -> E = Borsh) -> fits t v -> real (2 ^ 63) t v -> wins E d (calmly E K t m v) (enc_val E t m v) (writable E own t (site_of E m) v)).
    { apply IH; auto. }
    assert (Hsm : q -> K /\ smooth E t = true /\ (is_borsh E || match pointee_method t with Some c => negb (c_byval c) | None => true end) = true /\ o_size o = None).
    { intros (K1 & K2 & _ & K4). cbn [smooth] in K2. now apply andb_prop in K2. }
    assert (Hrm : q -> forall x, p = Some x -> real (2 ^ 56) t x).
    { intros (_ & _ & K3 & _) x ->. exact K3. }
    assert (Hplain : wins E d q
       match p with
       | Some x => match E with Borsh => enc_val E t (EFull opt0) x | _ => enc_val E t (EFull (cut_opt o)) x end
       | None => match E with Borsh => enc_val E t (EFull opt0) (zero_val t) | _ => ret tt end
       end
       match p with
       | Some x => writable E own t (At false false (if is_borsh E then None else o_size o)) x
       | None => E = Borsh -> writable E own t plainly (zero_val t)
       end).
    { destruct p as [x|].
      - specialize (Hx x eq_refl). destruct E; cbn [is_borsh].
        + eapply wins_calm; [apply (IHt (EFull (cut_opt o))); [discriminate|exact Hx|exact Hr]|].
          intro Q. destruct (Hsm Q) as (K1 & K2 & _ & K4). repeat (split; [now eauto|]). exact K4.
        + eapply wins_calm; [apply (IHt (EFull (cut_opt o))); [discriminate|exact Hx|exact Hr]|].
          intro Q. destruct (Hsm Q) as (K1 & K2 & _ & K4). repeat (split; [now eauto|]). exact K4.
        + eapply wins_calm; [apply (IHt (EFull opt0)); [discriminate|exact Hx|exact Hr]|].
          intro Q. destruct (Hsm Q) as (K1 & K2 & _ & K4). repeat (split; [now eauto|]). reflexivity.
      - destruct E.
        + eapply wins_iff; [apply wins_ret|]. split; [discriminate|auto].
        + eapply wins_iff; [apply wins_ret|]. split; [discriminate|auto].
        + eapply wins_iff; [eapply wins_calm; [apply (IHt (EFull opt0)); [discriminate|apply fits_zero|now apply real_zero]|]|].
          * intro Q. destruct (Hsm Q) as (K1 & K2 & _ & K4). split; [exact K1|]. split; [exact K2|]. split; [now apply real_zero|reflexivity].
          * unfold plainly. split; auto. }
    unfold pointee_method. destruct (codec_of t) as [c|] eqn:Ec.
    + destruct t as [| | | | | | | | | | | | |c' u|]; try discriminate. injection Ec as ->. destruct (c_marshal c) as [f|] eqn:Ef.
      2: { destruct p; exact Hplain. }
      destruct Hc as [Hob _]. destruct (Hob f Ef) as [H1 H2]. destruct p as [x|].
      * eapply wins_calm; [apply wins_weak, H1; [exact (Hx x eq_refl)|exact Hr]|]. intro Q. split; [exact (proj1 (Hsm Q))|exact (Hrm Q x eq_refl)].
      * destruct E.
        -- destruct (c_byval c) eqn:Ev.
           { eapply wins_iff; [apply wins_panic|intuition discriminate]. intro Q. destruct (Hsm Q) as (_ & _ & K3 & _).
             unfold pointee_method in K3. rewrite Ef in K3. cbn [is_borsh orb] in K3. rewrite Ev in K3. discriminate. }
           eapply wins_iff; [eapply wins_calm; [apply wins_weak, (H2 eq_refl)|exact (fun Q => proj1 (Hsm Q))]|]. intuition discriminate.
        -- destruct (c_byval c) eqn:Ev.
           { eapply wins_iff; [apply wins_panic|intuition discriminate]. intro Q. destruct (Hsm Q) as (_ & _ & K3 & _).
             unfold pointee_method in K3. rewrite Ef in K3. cbn [is_borsh orb] in K3. rewrite Ev in K3. discriminate. }
           eapply wins_iff; [eapply wins_calm; [apply wins_weak, (H2 eq_refl)|exact (fun Q => proj1 (Hsm Q))]|]. intuition discriminate.
        -- eapply wins_iff; [apply wins_ret|]. tauto.
    + assert (Hn : match t with TCodec c _ => match c_marshal c with Some _ => Some c | None => None end | _ => None end = None).
      { destruct t; try reflexivity. discriminate. }
      rewrite Hn. destruct p; exact Hplain.
  - (* array *)
    destruct Hf as (l & -> & Hl & Hf). destruct m as [o|]; [|apply wins_ret]. cbn [site_of real plain_maps uncut all_codecs] in *.
    destruct (uint_kind t) as [w|] eqn:Ek.
    + eapply wins_iff; [apply (wins_uints E d q t w _ l Ek Hf); unfold zlen; lia|]. unfold zlen. split; [discriminate|lia].
    + eapply wins_iff; [apply (wins_each E d q _ (writable E own t plainly))|tauto].
      rewrite Forall_forall in *. intros x Hx. eapply wins_calm; [apply (IH t ltac:(cbn; lia) Hc Hp Hd (EFull opt0)); [discriminate|auto|auto]|].
      intros (K1 & K2 & K3 & _). cbn [real smooth] in *. try rewrite Forall_forall in K3. split; [exact K1|]. split; [exact K2|]. split; [auto|reflexivity].
  - (* slice *)
    destruct Hf as (ol & -> & Hf). destruct m as [o|]; [|apply wins_ret]. cbn [site_of real plain_maps uncut all_codecs] in *. cbv zeta.
    set (l := match ol with Some l => l | None => [] end).
    assert (Hf' : Forall (fits t) l) by (destruct ol; [now apply Hf|constructor]).
    assert (Hr' : zlen l < 2 ^ 63 /\ Forall (real (2 ^ 63) t) l) by (destruct ol; [exact Hr|split; [reflexivity|constructor]]).
    destruct Hr' as [Hlen Hr'].
    assert (Hrm : q -> zlen l < 2 ^ 56 /\ Forall (real (2 ^ 56) t) l).
    { intros (_ & _ & K3 & _). destruct ol; [exact K3|split; [reflexivity|constructor]]. }
    assert (He : Forall (fun x => wins E d q (enc_val E t (EFull opt0) x) (writable E own t plainly x)) l).
    { rewrite Forall_forall in *. intros x Hx. eapply wins_calm; [apply (IH t ltac:(cbn; lia) Hc Hp Hd (EFull opt0)); [discriminate|auto|auto]|].
      intro Q. destruct (Hrm Q) as [_ K3]. destruct Q as (K1 & K2 & _ & _). cbn [smooth] in *. try rewrite Forall_forall in K3.
      split; [exact K1|]. split; [exact K2|]. split; [auto|reflexivity]. }
    assert (Hn : q -> o_size o = None) by (intros (_ & _ & _ & K4); exact K4).
    destruct (o_size o) as [n|].
    + apply wins_both; [apply wins_ret|]. destruct (uint_kind t) as [w|] eqn:Ek.
      * eapply wins_iff; [apply (wins_uints E d q t w _ l Ek Hf'); intro Q; now specialize (Hn Q)|]. tauto.
      * eapply wins_iff; [apply wins_then; [apply (wins_each E d q _ (writable E own t plainly))|]|].
        -- rewrite Forall_forall in *. intros x Hx. apply He. now apply (firstn_in' l (Z.to_nat n)).
        -- apply (wins_if E d q (zlen l <? n) panic (ret tt) False True); intros _; [apply wins_panic; intro Q; now specialize (Hn Q)|apply wins_ret].
        -- destruct (Z.ltb_spec (zlen l) n); intuition lia.
    + eapply wins_iff; [apply wins_then; [apply wins_count; [pose proof (zlen_nonneg l); lia|exact (fun Q => proj1 (Hrm Q))]|]|].
      * instantiate (1 := uint_kind t = None -> Forall (writable E own t plainly) l). destruct (uint_kind t) as [w|] eqn:Ek.
        -- eapply wins_iff; [apply (wins_uints E d q t w _ l Ek Hf'); pose proof (zlen_nonneg l); lia|]. pose proof (zlen_nonneg l). split; [discriminate|lia].
        -- rewrite Z.ltb_irrefl.
           eapply wins_iff; [apply wins_then; [apply (wins_each E d q _ (writable E own t plainly))|apply wins_ret]|].
           ++ rewrite Forall_forall in *. intros x Hx. apply He. now apply (firstn_in' l (Z.to_nat (zlen l))).
           ++ unfold zlen. rewrite Nat2Z.id, firstn_all. tauto.
      * tauto.
  - (* map *)
    destruct Hf as (om & -> & Hf). destruct m as [o|]; [|apply wins_ret]. cbn [site_of real plain_maps uncut all_codecs] in *. cbv zeta.
    apply andb_prop in Hp as [Hp Hp2]. apply andb_prop in Hp as [Hp Hp1]. apply andb_prop in Hp as [Hp Hi2]. apply andb_prop in Hp as [Hi1 _].
    destruct Hc as [Hc1 Hc2].
    assert (Hd1 : (d || uncut t1)%bool = true /\ (d || uncut t2)%bool = true).
    { destruct d; [auto|]. cbn [orb] in *. now apply andb_prop in Hd. }
    set (mm := match om with Some m => m | None => [] end).
    assert (Hr' : zlen mm < 2 ^ 63 /\ distinct t1 (map fst mm) /\ Forall (fun e => real (2 ^ 63) t1 (fst e) /\ real (2 ^ 63) t2 (snd e)) mm).
    { destruct om; [exact Hr|]. split; [reflexivity|]. split; constructor. }
    destruct Hr' as (Hlen & Hdist & Hr').
    assert (Hf' : Forall (fun e => fits t1 (fst e) /\ fits t2 (snd e)) mm) by (destruct om; [now apply Hf|constructor]).
    assert (Hrm : q -> zlen mm < 2 ^ 56 /\ distinct t1 (map fst mm) /\ Forall (fun e => real (2 ^ 56) t1 (fst e) /\ real (2 ^ 56) t2 (snd e)) mm).
    { intros (_ & _ & K3 & _). destruct om; [exact K3|]. split; [reflexivity|]. split; constructor. }
    assert (Hsm : q -> K /\ key_safe E t1 = true /\ smooth E t1 = true /\ smooth E t2 = true).
    { intros (K1 & K2 & _). cbn [smooth] in K2. apply andb_prop in K2 as [K2 K5]. apply andb_prop in K2 as [K2 K4]. auto. }
    apply wins_map; auto; [exact (fun Q => proj1 (Hrm Q))| | |].
    { intros Q ->. destruct (Hsm Q) as (_ & K2 & _). unfold key_safe in K2. destruct t1; try (apply andb_prop in K2 as [K2 _]; exact K2). reflexivity. }
    { intros Q e He HP. destruct (Hsm Q) as (_ & K2 & _). rewrite Forall_forall in Hf'. destruct (Hf' e He) as [Hk _].
      assert (Hss : selfsame t1 = true \/ (E = Borsh /\ exists f, t1 = TFloat f)).
      { unfold key_safe in K2. destruct E; [left; exact K2|left; exact K2|].
        destruct t1; try (apply andb_prop in K2 as [_ K2]; left; exact K2). right. eauto. }
      destruct Hss as [Hss|(-> & f & ->)]; [now apply selfsame_refl|].
      destruct Hk as (z & Hz & _). rewrite Hz in HP |- *. cbn [writable key_eqb] in *. specialize (HP eq_refl). rewrite HP. cbn [negb andb]. apply Z.eqb_refl. }
    rewrite Forall_forall in *. intros e He. destruct (Hr' e He), (Hf' e He). split.
    + eapply wins_calm; [apply (IH t1 ltac:(cbn; lia) Hc1 Hp1 (proj1 Hd1) (EFull opt0)); [discriminate|auto|auto]|].
      intro Q. destruct (Hrm Q) as (_ & _ & K3). destruct (Hsm Q) as (K1 & _ & K2 & K4). try rewrite Forall_forall in K3. destruct (K3 e He).
      split; [exact K1|]. split; [assumption|]. split; [assumption|reflexivity].
    + eapply wins_calm; [apply (IH t2 ltac:(cbn; lia) Hc2 Hp2 (proj2 Hd1) (EFull opt0)); [discriminate|auto|auto]|].
      intro Q. destruct (Hrm Q) as (_ & _ & K3). destruct (Hsm Q) as (K1 & _ & K2 & K4). try rewrite Forall_forall in K3. destruct (K3 e He).
      split; [exact K1|]. split; [assumption|]. split; [assumption|reflexivity].
  - (* struct *)
    destruct Hf as (vs & -> & Hf). cbn [real] in Hr. apply all_codecs_struct in Hc. rewrite Forall_forall in Hc.
    assert (Hpf : forall h t, In (h, t) fs -> plain_maps t = true).
    { intros h t Hin. cbn [plain_maps] in Hp. rewrite forallb_forall in Hp. exact (Hp _ Hin). }
    assert (Hsm : q -> K /\ smooth E (TStruct fs) = true) by (intros (K1 & K2 & _); auto).
    assert (Hrm : q -> each_field (real (2 ^ 56)) fs vs) by (intros (_ & _ & K3 & _); exact K3).
    rewrite EncWire.is_enum_spec. destruct (enum_struct E fs) eqn:En.
    + assert (E = Borsh) by (destruct E; try discriminate; reflexivity). subst E.
      destruct (enum_first _ _ _ En Hf) as (z & r & -> & Hz). apply wins_both; [apply wins_to_writer|].
      rewrite Z.mod_small by lia. apply wins_chosen.
      apply (fields_both3 q (fun h t' v' => wins Borsh d q
         (if negb (f_exported h) then sealed_payload t' v'
          else match t' with TPtr t'' => match v' with VPtr (Some x) => enc_val Borsh t'' EPayload x | VPtr None => ret tt | _ => stuck end
               | _ => enc_val Borsh t' EPayload v' end)
         (match t' with
          | TPtr t'' => match v' with VPtr (Some x) => if f_exported h then writable Borsh own t'' InEnum x else veiled t'' x | _ => True end
          | _ => if f_exported h then writable Borsh own t' InEnum v' else veiled t' v' end))); [exact Hf|exact Hr|exact Hrm|].
      intros h t v Hin Hv Hrv Hrq. pose proof (ty_size_field _ _ _ Hin) as Hs. pose proof (uncut_field d fs h t Hd Hin) as Hd'.
      specialize (Hc _ Hin). specialize (Hpf _ _ Hin). cbn [snd] in Hc.
      assert (Hsq : q -> smooth Borsh t = true) by (intro Q; exact (smooth_field _ _ _ _ (proj2 (Hsm Q)) Hin)).
      destruct (f_exported h); cbn [negb].
      * destruct t; try (eapply wins_calm; [apply (IH _ Hs Hc Hpf Hd' EPayload); auto|
          intro Q; split; [exact (proj1 (Hsm Q))|split; [exact (Hsq Q)|split; [exact (Hrq Q)|exact I]]]]; fail).
        destruct Hv as (p & -> & Hx). destruct p as [x|]; [|apply wins_ret].
        eapply wins_calm; [apply (IH t ltac:(cbn [ty_size] in *; lia) Hc Hpf Hd' EPayload); auto|].
        intro Q. split; [exact (proj1 (Hsm Q))|]. specialize (Hsq Q). cbn [smooth] in Hsq. apply andb_prop in Hsq as [_ Hsq].
        split; [exact Hsq|]. split; [exact (Hrq Q)|exact I].
      * unfold sealed_payload. destruct t; try (apply wins_sealed; auto; fail).
        destruct Hv as (p & -> & Hx). destruct p as [x|]; [|apply wins_ret]. apply wins_sealed; [exact Hd'|exact (Hx x eq_refl)|].
        intro Q. specialize (Hsq Q). cbn [smooth] in Hsq. now apply andb_prop in Hsq.
    + apply wins_fields; [reflexivity|exact (fun Q => smooth_unsized _ _ (proj2 (Hsm Q)))|reflexivity|].
      apply (fields_both3 q (fun h t v => forall opt copt sz o,
         wins E d (q /\ sz = None) (enc_val E t (EFull (mkOpt opt copt sz o)) v) (writable E own t (At opt (copt && is_borsh E) sz) v))); [exact Hf|exact Hr|exact Hrm|].
      intros h t v Hin Hv Hrv Hrq opt copt sz o. pose proof (ty_size_field _ _ _ Hin) as Hs. pose proof (uncut_field d fs h t Hd Hin) as Hd'.
      eapply wins_calm; [apply (IH t Hs (Hc _ Hin) (Hpf _ _ Hin) Hd' (EFull (mkOpt opt copt sz o))); [discriminate|exact Hv|exact Hrv]|].
      intros [Q Hz]. split; [exact (proj1 (Hsm Q))|]. split; [exact (smooth_field _ _ _ _ (proj2 (Hsm Q)) Hin)|]. split; [exact (Hrq Q)|exact Hz].
  - (* codec *)
    cbn [fits real plain_maps uncut all_codecs] in *. destruct Hc as [Hob Hc].
    assert (Hr' : real (2 ^ 63) t v) by (destruct v; exact Hr).
    assert (Hrm : q -> real (2 ^ 56) t v) by (intros (_ & _ & K3 & _); destruct v; exact K3).
    assert (IHt : forall m', (m' = EPayload -> E = Borsh) -> (match m with EFull o => o_size o = None | EPayload => True end -> match m' with EFull o => o_size o = None | EPayload => True end) ->
      wins E d q (enc_val E t m' v) (writable E own t (site_of E m') v)).
    { intros m' Hm' Ho. eapply wins_calm; [apply (IH t ltac:(cbn; lia) Hc Hp Hd m' v Hm' Hf Hr')|]. intro Q. pose proof (Hrm Q) as K3.
      destruct Q as (K1 & K2 & _ & K4). split; [exact K1|]. split; [exact K2|]. split; [exact K3|exact (Ho K4)]. }
    destruct m as [o|]; cbn [site_of]; [|specialize (IHt EPayload Hm (fun H => H)); destruct v; exact IHt].
    destruct (c_marshal cd) as [f|] eqn:Ef.
    + destruct (Hob f Ef) as [H1 _]. destruct (c_byval cd).
      * eapply wins_calm; [exact (wins_weak E d _ _ _ (H1 v Hf Hr'))|]. intro Q. split; [exact (proj1 Q)|exact (Hrm Q)].
      * specialize (IHt (EFull (cut_opt o)) ltac:(discriminate) (fun H => H)). destruct v; exact IHt.
    + specialize (IHt (EFull (cut_opt o)) ltac:(discriminate) (fun H => H)). destruct v; exact IHt.
  - cbn [uncut] in Hd. rewrite orb_false_r in Hd. subst d. destruct v, m; apply wins_deep.
Qed.


Lemma encode_cur E t o v s : enc_val E t (EFull o) v s =
  enc_val E t (EFull o) v (mkE (e_enc s) (e_w s) (Some (o_order o)) (e_count s) (e_hist s) (e_acc s)).
Proof. destruct t; reflexivity. Qed.

Lemma marshal_wins E K own t v : all_codecs (obeys E K own) t -> plain_maps t = true -> fits t v -> real (2 ^ 63) t v ->
  let r := fst (marshal E t v) in
  (r = Ok tt <-> writable E own t plainly v) /\ r <> Stuck /\ (uncut t = true -> r <> Deep) /\
  (K -> smooth E t = true -> real (2 ^ 56) t v -> r <> Panic).
Proof.
  intros Hc Hp Hf Hr. cbv zeta. unfold marshal, encode. unfold bind, e_get_enc. cbn [new_encoder e_enc]. rewrite encode_cur.
  assert (H : wins E (negb (uncut t)) (calmly E K t (EFull opt0) v) (enc_val E t (EFull opt0) v) (writable E own t plainly v)).
  { apply (wins_enc E K own (negb (uncut t)) t Hc Hp ltac:(now destruct (uncut t)) (EFull opt0)); auto. discriminate. }
  destruct (H (mkE E buffer (Some LE) 0 [] [])) as (r & s' & H1 & _ & H3 & H4 & H5 & H6).
  { split; [reflexivity|]. split; [reflexivity|discriminate]. }
  unfold new_encoder. cbn [e_enc e_w e_count e_hist e_acc]. change (o_order opt0) with LE. rewrite H1. cbn [fst].
  split; [exact H3|]. split; [exact H4|]. split; [intros Hu ->; specialize (H5 eq_refl); now rewrite Hu in H5|].
  intros K1 K2 K3. apply H6. split; [exact K1|]. split; [exact K2|]. split; [exact K3|reflexivity].
Qed.

(** * The library's types *)

(** The method, run on a fresh encoder that writes to a buffer. *)
Definition own_run (E : encoding) (c : codec) (o : option val) : Prop :=
  let s := mkE E buffer (Some LE) 0 [] [] in
  match c_marshal c, o with
  | Some f, Some v => fst (f v s) = Ok tt
  | _, _ => fst (c_marshal_nil c s) = Ok tt
  end.

Definition own_is (E : encoding) (t : ty) (P : val -> Prop) : Prop :=
  match t with
  | TCodec c u =>
      exists f, c_marshal c = Some f /\
      (forall v, fits u v -> real (2 ^ 63) u v -> wins E false (real (2 ^ 56) u v) (f v) (P v)) /\
      (c_byval c = false -> wins E false True (c_marshal_nil c) True)
  | _ => True
  end.
Lemma wins_fresh E d q m P : wins E d q m P -> (fst (m (mkE E buffer (Some LE) 0 [] [])) = Ok tt <-> P).
Proof.
  intro H. destruct (H (mkE E buffer (Some LE) 0 [] [])) as (r & s' & -> & _ & H3 & _); [|exact H3].
  split; [reflexivity|split; [reflexivity|discriminate]].
Qed.
Lemma wins_length E d (q : Prop) n : 0 <= n < 2 ^ 63 -> (q -> n < 2 ^ 56) -> wins E d q (write_length n) (countable E n).
Proof.
  intros Hn Hq. unfold write_length. apply wins_get_enc. unfold countable. destruct E.
  - eapply wins_iff; [now apply wins_uvarint|]. split; auto.
  - eapply wins_iff; [apply wins_bytes_nolen|]. split; [discriminate|auto].
  - eapply wins_iff; [apply wins_to_writer|]. split; [discriminate|auto].
Qed.
Lemma wins_bytes E d (q : Prop) b : zlen b < 2 ^ 63 -> (q -> zlen b < 2 ^ 56) -> wins E d q (write_bytes b) (countable E (zlen b)).
Proof.
  intros Hn Hq. unfold write_bytes. eapply wins_iff; [apply wins_then; [apply wins_length; [pose proof (zlen_nonneg b); lia|exact Hq]|apply wins_bytes_nolen]|]. tauto.
Qed.
Lemma wins_cur E d q k P : (forall o, wins E d q (k o) P) -> wins E d q (bind e_cur_order k) P.
Proof.
  intros H s Hs. pose proof Hs as (H1 & H2 & H3). unfold bind, e_cur_order, e_get_cur, bind. destruct (e_cur s) as [o|] eqn:Ec; [|congruence].
  cbn [ret]. exact (H o s Hs).
Qed.
Lemma wins_varint E d q z : - 2 ^ 55 <= z < 2 ^ 55 -> wins E d q (write_varint z) True.
Proof.
  intro H. unfold write_varint, put_varint, put_uvarint.
  rewrite zigzag_zz by lia.
  assert (Hz : 0 <= zz z < 2 ^ 56) by (unfold zz; destruct (z <? 0) eqn:E'; lia).
  rewrite uvarint_bytes_leb by lia.
  pose proof (leb128_len56 _ Hz). destruct (zlen (leb128 (zz z)) <=? 8) eqn:E'; [|lia].
  apply wins_to_writer.
Qed.
Lemma wins_uvarint_small E d q z : 0 <= z < 2 ^ 56 -> wins E d q (write_uvarint z) True.
Proof. intro H. eapply wins_iff; [apply wins_uvarint; lia|]. lia. Qed.
Lemma wins_f64 E d q b o : wins E d q (write_float F64 b o) (E = Borsh -> f_isnan F64 b = false).
Proof. exact (wins_float E d q F64 b o). Qed.
Lemma wins_u128 E d q v : fits (TStruct u128_fields) v -> wins E d q (u128_marshal v) True.
Proof.
  intros (vs & -> & Hf). destruct vs as [|a [|b [|c [|x r]]]]; cbn [fits_fields u128_fields] in Hf; try easy.
  destruct Hf as ((lo & -> & _) & (hi & -> & _) & (e & ->) & _). cbn [u128_marshal].
  intros s Hs. pose proof Hs as (H1 & H2 & H3). unfold bind, e_get_cur. destruct (e_cur s) as [o|] eqn:Ec; [|congruence].
  assert (H : wins E d q (write_uint128 lo hi o) True) by (unfold write_uint128; destruct o; apply wins_to_writer).
  exact (H s Hs).
Qed.
Lemma library_own E : Forall (fun tP => own_is E (fst tP) (snd tP)) (library_conditions E).
Proof.
  unfold library_conditions. cbv zeta.
  repeat (apply Forall_cons; [cbn [fst snd own_is]; unfold SafeString, Bool_, HexBytes, Varint16, Varuint16, Varuint32, Varint32, JSONFloat64, Int64, Uint64, Uint128, Int128, Float128, EmptyVariant, own_is;
    eexists; split; [reflexivity|split; [|]]|]).
  all: try (intro Hb; discriminate Hb).
  all: try apply Forall_nil.
  all: try (match goal with |- forall v, fits _ v -> _ => intros v Hf Hr; cbn [real] in Hr end).
  all: try (apply wins_u128; exact Hf).
  1: destruct Hf as (s & -> & _); apply wins_bytes; [exact Hr|auto].
  1: destruct Hf as (b & ->); apply wins_to_writer.
  1: { destruct Hf as (ol & -> & Hf). destruct ol as [l|].
       - destruct (nums_fits W8 (TUint UPlain W8) l eq_refl (Hf l eq_refl)) as (zs & Hz). cbn [bytes_val]. rewrite Hz.
         assert (Hl : zlen zs = zlen l).
         { clear -Hz. revert zs Hz. induction l as [|v l IH]; intros zs Hz; cbn [nums] in Hz; [now injection Hz as <-|].
           destruct v; try discriminate. destruct (nums l) as [r|]; [|discriminate]. injection Hz as <-. rewrite !zlen_cons, (IH r eq_refl). reflexivity. }
         rewrite <- Hl in *. apply wins_bytes; [tauto|]. intros [K _]. rewrite Hl. exact K.
       - cbn [bytes_val]. eapply wins_iff; [apply wins_bytes; easy|]. unfold countable. split; auto; easy. }
  all: try (destruct Hf as (z & -> & Hz); unfold with_num).
  1, 4: apply wins_varint; cbn [wbits] in Hz; lia.
  1, 2: apply wins_uvarint_small; cbn [wbits] in Hz; lia.
  1: apply wins_cur; intro o; apply wins_f64.
  1, 2: apply wins_cur; intro o; apply wins_to_writer.
  1: apply wins_ret.
  intros _. apply wins_ret.
Qed.
Lemma own_obeys E c u P : own_is E (TCodec c u) P -> obeys E True (own_run E) c u.
Proof.
  intros (f & Hf & H1 & H2) f' Hf'. rewrite Hf in Hf'. injection Hf' as <-. split.
  - intros v Hv Hr. specialize (H1 v Hv Hr). eapply wins_calm; [|exact (@proj2 True _)]. eapply wins_iff; [exact H1|].
    unfold own_run. rewrite Hf. symmetry. exact (wins_fresh _ _ _ _ _ H1).
  - intro Hb. specialize (H2 Hb). eapply wins_iff; [exact H2|]. unfold own_run. rewrite Hf. symmetry. exact (wins_fresh _ _ _ _ _ H2).
Qed.
Lemma library_obeys E : Forall (all_codecs (obeys E True (own_run E))) library_types.
Proof.
  pose proof (library_own E) as H. unfold library_conditions in H. cbv zeta in H. unfold library_types.
  repeat match type of H with
  | Forall _ (_ :: _) =>
      let H1 := fresh in
      pose proof (Forall_inv H) as H1; apply Forall_inv_tail in H; cbn [fst snd] in H1;
      apply Forall_cons; [split; [exact (own_obeys E _ _ _ H1)|cbn [all_codecs u128_fields snd]; auto 10]|]
  end.
  repeat constructor.
Qed.
Lemma library_exact E : Forall (fun tP => match fst tP with
    | TCodec c u => forall v, fits u v -> real (2 ^ 63) u v -> (own_run E c (Some v) <-> snd tP v)
    | _ => True end) (library_conditions E).
Proof.
  eapply Forall_impl; [|apply library_own]. intros [t P]. cbn [fst snd]. destruct t; auto. intros (f & Hf & H1 & _) v Hv Hr.
  unfold own_run. rewrite Hf. exact (wins_fresh _ _ _ _ _ (H1 v Hv Hr)).
Qed.

(** * Types all values of which can be encoded *)
Definition willing (E : encoding) (own : codec -> option val -> Prop) (c : codec) (u : ty) : Prop :=
  forall f, c_marshal c = Some f ->
    (forall v, fits u v -> real (2 ^ 56) u v -> always E u = true -> own c (Some v)) /\ (c_byval c = false -> own c None).
Lemma fields_always E (W : ty -> site -> val -> Prop) fs : forall vs s, (forall y, s y = None) -> unsized fs ->
  Forall2 (fun ht v => forall opt copt, W (snd ht) (At opt copt None) v) fs vs -> fields_writable E W fs vs s.
Proof.
  induction fs as [|[h t] fs IH]; intros vs s Hs Hu H; inversion_clear H as [|? v ? vs' Hv H']; cbn [fields_writable]; [exact I|].
  assert (Hu' : unsized fs) by (intros h' t' Hin; apply (Hu h' t'); now right).
  rewrite (Hu h t (or_introl eq_refl)). destruct (ft_skip _); [now apply IH|]. split; [|now apply IH]. intros _. rewrite Hs. apply Hv.
Qed.
Lemma always_writable E own t : all_codecs (willing E own) t -> always E t = true -> smooth E t = true ->
  forall v opt copt, fits t v -> real (2 ^ 56) t v -> writable E own t (At opt copt None) v.
Proof.
  induction t as [t IH] using ty_strong_ind. intros Hc Ha Hs v opt copt Hf Hr.
  destruct t as [|un w|nm w|f| |sg| | |t|n t|t|t1 t2|fs|cd t|]; cbn [writable]; try discriminate;
    (destruct ((opt || copt) && is_zero v)%bool; [exact I|]).
  - exact I.
  - exact I.
  - exact I.
  - destruct Hf as (z & -> & _). intros ->. discriminate.
  - exact I.
  - destruct v; exact I.
  - destruct Hf as (p & -> & Hx). cbn [always smooth all_codecs real] in *. apply andb_prop in Hs as [Hs1 Hs].
    assert (IHt : forall v, fits t v -> real (2 ^ 56) t v -> writable E own t (At false false None) v) by (intros v; apply IH; auto).
    destruct (pointee_method t) as [c|] eqn:Ep.
    + unfold pointee_method in Ep. destruct t as [| | | | | | | | | | | | |c' u|]; try discriminate.
      destruct (c_marshal c') as [f|] eqn:Ef; [|discriminate]. injection Ep as ->. destruct Hc as [Hw _]. destruct (Hw f Ef) as [H1 H2].
      destruct p as [x|]; [apply H1; [exact (Hx x eq_refl)|exact Hr|exact Ha]|].
      destruct E; cbn [is_borsh orb] in Hs1; [right| right|now left]; apply negb_true_iff in Hs1; auto.
    + destruct p as [x|]; [|intros _; apply IHt; [apply fits_zero|now apply real_zero]].
      replace (if is_borsh E then None else None) with (@None Z) by (now destruct (is_borsh E)). apply IHt; [exact (Hx x eq_refl)|exact Hr].
  - destruct Hf as (l & -> & _ & Hf). cbn [always smooth all_codecs real] in *. intros _. rewrite Forall_forall in *.
    intros x Hx. apply (IH t ltac:(cbn; lia)); auto.
  - destruct Hf as (ol & -> & Hf). cbn [always smooth all_codecs real] in *. destruct ol as [l|].
    + destruct Hr as [Hl Hr]. specialize (Hf l eq_refl). split; [exact (fun _ => Hl)|]. intros _. rewrite Forall_forall in *.
      intros x Hx. apply (IH t ltac:(cbn; lia)); auto.
    + split; [easy|]. intros _. constructor.
  - destruct Hf as (om & -> & Hf). cbn [always smooth all_codecs real] in *. destruct Hc as [Hc1 Hc2].
    apply andb_prop in Ha as [Ha1 Ha2]. apply andb_prop in Hs as [Hs Hs2]. apply andb_prop in Hs as [Hk Hs1].
    assert (Hsort : E = Borsh -> key_sortable false t1 = true).
    { intros ->. unfold key_safe in Hk. destruct t1; try (apply andb_prop in Hk as [Hk _]; exact Hk). reflexivity. }
    assert (Hself : selfsame t1 = true).
    { unfold key_safe in Hk. destruct E; [exact Hk|exact Hk|]. destruct t1; try (apply andb_prop in Hk as [_ Hk]; exact Hk). discriminate. }
    destruct om as [m|].
    + destruct Hr as (Hl & _ & Hr). specialize (Hf m eq_refl). split; [auto|]. split; [exact (fun _ => Hl)|]. rewrite Forall_forall in *.
      intros e He. destruct (Hf e He), (Hr e He). split; [apply (IH t1 ltac:(cbn; lia)); auto|]. split; [now apply selfsame_refl|].
      apply (IH t2 ltac:(cbn; lia)); auto.
    + split; [cbn [length]; lia|]. split; [easy|]. constructor.
  - destruct Hf as (vs & -> & Hf). cbn [always real] in *. apply andb_prop in Ha as [He Ha]. apply negb_true_iff in He. rewrite He.
    apply fields_always; [reflexivity|exact (smooth_unsized _ _ Hs)|]. apply all_codecs_struct in Hc. rewrite Forall_forall in Hc. rewrite forallb_forall in Ha.
    assert (H : forall h t, In (h, t) fs -> forall v opt copt, fits t v -> real (2 ^ 56) t v -> writable E own t (At opt copt None) v).
    { intros h t Hin. apply IH; [now apply (ty_size_field _ h)|exact (Hc _ Hin)|exact (Ha _ Hin)|exact (smooth_field _ _ _ _ Hs Hin)]. }
    clear -H Hf Hr. revert vs Hf Hr. induction fs as [|[h t] fs IH]; intros [|v vs] Hf Hr; try easy.
    destruct Hf as [Hv Hf]. destruct Hr as [Hr1 Hr]. constructor.
    + intros opt copt. apply (H h t (or_introl eq_refl)); assumption.
    + apply IH; [intros h' t' Hin; apply (H h'); now right|exact Hf|exact Hr].
  - cbn [fits all_codecs always smooth] in *. assert (Hr' : real (2 ^ 56) t v) by (destruct v; exact Hr). destruct Hc as [Hw Hc].
    assert (IHt : writable E own t (At false false None) v) by (apply IH; auto).
    assert (Hgoal : match c_marshal cd, c_byval cd with Some _, true => own cd (Some v) | _, _ => writable E own t (At false false None) v end).
    { destruct (c_marshal cd) as [f|] eqn:Ef; [|exact IHt]. destruct (Hw f Ef) as [H1 _]. destruct (c_byval cd); [auto|exact IHt]. }
    destruct v; exact Hgoal.
Qed.
Lemma real_mono lim lim' t : lim <= lim' -> forall v, real lim t v -> real lim' t v.
Proof.
  intro Hl. induction t as [t IH] using ty_strong_ind. intros v Hr.
  destruct t as [|un w|nm w|f| |sg| | |t|n t|t|t1 t2|fs|cd t|]; cbn [real] in *; try exact I; try exact Hr.
  - destruct v; auto. lia.
  - destruct v as [| | | |[x|]| | | | | |]; auto.
  - destruct v; auto. rewrite Forall_forall in *. intros x Hx. apply (IH t ltac:(cbn; lia)); auto.
  - destruct v as [| | | | | |[l|]| | | |]; auto. destruct Hr as [H1 H2]. split; [lia|].
    rewrite Forall_forall in *. intros x Hx. apply (IH t ltac:(cbn; lia)); auto.
  - destruct v as [| | | | | | |[m|]| | |]; auto. destruct Hr as (H1 & H2 & H3). split; [lia|]. split; [exact H2|].
    rewrite Forall_forall in *. intros e He. destruct (H3 e He). split; [apply (IH t1 ltac:(cbn; lia))|apply (IH t2 ltac:(cbn; lia))]; auto.
  - destruct v as [| | | | | | | |vs| |]; auto.
    assert (H : forall h t, In (h, t) fs -> forall v, real lim t v -> real lim' t v) by (intros h t Hin; apply IH; now apply (ty_size_field _ h)).
    clear IH. revert vs Hr. induction fs as [|[h t] fs IHf]; intros [|v vs] Hr; try exact I. destruct Hr as [H1 H2].
    split; [exact (H h t (or_introl eq_refl) v H1)|]. apply IHf; [intros h' t' Hin; apply (H h'); now right|exact H2].
  - assert (H : real lim t v -> real lim' t v) by (apply IH; auto). destruct v; exact (H Hr).
Qed.

(** The methods of [t] are those of the library's types. *)
Definition over_library (t : ty) : Prop := all_codecs (fun c u => In (TCodec c u) library_types) t.
Lemma over_library_all (P : codec -> ty -> Prop) t : Forall (all_codecs P) library_types -> over_library t -> all_codecs P t.
Proof.
  intros HP. rewrite Forall_forall in HP. apply DecBound.all_codecs_impl. intros c u Hin. exact (proj1 (HP _ Hin)).
Qed.
Lemma own_willing E c u P : own_is E (TCodec c u) P -> (forall v, fits u v -> real (2 ^ 56) u v -> always E u = true -> P v) -> willing E (own_run E) c u.
Proof.
  intros (f & Hf & H1 & H2) HP f' Hf'. rewrite Hf in Hf'. injection Hf' as <-. split.
  - intros v Hv Hr Ha. unfold own_run. rewrite Hf. apply (wins_fresh _ _ _ _ _ (H1 v Hv (real_mono (2 ^ 56) (2 ^ 63) u ltac:(lia) v Hr))). auto.
  - intro Hb. unfold own_run. rewrite Hf. now apply (wins_fresh _ _ _ _ _ (H2 Hb)).
Qed.
Lemma library_willing E : Forall (all_codecs (willing E (own_run E))) library_types.
Proof.
  pose proof (library_own E) as H. unfold library_conditions in H. cbv zeta in H. unfold library_types.
  repeat match type of H with
  | Forall _ (_ :: _) =>
      let H1 := fresh in
      pose proof (Forall_inv H) as H1; apply Forall_inv_tail in H; cbn [fst snd] in H1;
      apply Forall_cons; [split; [apply (own_willing E _ _ _ H1)|cbn [all_codecs u128_fields snd]; auto 10]|]
  end.
  all: try (intros; exact I).
  - intros v (s & -> & _) Hr _ _. exact Hr.
  - intros v (ol & -> & _) Hr _. destruct ol as [l|]; [|exact I]. intros _. exact (proj1 Hr).
  - intros v (b & -> & _) _ Ha ->. discriminate.
  - repeat constructor.
Qed.

Lemma over_library_exact E t v : over_library t -> plain_maps t = true -> uncut t = true -> fits t v -> real (2 ^ 63) t v ->
  let r := fst (marshal E t v) in
  (r = Ok tt <-> writable E (own_run E) t plainly v) /\
  (r = Ok tt \/ (exists e, r = Err e) \/ r = Panic) /\
  (smooth E t = true -> real (2 ^ 56) t v -> r <> Panic).
Proof.
  intros Hl Hp Hu Hf Hr. pose proof (over_library_all _ t (library_obeys E) Hl) as Ho.
  destruct (marshal_wins E True (own_run E) t v Ho Hp Hf Hr) as (H1 & H2 & H3 & H4). cbv zeta. split; [exact H1|].
  split; [|intros; now apply H4]. specialize (H3 Hu). destruct (fst (marshal E t v)) as [[]|e| | |]; try congruence; eauto.
Qed.
Lemma over_library_always E t v : over_library t -> plain_maps t = true -> always E t = true -> smooth E t = true -> fits t v -> real (2 ^ 56) t v ->
  fst (marshal E t v) = Ok tt.
Proof.
  intros Hl Hp Ha Hs Hf Hr.
  apply (marshal_wins E True (own_run E) t v (over_library_all _ t (library_obeys E) Hl) Hp Hf (real_mono (2 ^ 56) (2 ^ 63) t ltac:(lia) v Hr)).
  apply always_writable; auto. exact (over_library_all _ t (library_willing E) Hl).
Qed.
