(** Recursive types: encoding a value ends. *)
From Coq Require Import String.
From Verif Require Import Types EncPrim DecPrim Enc Dec DecEq Builtin Spec TyInd EncFacts DecWire DecWithin DecSafe DecLocal GoEncFacts RecSpec RecFacts RecEnc RecEnds.
Notation length := Datatypes.length.

Lemma nodeep_to_writer bs : nodeep (to_writer bs).
Proof. intro s. unfold to_writer. destruct (e_w s _) as [[]|]; discriminate. Qed.
#[global] Hint Resolve nodeep_to_writer : nodeep.
Lemma nodeep_write_uint n z o : nodeep (write_uint n z o).
Proof. unfold write_uint. nodeep. Qed.
Lemma nodeep_write_byte z : nodeep (write_byte z).
Proof. unfold write_byte. nodeep. Qed.
Lemma nodeep_nolen b : nodeep (write_bytes_nolen b).
Proof. unfold write_bytes_nolen. nodeep. Qed.
#[global] Hint Resolve nodeep_write_uint nodeep_write_byte nodeep_nolen : nodeep.
Lemma nodeep_write_bool b : nodeep (write_bool b).
Proof. unfold write_bool. nodeep. Qed.
Lemma nodeep_write_coption b : nodeep (write_coption b).
Proof. unfold write_coption. nodeep. Qed.
Lemma nodeep_write_flag E b : nodeep (write_flag E b).
Proof. unfold write_flag, write_bool. nodeep. Qed.
Lemma nodeep_write_count E l : nodeep (write_count E l).
Proof. unfold write_count, write_uvarint, write_compact_u16. nodeep. Qed.
Lemma nodeep_write_str E l : nodeep (write_str E l).
Proof.
  unfold write_str, write_rust_string, write_string, write_bytes, write_length, write_uvarint. nodeep.
Qed.
Lemma nodeep_write_int E w z o : nodeep (write_int E w z o).
Proof. unfold write_int. nodeep. Qed.
Lemma nodeep_write_float f b o : nodeep (write_float f b o).
Proof. unfold write_float. nodeep. Qed.
Lemma nodeep_write_uints w n l : nodeep (write_uints w n l).
Proof. unfold write_uints. nodeep. Qed.
#[global] Hint Resolve nodeep_write_bool nodeep_write_coption nodeep_write_flag nodeep_write_count nodeep_write_str
  nodeep_write_int nodeep_write_float nodeep_write_uints : nodeep.

Lemma nodeep_each {A} (f : A -> EM unit) l : (forall a, In a l -> nodeep (f a)) -> nodeep (each f l).
Proof.
  intro H. induction l as [|a l IH]; cbn [each]; [nodeep|]. apply nodeep_bind; [apply H; now left|].
  intros _. apply IH. intros. apply H. now right.
Qed.
Lemma nodeep_flags E o v core : nodeep core -> nodeep (flags E o v core).
Proof. intro H. unfold flags. nodeep. Qed.

(** * Depth of values *)

Lemma depth_in x l : In x l -> (depth x <= fold_right (fun x n => Nat.max (depth x) n) 0%nat l)%nat.
Proof. induction l as [|y l IH]; [easy|]. cbn [fold_right]. intros [->|H]; [lia|]. specialize (IH H). lia. Qed.
Lemma depth_entry (e : val * val) m : In e m ->
  (Nat.max (depth (fst e)) (depth (snd e)) <=
   fold_right (fun e n => Nat.max (Nat.max (depth (fst e)) (depth (snd e))) n) 0%nat m)%nat.
Proof. induction m as [|y m IH]; [easy|]. cbn [fold_right]. intros [->|H]; [lia|]. specialize (IH H). lia. Qed.

Lemma guarded_mono t : guarded false t -> guarded true t.
Proof. destruct t; cbn [guarded]; auto. Qed.
Lemma whole_guarded t g : whole t -> guarded g t.
Proof.
  revert g. induction t using ty_ind'; intros g Hw; cbn [whole guarded] in *; auto; try easy.
  - destruct Hw. split; auto.
  - change (guarded g (TStruct fs)). change (whole (TStruct fs)) in Hw. apply whole_struct in Hw. apply guarded_struct.
    rewrite Forall_forall in *. intros ht Hin. apply H; auto.
Qed.

Lemma enc_fields_end E (rec : ty -> fopt -> val -> EM unit) fs : forall vs sizes,
  (forall h t v sizes, In (h, t) fs -> In v vs -> nodeep (rec t (field_opt E (parse_field_tag (f_tag h)) (f_name h) sizes) v)) ->
  nodeep (enc_fields E rec fs vs sizes).
Proof.
  induction fs as [|[h t] fs IH]; intros [|v vs] sizes H; cbn [enc_fields]; try (now nodeep). cbv zeta.
  assert (Hr : forall sizes, nodeep (enc_fields E rec fs vs sizes)).
  { intro sz. apply IH. intros h1 t1 v1 sz1 H1 H2. apply H; now right. }
  destruct (ft_skip _); [apply Hr|].
  match goal with |- nodeep (match ?x with _ => _ end) => destruct x end; [|nodeep].
  destruct (negb _); [apply Hr|]. apply nodeep_bind; [|intros _; apply Hr]. apply nodeep_map_err. apply H; now left.
Qed.
(** An unexported variant gets to a cut only where an exported one does. *)
Lemma hidden_end rec fs : forall vs sizes, nodeep (enc_fields Borsh rec (hide fs) vs sizes).
Proof.
  induction fs as [|[h t] fs IH]; intros [|v vs] sizes; cbn [hide map enc_fields fst snd f_tag f_exported negb]; [nodeep|nodeep|nodeep|].
  fold (hide fs). cbv zeta. destruct (ft_skip _); [apply IH|].
  match goal with |- nodeep (match ?x with _ => _ end) => destruct x end; [apply IH|nodeep].
Qed.
Lemma sealed_deep t : forall v s, fst (enc_sealed t v s) = Deep -> fst (enc_val Borsh t EPayload v s) = Deep.
Proof.
  induction t as [t IH] using ty_strong_ind. intros v s. rewrite enc_payload_eq.
  destruct t as [|un w|nm w|f| |sg| | |t|n t|t|t1 t2|fs|c t|]; cbn [enc_sealed]; try (intro H; exact H); try discriminate.
  - destruct v; try discriminate. unfold enc_struct. cbn [is_borsh andb]. destruct (is_enum fs); [|intro H; now apply hidden_end in H].
    destruct l as [|[] vs]; try discriminate. unfold bind. destruct (write_byte z s) as [[x|e| | |] s1]; try (intro H; exact H).
    generalize (VNum z :: vs) as us. generalize (S (Z.to_nat (z mod 256))) as n. clear vs z.
    assert (IH' : forall h a, In (h, a) fs -> forall a1, (ty_size a1 <= ty_size a)%nat -> forall v s,
      fst (enc_sealed a1 v s) = Deep -> fst (enc_val Borsh a1 EPayload v s) = Deep).
    { intros h a Hin a1 Hs v0 s0. apply IH. pose proof (ty_size_field fs h a Hin). lia. }
    clear IH. induction fs as [|[h t] fs IHf]; intros n [|v us]; cbn [nth_field]; try (intro H; exact H).
    destruct n; [|apply IHf; intros h2 a2 Hin; apply (IH' h2 a2); now right].
    pose proof (IH' h t (or_introl eq_refl)) as Hi. destruct (negb (f_exported h)).
    + intro H. destruct t; exact H.
    + destruct t; try (apply Hi; lia). destruct v; try (intro H; exact H). destruct p; [|intro H; exact H]. apply Hi. cbn. lia.
  - apply IH. cbn. lia.
Qed.
Lemma nth_field_end E fs : E = Borsh -> forall vs n,
  (forall h t v, In (h, t) fs -> In v vs -> (forall t', t <> TPtr t') -> nodeep (enc_val E t EPayload v)) ->
  (forall h t x, In (h, TPtr t) fs -> In (VPtr (Some x)) vs -> nodeep (enc_val E t EPayload x)) ->
  nodeep (nth_field
            (fun h t' v' =>
               if negb (f_exported h) then sealed_payload t' v' else
               match t' with
               | TPtr t'' =>
                   match v' with
                   | VPtr (Some x) => enc_val E t'' EPayload x
                   | VPtr None => ret tt
                   | _ => stuck
                   end
               | _ => enc_val E t' EPayload v'
               end)
            (fail EMsg) stuck fs vs n).
Proof.
  intro HE. induction fs as [|[h t] fs IH]; intros [|v vs] n H1 H2; cbn [nth_field]; try (now nodeep).
  destruct n.
  - destruct (negb _).
    { subst E. unfold sealed_payload. assert (Hs : forall t v, nodeep (enc_val Borsh t EPayload v) -> nodeep (enc_sealed t v)).
      { intros t1 v1 H s Hd. exact (H s (sealed_deep t1 v1 s Hd)). }
      destruct t; try (apply Hs, (H1 h); [now left|now left|discriminate]).
      destruct v; try solve [nodeep]. destruct p as [x|]; [|nodeep]. apply Hs, (H2 h); now left. }
    assert (Ht : (exists t', t = TPtr t') \/ (forall t', t <> TPtr t')) by (destruct t; try (right; discriminate); left; now eexists).
    destruct Ht as [[t' ->]|Ht].
    + destruct v; try solve [nodeep]. destruct p as [x|]; [|nodeep]. apply (H2 h); now left.
    + specialize (H1 h t v (or_introl eq_refl) (or_introl eq_refl) Ht). destruct t; try exact H1. now destruct (Ht t).
  - apply IH; intros; [apply (H1 h0)|apply (H2 h0)]; auto; now right.
Qed.

Lemma nodeep_dec E : E = Borsh \/ E <> Borsh.
Proof. destruct E; auto; now right. Qed.

(** * Types without cuts *)
Lemma whole_ends E t : whole t -> all_codecs codec_ends t -> forall m v, nodeep (enc_val E t m v).
Proof.
  induction t as [t IH] using ty_strong_ind. intros Hw Hc.
  assert (Hst : forall fs vs, t = TStruct fs -> nodeep (enc_struct E fs vs)).
  { intros fs vs ->. apply whole_struct in Hw. apply all_codecs_struct in Hc. rewrite Forall_forall in *.
    assert (Hf : forall h a, In (h, a) fs -> forall m v, nodeep (enc_val E a m v)).
    { intros h a Hin. apply IH; [now apply (ty_size_field fs h)|exact (Hw _ Hin)|exact (Hc _ Hin)]. }
    unfold enc_struct. destruct (_ && _) eqn:Ee.
    - apply andb_prop in Ee. destruct Ee as [Ee _]. assert (HE : E = Borsh) by (now destruct E).
      destruct vs as [|[]]; try solve [nodeep]. apply nodeep_bind; [nodeep|]. intros _. apply nth_field_end; [exact HE| |].
      + intros h a v Hin _ _. now apply (Hf h).
      + intros h a x Hin _. apply IH; [|exact (Hw _ Hin)|exact (Hc _ Hin)].
        pose proof (ty_size_field fs h _ Hin) as Hs. cbn [ty_size] in *. lia.
    - apply enc_fields_end. intros h a v sz Hin _. now apply (Hf h). }
  intros [o|] v.
  - rewrite enc_full_eq. apply nodeep_bind; [easy|]. intros _. apply nodeep_flags.
    destruct t as [|un w|nm w|f| |sg| | |t|n t|t|t1 t2|fs|c t|]; cbn [enc_core]; try (now nodeep).
    + destruct (ptr_codec t) as [[c f]|] eqn:Ep.
      * destruct t; try discriminate. destruct Hc as [[Hc1 Hc2] _]. unfold ptr_codec in Ep. cbn [codec_of] in Ep.
        destruct (c_marshal c0) as [g|] eqn:Eg; [|discriminate].
        assert (c0 = c /\ g = f) as [-> ->] by (split; congruence).
        destruct v; try solve [nodeep]. destruct p; [intro s; now apply Hc1|]. destruct E; try solve [nodeep];
          (destruct (c_byval c); [nodeep|exact Hc2]).
      * assert (Ht : forall m v, nodeep (enc_val E t m v)) by (apply IH; [cbn; lia|exact Hw|exact Hc]).
        nodeep.
    + destruct v; try solve [nodeep]. destruct (uint_kind t); [nodeep|]. apply nodeep_each. intros. apply IH; [cbn; lia|exact Hw|exact Hc].
    + destruct v; try solve [nodeep]. destruct (uint_kind t); [nodeep|]. apply nodeep_bind; [nodeep|intros _].
      apply nodeep_bind; [|intros _; nodeep]. apply nodeep_each. intros. apply IH; [cbn; lia|exact Hw|exact Hc].
    + destruct v; try solve [nodeep]. destruct Hw, Hc. cbv zeta. destruct (ordered_keys E t1 _); [|unfold unsortable; destruct t1; nodeep].
      apply nodeep_bind; [nodeep|]. intros _. apply nodeep_each. intros k _.
      destruct (negb _); [nodeep|]. apply nodeep_bind; [apply IH; auto; cbn; lia|]. intros _.
      destruct (map_index t1 _ k); [|nodeep]. destruct (negb _); [nodeep|]. apply IH; auto; cbn; lia.
    + destruct v; try solve [nodeep]. now apply Hst.
    + destruct Hc as [[Hc1 _] Hc2]. destruct (c_marshal c) as [f|] eqn:Em; [destruct (c_byval c)|].
      * intro s. now apply Hc1.
      * apply IH; auto; cbn; lia.
      * apply IH; auto; cbn; lia.
  - rewrite enc_payload_eq.
    destruct t as [|un w|nm w|f| |sg| | |t|n t|t|t1 t2|fs|c t|]; try (now nodeep).
    + destruct v; try solve [nodeep]. now apply Hst.
    + destruct Hc as [_ Hc]. apply IH; auto; cbn; lia.
Qed.

(** What is asked of a field. *)
Definition field_shelter (en : bool) (h : fhdr) (t : ty) : Prop :=
  match t with
  | TPtr t' => if en || flagged_field Borsh (parse_field_tag (f_tag h)) then sheltered t' else whole t'
  | _ => sheltered t
  end.
Lemma sheltered_struct fs : sheltered (TStruct fs) <-> Forall (fun ht => field_shelter (is_enum fs) (fst ht) (snd ht)) fs.
Proof.
  cbn [sheltered]. generalize (is_enum fs) as en. intro en. induction fs as [|[h t] fs IH]; split; intro H; [constructor|exact I| |].
  - destruct H. constructor; [|apply IH]; assumption.
  - inversion_clear H. split; [|apply IH]; assumption.
Qed.

Lemma whole_sheltered t : whole t -> sheltered t.
Proof.
  induction t as [t IH] using ty_strong_ind. intro Hw. destruct t as [| | | | | | | |t|n t|t|t1 t2|fs|c t|]; cbn [sheltered whole] in *; try easy;
    try (apply IH; [cbn; lia|exact Hw]).
  - destruct Hw. split; apply IH; auto; cbn; lia.
  - change (sheltered (TStruct fs)). change (whole (TStruct fs)) in Hw. apply whole_struct in Hw. apply sheltered_struct.
    rewrite Forall_forall in *. intros [h a] Hin. cbn [fst snd]. specialize (Hw _ Hin). cbn [snd] in Hw.
    pose proof (ty_size_field fs h a Hin) as Hs.
    destruct a; try (apply IH; assumption). cbn [field_shelter]. cbn [whole ty_size] in *.
    destruct (_ || _); [|exact Hw]. apply IH; [|exact Hw]. cbn [ty_size]. lia.
Qed.

(** * One level *)

Section OneLevel.
  Variables (E : encoding) (r : ty) (k : nat).
  Hypothesis Hr : heavy r \/ r = TDeep.
  Hypothesis Hrc : all_codecs codec_ends r.
  Hypothesis Hrd : forall x m, (depth x < k)%nat -> nodeep (enc_val E r m x).

  Lemma plug_uint' t : uint_kind (plug t r) = uint_kind t.
  Proof. destruct Hr as [H| ->]; [now apply plug_uint|now rewrite plug_id]. Qed.
  Lemma plug_enum' fs : is_enum (map (fun ht => (fst ht, plug (snd ht) r)) fs) = is_enum fs.
  Proof.
    destruct Hr as [H| ->]; [now apply plug_enum|]. f_equal. rewrite <- (map_id fs) at 2. apply map_ext.
    intros [h t]. cbn [fst snd]. now rewrite plug_id.
  Qed.
  Lemma plug_ptr_codec t : ptr_codec (plug t r) = ptr_codec t.
  Proof. destruct t; try reflexivity. destruct Hr as [H| ->]; [|reflexivity]. now destruct r. Qed.

  Lemma value_ends t : forall g m v, guarded g t -> (E = Borsh -> sheltered t) -> all_codecs codec_ends t ->
    (depth v <= k)%nat -> (g = true -> (depth v < k)%nat) -> nodeep (enc_val E (plug t r) m v).
  Proof.
    induction t as [t IH] using ty_strong_ind. intros g m v Hg Hsh Hc Hd Hdg.
    assert (Hst : forall fs vs, t = TStruct fs -> v = VStruct vs ->
      nodeep (enc_struct E (map (fun ht => (fst ht, plug (snd ht) r)) fs) vs)).
    { intros fs vs -> ->. apply guarded_struct in Hg. apply all_codecs_struct in Hc. rewrite Forall_forall in Hg, Hc.
      cbn [depth] in Hd.
      assert (Hvs : forall x, In x vs -> (depth x < k)%nat) by (intros x Hx; pose proof (depth_in x vs Hx); lia).
      assert (Hsf : E = Borsh -> forall h a, In (h, a) fs -> field_shelter (is_enum fs) h a).
      { intros HE h a Hin. specialize (Hsh HE). apply sheltered_struct in Hsh. rewrite Forall_forall in Hsh. exact (Hsh _ Hin). }
      unfold enc_struct. rewrite plug_enum'. destruct (is_borsh E && is_enum fs) eqn:Een.
      - apply andb_prop in Een. destruct Een as [Eb Een]. assert (HE : E = Borsh) by (now destruct E).
        destruct vs as [|[]]; try solve [nodeep]. apply nodeep_bind; [nodeep|]. intros _. apply nth_field_end; [exact HE| |].
        + intros h a v Hin Hv Hnp. apply in_map_iff in Hin. destruct Hin as ([h1 a1] & Heq & Hin). cbn [fst snd] in Heq.
          assert (h1 = h /\ plug a1 r = a) as [-> <-] by (split; congruence).
          pose proof (Hsf HE h a1 Hin) as Hs.
          refine (IH a1 (ty_size_field _ _ _ Hin) false _ _ (Hg _ Hin) _ (Hc _ Hin) _ _); [|specialize (Hvs _ Hv); lia|discriminate].
          intros _. destruct a1; try exact Hs. exfalso. eapply Hnp. reflexivity.
        + intros h a x Hin Hv. apply in_map_iff in Hin. destruct Hin as ([h1 a1] & Heq & Hin). cbn [fst snd] in Heq.
          assert (h1 = h /\ plug a1 r = TPtr a) as [-> Ha] by (split; congruence).
          pose proof (Hvs _ Hv) as Hx. cbn [depth] in Hx.
          destruct a1; cbn [plug] in Ha; try discriminate.
          * assert (a = plug a1 r) as -> by congruence. pose proof (Hsf HE h _ Hin) as Hs. cbn [field_shelter] in Hs.
            rewrite Een in Hs. pose proof (Hg _ Hin) as Hg1. cbn [guarded snd] in Hg1.
            refine (IH a1 _ true _ _ Hg1 (fun _ => Hs) (Hc _ Hin) _ _); [|lia|lia].
            pose proof (ty_size_field _ _ _ Hin) as Hsz. cbn [ty_size] in *. lia.
          * specialize (Hg _ Hin). discriminate Hg.
      - apply enc_fields_end. intros h a v sz Hin Hv. apply in_map_iff in Hin. destruct Hin as ([h1 a1] & Heq & Hin).
        cbn [fst snd] in Heq. assert (h1 = h /\ plug a1 r = a) as [-> <-] by (split; congruence).
        pose proof (Hvs _ Hv) as Hx.
        assert (Hplain : (E = Borsh -> sheltered a1) ->
          nodeep (enc_val E (plug a1 r) (EFull (field_opt E (parse_field_tag (f_tag h)) (f_name h) sz)) v)).
        { intro Hs. refine (IH a1 (ty_size_field _ _ _ Hin) false _ _ (Hg _ Hin) Hs (Hc _ Hin) _ _); [lia|discriminate]. }
        destruct (nodeep_dec E) as [HE|HE]; [|apply Hplain; intro; contradiction].
        assert (Een' : is_enum fs = false) by (rewrite HE in Een; exact Een).
        pose proof (Hsf HE h a1 Hin) as Hs. rewrite Een' in Hs. cbn [field_shelter orb] in Hs.
        destruct a1 as [|un w|nm w|f| |sg| | |a1|n a1|a1|t1 t2|fs1|c a1|]; try (apply Hplain; intros _; exact Hs).
        cbn [field_shelter orb] in Hs. destruct (flagged_field Borsh _) eqn:Efl; [|apply Hplain; intros _; exact Hs].
        (* a flagged pointer: nothing is written for nil *)
        cbn [plug]. rewrite enc_full_eq. apply nodeep_bind; [easy|]. intros _.
        assert (Hz : is_zero v = true -> nodeep (flags E (field_opt E (parse_field_tag (f_tag h)) (f_name h) sz) v
          (enc_core E (TPtr (plug a1 r)) (field_opt E (parse_field_tag (f_tag h)) (f_name h) sz) v))).
        { intro Hz. unfold flags. rewrite Hz. subst E. unfold flagged_field in Efl. cbn [is_borsh andb] in Efl.
          cbn [is_borsh andb field_opt o_opt o_copt]. cbv zeta.
          destruct (ft_option _); [nodeep|]. cbn [orb] in Efl. rewrite Efl. nodeep. }
        destruct (is_zero v) eqn:Ezv; [auto|]. apply nodeep_flags. cbn [enc_core]. rewrite plug_ptr_codec.
        destruct (ptr_codec a1) as [[c f]|] eqn:Ep.
        + pose proof (Hc _ Hin) as Hc1. cbn [snd all_codecs] in Hc1. destruct a1; try discriminate. destruct Hc1 as [[Hc1 Hc2] _].
          unfold ptr_codec in Ep. cbn [codec_of] in Ep. destruct (c_marshal c0) as [g1|] eqn:Eg; [|discriminate].
          assert (c0 = c /\ g1 = f) as [-> ->] by (split; congruence).
          destruct v; try solve [nodeep]. destruct p; [intro s; now apply Hc1|]. subst E. nodeep.
        + destruct v as [| | | |[x|]| | | | | |]; try solve [nodeep]; try discriminate. subst E.
          pose proof (Hg _ Hin) as Hg1. cbn [guarded snd] in Hg1. cbn [depth] in Hx.
          refine (IH a1 _ true _ _ Hg1 (fun _ => Hs) (Hc _ Hin) _ _); [|lia|lia].
          pose proof (ty_size_field _ _ _ Hin) as Hsz. cbn [ty_size] in *. lia. }
    destruct m as [o|].
    - assert (Hcore : t <> TDeep -> nodeep (enc_core E (plug t r) o v)).
      { intro Hnt. destruct t as [|un w|nm w|f| |sg| | |t|n t|t|t1 t2|fs|c t|]; cbn [plug enc_core]; try (now nodeep).
        - rewrite plug_ptr_codec. destruct (ptr_codec t) as [[c f]|] eqn:Ep.
          + destruct t; try discriminate. destruct Hc as [[Hc1 Hc2] _]. unfold ptr_codec in Ep. cbn [codec_of] in Ep.
            destruct (c_marshal c0) as [g1|] eqn:Eg; [|discriminate].
            assert (c0 = c /\ g1 = f) as [-> ->] by (split; congruence).
            destruct v; try solve [nodeep]. destruct p; [intro s; now apply Hc1|]. destruct E; try solve [nodeep];
              (destruct (c_byval c); [nodeep|exact Hc2]).
          + cbn [guarded] in Hg. destruct v as [| | | |[x|]| | | | | |]; try solve [nodeep].
            * cbn [depth] in Hd.
              assert (Ht : forall m, nodeep (enc_val E (plug t r) m x)).
              { intro m. refine (IH t _ true _ _ Hg _ Hc _ _); [cbn; lia| |lia|lia].
                intro HE. apply whole_sheltered, Hsh, HE. }
              destruct E; apply Ht.
            * destruct E; try solve [nodeep]. specialize (Hsh eq_refl). cbn [sheltered] in Hsh.
              rewrite plug_whole by exact Hsh. apply whole_ends; [exact Hsh|exact Hc].
        - destruct v; try solve [nodeep]. rewrite plug_uint'. destruct (uint_kind t); [nodeep|]. apply nodeep_each. intros x Hx.
          apply depth_in in Hx. cbn [depth guarded sheltered] in *.
          refine (IH t _ false _ _ Hg Hsh Hc _ _); [cbn; lia|lia|discriminate].
        - destruct v as [| | | | | |[l|]| | | |]; try solve [nodeep]; rewrite plug_uint'; cbv zeta.
          + apply nodeep_bind; [nodeep|intros _]. destruct (uint_kind t); [nodeep|].
            apply nodeep_bind; [|intros _; nodeep]. apply nodeep_each. intros x Hx.
            assert (Hx' : In x l) by (rewrite <- (firstn_skipn (Z.to_nat (match o_size o with Some n => n | None => zlen l end)) l); apply in_or_app; now left).
            apply depth_in in Hx'. cbn [depth guarded sheltered] in *.
            refine (IH t _ true _ _ Hg Hsh Hc _ _); [cbn; lia|lia|lia].
          + apply nodeep_bind; [nodeep|intros _]. destruct (uint_kind t); [nodeep|].
            apply nodeep_bind; [|intros _; nodeep]. rewrite firstn_nil. nodeep.
        - destruct v as [| | | | | | |om| | |]; try solve [nodeep]. destruct Hg as [Hw Hg], Hc as [Hc1 Hc2].
          rewrite (plug_whole t1) by exact Hw. cbv zeta.
          set (m := match om with Some m => m | None => [] end).
          assert (Hm : forall e, In e m -> (depth (snd e) < k)%nat).
          { intros e He. destruct om as [l|]; [|destruct He]. pose proof (depth_entry e l He). cbn [depth] in Hd. lia. }
          destruct (ordered_keys E t1 _); [|unfold unsortable; destruct t1; nodeep]. apply nodeep_bind; [nodeep|]. intros _.
          apply nodeep_each. intros kk _. destruct (negb _); [nodeep|].
          apply nodeep_bind; [now apply whole_ends|]. intros _.
          destruct (map_index t1 m kk) as [x|] eqn:Ex; [|nodeep]. destruct (negb _); [nodeep|].
          assert (Hx : (depth x < k)%nat).
          { unfold map_index in Ex. destruct (find _ m) as [e|] eqn:Ef; [|discriminate]. apply find_some in Ef.
            assert (snd e = x) as <- by congruence. now apply Hm. }
          refine (IH t2 _ true _ _ Hg _ Hc2 _ _); [cbn; lia| |lia|lia]. intro HE. now destruct (Hsh HE).
        - destruct v; try solve [nodeep]. now apply Hst.
        - destruct Hc as [[Hc1 _] Hc2]. cbn [guarded sheltered] in *.
          destruct (c_marshal c) as [f|] eqn:Em; [destruct (c_byval c)|].
          + intro s. now apply Hc1.
          + refine (IH t _ false _ _ Hg Hsh Hc2 Hd _); [cbn; lia|discriminate].
          + refine (IH t _ false _ _ Hg Hsh Hc2 Hd _); [cbn; lia|discriminate]. }
      assert (Ht : t = TDeep \/ t <> TDeep) by (destruct t; try (now right); now left).
      destruct Ht as [->|Ht]; [cbn [plug guarded] in *; apply Hrd; auto|].
      rewrite enc_full_eq. apply nodeep_bind; [easy|]. intros _. apply nodeep_flags. auto.
    - destruct t as [|un w|nm w|f| |sg| | |t|n t|t|t1 t2|fs|c t|]; cbn [plug]; try (rewrite enc_payload_eq; now nodeep).
      + rewrite enc_payload_eq. destruct v; try solve [nodeep]. now apply Hst.
      + rewrite enc_payload_eq. destruct Hc as [_ Hc]. cbn [guarded sheltered] in *.
        refine (IH t _ false _ _ Hg Hsh Hc Hd _); [cbn; lia|discriminate].
      + cbn [guarded] in Hg. apply Hrd; auto.
  Qed.
End OneLevel.

(** * All levels *)

Lemma unroll_codecs F n : all_codecs codec_ends F -> all_codecs codec_ends (unroll F n).
Proof.
  intro Hc. induction n; cbn [unroll]; [exact I|].
  exact (plug_codecs (unroll F n) (fun c => codec_ends c TBool) F Hc IHn).
Qed.
Lemma unroll_encode_ends E F : heavy F -> guarded false F -> (E = Borsh -> sheltered F) -> all_codecs codec_ends F ->
  forall n m v, (depth v < n)%nat -> nodeep (enc_val E (unroll F n) m v).
Proof.
  intros Hh Hg Hs Hc. induction n as [|n IH]; intros m v Hd; [lia|]. cbn [unroll].
  refine (value_ends E (unroll F n) n _ (unroll_codecs F n Hc) (fun x m => IH m x) F false m v Hg Hs Hc _ _); [|lia|discriminate].
  destruct n; [now right|left]. now apply heavy_plug.
Qed.
Lemma encode_ends F n v s : heavy F -> guarded false F -> (e_enc s = Borsh -> sheltered F) -> all_codecs codec_ends F ->
  (depth v < n)%nat -> fst (encode (unroll F n) v s) <> Deep.
Proof.
  intros Hh Hg Hs Hc Hd. unfold encode, bind, e_get_enc. now apply unroll_encode_ends.
Qed.

(** * Calls that do not end *)

(** type T struct { V uint8; Next *T } *)
Definition chain : ty := TStruct [(mkF "V" true notag, TUint UPlain W8); (mkF "Next" true notag, TPtr TDeep)].
(** type T struct { Next *T } *)
Definition hollow : ty := TStruct [(mkF "Next" true notag, TPtr TDeep)].

Lemma chain_deep n : forall z s, e_w s = buffer ->
  exists s', enc_val Borsh (unroll chain n) (EFull opt0) (VStruct [VNum z; VPtr None]) s = (Deep, s') /\
    e_acc s' = e_acc s ++ match n with O => [] | S n' => z mod 256 :: repeat 0 n' end.
Proof.
  induction n as [|n IH]; intros z s Hw.
  - cbn [unroll]. rewrite enc_full_eq. eexists. split; [reflexivity|]. cbn [e_acc]. now rewrite app_nil_r.
  - cbn [unroll chain plug map fst snd]. rewrite enc_full_eq. cbn [flags opt0 o_opt o_copt is_borsh andb].
    unfold bind at 1, e_set_cur. cbn [o_order opt0 enc_core]. unfold enc_struct. cbn [is_borsh is_enum andb enc_fields].
    assert (Ht : forall nm, parse_field_tag (f_tag (mkF nm true notag)) = mkFT EmptyString false LE false false false false) by reflexivity.
    rewrite !Ht. cbn [ft_skip ft_sizeof String.eqb f_exported negb].
    change (field_opt Borsh (mkFT EmptyString false LE false false false false) (f_name (mkF "V" true notag)) []) with opt0.
    change (field_opt Borsh (mkFT EmptyString false LE false false false false) (f_name (mkF "Next" true notag)) []) with opt0.
    unfold bind, map_err. rewrite !enc_full_eq. cbn [flags opt0 o_opt o_copt is_borsh andb o_order enc_core write_int].
    unfold bind, e_set_cur, write_byte, to_writer. cbn [e_w e_hist e_count e_enc e_cur e_acc]. rewrite Hw.
    unfold buffer at 1. cbn [e_w e_hist e_count e_enc e_cur e_acc].
    assert (Hp : ptr_codec (unroll chain n) = None) by (now destruct n). rewrite Hp.
    set (s1 := mkE _ _ _ _ _ _).
    assert (Hz : exists s', enc_val Borsh (unroll chain n) (EFull opt0) (zero_val (unroll chain n)) s1 = (Deep, s') /\
      e_acc s' = e_acc s1 ++ repeat 0 n).
    { destruct n as [|n].
      - cbn [unroll]. rewrite enc_full_eq. eexists. split; [reflexivity|]. cbn [e_acc repeat]. now rewrite app_nil_r.
      - exact (IH 0 s1 eq_refl). }
    destruct Hz as (s' & H1 & H2). change (mkOpt false false None LE) with opt0. rewrite H1. eexists. split; [reflexivity|].
    rewrite H2. subst s1. cbn [e_acc]. now rewrite <- app_assoc.
Qed.

Lemma hollow_deep E n : forall o s, fst (dec_val E (unroll hollow n) (DWalk o false) (zero_val (unroll hollow n)) s) = Deep.
Proof.
  induction n as [|n IH]; intros o s; [reflexivity|].
  cbn [unroll hollow plug map fst snd zero_val]. rewrite dec_walk_eq. unfold with_pend, dec_struct.
  replace (is_borsh E && is_enum _) with false by (now destruct E). cbn [dec_fields].
  change (parse_field_tag (f_tag (mkF "Next" true notag))) with (mkFT EmptyString false LE false false false false).
  cbn [ft_skip ft_sizeof ft_ext String.eqb f_exported negb andb orb].
  assert (Hb : borsh_field_unmarshaler (TPtr (unroll hollow n)) = None) by (now destruct n). rewrite Hb.
  assert (Hm : fst (dec_val E (TPtr (unroll hollow n)) (DStart opt0) (VPtr None) s) = Deep).
  { rewrite dec_start_eq. replace (o_opt opt0 || _) with false by (now destruct E). unfold bind, d_set_cur.
    rewrite dec_walk_eq. unfold fmap, bind. cbn [pointee].
    match goal with |- context [dec_val _ _ (DWalk ?o false) _ ?s1] => specialize (IH o s1) end.
    now destruct (dec_val E (unroll hollow n) _ _ _) as [[] ?]. }
  replace (field_opt E _ _ _) with opt0 by (now destruct E). unfold fmap, bind, map_err.
  destruct (is_borsh E); destruct (dec_val E (TPtr (unroll hollow n)) (DStart opt0) (VPtr None) s) as [[] ?]; try discriminate; reflexivity.
Qed.

(** New variables of a recursive type look the same in all unrollings. *)
Lemma zero_plug t : guarded false t -> forall r r', zero_val (plug t r) = zero_val (plug t r').
Proof.
  induction t using ty_ind'; intros Hg r r'; try reflexivity.
  - cbn [plug zero_val]. f_equal. cbn [guarded] in Hg. now rewrite (IHt Hg r r').
  - cbn [plug zero_val]. f_equal. rewrite !map_map. apply map_ext_in. intros ht Hin. cbn [snd].
    rewrite Forall_forall in H. apply (H ht Hin). clear -Hg Hin. cbn [guarded] in Hg.
    induction fs as [|x fs IH]; [easy|]. destruct Hg as [H1 H2]. destruct Hin as [->|Hin]; auto.
  - cbn [plug zero_val]. exact (IHt Hg r r').
  - discriminate Hg.
Qed.
