(** Recursive types: decoding ends. *)
From Verif Require Import Types DecPrim Enc Dec DecEq Spec TyInd EncFacts DecWire DecWithin DecSafe DecLocal RecSpec RecFacts RecEnc.
Notation length := Datatypes.length.

(** * Programs that do not get to a cut *)

Definition nodeep {S A} (m : SM S A) : Prop := forall s, fst (m s) <> Deep.

Lemma nodeep_ret {S A} (a : A) : nodeep (@ret S A a). Proof. easy. Qed.
Lemma nodeep_fail {S A} e : nodeep (@fail S A e). Proof. easy. Qed.
Lemma nodeep_panic {S A} : nodeep (@panic S A). Proof. easy. Qed.
Lemma nodeep_stuck {S A} : nodeep (@stuck S A). Proof. easy. Qed.
Lemma nodeep_bind {S A B} (m : SM S A) (k : A -> SM S B) :
  nodeep m -> (forall a, nodeep (k a)) -> nodeep (bind m k).
Proof.
  intros H Hk s. unfold bind. specialize (H s). destruct (m s) as [[a| | | |] s']; try discriminate; auto. apply Hk.
Qed.
Lemma nodeep_fmap {S A B} (f : A -> B) (m : SM S A) : nodeep m -> nodeep (fmap f m).
Proof. intro H. apply nodeep_bind; [exact H|easy]. Qed.
Lemma nodeep_map_err {S A} f (m : SM S A) : nodeep m -> nodeep (map_err f m).
Proof. intros H s. unfold map_err. specialize (H s). now destruct (m s) as [[a| | | |] s']. Qed.

Create HintDb nodeep discriminated.
#[global] Hint Resolve nodeep_ret nodeep_fail nodeep_panic nodeep_stuck nodeep_bind nodeep_fmap nodeep_map_err : nodeep.
Ltac nodeep := repeat (intros; first
  [ apply nodeep_ret | apply nodeep_fail | apply nodeep_panic | apply nodeep_stuck
  | solve [auto with nodeep nocore]
  | apply nodeep_fmap | apply nodeep_map_err | apply nodeep_bind
  | match goal with |- nodeep (if ?c then _ else _) => destruct c end
  | match goal with |- nodeep (match ?c with _ => _ end) => destruct c end
  | easy ]).

Lemma nodeep_take n : nodeep (d_take n).
Proof. unfold d_take. nodeep. Qed.
Lemma nodeep_rest : nodeep d_rest.
Proof. unfold d_rest. nodeep. Qed.
#[global] Hint Resolve nodeep_take nodeep_rest : nodeep.
Lemma nodeep_byte : nodeep read_byte.
Proof. unfold read_byte. nodeep. Qed.
Lemma nodeep_uint n o : nodeep (read_uint n o).
Proof. unfold read_uint. nodeep. Qed.
Lemma nodeep_n_bytes n : nodeep (read_n_bytes n).
Proof. unfold read_n_bytes. nodeep. Qed.
#[global] Hint Resolve nodeep_byte nodeep_uint nodeep_n_bytes : nodeep.
Lemma nodeep_uintw w o : nodeep (read_uintw w o).
Proof. destruct w; cbn [read_uintw]; unfold read_uint64; nodeep. Qed.
#[global] Hint Resolve nodeep_uintw : nodeep.
Lemma nodeep_intw w o : nodeep (read_intw w o).
Proof. unfold read_intw. nodeep. Qed.
Lemma nodeep_bool : nodeep read_bool.
Proof. unfold read_bool. nodeep. Qed.
Lemma nodeep_float f o : nodeep (read_float f o).
Proof. unfold read_float. nodeep. Qed.
Lemma nodeep_uvarint : nodeep read_uvarint64.
Proof. unfold read_uvarint64. nodeep. Qed.
Lemma nodeep_compact : nodeep read_compact_u16.
Proof. unfold read_compact_u16. nodeep. Qed.
#[global] Hint Resolve nodeep_intw nodeep_bool nodeep_float nodeep_uvarint nodeep_compact : nodeep.
Lemma nodeep_length : nodeep read_length.
Proof. unfold read_length. nodeep. Qed.
#[global] Hint Resolve nodeep_length : nodeep.
Lemma nodeep_byte_slice : nodeep read_byte_slice.
Proof. unfold read_byte_slice. nodeep. Qed.
#[global] Hint Resolve nodeep_byte_slice : nodeep.
Lemma nodeep_str E : nodeep (read_str E).
Proof. unfold read_str, read_string, read_rust_string. nodeep. Qed.
Lemma nodeep_count E : nodeep (read_count E).
Proof. unfold read_count. nodeep. Qed.
Lemma nodeep_flag E : nodeep (read_flag E).
Proof. unfold read_flag, read_option. nodeep. Qed.
Lemma nodeep_cflag : nodeep read_cflag.
Proof. unfold read_cflag, read_coption. nodeep. Qed.
Lemma nodeep_rep {A} n (m : DM A) : nodeep m -> nodeep (read_rep n m).
Proof. intro H. induction n; cbn [read_rep]; nodeep. Qed.
#[global] Hint Resolve nodeep_str nodeep_count nodeep_flag nodeep_cflag nodeep_rep : nodeep.
Lemma nodeep_uints w l : nodeep (read_uints w l).
Proof. unfold read_uints. nodeep. Qed.
#[global] Hint Resolve nodeep_uints : nodeep.

(** * ... from states with few bytes left *)

(** [k] bytes left at most, and fewer if [e]. *)
Definition nd {A} (k : Z) (e : Prop) (m : DM A) : Prop := forall s,
  inside s -> remaining_of s <= k -> (e -> remaining_of s < k) -> fst (m s) <> Deep.

Lemma nd_nodeep {A} k e (m : DM A) : nodeep m -> nd k e m.
Proof. intros H s _ _ _. apply H. Qed.
Lemma nd_weak {A} k (e e' : Prop) (m : DM A) : (e -> e') -> nd k e m -> nd k e' m.
Proof. intros He H s Hi Hr He'. apply H; auto. Qed.
Lemma nd_bind {A B} k e (m : DM A) (f : A -> DM B) :
  within m -> nd k e m -> (forall a, nd k e (f a)) -> nd k e (bind m f).
Proof.
  intros Hw Hm Hf s Hi Hr He. unfold bind. pose proof (Hw s Hi) as Ho. specialize (Hm s Hi Hr He).
  destruct (m s) as [[a| | | |] s']; try discriminate; try easy.
  destruct Ho as (H1 & H2 & H3 & H4). cbn [snd] in *.
  apply Hf; open_rem; rewrite ?H1; auto; try lia; try (intro H; specialize (He H); lia).
Qed.
Lemma nd_bind_eat {A B} k e (m : DM A) (f : A -> DM B) :
  within m -> eats 1 m -> nd k e m -> (forall a, nd k True (f a)) -> nd k e (bind m f).
Proof.
  intros Hw Ha Hm Hf s Hi Hr He. unfold bind. pose proof (Hw s Hi) as Ho. specialize (Hm s Hi Hr He).
  destruct (m s) as [[a| | | |] s'] eqn:Em; try discriminate; try easy.
  destruct Ho as (H1 & H2 & H3 & H4). cbn [snd] in *. specialize (Ha _ _ _ Hi Em).
  apply Hf; open_rem; rewrite ?H1; auto; try lia.
Qed.
Lemma nd_fmap {A B} k e (f : A -> B) (m : DM A) : nd k e m -> nd k e (fmap f m).
Proof.
  intros H s Hi Hr He. unfold fmap, bind. specialize (H s Hi Hr He).
  now destruct (m s) as [[a| | | |] s'].
Qed.
Lemma nd_map_err {A} k e f (m : DM A) : nd k e m -> nd k e (map_err f m).
Proof.
  intros H s Hi Hr He. unfold map_err. specialize (H s Hi Hr He).
  now destruct (m s) as [[a| | | |] s'].
Qed.
Lemma nd_rep {A} k e n (m : DM A) : within m -> nd k e m -> nd k e (read_rep n m).
Proof.
  intros Hw H. induction n; cbn [read_rep]; [apply nd_nodeep; nodeep|]. apply nd_bind; auto. intro.
  apply nd_bind; [within|exact IHn|]. intro. apply nd_nodeep. nodeep.
Qed.
Lemma nd_each {A B} k e (f : A -> DM B) l : (forall a, In a l -> within (f a)) -> (forall a, In a l -> nd k e (f a)) ->
  nd k e (each_dec f l).
Proof.
  intros Hw H. induction l as [|a l IH]; cbn [each_dec]; [apply nd_nodeep; nodeep|].
  assert (Hwl : within (each_dec f l)).
  { clear - Hw. assert (Hw' : forall a, In a l -> within (f a)) by (intros; apply Hw; now right). clear Hw.
    induction l as [|b l IH]; cbn [each_dec]; [within|]. apply within_bind; [apply Hw'; now left|]. intro.
    apply within_bind; [apply IH; intros; apply Hw'; now right|]. intro. within. }
  apply nd_bind; [apply Hw; now left|apply H; now left|]. intro.
  apply nd_bind; [exact Hwl|apply IH; intros; [apply Hw|apply H]; now right|].
  intro. apply nd_nodeep. nodeep.
Qed.
Lemma nd_dec_map k e kt n deck decv : within deck -> within decv -> nd k e deck -> nd k e decv ->
  forall m, nd k e (dec_map kt n deck decv m).
Proof.
  intros Hw1 Hw2 H1 H2. induction n; intro m; cbn [dec_map]; [apply nd_nodeep; nodeep|].
  apply nd_bind; auto. intro. apply nd_bind; auto.
Qed.
Lemma nd_pend k e pend t c : within c -> nd k e c -> nd k e (with_pend pend t c).
Proof.
  intros Hw H. unfold with_pend. destruct pend; [|exact H].
  apply nd_bind; [within|apply nd_nodeep; nodeep|]. intros []; [exact H|apply nd_nodeep; nodeep].
Qed.

(** * Facts about [plug] *)

Section Plugged.
  Variables (E : encoding) (r : ty).
  Hypothesis Hr : heavy r.

  Lemma plug_uint t : uint_kind (plug t r) = uint_kind t.
  Proof. induction t using ty_ind'; try reflexivity; [exact IHt|]. now destruct r. Qed.
  Lemma plug_has t : has_unmarshal (plug t r) = has_unmarshal t.
  Proof. destruct t; try reflexivity. now destruct r. Qed.
  Lemma plug_enum fs : is_enum (map (fun ht => (fst ht, plug (snd ht) r)) fs) = is_enum fs.
  Proof. destruct fs as [|[h t] fs]; [reflexivity|]. cbn [map fst snd is_enum]. destruct t; try reflexivity. now destruct r. Qed.
  Lemma enum_struct_is fs : enum_struct E fs = is_borsh E && is_enum fs.
  Proof. destruct E; [reflexivity..|]. now destruct fs as [|[h []] fs]. Qed.
  Lemma plug_enum_struct fs : enum_struct E (map (fun ht => (fst ht, plug (snd ht) r)) fs) = enum_struct E fs.
  Proof. rewrite !enum_struct_is. now rewrite plug_enum. Qed.
  Lemma plug_codecs P t : all_codecs (fun c _ => P c) t -> all_codecs (fun c _ => P c) r -> all_codecs (fun c _ => P c) (plug t r).
  Proof.
    intros Ht Hc. induction t using ty_ind'; cbn [plug all_codecs] in *; auto; try (now destruct Ht; split; auto).
    change (all_codecs (fun c _ => P c) (TStruct (map (fun ht => (fst ht, plug (snd ht) r)) fs))).
    change (all_codecs (fun c _ => P c) (TStruct fs)) in Ht.
    apply all_codecs_struct. apply all_codecs_struct in Ht. induction fs as [|ht fs IH]; [constructor|].
    inversion_clear Ht as [|? ? H1 H2]. inversion_clear H as [|? ? H3 H4]. constructor; auto.
  Qed.

  Lemma solid_struct_iff fs : solid E (TStruct fs) <->
    enum_struct E fs = true \/ Exists (fun ht => solid_field E fs (fst ht) (snd ht) (solid E (snd ht))) fs.
  Proof.
    split; [apply solid_struct|]. intros [H|H]; [now left|right]. revert H. generalize fs at 1 3. intros all H.
    induction H as [[h t] fs H|[h t] fs H IH]; [now left|right; exact IH].
  Qed.

  Lemma map_sizes fs name :
    Forall (fun ht : fhdr * ty => ft_sizeof (parse_field_tag (f_tag (fst ht))) <> name) fs ->
    Forall (fun ht : fhdr * ty => ft_sizeof (parse_field_tag (f_tag (fst ht))) <> name)
      (map (fun ht => (fst ht, plug (snd ht) r)) fs).
  Proof. intro H. apply Forall_map. exact H. Qed.

  Lemma no_exists {A} (P : A -> Prop) l : ~ Exists P l -> Forall (fun x => ~ P x) l.
  Proof. intro H. now apply Forall_Exists_neg. Qed.

  (** A slice that a `sizeof` reaches is not in a mention of the type. *)
  Lemma plug_sliceless t : forall e sz, paid E e sz t -> sliceless t = true -> sliceless (plug t r) = true \/ ~ sz.
  Proof.
    induction t using ty_ind'; intros e sz Hp Hs; cbn [plug sliceless paid] in *; auto; try discriminate.
    - eapply IHt; eauto.
    - destruct (c_unmarshal c); [now left|]. eapply IHt; eauto.
    - right. apply Hp.
  Qed.
End Plugged.

(** The fields of a struct, one after the other. *)
Section PaidFields.
  Variables (E : encoding) (all : list (fhdr * ty)).
  Fixpoint paid_fields (e : Prop) (l : list (fhdr * ty)) : Prop :=
    match l with
    | [] => True
    | (h, t') :: l' =>
        paid E (e \/ flagged_field E (parse_field_tag (f_tag h)) = true)
          (Exists (fun ht => ft_sizeof (parse_field_tag (f_tag (fst ht))) = f_name h) all) t' /\
        paid_fields (e \/ solid_field E all h t' (solid E t')) l'
    end.
End PaidFields.
Lemma paid_struct E e sz fs : paid E e sz (TStruct fs) <->
  if enum_struct E fs then Forall (fun ht => paid E True False (snd ht)) fs else paid_fields E fs e fs.
Proof.
  cbn [paid]. destruct (enum_struct E fs).
  - induction fs as [|ht fs IH]; split; intro H; [constructor|exact I| |].
    + destruct H. constructor; [|apply IH]; assumption.
    + inversion_clear H. split; [|apply IH]; assumption.
  - generalize fs at 1 2 4. intro all. revert e. induction fs as [|[h t] fs IH]; intro e; [easy|].
    cbn [paid_fields]. rewrite <- IH. reflexivity.
Qed.

Lemma paid_mono E t : forall (e e' sz sz' : Prop), (e -> e') -> (sz' -> sz) -> paid E e sz t -> paid E e' sz' t.
Proof.
  induction t using ty_ind'; intros e e' sz sz' He Hz Hp; cbn [paid] in *; auto; try (eapply IHt; [..|exact Hp]; tauto).
  - change (paid E e sz (TStruct fs)) in Hp. change (paid E e' sz' (TStruct fs)). apply paid_struct in Hp. apply paid_struct.
    destruct (enum_struct E fs); [exact Hp|]. revert Hp. generalize fs at 1 3. intros all Hp. revert e e' He Hp.
    induction H as [|[h t] fs H1 H2 IH]; intros e e' He Hp; [exact I|]. cbn [paid_fields snd] in *. destruct Hp as [Hp1 Hp2].
    split; [|eapply IH; [|exact Hp2]; tauto]. eapply H1; [..|exact Hp1]; tauto.
  - destruct (c_unmarshal c); [exact Hp|]. eapply IHt; [..|exact Hp]; tauto.
  - tauto.
Qed.

Section Plugged2.
  Variables (E : encoding) (r : ty).
  Hypothesis Hr : heavy r.

  Definition plugged (fs : list (fhdr * ty)) : list (fhdr * ty) := map (fun ht => (fst ht, plug (snd ht) r)) fs.

  (** [solid_field] for the plugged type. *)
  Lemma plug_solid_field all h t e (P Q : Prop) : (P -> Q) ->
    paid E e (Exists (fun ht => ft_sizeof (parse_field_tag (f_tag (fst ht))) = f_name h) all) t ->
    solid_field E all h t P -> solid_field E (plugged all) h (plug t r) Q.
  Proof.
    intros HPQ Hp (Hl & He & Hs). split; [exact Hl|]. split; [exact He|].
    destruct Hs as [[Hf Hb]|[Hs Hn]]; [left|right].
    - split; [exact Hf|]. intro HE. destruct (Hb HE) as [H1 H2]. rewrite (plug_has r Hr). split; [exact H1|].
      destruct t; cbn [plug]; auto.
      + now rewrite (plug_has r Hr).
      + now destruct r.
    - split; [auto|]. destruct Hn as [Hn|Hn].
      + destruct (plug_sliceless E r _ _ _ Hp Hn) as [H|H]; [now left|right]. now apply map_sizes, no_exists.
      + right. now apply map_sizes.
  Qed.
  Lemma plug_solid t : forall e sz, paid E e sz t -> solid E t -> solid E r -> solid E (plug t r).
  Proof.
    induction t using ty_ind'; intros e sz Hp Ht Hs; cbn [plug]; auto; try (now eapply IHt; eauto).
    - cbn [solid paid] in *. rewrite (plug_uint r Hr). destruct Ht as [Hn [Ht|Ht]]; split; auto. right. eapply IHt; eauto.
    - apply solid_struct_iff. apply solid_struct_iff in Ht. apply paid_struct in Hp. rewrite (plug_enum_struct E r Hr).
      destruct (enum_struct E fs); [now left|right]. destruct Ht as [Ht|Ht]; [discriminate|].
      fold (plugged fs).
      enough (Hgen : forall all l e, Forall (fun ht => forall e sz, paid E e sz (snd ht) -> solid E (snd ht) -> solid E r ->
          solid E (plug (snd ht) r)) l -> paid_fields E all e l ->
        Exists (fun ht => solid_field E all (fst ht) (snd ht) (solid E (snd ht))) l ->
        Exists (fun ht => solid_field E (plugged all) (fst ht) (snd ht) (solid E (snd ht))) (plugged l))
        by (eapply Hgen; eassumption).
      clear - Hs Hr. intros all l e H Hp Ht. revert e H Hp.
      induction Ht as [[h t] l Ht|[h t] l Ht IH]; intros e H Hp; cbn [paid_fields] in Hp; destruct Hp as [Hp1 Hp2];
        inversion_clear H as [|? ? H1 H2]; cbn [fst snd] in *.
      + apply Exists_cons_hd. cbn [fst snd]. eapply plug_solid_field; [|exact Hp1|exact Ht].
        intro Hs1. eapply H1; eauto.
      + apply Exists_cons_tl. eapply IH; eauto.
    - cbn [solid paid] in *. destruct (c_unmarshal c); [exact Ht|]. eapply IHt; eauto.
  Qed.
End Plugged2.

Lemma plug_within r t : all_codecs codec_within t -> all_codecs codec_within r -> all_codecs codec_within (plug t r).
Proof. intros H1 H2. exact (plug_codecs r (fun c => codec_within c TBool) t H1 H2). Qed.

(** * One level *)

Section OneLevel.
  Variables (E : encoding) (r : ty) (k : Z).
  Hypothesis Hr : heavy r.
  Hypothesis Hrs : solid E r.
  Hypothesis Hrc : all_codecs codec_within r.
  (** From states with fewer than [k] bytes left, decoding [r] ends. *)
  Hypothesis Hrd : forall o pend v, o_size o = None -> fits r v -> nd k True (dec_val E r (DWalk o pend) v).

  Definition walk_ends (t : ty) : Prop := forall e sz o pend v,
    paid E e sz t -> all_codecs codec_within t -> (o_size o <> None -> sz) -> fits (plug t r) v ->
    nd k e (dec_val E (plug t r) (DWalk o pend) v).
  Definition null_ends (t : ty) : Prop := forall e sz o v,
    paid E True sz t -> all_codecs codec_within t -> (o_size o <> None -> sz) -> fits (plug t r) v ->
    nd k e (dec_val E (plug t r) (DNull o) v).

  Lemma start_ends t : walk_ends t -> null_ends t -> forall (e sz : Prop) o v,
    paid E (e \/ o_opt o || (is_borsh E && o_copt o) = true) sz t -> all_codecs codec_within t ->
    (o_size o <> None -> sz) -> fits (plug t r) v ->
    nd k e (dec_val E (plug t r) (DStart o) v).
  Proof.
    intros Hw Hn e sz o v Hp Hc Ho Hf. rewrite dec_start_eq.
    apply nd_bind; [within|now apply nd_nodeep|]. intros _.
    destruct (o_opt o || _).
    - eapply Hn; eauto. eapply paid_mono; [..|exact Hp]; auto.
    - eapply Hw; eauto. eapply paid_mono; [..|exact Hp]; [|auto]. intros [H|H]; [exact H|discriminate].
  Qed.

  Lemma flagged_ends t : walk_ends t -> forall (e sz : Prop) o v,
    paid E True sz t -> all_codecs codec_within t -> (o_size o <> None -> sz) -> fits (plug t r) v ->
    nd k e (dec_flagged E (plug t r) o v).
  Proof.
    intros Hw e sz o v Hp Hc Ho Hf. unfold dec_flagged. destruct (o_opt o).
    - apply nd_bind_eat; [within|apply eats_read_flag|apply nd_nodeep; nodeep|].
      intros []; [eapply Hw; eauto|apply nd_nodeep; nodeep].
    - apply nd_bind_eat; [within|apply eats_read_cflag|apply nd_nodeep; nodeep|].
      intros []; [eapply Hw; eauto|apply nd_nodeep; nodeep].
  Qed.

  (** The `sizeof` lengths known come from fields of this struct. *)
  Definition sizes_from (all : list (fhdr * ty)) (sizes : smap) : Prop := forall name,
    sm_get sizes name <> None -> Exists (fun ht => ft_sizeof (parse_field_tag (f_tag (fst ht))) = name) all.

  Lemma fields_end all fs : forall (e : Prop) ps sizes seen,
    Forall (fun ht => walk_ends (snd ht) /\ null_ends (snd ht) /\ all_codecs codec_within (snd ht)) fs ->
    paid_fields E all e fs -> incl fs all -> sizes_from all sizes ->
    fits_fields fits (plugged r fs) ps ->
    nd k e (dec_fields E (fun t' o' v' => dec_val E t' (DStart o') v') (plugged r fs) ps sizes seen).
  Proof.
    induction fs as [|[h t] fs IH]; intros e ps sizes seen Ha Hp Hin Hsz Hf.
    { destruct ps; [|destruct Hf]. apply nd_nodeep. cbn [plugged map dec_fields]. nodeep. }
    destruct ps as [|p ps]; [destruct Hf|]. destruct Hf as [Hp1 Hf]. fold (plugged r fs) in Hf.
    inversion_clear Ha as [|? ? (Hw & Hn & Hc) Ha']. cbn [fst snd] in *.
    destruct Hp as [Hpt Hpf]. fold (paid_fields E all) in Hpf.
    assert (Hin' : incl fs all) by (intros y Hy; apply Hin; now right).
    assert (Hth : In (h, t) all) by (apply Hin; now left).
    assert (Hcp : all_codecs codec_within (plug t r)) by now apply plug_within.
    cbn [plugged map dec_fields fst snd]. fold (plugged r fs). set (tg := parse_field_tag (f_tag h)) in *.
    set (rec := fun t' o' v' => dec_val E t' (DStart o') v').
    assert (Hwf : forall ps sizes seen, within (dec_fields E rec (plugged r fs) ps sizes seen)).
    { intros. apply within_dec_fields. apply Forall_map. eapply Forall_impl; [|exact Ha']. intros [h1 t1] (_ & _ & H1).
      cbn [fst snd] in *. split; [now apply plug_within|]. intros. apply within_dec_val. now apply plug_within. }
    assert (Hsz' : forall n, sizes_from all ((ft_sizeof tg, n) :: sizes)).
    { intros n name. cbn [sm_get]. destruct (String.eqb (ft_sizeof tg) name) eqn:Es; [|apply Hsz].
      intros _. apply String.eqb_eq in Es. apply Exists_exists. exists (h, t). now split. }
    (* the rest, with what this field is known to have read *)
    assert (Hrest : forall ps sizes seen, sizes_from all sizes -> fits_fields fits (plugged r fs) ps ->
      nd k (e \/ solid_field E all h t (solid E t)) (dec_fields E rec (plugged r fs) ps sizes seen))
      by (intros; now apply IH).
    assert (Hkeep : ~ solid_field E all h t (solid E t) \/ ft_ext tg = true -> forall x sn, nd k e (fmap (cons x) (dec_fields E rec (plugged r fs) ps sizes sn))).
    { intros Hns y1 sn. apply nd_fmap. eapply nd_weak; [|apply Hrest; auto]. intros [H|H]; [exact H|]. exfalso.
      destruct Hns as [Hns|Hns]; [tauto|]. destruct H as (_ & H & _). fold tg in H. congruence. }
    cbv zeta. destruct (ft_skip tg) eqn:Esk.
    { apply Hkeep. left. intros (H & _). unfold live in H. fold tg in H. rewrite Esk in H. discriminate. }
    destruct (_ && seen); [apply nd_nodeep; nodeep|].
    assert (Hfirst : nd k e (map_err EWrap (rec (plug t r) (field_opt E tg (f_name h) sizes) p))).
    { apply nd_map_err. unfold rec. eapply start_ends; eauto. cbn [field_opt o_opt o_copt].
      eapply paid_mono; [..|exact Hpt]; [|auto]. unfold flagged_field. fold tg. intros [H|H]; [now left|right].
      destruct (ft_option tg); [reflexivity|]. cbn [orb] in *. rewrite H. now destruct (is_borsh E). }
    assert (Heat : solid_field E all h t (solid E t) ->
      match is_borsh E, borsh_field_unmarshaler (plug t r) with
      | true, Some m => eats 1 m
      | _, _ => eats 1 (map_err EWrap (rec (plug t r) (field_opt E tg (f_name h) sizes) p))
      end).
    { intro Hs. apply (plug_solid_field E r Hr all h t _ _ (solid E (plug t r))
        (fun H => plug_solid E r Hr t _ _ Hpt H Hrs) Hpt) in Hs.
      destruct Hs as (_ & _ & Hs). fold tg in Hs.
      assert (Hd : (E <> Borsh \/ borsh_field_unmarshaler (plug t r) = None) ->
        eats 1 (map_err EWrap (rec (plug t r) (field_opt E tg (f_name h) sizes) p))).
      { intros _. apply eats_map_err. unfold rec. destruct Hs as [[Hfl _]|[Hs Hn']].
        - apply eats_start_flagged; [exact Hcp|]. unfold flagged_field in Hfl. cbn [field_opt o_opt o_copt].
          destruct (ft_option tg); [reflexivity|]. cbn [orb] in *. now destruct (is_borsh E).
        - apply eats_start; auto; [now apply eats_dec_val|]. cbn [field_opt o_size].
          destruct Hn' as [Hn'|Hn']; [now right|left]. destruct (sm_get sizes (f_name h)) eqn:Es; [|reflexivity].
          exfalso. assert (Hx : sm_get sizes (f_name h) <> None) by congruence. apply Hsz in Hx.
          unfold plugged in Hn'. rewrite Forall_map in Hn'. cbn [fst] in Hn'.
          apply Exists_exists in Hx. destruct Hx as (ht & Hx1 & Hx2). rewrite Forall_forall in Hn'. now apply (Hn' ht). }
      destruct (is_borsh E) eqn:Eb; [|apply Hd; left; intros ->; discriminate].
      destruct (borsh_field_unmarshaler (plug t r)) as [m|] eqn:Em; [|apply Hd; now right].
      assert (HE : E = Borsh) by (now destruct E).
      assert (Hs' : solid E (plug t r)).
      { destruct Hs as [[_ Hb]|[Hs _]]; [|exact Hs]. exfalso. destruct (Hb HE) as [Hb1 Hb2].
        destruct (plug t r) as [| | | | | | | |q| | | | |c u|]; try discriminate.
        - destruct q; try discriminate. cbn in Em, Hb2. rewrite Hb2 in Em. discriminate.
        - cbn in Em, Hb1. rewrite Hb1 in Em. discriminate. }
      clear - Em Hs' Hcp. destruct (plug t r) as [| | | | | | | |q| | | | |c u|]; try discriminate.
      - destruct q; try discriminate. cbn [borsh_field_unmarshaler] in Em. cbn [solid] in Hs'. destruct Hcp as [Hc _].
        destruct (c_unmarshal c) eqn:Ec; [|discriminate]. injection Em as <-. apply eats_fmap; [|apply Hs']. now apply Hc.
      - cbn [borsh_field_unmarshaler] in Em. cbn [solid] in Hs'.
        destruct (c_unmarshal c) eqn:Ec; [|discriminate]. injection Em as <-. apply Hs'. }
    (* read the field, then the rest *)
    assert (Hthen : forall A (m : DM A) (f : A -> DM (list val)), within m -> nd k e m ->
      (solid_field E all h t (solid E t) -> eats 1 m) ->
      (forall a, nd k (e \/ solid_field E all h t (solid E t)) (f a)) -> nd k e (bind m f)).
    { clear. intros A m f Hwm Hm He Hf s Hi Hr He'. unfold bind. pose proof (Hwm s Hi) as Ho.
      pose proof (Hm s Hi Hr He') as Hd. destruct (m s) as [[a| | | |] s'] eqn:Em; cbn [fst] in *; try easy.
      destruct Ho as (H1 & H2 & H3 & H4). cbn [snd] in *. apply Hf; open_rem; rewrite ?H1; auto; try lia.
      intros [H|H]; [specialize (He' H); lia|]. specialize (He H _ _ _ Hi Em). lia. }
    assert (Hbody : nd k e
      (if negb (f_exported h)
       then fmap (cons p) (dec_fields E rec (plugged r fs) ps sizes (seen || ft_ext tg))
       else match is_borsh E, borsh_field_unmarshaler (plug t r) with
            | true, Some m =>
                x <- m ;; fmap (cons x) (dec_fields E rec (plugged r fs) ps sizes (seen || ft_ext tg))
            | _, _ =>
                x <- map_err EWrap (rec (plug t r) (field_opt E tg (f_name h) sizes) p) ;;
                if String.eqb (ft_sizeof tg) "" then
                  fmap (cons x) (dec_fields E rec (plugged r fs) ps sizes (seen || ft_ext tg))
                else match sizeof_val (plug t r) x with
                     | None => panic
                     | Some n =>
                         fmap (cons x)
                           (dec_fields E rec (plugged r fs) ps ((ft_sizeof tg, n) :: sizes) (seen || ft_ext tg))
                     end
            end)).
    { destruct (f_exported h) eqn:Ex; cbn [negb].
      2:{ apply Hkeep. left. intros (H & _). unfold live in H. rewrite Ex, andb_false_r in H. discriminate. }
      assert (Hx : forall x, nd k (e \/ solid_field E all h t (solid E t))
        (if String.eqb (ft_sizeof tg) "" then
           fmap (cons x) (dec_fields E rec (plugged r fs) ps sizes (seen || ft_ext tg))
         else match sizeof_val (plug t r) x with
              | None => panic
              | Some n => fmap (cons x)
                  (dec_fields E rec (plugged r fs) ps ((ft_sizeof tg, n) :: sizes) (seen || ft_ext tg))
              end)).
      { intro y1. destruct (String.eqb _ _); [apply nd_fmap; now apply Hrest|].
        destruct (sizeof_val _ y1); [apply nd_fmap; now apply Hrest|apply nd_nodeep; nodeep]. }
      destruct (is_borsh E); [destruct (borsh_field_unmarshaler (plug t r)) as [m|] eqn:Em|].
      - apply Hthen; [now apply (within_unmarshaler (plug t r))| |exact Heat|intro; apply nd_fmap; now apply Hrest].
        apply nd_nodeep. clear - Em Hpt Hr. destruct t as [| | | | | | | |q| | | | |c u|]; cbn [plug] in Em; try discriminate.
        + destruct q; cbn [plug] in Em; try discriminate; [|now destruct r]. cbn [borsh_field_unmarshaler paid] in *.
          destruct (c_unmarshal c); [|discriminate]. injection Em as <-. apply nodeep_fmap. intro s. apply Hpt.
        + cbn [borsh_field_unmarshaler paid] in *.
          destruct (c_unmarshal c); [|discriminate]. injection Em as <-. intro s. apply Hpt.
        + now destruct r.
      - apply Hthen; [apply within_map_err; now apply within_dec_val|exact Hfirst|exact Heat|exact Hx].
      - apply Hthen; [apply within_map_err; now apply within_dec_val|exact Hfirst|exact Heat|exact Hx]. }
    destruct (ft_ext tg) eqn:Ee; [|exact Hbody].
    apply nd_bind; [within|apply nd_nodeep; nodeep|]. intros [|? ?]; [apply Hkeep; now right|exact Hbody].
  Qed.

  Lemma nodeep_hopeless {A} (m : DM A) : nodeep m -> nodeep (hopeless m).
  Proof. intros H s. unfold hopeless, then_panic, bind. specialize (H s). now destruct (m s) as [[]]. Qed.
  Lemma nodeep_then_panic {A} (m : DM A) : nodeep m -> nodeep (then_panic m).
  Proof. intro H. unfold then_panic. nodeep. Qed.
  Lemma nodeep_each {A B} (f : A -> DM B) l : (forall a, nodeep (f a)) -> nodeep (each_dec f l).
  Proof. intro H. induction l; cbn [each_dec]; nodeep. Qed.
  Lemma nodeep_hidden fs : forall ps sizes seen, nodeep (dec_fields Borsh (fun _ _ p => ret p) (hide fs) ps sizes seen).
  Proof.
    induction fs as [|[h t] fs IH]; intros [|p ps] sizes seen; try (cbn [hide map dec_fields]; nodeep).
  Qed.
  Lemma nodeep_sealed t : forall v, nodeep (dec_sealed (plug t r) v).
  Proof.
    assert (Hroot : forall fs, (exists t, fs = TSlice t) \/ (exists kt vt, fs = TMap kt vt) \/ (exists l, fs = TStruct l) ->
      forall v, nodeep (dec_sealed fs v)).
    { intros ? [[t' ->]|[(kt & vt & ->)|[l ->]]] v; cbn [dec_sealed].
      - apply nodeep_bind; [nodeep|]. intro l. destruct (l =? 0); [nodeep|]. apply nodeep_bind; [nodeep|]. intro x. destruct (x <? l); [nodeep|].
        destruct (uint_kind t'); [apply nodeep_then_panic|]; nodeep.
      - nodeep.
      - destruct v; try apply nodeep_stuck. destruct (is_enum l); [apply nodeep_then_panic; nodeep|]. apply nodeep_bind; [apply nodeep_hidden|nodeep]. }
    induction t as [t IH] using ty_strong_ind. intro v.
    destruct t as [|un w|nm w|f| |sg| | |t|n t|t|t1 t2|fs|c t|]; cbn [plug];
      try (apply Hroot; eauto; fail); cbn [dec_sealed]; try (apply nodeep_hopeless; nodeep; fail); try (apply nodeep_then_panic; nodeep; fail); try (nodeep; fail).
    - destruct v as [| | | |[x|]| | | | | |]; try (nodeep; fail). apply IH. cbn. lia.
    - destruct (uint_kind _); [nodeep|]. destruct v; try (nodeep; fail). apply nodeep_bind; [|nodeep]. apply nodeep_each. intro a.
      apply nodeep_bind; [nodeep|]. intro. apply IH. cbn. lia.
    - apply IH. cbn. lia.
    - apply Hroot. destruct r; try destruct Hr; eauto.
  Qed.

  Lemma variant_ends fs : forall (e : Prop) ps n,
    Forall (fun ht => walk_ends (snd ht) /\ null_ends (snd ht) /\ all_codecs codec_within (snd ht)) fs ->
    Forall (fun ht => paid E e False (snd ht)) fs ->
    fits_fields fits (plugged r fs) ps ->
    nd k e (dec_variant (fun t' o' v' => dec_val E t' (DStart o') v') (plugged r fs) ps n).
  Proof.
    induction fs as [|[h t] fs IH]; intros e [|p ps] n Ha Hp Hf; try (destruct Hf; fail).
    { apply nd_nodeep. cbn [plugged map dec_variant]. nodeep. }
    destruct Hf as [Hp1 Hf]. fold (plugged r fs) in Hf.
    inversion_clear Ha as [|? ? (Hw & Hn & Hc) Ha']. inversion_clear Hp as [|? ? Hpt Hpf]. cbn [fst snd] in *.
    cbn [plugged map dec_variant fst snd]. fold (plugged r fs). destruct n; [|apply nd_fmap; now apply IH].
    destruct (negb _); [apply nd_nodeep; apply nodeep_bind; [nodeep|intro; apply nodeep_bind; [apply nodeep_sealed|nodeep]]|].
    apply nd_bind; [apply within_dec_val; now apply plug_within| |intro; apply nd_nodeep; nodeep].
    apply (start_ends t Hw Hn e False); auto; try easy. eapply paid_mono; [..|exact Hpt]; auto.
  Qed.

  Lemma level_ends t : walk_ends t /\ null_ends t.
  Proof.
    induction t as [t IH] using ty_strong_ind.
    assert (Hwalk : walk_ends t).
    { intros e sz o pend v Hp Hc Ho Hf.
      assert (Hcp : all_codecs codec_within (plug t r)) by now apply plug_within.
      destruct t as [|un w|nm w|f| |sg| | |t|n t|t|t1 t2|fs|c t|];
        try (cbn [plug]; rewrite dec_walk_eq; apply nd_pend; [within|apply nd_nodeep; nodeep]; fail).
      - cbn [plug]. rewrite dec_walk_eq. apply nd_fmap. destruct (IH t) as [Hw _]; [cbn; lia|].
        eapply Hw; eauto. exact (fits_deref _ _ Hf).
      - cbn [plug] in *. rewrite dec_walk_eq. destruct Hf as (ps & -> & Hl & Hps).
        destruct (IH t) as [Hw Hn]; [cbn; lia|].
        rewrite (plug_uint r Hr). destruct (uint_kind t); [apply nd_pend; [within|apply nd_nodeep; nodeep]|].
        assert (Hwt : forall m v, within (dec_val E (plug t r) m v)) by (intros; now apply within_dec_val).
        apply nd_pend; [within|]. apply nd_fmap, nd_each; [auto|]. intros a Hin.
        apply (start_ends t Hw Hn e False); auto; try easy.
        + eapply paid_mono; [..|exact Hp]; auto.
        + rewrite Forall_forall in Hps. auto.
      - cbn [plug] in *. rewrite dec_walk_eq. destruct (IH t) as [Hw Hn]; [cbn; lia|]. cbn [paid] in Hp.
        assert (Hwt : forall m v, within (dec_val E (plug t r) m v)) by (intros; now apply within_dec_val).
        apply nd_pend; [within|]. rewrite (plug_uint r Hr).
        assert (Hgo : forall (e' : Prop), paid E e' False t -> forall l, nd k e' (if is_borsh E && (l =? 0) then ret v else
           r' <- d_remaining ;; if r' <? l then fail EUnexpectedEOF else match uint_kind t with
             | Some w => fmap (fun zs => VSlice (Some (map VNum zs))) (read_uints w l)
             | None => fmap (fun vs => VSlice (Some vs))
                 (read_rep (Z.to_nat l) (dec_val E (plug t r) (DStart opt0) (zero_val (plug t r)))) end)).
        { intros e' Hp' l. destruct (_ && _); [apply nd_nodeep; nodeep|].
          apply nd_bind; [within|now apply nd_nodeep|]. intro r'. destruct (r' <? l); [apply nd_nodeep; nodeep|].
          destruct (uint_kind t); [apply nd_nodeep; nodeep|]. apply nd_fmap, nd_rep; [within|].
          apply (start_ends t Hw Hn e' False); auto; try easy; try apply fits_zero. eapply paid_mono; [..|exact Hp']; auto. }
        destruct (o_size o) as [z|] eqn:Eo.
        + apply nd_bind; [within|apply nd_nodeep; nodeep|]. intro l. apply Hgo.
          eapply paid_mono; [..|exact Hp]; auto. intros [H|H]; [exact H|]. exfalso. apply H, Ho. discriminate.
        + apply nd_bind_eat; [within|apply eats_read_count|apply nd_nodeep; nodeep|]. intro l. apply Hgo.
          eapply paid_mono; [..|exact Hp]; auto.
      - cbn [plug] in *. rewrite dec_walk_eq. destruct (IH t1) as [Hw1 Hn1]; [cbn; lia|].
        destruct (IH t2) as [Hw2 Hn2]; [cbn; lia|]. destruct Hp as [Hp1 Hp2], Hc as [Hc1 Hc2], Hcp as [Hcp1 Hcp2].
        assert (Hwt1 : forall m v, within (dec_val E (plug t1 r) m v)) by (intros; now apply within_dec_val).
        assert (Hwt2 : forall m v, within (dec_val E (plug t2 r) m v)) by (intros; now apply within_dec_val).
        apply nd_pend; [within|].
        apply nd_bind_eat; [within|apply eats_read_count|apply nd_nodeep; nodeep|]. intro l.
        destruct (l =? 0); [apply nd_nodeep; nodeep|]. apply nd_fmap, nd_dec_map; [within|within| |].
        + apply (start_ends t1 Hw1 Hn1 True False); auto; try easy; try apply fits_zero. eapply paid_mono; [..|exact Hp1]; auto.
        + apply (start_ends t2 Hw2 Hn2 True False); auto; try easy; try apply fits_zero. eapply paid_mono; [..|exact Hp2]; auto.
      - cbn [plug] in *. rewrite dec_walk_eq. fold (plugged r fs) in *.
        assert (Hall : Forall (fun ht => walk_ends (snd ht) /\ null_ends (snd ht) /\ all_codecs codec_within (snd ht)) fs).
        { apply all_codecs_struct in Hc. rewrite Forall_forall in *. intros [h a] Hin. specialize (Hc _ Hin).
          destruct (IH a) as [Hw Hn]; [now apply (ty_size_field fs h)|]. auto. }
        apply paid_struct in Hp. destruct Hf as (ps & -> & Hps).
        apply nd_pend.
        { unfold dec_struct. pose proof (within_dec_val _ Hcp E (DWalk opt0 false) (VStruct ps)) as Hx.
          rewrite dec_walk_eq in Hx. exact Hx. }
        unfold dec_struct. rewrite <- enum_struct_is. unfold plugged at 1. rewrite (plug_enum_struct E r Hr).
        destruct (enum_struct E fs) eqn:Een.
        + apply nd_bind_eat; [within|apply eats_read_byte|apply nd_nodeep; nodeep|]. intro n.
          destruct fs as [|[h a] fs]; [apply nd_nodeep; cbn; nodeep|]. cbn [plugged map fst snd] in *. fold (plugged r fs) in *.
          destruct ps as [|p ps]; [apply nd_nodeep; nodeep|]. destruct (negb _); [apply nd_nodeep; nodeep|].
          inversion_clear Hall as [|? ? Ha1 Ha2]. inversion_clear Hp as [|? ? Hp1 Hp2]. destruct Hps as [_ Hps].
          apply nd_bind; [|now apply variant_ends|intro; apply nd_nodeep; nodeep].
          apply within_dec_variant. apply Forall_map. eapply Forall_impl; [|exact Ha2]. intros [h1 t1] (_ & _ & H1).
          cbn [fst snd] in *. intros. apply within_dec_val. now apply plug_within.
        + apply nd_fmap. apply (fields_end fs fs); auto; [apply incl_refl|]. intros name H. now cbn in H.
      - cbn [plug] in *. rewrite dec_walk_eq. cbn [paid] in Hp. destruct Hc as [_ Hc]. destruct (c_unmarshal c) as [f|].
        + apply nd_nodeep. destruct pend; [nodeep|]. intro s. apply Hp.
        + destruct (IH t) as [Hw _]; [cbn; lia|]. eapply Hw; eauto.
      - cbn [plug] in *. destruct Hp as [He Hz]. eapply nd_weak; [|apply Hrd; auto]; [auto|].
        destruct (o_size o); [|reflexivity]. exfalso. apply Hz, Ho. discriminate. }
    split; [exact Hwalk|]. intros e sz o v Hp Hc Ho Hf. rewrite dec_null_eq.
    assert (Hfl : nd k e (dec_flagged E (plug t r) o v)) by (eapply flagged_ends; eauto).
    destruct t as [|un w|nm w|f| |sg| | |t|n t|t|t1 t2|fs|c t|]; cbn [plug] in *; try exact Hfl.
    - destruct (is_ptr (plug t r)); [|exact Hfl]. destruct v; try exact Hfl. destruct p as [x|]; [|exact Hfl].
      apply nd_fmap. destruct (IH t) as [_ Hn]; [cbn; lia|]. eapply Hn; eauto. exact (fits_deref _ _ Hf).
    - destruct (c_unmarshal c); [apply nd_nodeep; nodeep|exact Hfl].
    - destruct r; try destruct Hr; exact Hfl.
  Qed.
End OneLevel.

(** * All levels *)

Lemma plug_id t : plug t TDeep = t.
Proof.
  induction t using ty_ind'; cbn [plug]; try reflexivity; try (now rewrite ?IHt, ?IHt1, ?IHt2).
  f_equal. induction H as [|[h t] fs H1 _ IH]; [reflexivity|]. cbn [map fst snd] in *. now rewrite H1, IH.
Qed.

Section Levels.
  Variables (E : encoding) (F : ty).
  Hypothesis Hh : heavy F.
  Hypothesis Hs : solid E F.
  Hypothesis Hc : all_codecs codec_within F.
  Hypothesis Hp : paid E False False F.

  Lemma unroll_solid n : solid E (unroll F (S n)).
  Proof.
    induction n as [|n IH]; cbn [unroll]; [now rewrite plug_id|].
    eapply plug_solid; eauto. now apply heavy_plug.
  Qed.
  Lemma unroll_within n : all_codecs codec_within (unroll F n).
  Proof. induction n; cbn [unroll]; [exact I|]. now apply plug_within. Qed.

  Lemma unroll_ends n : forall o pend v, o_size o = None -> fits (unroll F (S n)) v ->
    nd (Z.of_nat n) True (dec_val E (unroll F (S n)) (DWalk o pend) v).
  Proof.
    induction n as [|n IH]; intros o pend v Ho Hf.
    - intros s Hi Hr Hl. specialize (Hl I). (unfold inside in *; open_rem). lia.
    - intros s Hi Hr Hl. specialize (Hl I).
      assert (Hlvl : walk_ends E (unroll F (S n)) (Z.of_nat n) F).
      { apply level_ends; auto; [now apply heavy_plug|apply unroll_solid|apply unroll_within]. }
      refine (Hlvl False False o pend v Hp Hc _ Hf s Hi _ _); [congruence|lia|easy].
  Qed.
End Levels.

Lemma decode_ends E F n v s : heavy F -> solid E F -> all_codecs codec_within F -> paid E False False F ->
  d_enc s = E -> inside s -> fits (unroll F n) v -> remaining_of s + 1 < Z.of_nat n ->
  fst (decode (unroll F n) v s) <> Deep.
Proof.
  intros Hh Hs Hc Hp He Hi Hf Hn.
  destruct n as [|n]; [(unfold inside in *; open_rem); lia|].
  unfold decode, decode_target, bind, d_get_enc. rewrite He, dec_start_eq.
  replace (o_opt opt0 || (is_borsh E && o_copt opt0)) with false by (now destruct E).
  unfold bind, d_set_cur. refine (unroll_ends E F Hh Hs Hc Hp n opt0 false v eq_refl Hf _ _ _ _).
  - exact Hi.
  - open_rem. cbn [d_data d_pos]. lia.
  - intros _. open_rem. cbn [d_data d_pos]. lia.
Qed.
