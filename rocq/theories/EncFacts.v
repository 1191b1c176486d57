(** Encoder actions as scripts of writes. *)
From Verif Require Import Types EncPrim Enc Spec NumFacts TyInd.

(** * Scripts *)

Lemma play_app w a b n hist acc :
  play w (a ++ b) n hist acc =
  match play w a n hist acc with
  | (None, n', hist', acc') => play w b n' hist' acc'
  | r => r
  end.
Proof.
  revert n hist acc. induction a as [|x a IH]; intros n hist acc; [reflexivity|].
  cbn [app play]. destruct (w (hist ++ [x])) as [[k e]|]; [reflexivity|]. apply IH.
Qed.

Lemma script_ret {A} E c (a : A) : script E c (ret a) [] (Ok a) c.
Proof. intros w n hist acc. reflexivity. Qed.
Lemma script_fail {A} E c e : script E c (@fail est A e) [] (Err e) c.
Proof. intros w n hist acc. reflexivity. Qed.
Lemma script_panic {A} E c : script E c (@panic est A) [] Panic c.
Proof. intros w n hist acc. reflexivity. Qed.
Lemma script_stuck {A} E c : script E c (@stuck est A) [] Stuck c.
Proof. intros w n hist acc. reflexivity. Qed.
Lemma script_deep {A} E c : script E c (@deep est A) [] Deep c.
Proof. intros w n hist acc. reflexivity. Qed.

Lemma script_to_writer E c b : script E c (to_writer b) [b] (Ok tt) c.
Proof.
  intros w n hist acc. cbn [play]. unfold to_writer. cbn.
  destruct (w (hist ++ [b])) as [[k e]|]; [|reflexivity].
  exists (EWriter e), c. split; [now left|reflexivity].
Qed.

Lemma script_set_cur E c o : script E c (e_set_cur o) [] (Ok tt) (Some o).
Proof. intros w n hist acc. reflexivity. Qed.
Lemma script_get_enc E c : script E c e_get_enc [] (Ok E) c.
Proof. intros w n hist acc. reflexivity. Qed.
Lemma script_get_cur E c : script E c e_get_cur [] (Ok c) c.
Proof. intros w n hist acc. reflexivity. Qed.

Lemma script_bind {A B} E c (m : EM A) (k : A -> EM B) cs1 a c1 cs2 r c2 :
  script E c m cs1 (Ok a) c1 -> script E c1 (k a) cs2 r c2 ->
  script E c (bind m k) (cs1 ++ cs2) r c2.
Proof.
  intros H1 H2 w n hist acc. rewrite play_app. specialize (H1 w n hist acc).
  destruct (play w cs1 n hist acc) as [[[[x|] n'] hist'] acc'].
  - destruct H1 as (e & c'' & He & H1). exists e, c''. split; [easy|].
    unfold bind. now rewrite H1.
  - unfold bind. rewrite H1. exact (H2 w n' hist' acc').
Qed.

Lemma script_bind_stop {A B} E c (m : EM A) (k : A -> EM B) cs r c' :
  script E c m cs r c' -> (forall a, r <> Ok a) ->
  exists r', script E c (bind m k) cs r' c' /\ (forall a, r' <> Ok a).
Proof.
  intros H1 Hr.
  exists (match r with Ok _ => Stuck | Err e => Err e | Panic => Panic | Deep => Deep | Stuck => Stuck end).
  split; [|destruct r; try discriminate; destruct (Hr a eq_refl)].
  intros w n hist acc. specialize (H1 w n hist acc).
  destruct (play w cs n hist acc) as [[[[x|] n'] hist'] acc'].
  - destruct H1 as (e & c'' & He & H1). exists e, c''. split; [easy|].
    unfold bind. now rewrite H1.
  - unfold bind. rewrite H1. destruct r; try reflexivity. destruct (Hr a eq_refl).
Qed.

Lemma script_map_err {A} E c (m : EM A) cs r c' :
  script E c m cs r c' ->
  script E c (map_err EWrap m) cs
    (match r with Err e => Err (EWrap e) | _ => r end) c'.
Proof.
  intros H w n hist acc. specialize (H w n hist acc).
  destruct (play w cs n hist acc) as [[[[x|] n'] hist'] acc']; unfold map_err.
  - destruct H as (e & c'' & He & H). rewrite H. exists (EWrap e), c''. split; [|reflexivity].
    right. exact He.
  - rewrite H. destruct r; reflexivity.
Qed.

(** [m] always follows some script. *)
Definition scripted {A} (m : EM A) : Prop :=
  forall E c, exists cs r c', script E c m cs r c'.

Lemma scripted_ret {A} (a : A) : scripted (ret a).
Proof. intros E c. do 3 eexists. apply script_ret. Qed.
Lemma scripted_fail {A} e : scripted (@fail est A e).
Proof. intros E c. do 3 eexists. apply script_fail. Qed.
Lemma scripted_panic {A} : scripted (@panic est A).
Proof. intros E c. do 3 eexists. apply script_panic. Qed.
Lemma scripted_stuck {A} : scripted (@stuck est A).
Proof. intros E c. do 3 eexists. apply script_stuck. Qed.
Lemma scripted_deep {A} : scripted (@deep est A).
Proof. intros E c. do 3 eexists. apply script_deep. Qed.
Lemma scripted_to_writer b : scripted (to_writer b).
Proof. intros E c. do 3 eexists. apply script_to_writer. Qed.
Lemma scripted_set_cur o : scripted (e_set_cur o).
Proof. intros E c. do 3 eexists. apply script_set_cur. Qed.
Lemma scripted_get_enc : scripted e_get_enc.
Proof. intros E c. do 3 eexists. apply script_get_enc. Qed.
Lemma scripted_get_cur : scripted e_get_cur.
Proof. intros E c. do 3 eexists. apply script_get_cur. Qed.
Lemma scripted_bind {A B} (m : EM A) (k : A -> EM B) :
  scripted m -> (forall a, scripted (k a)) -> scripted (bind m k).
Proof.
  intros Hm Hk E c. destruct (Hm E c) as (cs & r & c' & H).
  destruct r as [a|e| | |].
  1: { destruct (Hk a E c') as (cs2 & r2 & c2 & H2). do 3 eexists.
       eapply script_bind; eauto. }
  all: edestruct (script_bind_stop E c m k _ _ _ H) as (r' & H' & _); [discriminate|];
       do 3 eexists; exact H'.
Qed.
Lemma scripted_map_err {A} (m : EM A) : scripted m -> scripted (map_err EWrap m).
Proof.
  intros Hm E c. destruct (Hm E c) as (cs & r & c' & H). do 3 eexists.
  apply script_map_err, H.
Qed.
Create HintDb scripted.
#[global] Hint Resolve scripted_ret scripted_fail scripted_panic scripted_stuck scripted_deep
  scripted_to_writer scripted_set_cur scripted_get_enc scripted_get_cur : scripted.

Ltac scripted :=
  repeat first
    [ solve [auto with scripted]
    | apply scripted_bind; [|intro]
    | apply scripted_map_err
    | match goal with |- scripted (match ?x with _ => _ end) => destruct x end
    | match goal with |- scripted (if ?x then _ else _) => destruct x end ].

Lemma scripted_write_uint n z o : scripted (write_uint n z o).
Proof. unfold write_uint. scripted. Qed.
Lemma scripted_write_byte z : scripted (write_byte z).
Proof. unfold write_byte. scripted. Qed.
Lemma scripted_write_uvarint z : scripted (write_uvarint z).
Proof. unfold write_uvarint. scripted. Qed.
Lemma scripted_write_varint z : scripted (write_varint z).
Proof. unfold write_varint. scripted. Qed.
Lemma scripted_write_compact_u16 z : scripted (write_compact_u16 z).
Proof. unfold write_compact_u16. scripted. Qed.
Lemma scripted_write_bytes_nolen b : scripted (write_bytes_nolen b).
Proof. unfold write_bytes_nolen. scripted. Qed.
#[global] Hint Resolve scripted_write_uint scripted_write_byte scripted_write_uvarint
  scripted_write_varint scripted_write_compact_u16 scripted_write_bytes_nolen : scripted.
Lemma scripted_write_length z : scripted (write_length z).
Proof. unfold write_length. scripted. Qed.
#[global] Hint Resolve scripted_write_length : scripted.
Lemma scripted_write_bytes b : scripted (write_bytes b).
Proof. unfold write_bytes. scripted. Qed.
Lemma scripted_write_bool b : scripted (write_bool b).
Proof. unfold write_bool. scripted. Qed.
Lemma scripted_write_coption b : scripted (write_coption b).
Proof. unfold write_coption. scripted. Qed.
Lemma scripted_write_float f b o : scripted (write_float f b o).
Proof. unfold write_float. scripted. Qed.
#[global] Hint Resolve scripted_write_bytes scripted_write_bool scripted_write_coption
  scripted_write_float : scripted.
Lemma scripted_write_string s : scripted (write_string s).
Proof. unfold write_string. scripted. Qed.
Lemma scripted_write_rust_string s : scripted (write_rust_string s).
Proof. unfold write_rust_string. scripted. Qed.
Lemma scripted_write_uint128 lo hi o : scripted (write_uint128 lo hi o).
Proof. unfold write_uint128. scripted. Qed.
Lemma scripted_write_uints w l vs : scripted (write_uints w l vs).
Proof. unfold write_uints. scripted. Qed.
#[global] Hint Resolve scripted_write_string scripted_write_rust_string
  scripted_write_uint128 scripted_write_uints : scripted.
Lemma scripted_write_flag E b : scripted (write_flag E b).
Proof. unfold write_flag. scripted. Qed.
Lemma scripted_write_count E b : scripted (write_count E b).
Proof. unfold write_count. scripted. Qed.
Lemma scripted_write_str E b : scripted (write_str E b).
Proof. unfold write_str. scripted. Qed.
Lemma scripted_write_int E w z o : scripted (write_int E w z o).
Proof. unfold write_int. scripted. Qed.
#[global] Hint Resolve scripted_write_flag scripted_write_count scripted_write_str
  scripted_write_int : scripted.
Lemma scripted_each {A} (f : A -> EM unit) l :
  (forall a, scripted (f a)) -> scripted (each f l).
Proof. intro Hf. induction l as [|a l IH]; cbn [each]; scripted. Qed.
Lemma scripted_enc_map kt vt f g m ks :
  (forall a, scripted (f a)) -> (forall a, scripted (g a)) ->
  scripted (enc_map kt vt f g m ks).
Proof. intros Hf Hg. unfold enc_map. apply scripted_each. intro. scripted. Qed.

(** * All codecs inside a type satisfy [P] *)
Section AllCodecs.
  Variable P : codec -> ty -> Prop.
  Fixpoint all_codecs (t : ty) : Prop :=
    match t with
    | TPtr t' | TArray _ t' | TSlice t' => all_codecs t'
    | TMap k v => all_codecs k /\ all_codecs v
    | TStruct fs =>
        (fix go fs := match fs with
                      | [] => True
                      | ht :: fs' => all_codecs (snd ht) /\ go fs'
                      end) fs
    | TCodec c u => P c u /\ all_codecs u
    | _ => True
    end.
  Lemma all_codecs_struct fs :
    all_codecs (TStruct fs) <-> Forall (fun ht => all_codecs (snd ht)) fs.
  Proof.
    cbn [all_codecs]. induction fs as [|ht fs IH]; split; intro H.
    - constructor.
    - exact I.
    - destruct H as [H1 H2]. constructor; [exact H1|]. apply IH, H2.
    - inversion_clear H as [|? ? H1 H2]. split; [exact H1|]. apply IH, H2.
  Qed.
End AllCodecs.

(** Marshal methods that only write through the encoder and pass on its
    errors. *)
Definition codec_scripted (c : codec) (_ : ty) : Prop :=
  (forall f v, c_marshal c = Some f -> scripted (f v)) /\ scripted (c_marshal_nil c).

Lemma scripted_enc_fields E rec fs : forall vs sizes,
  Forall (fun ht => forall o v, scripted (rec (snd ht) o v)) fs ->
  scripted (enc_fields E rec fs vs sizes).
Proof.
  induction fs as [|[h t] fs IH]; intros vs sizes H; cbn [enc_fields].
  - scripted.
  - destruct vs as [|v vs]; [scripted|]. inversion_clear H as [|? ? H1 H2].
    destruct (ft_skip _); [now apply IH|].
    destruct (if String.eqb (ft_sizeof _) "" then _ else _) as [sizes'|]; [|scripted].
    destruct (negb (f_exported h)); [now apply IH|].
    apply scripted_bind; [|intro; now apply IH]. apply scripted_map_err. apply H1.
Qed.

Lemma scripted_nth_field (f : fhdr -> ty -> val -> EM unit) d b fs : forall vs n,
  Forall (fun ht => forall h v, scripted (f h (snd ht) v)) fs ->
  scripted d -> scripted b ->
  scripted (nth_field f d b fs vs n).
Proof.
  induction fs as [|[h t] fs IH]; intros vs n H Hd Hb; cbn [nth_field];
    destruct vs as [|v vs]; auto.
  inversion_clear H as [|? ? H1 H2]. destruct n; [apply H1|]. now apply IH.
Qed.

Lemma scripted_sealed t : forall v, scripted (enc_sealed t v).
Proof.
  induction t as [t IH] using ty_strong_ind. intro v. destruct t; cbn [enc_sealed]; try solve [scripted].
  - destruct v; try solve [scripted]. destruct (is_enum fs).
    + destruct l as [|[] l]; try solve [scripted]. apply scripted_bind; [scripted|]. intros _.
      apply scripted_nth_field; [|scripted|scripted]. apply Forall_forall. intros [h0 t'] Hin h v'. cbn [snd].
      pose proof (ty_size_field _ _ _ Hin) as Hs.
      destruct t'; try (apply IH; exact Hs). destruct v'; try solve [scripted]. destruct p; [|scripted].
      apply IH. cbn [ty_size] in *. lia.
    + apply scripted_enc_fields. apply Forall_forall. intros. scripted.
Qed.
Lemma scripted_payload t v : scripted (sealed_payload t v).
Proof.
  destruct t; try apply scripted_sealed. cbn [sealed_payload]. destruct v; try solve [scripted].
  destruct p; [apply scripted_sealed|scripted].
Qed.

Lemma scripted_enc_val t : all_codecs codec_scripted t ->
  forall E m v, scripted (enc_val E t m v).
Proof.
  induction t as [t IH] using ty_strong_ind. intros Hc E m v.
  assert (Hrest : forall o (core : EM unit), scripted core ->
    scripted (e_set_cur (o_order o) ;;;
      let rest :=
        if is_borsh E && o_copt o then
          if is_zero v then write_coption false else write_coption true ;;; core
        else core in
      if o_opt o then
        if is_zero v then write_flag E false else write_flag E true ;;; rest
      else rest)).
  { intros o core Hcore. cbv zeta. scripted. }
  destruct t; cbn [enc_val];
  lazymatch goal with
  | |- scripted (match m with EFull _ => _ | EPayload => ?core end) =>
      assert (Hcore : scripted core); [|destruct m as [o|]; [apply Hrest, Hcore|exact Hcore]]
  | _ => idtac
  end; try solve [scripted].
  - (* pointer *)
    cbn [all_codecs] in Hc.
    assert (IHt : forall m v, scripted (enc_val E t m v)).
    { intros. apply IH; [cbn; lia|exact Hc]. }
    destruct m as [o|]; [|scripted].
    destruct (codec_of t) as [c|] eqn:Ec.
    + destruct t; try discriminate. inversion Ec; subst. destruct Hc as [[Hf Hn] _].
      destruct (c_marshal c) as [f|] eqn:Ef; [specialize (Hf f)|]; scripted.
    + scripted.
  - (* array *)
    assert (IHt : forall m v, scripted (enc_val E t m v)).
    { intros. apply IH; [cbn; lia|exact Hc]. }
    scripted. apply scripted_each. auto.
  - (* slice *)
    assert (IHt : forall m v, scripted (enc_val E t m v)).
    { intros. apply IH; [cbn; lia|exact Hc]. }
    cbv zeta. scripted; apply scripted_each; auto.
  - (* map *)
    destruct Hc as [Hc1 Hc2].
    assert (IH1 : forall m v, scripted (enc_val E t1 m v)).
    { intros. apply IH; [cbn; lia|exact Hc1]. }
    assert (IH2 : forall m v, scripted (enc_val E t2 m v)).
    { intros. apply IH; [cbn; lia|exact Hc2]. }
    cbv zeta. unfold unsortable. destruct t1; scripted; apply scripted_enc_map; auto.
  - (* struct *)
    apply all_codecs_struct in Hc.
    assert (IHf : forall h t', In (h, t') fs -> forall m v, scripted (enc_val E t' m v)).
    { intros h t' Hin m' v'. apply IH; [now apply (ty_size_field _ h)|].
      rewrite Forall_forall in Hc. exact (Hc _ Hin). }
    destruct v; try solve [scripted].
    destruct (is_borsh E && is_enum fs).
    + destruct l as [|[] l]; try solve [scripted].
      apply scripted_bind; [scripted|]. intros _.
      apply scripted_nth_field; [|scripted|scripted].
      apply Forall_forall. intros [h0 t'] Hin h v'. cbn [snd].
      destruct (negb (f_exported h)); [apply scripted_payload|].
      pose proof (IHf _ _ Hin) as IHt'.
      destruct t'; try apply IHt'.
      destruct v'; try solve [scripted]. destruct p; [|scripted].
      apply IH.
      * pose proof (ty_size_field _ _ _ Hin). cbn [ty_size] in *. lia.
      * rewrite Forall_forall in Hc. exact (Hc _ Hin).
    + apply scripted_enc_fields. apply Forall_forall. intros [h t'] Hin o' v'.
      cbn [snd]. now apply (IHf h).
  - (* codec *)
    destruct Hc as [[Hf _] Hc].
    assert (IHt : forall m v, scripted (enc_val E t m v)).
    { intros. apply IH; [cbn; lia|exact Hc]. }
    destruct m as [o|]; [|apply IHt].
    destruct (c_marshal c) as [f|] eqn:Ef; [|apply IHt].
    destruct (c_byval c); [|apply IHt]. now apply Hf.
Qed.

Lemma scripted_encode t v : all_codecs codec_scripted t -> scripted (encode t v).
Proof.
  intro H. unfold encode. apply scripted_bind; [scripted|]. intro E.
  now apply scripted_enc_val.
Qed.
