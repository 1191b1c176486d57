(** Borsh enums (C29). *)
From Verif Require Import Types EncPrim DecPrim Enc Dec Builtin Spec NumFacts TyInd EncFacts EncWire
  DecWire RoundTrip DecEq EncProps DecProps FieldFacts.

(** * Encoder *)

(** Actions that ignore the current byte order. *)
Definition blind {A} (m : EM A) : Prop := forall s s', forget s = forget s' ->
  visible (m s) = visible (m s').
Lemma blind_ret {A} (a : A) : blind (ret a).
Proof. intros s s' H. unfold visible. cbn. now rewrite H. Qed.
Lemma blind_panic {A} : blind (@panic est A).
Proof. intros s s' H. unfold visible. cbn. now rewrite H. Qed.
Lemma blind_stuck {A} : blind (@stuck est A).
Proof. intros s s' H. unfold visible. cbn. now rewrite H. Qed.
Lemma blind_deep {A} : blind (@deep est A).
Proof. intros s s' H. unfold visible. cbn. now rewrite H. Qed.
Lemma blind_fail {A} e : blind (@fail est A e).
Proof. intros s s' H. unfold visible. cbn. now rewrite H. Qed.
Lemma blind_to_writer b : blind (to_writer b).
Proof.
  intros [] [] H. injection H as -> -> -> -> ->. unfold to_writer, visible. cbn.
  destruct (e_w0 _) as [[k n]|]; reflexivity.
Qed.
Lemma blind_bind {A B} (m : EM A) (k : A -> EM B) : blind m -> (forall a, blind (k a)) -> blind (bind m k).
Proof.
  intros Hm Hk s s' H. specialize (Hm s s' H). unfold bind, visible in *.
  destruct (m s) as [[a|e| | |] s1], (m s') as [[a'|e'| | |] s1']; cbn in *; injection Hm; intros; subst; try discriminate;
    try (now f_equal; unfold forget; congruence).
  apply Hk. unfold forget. congruence.
Qed.
Lemma blind_get_enc : blind e_get_enc.
Proof. intros s s' H. unfold visible, e_get_enc. cbn. rewrite H. f_equal. f_equal. now injection H. Qed.
Lemma blind_map_err {A} f (m : EM A) : blind m -> blind (map_err f m).
Proof.
  intros Hm s s' H. specialize (Hm s s' H). unfold map_err, visible in *.
  destruct (m s) as [[a|e| | |] s1], (m s') as [[a'|e'| | |] s1']; cbn in *; injection Hm; intros; subst; try discriminate;
    now f_equal; unfold forget; congruence.
Qed.
Create HintDb blind.
#[global] Hint Resolve blind_ret blind_panic blind_stuck blind_deep blind_fail blind_to_writer
  blind_get_enc : blind.
Ltac blind := repeat first
  [ solve [auto with blind] | apply blind_bind; [|intro] | apply blind_map_err
  | match goal with |- blind (match ?x with _ => _ end) => destruct x end
  | match goal with |- blind (if ?x then _ else _) => destruct x end ].
Lemma blind_write_byte z : blind (write_byte z). Proof. apply blind_to_writer. Qed.
Lemma blind_write_uint n z o : blind (write_uint n z o). Proof. apply blind_to_writer. Qed.
Lemma blind_write_bool b : blind (write_bool b). Proof. apply blind_to_writer. Qed.
#[global] Hint Resolve blind_write_byte blind_write_uint blind_write_bool : blind.
Lemma blind_write_int E w z o : blind (write_int E w z o). Proof. unfold write_int. blind. Qed.
Lemma blind_write_float f b o : blind (write_float f b o). Proof. unfold write_float. blind. Qed.
Lemma blind_nolen b : blind (write_bytes_nolen b). Proof. unfold write_bytes_nolen. blind. Qed.
#[global] Hint Resolve blind_write_int blind_write_float blind_nolen : blind.
Lemma blind_write_length z : blind (write_length z).
Proof. unfold write_length, write_uvarint. blind. Qed.
#[global] Hint Resolve blind_write_length : blind.
Lemma blind_write_str E z : blind (write_str E z).
Proof. unfold write_str, write_rust_string, write_string, write_bytes. blind. Qed.
#[global] Hint Resolve blind_write_str : blind.

Lemma blind_nth (f : fhdr -> ty -> val -> EM unit) d b fs :
  (forall h t v, In (h, t) fs -> blind (f h t v)) -> blind d -> blind b -> forall vs n, blind (nth_field f d b fs vs n).
Proof.
  intros Hf Hd Hb. induction fs as [|[h t] fs IH]; intros [|v vs] n; cbn [nth_field]; auto.
  destruct n; [apply Hf; now left|]. apply IH. intros. apply Hf. now right.
Qed.

Lemma blind_hidden rec fs : forall vs sizes, blind (enc_fields Borsh rec (hide fs) vs sizes).
Proof.
  induction fs as [|[h t] fs IH]; intros [|v vs] sizes; cbn [hide map enc_fields]; try solve [blind].
  cbn [fst snd f_tag f_exported negb]. fold (hide fs). cbv zeta. destruct (ft_skip _); [apply IH|].
  destruct (if String.eqb _ _ then _ else _); [apply IH|blind].
Qed.
Lemma blind_sealed t : forall v, blind (enc_sealed t v).
Proof.
  induction t as [t IH] using ty_strong_ind. intro v.
  destruct t as [|un w|nm w|f| |sg| | |t|n t|t|t1 t2|fs|c t|]; cbn [enc_sealed];
    try solve [clear IH; destruct v; blind].
  - destruct v; try solve [clear IH; blind]. destruct (is_enum fs); [|apply blind_hidden].
    destruct l as [|v l]; [blind|]. destruct v; try solve [clear IH; blind].
    apply blind_bind; [blind|]. intros _. apply blind_nth; try solve [clear IH; blind].
    intros h t v Hin. pose proof (ty_size_field _ _ _ Hin) as Hlt.
    destruct t as [|un w|nm w|f| |sg| | |t|n t|t|t1 t2|fs'|c t|]; try (apply IH; exact Hlt).
    destruct v as [| | | |[x|]| | | | | |]; try solve [clear IH; blind]. apply IH. cbn in *. lia.
  - apply IH. cbn. lia.
Qed.
Lemma blind_sealed_payload t v : blind (sealed_payload t v).
Proof.
  destruct t; try apply blind_sealed. cbn [sealed_payload].
  destruct v as [| | | |[x|]| | | | | |]; try solve [blind]. apply blind_sealed.
Qed.

Lemma blind_payload E t : forall v, blind (enc_val E t EPayload v).
Proof.
  induction t as [t IH] using ty_strong_ind. intro v.
  destruct t as [|un w|nm w|f| |sg| | |t|n t|t|t1 t2|fs|c t|]; cbn [enc_val]; cbv zeta;
    try solve [destruct v; blind].
  - destruct v; try solve [blind]. destruct (is_borsh E && is_enum fs).
    + destruct l as [|v l]; [blind|]. destruct v; try solve [blind].
      apply blind_bind; [blind|]. intros _. apply blind_nth; try solve [blind].
      intros h t v Hin. destruct (negb (f_exported h)); [apply blind_sealed_payload|].
      pose proof (ty_size_field _ _ _ Hin) as Hlt.
      destruct t as [|un w|nm w|f| |sg| | |t|n t|t|t1 t2|fs'|c t|];
        try (apply IH; exact Hlt).
      destruct v; try solve [blind]. destruct p; [|blind]. apply IH. cbn in *. lia.
    + intros s s' H. apply enc_flds_cur. exact H.
Qed.

(** The type below the names. *)
Fixpoint under (t : ty) : ty := match t with TCodec _ u => under u | _ => t end.

Lemma enc_under E t : forall v, enc_val E t EPayload v = enc_val E (under t) EPayload v.
Proof. induction t; intro v; try reflexivity. cbn [under]. rewrite <- IHt. reflexivity. Qed.
Lemma under_not_codec t : forall c u, under t <> TCodec c u.
Proof. induction t; intros c' u'; cbn [under]; try discriminate. apply IHt. Qed.

Lemma enc_payload_encode E t v s : payload t = true -> e_enc s = E ->
  visible (enc_val E t EPayload v s) = visible (encode t v s).
Proof.
  intros Hp HE. transitivity (visible (enc_val E t EPayload v (at_le s))).
  { apply blind_payload. reflexivity. }
  unfold encode, bind, e_get_enc. rewrite HE.
  destruct t; try discriminate; cbn [enc_val]; cbv zeta; cbn [opt0 o_order o_opt o_copt o_size];
    rewrite ?andb_false_r; reflexivity.
Qed.

Lemma enc_no_payload E t v : payload t = false -> t <> TDeep -> (forall c u, t <> TCodec c u) ->
  enc_val E t EPayload v = ret tt.
Proof. destruct t; try discriminate; try reflexivity; intros _ H1 H2; [now destruct (H2 c t)|easy]. Qed.

(** What is written for a variant of type [t] with the value [v]: a value of
    the type below the pointer and the names, or nothing. *)
Definition variant_payload (t : ty) (v : val) : option (ty * val) :=
  match t, v with
  | TPtr t', VPtr (Some x) => if payload (under t') then Some (under t', x) else None
  | TPtr _, _ => None
  | _, _ => if payload (under t) then Some (under t, v) else None
  end.

Lemma nth_field_at {R} (f : fhdr -> ty -> val -> R) d b fs : forall vs n h t v,
  nth_error fs n = Some (h, t) -> nth_error vs n = Some v -> nth_field f d b fs vs n = f h t v.
Proof.
  induction fs as [|[h0 t0] fs IH]; intros [|v0 vs] [|n] h t v Hf Hv; try discriminate.
  - cbn in *. congruence.
  - cbn [nth_field nth_error] in *. eauto.
Qed.
Lemma nth_field_out {R} (f : fhdr -> ty -> val -> R) d b fs : forall vs n,
  length vs = length fs -> (length fs <= n)%nat -> nth_field f d b fs vs n = d.
Proof.
  induction fs as [|[h0 t0] fs IH]; intros [|v0 vs] n Hl Hn; try discriminate; [reflexivity|].
  cbn [nth_field length] in *. destruct n; [lia|]. apply IH; lia.
Qed.

(** The type behind the pointer of a variant. *)
Definition variant_base (t : ty) : ty := match t with TPtr t' => under t' | _ => under t end.

Lemma enc_enum s fs z vs h t v :
  e_enc s = Borsh -> enum_struct Borsh fs = true -> 0 <= z < 256 ->
  nth_error fs (S (Z.to_nat z)) = Some (h, t) -> f_exported h = true ->
  nth_error vs (Z.to_nat z) = Some v -> fits t v -> variant_base t <> TDeep ->
  visible (encode (TStruct fs) (VStruct (VNum z :: vs)) s) =
  visible ((to_writer [z] ;;; match variant_payload t v with
                              | Some (t', x) => encode t' x
                              | None => ret tt
                              end) s).
Proof.
  intros HE Hen Hz Hf Hex Hv Hfit Hnd.
  assert (H1 : encode (TStruct fs) (VStruct (VNum z :: vs)) s =
    (to_writer [z] ;;; match t with
        | TPtr t'' => match v with
                      | VPtr (Some x) => enc_val Borsh t'' EPayload x
                      | VPtr None => ret tt
                      | _ => stuck
                      end
        | _ => enc_val Borsh t EPayload v
        end) (at_le s)).
  { unfold encode. unfold bind at 1. unfold e_get_enc. rewrite HE. cbn [enc_val]. rewrite is_enum_spec, Hen.
    cbv zeta. cbn [opt0 o_order o_opt o_copt is_borsh andb]. unfold bind at 1, e_set_cur.
    unfold write_byte. rewrite (Z.mod_small z 256) by lia.
    rewrite (nth_field_at _ _ _ fs (VNum z :: vs) (S (Z.to_nat z)) h t v Hf Hv), Hex. cbn [negb].
    unfold at_le. rewrite HE. reflexivity. }
  rewrite H1.
  transitivity (visible ((to_writer [z] ;;; match t with
        | TPtr t'' => match v with
                      | VPtr (Some x) => enc_val Borsh t'' EPayload x
                      | VPtr None => ret tt
                      | _ => stuck
                      end
        | _ => enc_val Borsh t EPayload v
        end) s)).
  { assert (Hb : blind ((to_writer [z] ;;; match t with
        | TPtr t'' => match v with
                      | VPtr (Some x) => enc_val Borsh t'' EPayload x
                      | VPtr None => ret tt
                      | _ => stuck
                      end
        | _ => enc_val Borsh t EPayload v
        end))).
    { apply blind_bind; [blind|]. intros _. destruct t; try apply blind_payload.
      destruct v; try solve [blind]. destruct p; [apply blind_payload|blind]. }
    apply Hb. reflexivity. }
  apply visible_bind. intros [] s1 Hs1.
  assert (HE1 : e_enc s1 = Borsh).
  { unfold to_writer in Hs1. destruct (e_w s _) as [[]|]; [discriminate|]. now injection Hs1 as <-. }
  assert (Hgen : forall t x, under t <> TDeep -> visible (enc_val Borsh t EPayload x s1) =
    visible (match (if payload (under t) then Some (under t, x) else None) with
             | Some (t', x) => encode t' x | None => ret tt end s1)).
  { intros t0 x0 Hn0. rewrite enc_under. destruct (payload (under t0)) eqn:Ep.
    - now apply enc_payload_encode.
    - rewrite enc_no_payload; auto. apply under_not_codec. }
  unfold variant_payload.
  destruct t as [|un w|nm w|f| |sg| | |t|n t|t|t1 t2|fs'|c t|]; try (apply Hgen; exact Hnd).
  destruct Hfit as (p & -> & _). destruct p; [|reflexivity]. apply Hgen. exact Hnd.
Qed.

(** The bytes. *)
Lemma marshal_enum fs z vs h t v :
  enum_struct Borsh fs = true -> 0 <= z < 256 ->
  nth_error fs (S (Z.to_nat z)) = Some (h, t) -> f_exported h = true ->
  nth_error vs (Z.to_nat z) = Some v -> fits t v -> variant_base t <> TDeep ->
  all_codecs codec_scripted t ->
  marshal Borsh (TStruct fs) (VStruct (VNum z :: vs)) =
  match variant_payload t v with
  | Some (t', x) => let (r, b) := marshal Borsh t' x in (r, z :: b)
  | None => (Ok tt, [z])
  end.
Proof.
  intros Hen Hz Hf Hex Hv Hfit Hnd Hc.
  pose proof (enc_enum (new_encoder Borsh buffer) fs z vs h t v eq_refl Hen Hz Hf Hex Hv Hfit Hnd) as H.
  unfold marshal at 1. destruct (encode _ _ _) as [r s].
  unfold bind in H. rewrite to_writer_ok in H by reflexivity.
  destruct (variant_payload t v) as [[t' x]|] eqn:Ep.
  - assert (Hc' : all_codecs codec_scripted t').
    { assert (Hu : forall t, all_codecs codec_scripted t -> all_codecs codec_scripted (under t)).
      { induction t0; intro H0; try exact H0. cbn [under]. apply IHt0. apply H0. }
      assert (Hg : forall t0 y, all_codecs codec_scripted t0 ->
        (if payload (under t0) then Some (under t0, y) else None) = Some (t', x) -> all_codecs codec_scripted t').
      { intros t0 y H0 H1. destruct (payload (under t0)); [|discriminate]. injection H1 as <- _. now apply Hu. }
      destruct (match t with TPtr _ => true | _ => false end) eqn:Ek.
      - destruct t as [|un w|nm w|f| |sg| | |t|n t|t|t1 t2|fs'|c t|]; try discriminate.
        destruct Hfit as (p & -> & _). destruct p as [q|]; [|discriminate].
        exact (Hg t q Hc Ep).
      - assert (Ep' : (if payload (under t) then Some (under t, v) else None) = Some (t', x))
          by (rewrite <- Ep; destruct t; try discriminate; reflexivity).
        exact (Hg t v Hc Ep'). }
    destruct (marshal_anywhere Borsh t' x Hc') as (cs & r' & c' & Hm & He). rewrite Hm.
    unfold wrote, new_encoder in H. cbn [e_enc e_w e_cur e_count e_hist e_acc] in H.
    rewrite He in H. injection H as -> _ _ _ _ ->. reflexivity.
  - injection H as -> _ _ _ _ ->. reflexivity.
Qed.

Lemma marshal_enum_bad fs z vs : enum_struct Borsh fs = true -> 0 <= z < 256 ->
  length fs = S (length vs) -> Z.of_nat (length vs) <= z ->
  exists e, marshal Borsh (TStruct fs) (VStruct (VNum z :: vs)) = (Err e, [z]).
Proof.
  intros Hen Hz Hl Hb. exists EMsg. unfold marshal, encode. unfold bind at 1. unfold e_get_enc.
  cbn [new_encoder e_enc enc_val]. rewrite is_enum_spec, Hen.
  cbv zeta. cbn [opt0 o_order o_opt o_copt is_borsh andb]. unfold bind at 1, e_set_cur.
  unfold write_byte. rewrite (Z.mod_small z 256) by lia.
  unfold bind. rewrite to_writer_ok by reflexivity.
  rewrite nth_field_out; [reflexivity|cbn; lia|lia].
Qed.

(** * Decoder *)

Fixpoint upd {A} (n : nat) (x : A) (l : list A) : list A :=
  match l, n with
  | _ :: r, O => x :: r
  | a :: r, S n' => a :: upd n' x r
  | [], _ => []
  end.

Lemma dec_variant_at rec fs : forall ps n h t p s, nth_error fs n = Some (h, t) -> f_exported h = true ->
  nth_error ps n = Some p ->
  dec_variant rec fs ps n s = fmap (fun x => upd n x ps) (rec t opt0 p) s.
Proof.
  induction fs as [|[h0 t0] fs IH]; intros [|p0 ps] [|n] h t p s Hf Hex Hp; try discriminate.
  - cbn in Hf, Hp. injection Hf as -> ->. injection Hp as ->. cbn [dec_variant upd]. rewrite Hex. reflexivity.
  - cbn [dec_variant nth_error upd] in *. unfold fmap at 1. unfold bind at 1. rewrite (IH _ _ _ _ _ _ Hf Hex Hp).
    unfold fmap, bind, ret. destruct (rec t opt0 p s) as [[]]; reflexivity.
Qed.
Lemma dec_variant_out rec fs : forall ps n s, length ps = length fs -> (length fs <= n)%nat ->
  dec_variant rec fs ps n s = (Err EMsg, s).
Proof.
  induction fs as [|[h0 t0] fs IH]; intros [|p0 ps] n s Hl Hn; try discriminate; [reflexivity|].
  cbn [dec_variant length] in *. destruct n; [lia|]. unfold fmap, bind. rewrite IH by lia. reflexivity.
Qed.

Lemma decode_enum_eq fs ps s : d_enc s = Borsh -> enum_struct Borsh fs = true ->
  decode (TStruct fs) (VStruct ps) s = dec_struct Borsh fs ps (dat_le s).
Proof.
  intros HE Hen. unfold decode, decode_target, bind at 1, d_get_enc. rewrite dec_start_eq, HE.
  cbn [opt0 o_opt o_copt o_order is_borsh andb orb]. rewrite dec_walk_eq. unfold with_pend.
  reflexivity.
Qed.

Lemma decode_enum fs h0 n h t p0 p ps c c' pre post :
  enum_struct Borsh fs = true -> hd_error fs = Some (h0, BorshEnum) -> f_exported h0 = true ->
  0 <= n < 256 ->
  nth_error fs (S (Z.to_nat n)) = Some (h, t) -> f_exported h = true -> nth_error ps (Z.to_nat n) = Some p ->
  decode (TStruct fs) (VStruct (p0 :: ps)) (at_bytes Borsh c pre [n] post) =
  fmap (fun x => VStruct (VNum n :: upd (Z.to_nat n) x ps)) (decode t p) (past_bytes Borsh c' pre [n] post).
Proof.
  intros Hen Hhd Hex0 Hn Hf Hex Hp. rewrite decode_enum_eq by easy.
  unfold dec_struct. rewrite is_enum_spec, Hen. destruct fs as [|[h1 t1] fs]; [discriminate|].
  injection Hhd as -> _.
  change (dat_le (at_bytes Borsh c pre [n] post)) with (mkD (pre ++ [n] ++ post) (zlen pre) (Some LE) Borsh).
  unfold bind at 1. rewrite (keeps_read_byte Borsh n pre post (Some LE)). rewrite Hex0. cbn [negb].
  cbn [nth_error] in Hf. unfold bind at 1. rewrite (dec_variant_at _ fs ps (Z.to_nat n) h t p _ Hf Hex Hp).
  unfold decode, decode_target, past_bytes, d_get_enc, fmap, bind, ret. cbn [d_enc].
  rewrite (dec_start_cur Borsh t opt0 p (mkD (pre ++ [n] ++ post) (zlen pre + zlen [n]) (Some LE) Borsh)
    (mkD (pre ++ [n] ++ post) (zlen pre + zlen [n]) c' Borsh) eq_refl).
  destruct (dec_val Borsh t (DStart opt0) p _) as [[]]; reflexivity.
Qed.

Lemma decode_enum_bad fs h0 n p0 ps c pre post :
  enum_struct Borsh fs = true -> hd_error fs = Some (h0, BorshEnum) -> f_exported h0 = true ->
  length fs = S (length ps) -> Z.of_nat (length ps) <= n ->
  dvisible (decode (TStruct fs) (VStruct (p0 :: ps)) (at_bytes Borsh c pre [n] post)) =
  (Err EMsg, past_bytes Borsh None pre [n] post).
Proof.
  intros Hen Hhd Hex0 Hl Hn. rewrite decode_enum_eq by easy.
  unfold dec_struct. rewrite is_enum_spec, Hen. destruct fs as [|[h1 t1] fs]; [discriminate|].
  injection Hhd as -> _.
  change (dat_le (at_bytes Borsh c pre [n] post)) with (mkD (pre ++ [n] ++ post) (zlen pre) (Some LE) Borsh).
  unfold bind at 1. rewrite (keeps_read_byte Borsh n pre post (Some LE)). rewrite Hex0. cbn [negb].
  injection Hl as Hl. unfold bind. rewrite dec_variant_out by lia. reflexivity.
Qed.

Lemma upd_other {A} (x : A) l : forall n i, i <> n -> nth_error (upd n x l) i = nth_error l i.
Proof.
  induction l as [|a l IH]; intros [|n] [|i] H; try reflexivity; try easy. cbn. apply IH. congruence.
Qed.
Lemma upd_length {A} (x : A) l : forall n, length (upd n x l) = length l.
Proof. induction l as [|a l IH]; intros [|n]; cbn; auto. Qed.

Lemma dec_variant_other rec fs : forall ps n s xs s', dec_variant rec fs ps n s = (Ok xs, s') ->
  length xs = length ps /\ forall i, i <> n -> nth_error xs i = nth_error ps i.
Proof.
  induction fs as [|[h0 t0] fs IH]; intros [|p0 ps] n s xs s' H; cbn [dec_variant] in H; try discriminate.
  destruct n.
  - destruct (negb (f_exported h0)).
    { apply bind_ok in H as ([] & s1 & _ & H). apply bind_ok in H as ([] & s2 & _ & H). injection H as <- _. now split. }
    apply bind_ok in H as (x & s1 & _ & H).
    injection H as <- _. split; [reflexivity|]. intros [|i] Hi; [easy|reflexivity].
  - apply fmap_ok in H as (ys & H & ->). apply IH in H as [Hl H]. cbn [length]. split; [lia|].
    intros [|i] Hi; [reflexivity|]. cbn. apply H. congruence.
Qed.

Lemma decode_enum_other fs p0 ps s x s' : d_enc s = Borsh -> enum_struct Borsh fs = true ->
  decode (TStruct fs) (VStruct (p0 :: ps)) s = (Ok x, s') ->
  exists n xs, x = VStruct (VNum n :: xs) /\ length xs = length ps /\
    forall i, i <> Z.to_nat n -> nth_error xs i = nth_error ps i.
Proof.
  intros HE Hen H. rewrite decode_enum_eq in H by easy. unfold dec_struct in H. rewrite is_enum_spec, Hen in H.
  apply bind_ok in H as (n & s1 & _ & H). destruct fs as [|[h1 t1] fs]; [discriminate|].
  destruct (negb (f_exported h1)); [discriminate|]. apply bind_ok in H as (xs & s2 & H1 & H2).
  injection H2 as <- _. apply dec_variant_other in H1 as [Hl H1]. eauto.
Qed.
