(** Proofs for Zero.v. *)
From Coq Require Import String.
From Verif Require Import Types NumFacts EncPrim Enc Builtin Spec TyInd KeyEq Zero.
Notation length := Datatypes.length.

(** * The copy *)
Lemma enc_z_old E t m v : enc_val E t m v = enc_val_z (fun _ => is_zero) E t m v.
Proof. reflexivity. Qed.

From Verif Require DecWire.
From Verif Require Import RoundTrip FieldFacts MapFacts GoEncFacts.

(** * Unfolded *)
Definition enc_struct_z (isz : ty -> val -> bool) E (fs : list (fhdr * ty)) (vs : list val) : EM unit :=
  if is_borsh E && is_enum fs then
    match vs with
    | VNum z :: _ =>
        write_byte z ;;;
        nth_field
          (fun h t' v' =>
             if negb (f_exported h) then sealed_payload t' v' else
             match t' with
             | TPtr t'' =>
                 match v' with
                 | VPtr (Some x) => enc_val_z isz E t'' EPayload x
                 | VPtr None => ret tt
                 | _ => stuck
                 end
             | _ => enc_val_z isz E t' EPayload v'
             end)
          (fail EMsg) stuck fs vs (S (Z.to_nat (z mod 256)))
    | _ => stuck
    end
  else enc_fields E (fun t' o' v' => enc_val_z isz E t' (EFull o') v') fs vs [].

Definition enc_core_z (isz : ty -> val -> bool) E (t : ty) (o : fopt) (v : val) : EM unit :=
  match t with
  | TBool => match v with VBool b => write_bool b | _ => stuck end
  | TUint _ w | TInt _ w =>
      match v with VNum z => write_int E w z (o_order o) | _ => stuck end
  | TFloat f =>
      match v with
      | VFloat b => write_float f (f32_through64 f b) (scalar_order E (o_order o))
      | _ => stuck
      end
  | TString => match v with VStr s => write_str E s | _ => stuck end
  | TStruct fs => match v with VStruct vs => enc_struct_z isz E fs vs | _ => stuck end
  | TCodec c u =>
      match c_marshal c, c_byval c with
      | Some f, true => f v
      | _, _ => enc_val_z isz E u (EFull (cut_opt o)) v
      end
  | TDeep => deep
  | TIface => match v with VIface _ => ret tt | _ => stuck end
  | TPtr t' =>
      match ptr_codec t' with
      | Some (c, f) =>
          match v with
          | VPtr (Some x) => f x
          | VPtr None =>
              match E with
              | Borsh => ret tt
              | _ => if c_byval c then panic else c_marshal_nil c
              end
          | _ => stuck
          end
      | None =>
          match v with
          | VPtr (Some x) =>
              match E with
              | Borsh => enc_val_z isz E t' (EFull opt0) x
              | _ => enc_val_z isz E t' (EFull (cut_opt o)) x
              end
          | VPtr None =>
              match E with
              | Borsh => enc_val_z isz E t' (EFull opt0) (zero_val t')
              | _ => ret tt
              end
          | _ => stuck
          end
      end
  | TArray n t' =>
      match v with
      | VSeq l =>
          match uint_kind t' with
          | Some w => write_uints w (Z.of_nat n) l
          | None => each (enc_val_z isz E t' (EFull opt0)) l
          end
      | _ => stuck
      end
  | TSlice t' =>
      match v with
      | VSlice ol =>
          let l := match ol with Some l => l | None => [] end in
          (match o_size o with
           | Some _ => ret tt
           | None => write_count E (zlen l)
           end) ;;;
          let n := match o_size o with Some n => n | None => zlen l end in
          match uint_kind t' with
          | Some w => write_uints w n l
          | None =>
              each (enc_val_z isz E t' (EFull opt0)) (firstn (Z.to_nat n) l) ;;;
              if zlen l <? n then panic else ret tt
          end
      | _ => stuck
      end
  | TMap kt vt =>
      match v with
      | VMap om =>
          let m := match om with Some m => m | None => [] end in
          match ordered_keys E kt (map fst m) with
          | None => unsortable kt
          | Some keys =>
              write_count E (zlen m) ;;;
              enc_map kt vt (enc_val_z isz E kt (EFull opt0))
                (enc_val_z isz E vt (EFull opt0)) m keys
          end
      | _ => stuck
      end
  | _ => fail EMsg
  end.
Definition flags_z (isz : ty -> val -> bool) E (t : ty) (o : fopt) (v : val) (core : EM unit) : EM unit :=
  let rest : EM unit :=
    if is_borsh E && o_copt o then
      if isz t v then write_coption false
      else write_coption true ;;; core
    else core in
  if o_opt o then
    if isz t v then write_flag E false
    else write_flag E true ;;; rest
  else rest.
Lemma enc_full_z isz E t o v : enc_val_z isz E t (EFull o) v = (e_set_cur (o_order o) ;;; flags_z isz E t o v (enc_core_z isz E t o v)).
Proof. destruct t; reflexivity. Qed.
Lemma enc_payload_z isz E t v : enc_val_z isz E t EPayload v =
  match t with
  | TBool => match v with VBool b => write_bool b | _ => stuck end
  | TUint _ w | TInt _ w => match v with VNum z => write_int E w z LE | _ => stuck end
  | TFloat f =>
      match v with VFloat b => write_float f (f32_through64 f b) (scalar_order E LE) | _ => stuck end
  | TString => match v with VStr s => write_str E s | _ => stuck end
  | TStruct fs => match v with VStruct vs => enc_struct_z isz E fs vs | _ => stuck end
  | TCodec c u => enc_val_z isz E u EPayload v
  | TDeep => deep
  | _ => ret tt
  end.
Proof. destruct t; reflexivity. Qed.
Global Opaque enc_val_z.

(** * Zeros *)
Section Fields.
  Variable P : ty -> val -> bool.
  Fixpoint fields_zero (fs : list (fhdr * ty)) (vs : list val) : bool :=
    match fs, vs with
    | ht :: fs', v :: vs' => (String.eqb (f_name (fst ht)) "_" || P (snd ht) v) && fields_zero fs' vs'
    | _, _ => true
    end.
End Fields.
Lemma is_zero122_struct fs vs : is_zero122 (TStruct fs) (VStruct vs) = fields_zero is_zero122 fs vs.
Proof. reflexivity. Qed.
Section KeyFields.
  Fixpoint key_fields (fs : list (fhdr * ty)) (x y : list val) : bool :=
    match fs, x, y with
    | [], [], [] => true
    | ht :: fs', a :: x', b :: y' => (String.eqb (f_name (fst ht)) "_" || key_eqb (snd ht) a b) && key_fields fs' x' y'
    | _, _, _ => false
    end.
  Fixpoint key_list (t : ty) (x y : list val) : bool :=
    match x, y with
    | [], [] => true
    | a :: x', b :: y' => key_eqb t a b && key_list t x' y'
    | _, _ => false
    end.
End KeyFields.
Lemma key_eqb_struct fs x y : key_eqb (TStruct fs) (VStruct x) (VStruct y) = key_fields fs x y.
Proof. revert x y. induction fs as [|ht fs IH]; intros [|a x] [|b y]; try reflexivity. cbn [key_fields]. rewrite <- IH. reflexivity. Qed.
Lemma key_eqb_array n t x y : key_eqb (TArray n t) (VSeq x) (VSeq y) = key_list t x y.
Proof. revert y. induction x as [|a x IH]; intros [|b y]; try reflexivity. cbn [key_list]. rewrite <- IH. reflexivity. Qed.

(** What was zero before is zero. *)
Lemma zero_grows t : forall v, fits t v -> is_zero v = true -> is_zero122 t v = true.
Proof.
  induction t as [t IH] using ty_strong_ind. intros v Hf Hz.
  destruct t as [|nm w|nm w|f| |sg| | |t|n t|t|kt vt|fs|c u|]; try exact Hz.
  - destruct Hf as (b & -> & _). cbn in *. now rewrite Hz.
  - destruct Hf as (l & -> & _ & Hl). cbn [is_zero is_zero122] in *. rewrite forallb_forall in *. rewrite Forall_forall in Hl.
    intros x Hx. apply (IH t); [cbn; lia|auto|auto].
  - destruct Hf as (vs & -> & Hf). rewrite is_zero122_struct. cbn [is_zero] in Hz.
    assert (Ht : forall h t, In (h, t) fs -> forall v, fits t v -> is_zero v = true -> is_zero122 t v = true).
    { intros h t Hin. apply IH. exact (ty_size_field _ _ _ Hin). }
    clear IH. revert vs Hf Hz. induction fs as [|[h t] fs IHf]; intros [|v vs] Hf Hz; try destruct Hf; [reflexivity|].
    cbn [forallb fields_zero fst snd] in *. apply andb_true_iff in Hz as [H1 H2].
    rewrite (Ht h t) by (auto; now left). rewrite orb_true_r. apply IHf; auto. intros h0 t0 Hin. apply (Ht h0). now right.
  - cbn [is_zero122 fits] in *. apply (IH u); [cbn; lia|auto|auto].
Qed.

(** == does not see the difference. *)
Lemma zero_key t : forall a, fits t a -> is_zero122 t a = true -> forall c,
  key_eqb t (zero_val t) c = key_eqb t a c /\ key_eqb t c (zero_val t) = key_eqb t c a.
Proof.
  induction t as [t IH] using ty_strong_ind. intros a Hf Hz c.
  destruct t as [|nm w|nm w|f| |sg| | |t|n t|t|kt vt|fs|cd u|]; cbn [fits] in Hf.
  - destruct Hf as (b & ->). now destruct b.
  - destruct Hf as (z & -> & _). cbn in Hz. apply Z.eqb_eq in Hz as ->. easy.
  - destruct Hf as (z & -> & _). cbn in Hz. apply Z.eqb_eq in Hz as ->. easy.
  - destruct Hf as (b & -> & _). cbn [is_zero122] in Hz. apply orb_true_iff in Hz as [Hz|Hz]; apply Z.eqb_eq in Hz as ->; [easy|].
    destruct f; destruct c; easy.
  - destruct Hf as (s & -> & _). destruct s; easy.
  - destruct Hf as (z & -> & _). cbn in Hz. apply Z.eqb_eq in Hz as ->. easy.
  - easy.
  - destruct Hf as (d & ->). destruct d; easy.
  - easy.
  - destruct Hf as (l & -> & Hl & Hf). cbn [zero_val is_zero122] in *. destruct c as [| | | | |y| | | | |]; try easy. rewrite !key_eqb_array.
    subst n. assert (IHt := IH t ltac:(cbn; lia)). clear IH.
    revert y Hf Hz. induction l as [|x l IHl]; intros [|b y] Hf Hz; cbn [length repeat key_list]; try easy.
    inversion_clear Hf. cbn [forallb] in Hz. apply andb_true_iff in Hz as [Hz1 Hz2].
    destruct (IHt x ltac:(auto) Hz1 b) as [-> ->]. destruct (IHl y) as [-> ->]; auto.
  - easy.
  - easy.
  - destruct Hf as (vs & -> & Hf). cbn [zero_val]. rewrite is_zero122_struct in Hz. destruct c as [| | | | | | | |y| |]; try easy. rewrite !key_eqb_struct.
    assert (IHt : forall h t, In (h, t) fs -> forall a, fits t a -> is_zero122 t a = true -> forall c,
      key_eqb t (zero_val t) c = key_eqb t a c /\ key_eqb t c (zero_val t) = key_eqb t c a).
    { intros h t Hin. apply IH. exact (ty_size_field _ _ _ Hin). }
    clear IH. revert vs y Hf Hz. induction fs as [|[h t] fs IHf]; intros [|v vs] [|b y] Hf Hz; try destruct Hf; cbn [map key_fields fields_zero fst snd] in *; try easy.
    apply andb_true_iff in Hz as [Hz1 Hz2]. destruct (IHf (fun h t Hin => IHt h t (or_intror Hin)) vs y) as [-> ->]; auto.
    destruct (String.eqb (f_name h) "_"); [easy|]. cbn [orb] in *.
    destruct (IHt h t (or_introl eq_refl) v ltac:(auto) Hz1 b) as [-> ->]. easy.
  - cbn [zero_val key_eqb is_zero122] in *. apply (IH u); [cbn; lia|auto|auto].
  - easy.
Qed.

(** * What is forgotten *)
Definition forget_variant E (t : ty) (v : val) : val :=
  match t, v with
  | TPtr t', VPtr (Some x) => VPtr (Some (forget122 E true t' x))
  | TPtr _, _ => v
  | _, _ => forget122 E true t v
  end.
Lemma forget_struct E b fs vs : forget122 E b (TStruct fs) (VStruct vs) =
  VStruct (if is_borsh E && is_enum fs then forget_each (forget_variant E) fs vs else forget_fields E (forget122 E false) fs vs).
Proof. reflexivity. Qed.
Lemma forget_codec E b c u v : forget122 E b (TCodec c u) v = if negb b && method_takes c then v else forget122 E b u v.
Proof. destruct v; reflexivity. Qed.

Lemma forget_each_len g fs : forall vs, length (forget_each g fs vs) = length vs.
Proof. induction fs as [|[h t] fs IH]; intros [|v vs]; cbn [forget_each length]; auto. Qed.

Lemma forget_zero E t : forall b v, fits t v -> is_zero (forget122 E b t v) = true -> is_zero122 t v = true.
Proof.
  induction t as [t IH] using ty_strong_ind. intros b v Hf Hz.
  destruct t as [|nm w|nm w|f| |sg| | |t|n t|t|kt vt|fs|c u|]; try (apply zero_grows; [exact Hf|exact Hz]).
  - destruct Hf as (p & -> & _). destruct p as [x|]; [|reflexivity]. cbn [forget122] in Hz. destruct (b || _); discriminate.
  - pose proof Hf as (l & -> & _ & Hl). cbn [forget122] in Hz. destruct b; [now apply zero_grows|].
    cbn [is_zero is_zero122] in *. rewrite forallb_forall in *. rewrite Forall_forall in Hl.
    intros x Hx. apply (IH t ltac:(cbn; lia) false); [auto|]. apply Hz. apply in_map. exact Hx.
  - destruct Hf as (l & -> & _). destruct l as [l|]; [|reflexivity]. cbn [forget122] in Hz. destruct b; discriminate.
  - destruct Hf as (l & -> & _). destruct l as [l|]; [|reflexivity]. cbn [forget122] in Hz. destruct b; discriminate.
  - destruct Hf as (vs & -> & Hf). rewrite forget_struct in Hz. rewrite is_zero122_struct. cbn [is_zero] in Hz.
    assert (IHt : forall h t, In (h, t) fs -> forall b v, fits t v -> is_zero (forget122 E b t v) = true -> is_zero122 t v = true).
    { intros h t Hin. apply IH. exact (ty_size_field _ _ _ Hin). }
    clear IH b. destruct (is_borsh E && is_enum fs).
    + revert vs Hf Hz. induction fs as [|[h t] fs IHf]; intros [|v vs] Hf Hz; [reflexivity|easy|easy|]. destruct Hf as [Hf1 Hf2].
      cbn [forget_each forallb fields_zero fst snd] in *. apply andb_true_iff in Hz as [H1 H2].
      rewrite (IHf (fun h t Hin => IHt h t (or_intror Hin)) vs Hf2 H2), andb_true_r. apply orb_true_iff. right.
      assert (Hv : is_zero (forget122 E true t v) = true \/ is_zero v = true).
      { destruct t; auto. destruct v as [| | | |[x|]| | | | | |]; auto. }
      destruct Hv as [Hv|Hv]; [|now apply zero_grows]. apply (IHt h t (or_introl eq_refl) true); auto.
    + revert vs Hf Hz. induction fs as [|[h t] fs IHf]; intros [|v vs] Hf Hz; [reflexivity|easy|easy|]. destruct Hf as [Hf1 Hf2].
      cbn [forget_fields forallb fields_zero fst snd] in *. apply andb_true_iff in Hz as [H1 H2].
      rewrite (IHf (fun h t Hin => IHt h t (or_intror Hin)) vs Hf2 H2), andb_true_r. apply orb_true_iff. right.
      destruct (is_zero122 t v) eqn:Ez; [reflexivity|]. rewrite andb_false_r in H1. rewrite <- Ez.
      apply (IHt h t (or_introl eq_refl) false); auto.
  - rewrite forget_codec in Hz. cbn [fits] in Hf. destruct (negb b && _); [apply (zero_grows (TCodec c u)); [exact Hf|exact Hz]|].
    cbn [is_zero122]. apply (IH u ltac:(cbn; lia) b); auto.
Qed.

Lemma forget_zero122 E t : forall b v, fits t v -> is_zero122 t (forget122 E b t v) = true -> is_zero122 t v = true.
Proof.
  induction t as [t IH] using ty_strong_ind. intros b v Hf Hz.
  destruct t as [|nm w|nm w|f| |sg| | |t|n t|t|kt vt|fs|c u|]; try exact Hz.
  - destruct Hf as (p & -> & _). destruct p as [x|]; [|reflexivity]. cbn [forget122] in Hz. destruct (b || _); discriminate.
  - pose proof Hf as (l & -> & _ & Hl). cbn [forget122] in Hz. destruct b; [exact Hz|].
    cbn [is_zero122] in *. rewrite forallb_forall in *. rewrite Forall_forall in Hl.
    intros x Hx. apply (IH t ltac:(cbn; lia) false); [auto|]. apply Hz. apply in_map. exact Hx.
  - destruct Hf as (l & -> & _). destruct l as [l|]; [|reflexivity]. cbn [forget122] in Hz. destruct b; discriminate.
  - destruct Hf as (l & -> & _). destruct l as [l|]; [|reflexivity]. cbn [forget122] in Hz. destruct b; discriminate.
  - destruct Hf as (vs & -> & Hf). rewrite forget_struct in Hz. rewrite is_zero122_struct in *.
    assert (IHt : forall h t, In (h, t) fs -> forall b v, fits t v -> is_zero122 t (forget122 E b t v) = true -> is_zero122 t v = true).
    { intros h t Hin. apply IH. exact (ty_size_field _ _ _ Hin). }
    clear IH b. destruct (is_borsh E && is_enum fs).
    + revert vs Hf Hz. induction fs as [|[h t] fs IHf]; intros [|v vs] Hf Hz; [reflexivity|easy|easy|]. destruct Hf as [Hf1 Hf2].
      cbn [forget_each fields_zero fst snd] in *. apply andb_true_iff in Hz as [H1 H2].
      rewrite (IHf (fun h t Hin => IHt h t (or_intror Hin)) vs Hf2 H2), andb_true_r. destruct (String.eqb (f_name h) "_"); [reflexivity|].
      cbn [orb] in *. destruct t; try (apply (IHt h _ (or_introl eq_refl) true); assumption).
      destruct Hf1 as (p & -> & _). destruct p; [discriminate|reflexivity].
    + revert vs Hf Hz. induction fs as [|[h t] fs IHf]; intros [|v vs] Hf Hz; [reflexivity|easy|easy|]. destruct Hf as [Hf1 Hf2].
      cbn [forget_fields fields_zero fst snd] in *. apply andb_true_iff in Hz as [H1 H2].
      rewrite (IHf (fun h t Hin => IHt h t (or_intror Hin)) vs Hf2 H2), andb_true_r. destruct (String.eqb (f_name h) "_"); [reflexivity|].
      cbn [orb] in *. destruct (is_zero122 t v) eqn:Ez; [reflexivity|]. rewrite andb_false_r in H1. rewrite <- Ez.
      apply (IHt h t (or_introl eq_refl) false); auto.
  - rewrite forget_codec in Hz. cbn [fits] in Hf. destruct (negb b && _); [exact Hz|].
    cbn [is_zero122] in *. apply (IH u ltac:(cbn; lia) b); auto.
Qed.

Lemma forget_key E t : forall b a, fits t a -> forall c,
  key_eqb t (forget122 E b t a) c = key_eqb t a c /\ key_eqb t c (forget122 E b t a) = key_eqb t c a.
Proof.
  induction t as [t IH] using ty_strong_ind. intros b a Hf c.
  destruct t as [|nm w|nm w|f| |sg| | |t|n t|t|kt vt|fs|cd u|]; try easy.
  - destruct Hf as (l & -> & _ & Hl). cbn [forget122]. destruct b; [easy|]. destruct c as [| | | | |y| | | | |]; try easy. rewrite !key_eqb_array.
    assert (IHt := IH t ltac:(cbn; lia) false). clear IH.
    revert y Hl. induction l as [|x l IHl]; intros [|b y] Hl; cbn [map key_list]; try easy.
    inversion_clear Hl. destruct (IHt x ltac:(auto) b) as [-> ->]. destruct (IHl y) as [-> ->]; auto.
  - destruct Hf as (vs & -> & Hf). rewrite forget_struct. destruct c as [| | | | | | | |y| |]; try easy. rewrite !key_eqb_struct.
    assert (IHt : forall h t, In (h, t) fs -> forall b a, fits t a -> forall c,
      key_eqb t (forget122 E b t a) c = key_eqb t a c /\ key_eqb t c (forget122 E b t a) = key_eqb t c a).
    { intros h t Hin. apply IH. exact (ty_size_field _ _ _ Hin). }
    clear IH b. destruct (is_borsh E && is_enum fs).
    + revert vs y Hf. induction fs as [|[h t] fs IHf]; intros [|v vs] [|b y] Hf; try easy; destruct Hf as [Hf1 Hf2]; cbn [forget_each key_fields fst snd]; try easy.
      destruct (IHf (fun h t Hin => IHt h t (or_intror Hin)) vs y Hf2) as [-> ->].
      assert (Hk : key_eqb t (forget_variant E t v) b = key_eqb t v b /\ key_eqb t b (forget_variant E t v) = key_eqb t b v).
      { destruct t; first [easy|apply (IHt h _ (or_introl eq_refl) true v Hf1 b)]. }
      destruct Hk as [-> ->]. easy.
    + revert vs y Hf. induction fs as [|[h t] fs IHf]; intros [|v vs] [|b y] Hf; try easy; destruct Hf as [Hf1 Hf2]; cbn [forget_fields key_fields fst snd]; try easy.
      destruct (IHf (fun h t Hin => IHt h t (or_intror Hin)) vs y Hf2) as [-> ->].
      destruct (flagged_field E _ && is_zero122 t v) eqn:Ez.
      * apply andb_true_iff in Ez as [_ Ez]. destruct (zero_key t v Hf1 Ez b) as [-> ->]. easy.
      * destruct (IHt h t (or_introl eq_refl) false v Hf1 b) as [-> ->]. easy.
  - rewrite forget_codec. destruct (negb b && _); [easy|]. cbn [key_eqb]. apply (IH u); [cbn; lia|exact Hf].
Qed.

Lemma forget_at_zero E t : forall b, forget122 E b t (zero_val t) = zero_val t.
Proof.
  induction t as [t IH] using ty_strong_ind. intro b.
  destruct t as [|nm w|nm w|f| |sg| | |t|n t|t|kt vt|fs|cd u|]; try reflexivity.
  - cbn [zero_val forget122]. destruct b; [reflexivity|]. f_equal. assert (Ht := IH t ltac:(cbn; lia) false). induction n as [|n IHn]; [reflexivity|]. cbn [repeat map]. now rewrite Ht, IHn.
  - cbn [zero_val]. rewrite forget_struct. f_equal.
    assert (IHt : forall h t, In (h, t) fs -> forall b, forget122 E b t (zero_val t) = zero_val t).
    { intros h t Hin. apply IH. exact (ty_size_field _ _ _ Hin). }
    clear IH. destruct (is_borsh E && is_enum fs).
    + induction fs as [|[h t] fs IHf]; [reflexivity|]. cbn [map forget_each snd]. f_equal; [|apply IHf; intros h0 t0 Hin; apply (IHt h0); now right].
      destruct t; first [reflexivity|apply (IHt h _ (or_introl eq_refl))].
    + induction fs as [|[h t] fs IHf]; [reflexivity|]. cbn [map forget_fields snd]. f_equal; [|apply IHf; intros h0 t0 Hin; apply (IHt h0); now right].
      destruct (_ && _); [reflexivity|]. apply (IHt h). now left.
  - rewrite forget_codec. cbn [zero_val]. destruct (negb b && _); [reflexivity|]. apply (IH u). cbn; lia.
Qed.

Lemma forget_size E t : forall b v, sizeof_val t (forget122 E b t v) = sizeof_val t v.
Proof.
  induction t as [t IH] using ty_strong_ind. intros b v.
  destruct t as [|nm w|nm w|f| |sg| | |t|n t|t|kt vt|fs|cd u|]; try reflexivity.
  rewrite forget_codec. destruct (negb b && _); [reflexivity|]. apply (IH u). cbn; lia.
Qed.
Lemma zero_size t : forall v, fits t v -> is_zero122 t v = true -> sizeof_val t (zero_val t) = sizeof_val t v.
Proof.
  induction t as [t IH] using ty_strong_ind. intros v Hf Hz.
  destruct t as [|nm w|nm w|f| |sg| | |t|n t|t|kt vt|fs|cd u|]; try reflexivity.
  - destruct Hf as (z & -> & _). cbn in Hz. apply Z.eqb_eq in Hz as ->. reflexivity.
  - destruct Hf as (z & -> & _). cbn in Hz. apply Z.eqb_eq in Hz as ->. reflexivity.
  - destruct Hf as (z & -> & _). cbn in Hz. apply Z.eqb_eq in Hz as ->. reflexivity.
  - apply (IH u); [cbn; lia|exact Hf|exact Hz].
Qed.
Lemma forget_uint E t w : uint_kind t = Some w -> forall b v, forget122 E b t v = v.
Proof.
  induction t as [t IH] using ty_strong_ind. intros H b v.
  destruct t as [|nm w'|nm w'|f| |sg| | |t|n t|t|kt vt|fs|cd u|]; try discriminate; try reflexivity.
  rewrite forget_codec. destruct (negb b && _); [reflexivity|]. apply (IH u); [cbn; lia|exact H].
Qed.
Lemma forget_sortable E t p lt : key_ltb_k p t = Some lt -> forall b v, forget122 E b t v = v.
Proof.
  revert p. induction t as [t IH] using ty_strong_ind. intros p H b v.
  destruct t as [|nm w'|nm w'|f| |sg| | |t|n t|t|kt vt|fs|cd u|]; try discriminate; try reflexivity.
  rewrite forget_codec. destruct (negb b && _); [reflexivity|]. apply (IH u) with (p := false); [cbn; lia|exact H].
Qed.
Lemma forget_iface E t v : iface_elem t (forget122 E false t v) = iface_elem t v.
Proof. destruct t; reflexivity. Qed.
Lemma forget_keys E E' kt keys : ordered_keys E kt (map (forget122 E' false kt) keys) = match ordered_keys E kt keys with
  | Some ks => Some (map (forget122 E' false kt) ks) | None => None end.
Proof.
  destruct E; try reflexivity. destruct keys as [|a [|b keys]]; try reflexivity. unfold ordered_keys. cbn [map].
  destruct (key_ltb kt) as [lt|] eqn:El; [|reflexivity].
  change (forget122 E' false kt a :: forget122 E' false kt b :: map (forget122 E' false kt) keys) with (map (forget122 E' false kt) (a :: b :: keys)).
  assert (H : forall l, map (forget122 E' false kt) l = l).
  { induction l as [|x l IH]; [reflexivity|]. cbn [map]. now rewrite IH, (forget_sortable _ _ _ _ El). }
  now rewrite !H.
Qed.
Lemma forget_index E kt vt m k : Forall (fun e => fits kt (fst e) /\ fits vt (snd e)) m -> fits kt k ->
  map_index kt (map (fun e => (forget122 E false kt (fst e), forget122 E false vt (snd e))) m) (forget122 E false kt k) =
  match map_index kt m k with Some v => Some (forget122 E false vt v) | None => None end.
Proof.
  intros Hm Hk. unfold map_index. induction Hm as [|[k' v'] m [H1 H2] _ IH]; [reflexivity|]. cbn [map find fst snd] in *.
  destruct (forget_key E kt false k Hk (forget122 E false kt k')) as [_ ->]. destruct (forget_key E kt false k' H1 k) as [-> _].
  destruct (key_eqb kt k' k); [reflexivity|exact IH].
Qed.

(** * The encoders *)
Notation old := (fun _ : ty => is_zero).
Definition flagged (E : encoding) (o : fopt) : bool := o_opt o || is_borsh E && o_copt o.
Definition forget_opt E t (o : fopt) (v : val) : val := if flagged E o && is_zero122 t v then zero_val t else forget122 E false t v.

Lemma flags_forget E t o v core core' : fits t v -> (forall s, core s = core' s) ->
  forall s, flags_z is_zero122 E t o v core s = flags_z old E t o (forget_opt E t o v) core' s.
Proof.
  intros Hf Hc s. unfold flags_z, forget_opt, flagged. destruct (is_zero122 t v) eqn:Ez.
  - destruct (o_opt o); cbn [orb andb].
    + now rewrite zero_is_zero.
    + destruct (is_borsh E && o_copt o); cbn [andb]; [now rewrite zero_is_zero|apply Hc].
  - rewrite andb_false_r. assert (Hn : is_zero (forget122 E false t v) = false).
    { destruct (is_zero (forget122 E false t v)) eqn:H; [|reflexivity]. apply forget_zero in H; [congruence|exact Hf]. }
    rewrite Hn. destruct (o_opt o), (is_borsh E && o_copt o); try apply Hc.
    + apply then_same; [reflexivity|]. intro s1. apply then_same; [reflexivity|exact Hc].
    + apply then_same; [reflexivity|exact Hc].
    + apply then_same; [reflexivity|exact Hc].
Qed.

Definition follows E t : Prop := forall v, fits t v ->
  (forall s, enc_val_z is_zero122 E t EPayload v s = enc_val_z old E t EPayload (forget122 E true t v) s) /\
  (forall o s, enc_val_z is_zero122 E t (EFull o) v s = enc_val_z old E t (EFull o) (forget_opt E t o v) s).
Lemma follows_plain E t o v s : follows E t -> fits t v -> flagged E o = false ->
  enc_val_z is_zero122 E t (EFull o) v s = enc_val_z old E t (EFull o) (forget122 E false t v) s.
Proof. intros H Hf Ho. destruct (H v Hf) as [_ H']. rewrite H'. unfold forget_opt. now rewrite Ho. Qed.
Lemma unflagged_cut E o : flagged E (cut_opt o) = false.
Proof. unfold flagged, cut_opt. cbn. apply andb_false_r. Qed.
Lemma unflagged_opt0 E : flagged E opt0 = false.
Proof. unfold flagged. cbn. apply andb_false_r. Qed.

Lemma fields_follow E fs : (forall h t, In (h, t) fs -> follows E t) -> forall vs, fits_fields fits fs vs -> forall sizes s,
  enc_fields E (fun t' o' v' => enc_val_z is_zero122 E t' (EFull o') v') fs vs sizes s =
  enc_fields E (fun t' o' v' => enc_val_z old E t' (EFull o') v') fs (forget_fields E (forget122 E false) fs vs) sizes s.
Proof.
  induction fs as [|[h t] fs IH]; intros Hr [|v vs] Hf sizes s; [reflexivity|easy|easy|]. destruct Hf as [Hf1 Hf2].
  cbn [forget_fields enc_fields fst snd] in *. set (tg := parse_field_tag (f_tag h)) in *.
  destruct (ft_skip tg); [apply IH; auto; intros h0 t0 Hin; apply (Hr h0); now right|].
  assert (Hs : sizeof_val t (if flagged_field E tg && is_zero122 t v then zero_val t else forget122 E false t v) = sizeof_val t v).
  { destruct (flagged_field E tg && is_zero122 t v) eqn:Ez; [apply andb_true_iff in Ez as [_ Ez]; now apply zero_size|apply forget_size]. }
  rewrite Hs. destruct (if String.eqb (ft_sizeof tg) "" then _ else _) as [sizes'|]; [|reflexivity].
  assert (IHf : forall s, enc_fields E (fun t' o' v' => enc_val_z is_zero122 E t' (EFull o') v') fs vs sizes' s =
    enc_fields E (fun t' o' v' => enc_val_z old E t' (EFull o') v') fs (forget_fields E (forget122 E false) fs vs) sizes' s).
  { intro s1. apply IH; auto. intros h0 t0 Hin. apply (Hr h0). now right. }
  destruct (f_exported h); [|apply IHf]. cbn [negb]. apply then_same; [|exact IHf]. apply map_err_same.
  destruct (Hr h t (or_introl eq_refl) v Hf1) as [_ H]. rewrite H. unfold forget_opt.
  replace (flagged E (field_opt E tg (f_name h) sizes')) with (flagged_field E tg); [reflexivity|].
  unfold flagged, flagged_field, field_opt. cbn. destruct (is_borsh E); reflexivity.
Qed.

Lemma hidden_forget rec E fs : forall vs sizes, fits_fields fits fs vs ->
  enc_fields Borsh rec (hide fs) (forget_fields E (forget122 E false) fs vs) sizes = enc_fields Borsh rec (hide fs) vs sizes.
Proof.
  induction fs as [|[h t] fs IH]; intros [|v vs] sizes Hf; [reflexivity|easy|easy|]. destruct Hf as [Hf1 Hf2].
  cbn [hide map forget_fields enc_fields fst snd f_tag f_exported negb]. fold (hide fs). cbv zeta.
  assert (Hs : sizeof_val t (if flagged_field E (parse_field_tag (f_tag h)) && is_zero122 t v then zero_val t else forget122 E false t v) = sizeof_val t v).
  { destruct (flagged_field E (parse_field_tag (f_tag h))); cbn [andb]; [|apply forget_size].
    destruct (is_zero122 t v) eqn:Ez; [|apply forget_size]. now apply zero_size. }
  rewrite Hs. destruct (ft_skip _); [now apply IH|].
  match goal with |- (match ?x with _ => _ end) = _ => destruct x end; [|reflexivity]. now apply IH.
Qed.
Lemma sealed_forget t : forall v, fits t v -> enc_sealed t (forget122 Borsh true t v) = enc_sealed t v.
Proof.
  induction t as [t IH] using ty_strong_ind. intros v Hf.
  destruct t as [|nm w|nm w|f| |sg| | |t|n t|t|kt vt|fs|c u|]; try reflexivity.
  - destruct Hf as (vs & -> & Hf). rewrite forget_struct. cbn [is_borsh andb enc_sealed].
    destruct (is_enum fs) eqn:Ee; [|now apply hidden_forget].
    destruct fs as [|[h t] fs]; [discriminate|]. destruct vs as [|v vs]; [easy|]. destruct Hf as [Hf1 Hf2].
    assert (Ht : t = TUint UBorshEnum W8). { cbn in Ee. destruct t as [|[] []| | | | | | | | | | | | |]; try discriminate. reflexivity. }
    subst t. cbn [fits snd] in Hf1. destruct Hf1 as (z & -> & Hz). cbn [forget_each forget_variant forget122].
    match goal with |- bind ?a (fun _ => ?x) = bind ?a (fun _ => ?y) => enough (Hk : x = y) by now rewrite Hk end.
    cbn [nth_field].
    assert (IH' : forall h a, In (h, a) fs -> forall a1, (ty_size a1 <= ty_size a)%nat -> forall v, fits a1 v ->
      enc_sealed a1 (forget122 Borsh true a1 v) = enc_sealed a1 v).
    { intros h0 a Hin a1 Hs v Hv. apply IH; [|exact Hv].
      pose proof (ty_size_field ((h, TUint UBorshEnum W8) :: fs) h0 a (or_intror Hin)). lia. }
    generalize (Z.to_nat (z mod 256)) as n. clear - IH' Hf2. revert vs Hf2.
    induction fs as [|[h t] fs IHf]; intros [|v vs] Hf n; [reflexivity|easy|easy|]. destruct Hf as [Hf1 Hf2]. cbn [forget_each nth_field].
    destruct n; [|apply IHf; [intros h2 a2 Hin; apply (IH' h2 a2); now right|exact Hf2]].
    pose proof (IH' h t (or_introl eq_refl)) as Hi. cbn [snd] in Hf1.
    destruct t; try (apply Hi; [lia|exact Hf1]).
    destruct Hf1 as (p & -> & Hx). destruct p as [x|]; [|reflexivity]. cbn [forget_variant]. apply Hi; [cbn; lia|auto].
  - rewrite forget_codec. cbn [negb andb enc_sealed]. apply IH; [cbn; lia|exact Hf].
Qed.
Lemma payload_forget t v : fits t v -> sealed_payload t (forget_variant Borsh t v) = sealed_payload t v.
Proof.
  intro Hf. destruct t; try (exact (sealed_forget _ _ Hf)).
  destruct Hf as (p & -> & Hx). destruct p as [x|]; [|reflexivity]. cbn [forget_variant sealed_payload]. apply sealed_forget. auto.
Qed.

Lemma struct_follows E fs vs s : (forall h t, In (h, t) fs -> follows E t) -> (forall h t t', In (h, t) fs -> t = TPtr t' -> follows E t') ->
  fits_fields fits fs vs ->
  enc_struct_z is_zero122 E fs vs s = enc_struct_z old E fs (if is_borsh E && is_enum fs then forget_each (forget_variant E) fs vs else forget_fields E (forget122 E false) fs vs) s.
Proof.
  intros Hr Hp Hf. unfold enc_struct_z. destruct (is_borsh E && is_enum fs) eqn:Ee; [|now apply fields_follow].
  apply andb_true_iff in Ee as [Eb Ee]. destruct E; try discriminate. destruct fs as [|[h t] fs]; [discriminate|].
  destruct vs as [|v vs]; [easy|]. destruct Hf as [Hf1 Hf2].
  assert (Ht : t = TUint UBorshEnum W8). { cbn in Ee. destruct t as [|[] []| | | | | | | | | | | | |]; try discriminate. reflexivity. }
  subst t. cbn [fits snd] in Hf1. destruct Hf1 as (z & -> & Hz).
  cbn [forget_each forget_variant forget122]. apply then_same; [reflexivity|]. intro s1. cbn [nth_field].
  assert (Hr' : forall h t, In (h, t) fs -> follows Borsh t) by (intros h0 t0 Hin; apply (Hr h0); now right).
  assert (Hp' : forall h t t', In (h, t) fs -> t = TPtr t' -> follows Borsh t') by (intros h0 t0 t' Hin; apply (Hp h0); now right).
  generalize (Z.to_nat (z mod 256)) as n. intro n. clear -Hr' Hp' Hf2. revert vs Hf2 n.
  induction fs as [|[h t] fs IH]; intros [|v vs] Hf n; [reflexivity|easy|easy|]. destruct Hf as [Hf1 Hf2]. cbn [forget_each nth_field].
  destruct n as [|n]; [|apply IH; [intros h0 t0 Hin; apply (Hr' h0); now right|intros h0 t0 t' Hin; apply (Hp' h0); now right|exact Hf2]].
  cbn [fst snd] in *. destruct (f_exported h); [|cbn [negb]; now rewrite payload_forget]. cbn [negb] in *.
  destruct t; try (apply (Hr' h _ (or_introl eq_refl) v Hf1)).
  destruct Hf1 as (p & -> & Hx). destruct p as [x|]; [|reflexivity]. cbn [forget_variant].
  apply (Hp' h _ t (or_introl eq_refl) eq_refl x (Hx x eq_refl)).
Qed.

Lemma each_follows E t l : follows E t -> Forall (fits t) l -> forall s,
  each (enc_val_z is_zero122 E t (EFull opt0)) l s = each (enc_val_z old E t (EFull opt0)) (map (forget122 E false t) l) s.
Proof.
  intros H Hl. induction Hl as [|x l Hx _ IH]; intro s; [reflexivity|]. cbn [each map].
  apply then_same; [apply follows_plain; auto using unflagged_opt0|exact IH].
Qed.
Lemma forget_firstn E t n l : map (forget122 E false t) (firstn n l) = firstn n (map (forget122 E false t) l).
Proof. symmetry. apply firstn_map. Qed.
Lemma zlen_map {A B} (f : A -> B) l : zlen (map f l) = zlen l.
Proof. unfold zlen. now rewrite map_length. Qed.
Lemma map_id_uint E t w l : uint_kind t = Some w -> map (forget122 E false t) l = l.
Proof. intro H. induction l as [|x l IH]; [reflexivity|]. cbn [map]. now rewrite IH, (forget_uint _ _ _ H). Qed.

Lemma ptr_codec_taken t : pointer_taken t = match ptr_codec t with Some _ => true | None => false end.
Proof. unfold pointer_taken, ptr_codec. destruct (codec_of t) as [c|]; [|reflexivity]. now destruct (c_marshal c). Qed.

Theorem all_follow E t : follows E t.
Proof.
  induction t as [t IH] using ty_strong_ind. intros v Hf.
  assert (Hstruct : forall fs vs s, t = TStruct fs -> v = VStruct vs -> enc_struct_z is_zero122 E fs vs s =
    enc_struct_z old E fs (if is_borsh E && is_enum fs then forget_each (forget_variant E) fs vs else forget_fields E (forget122 E false) fs vs) s).
  { intros fs vs s -> ->. destruct Hf as (vs' & [= <-] & Hf). apply struct_follows; auto.
    - intros h t Hin. apply IH. exact (ty_size_field _ _ _ Hin).
    - intros h t t' Hin ->. apply IH. pose proof (ty_size_field _ _ _ Hin) as H. cbn [ty_size] in *. lia. }
  split.
  - intro s. rewrite !enc_payload_z. destruct t as [|nm w|nm w|f| |sg| | |t|n t|t|kt vt|fs|c u|]; try reflexivity.
    + destruct Hf as (vs & -> & Hf). rewrite forget_struct. now apply Hstruct.
    + rewrite forget_codec. cbn [negb andb]. apply (IH u); [cbn; lia|exact Hf].
  - intros o s. rewrite !enc_full_z. apply then_same; [reflexivity|]. intro s1.
    assert (Hc : forall s, enc_core_z is_zero122 E t o v s = enc_core_z old E t o (forget122 E false t v) s).
    2: { rewrite (flags_forget E t o v _ _ Hf Hc). unfold forget_opt. destruct (flagged E o && is_zero122 t v) eqn:Ez; [|reflexivity].
         apply andb_true_iff in Ez as [Ez _]. unfold flags_z. rewrite zero_is_zero. unfold flagged in Ez.
         destruct (o_opt o); [reflexivity|]. destruct (is_borsh E && o_copt o); [reflexivity|discriminate]. }
    clear s s1. intro s. destruct t as [|nm w|nm w|f| |sg| | |t|n t|t|kt vt|fs|c u|]; try reflexivity.
    + destruct Hf as (p & -> & Hx). cbn [enc_core_z forget122 orb]. pose proof (ptr_codec_taken t) as Hp.
      destruct p as [x|]; cbn [forget122 orb]; rewrite ?Hp; destruct (ptr_codec t) as [[c f]|] eqn:Ep; try reflexivity.
      * assert (Ht : follows E t) by (apply IH; cbn; lia). specialize (Hx x eq_refl).
        destruct E; (apply follows_plain; auto using unflagged_cut, unflagged_opt0).
      * destruct E; try reflexivity. rewrite <- (forget_at_zero Borsh t false) at 2. apply follows_plain; [apply IH; cbn; lia| |reflexivity].
        apply DecWire.fits_zero.
    + destruct Hf as (l & -> & _ & Hl). cbn [enc_core_z forget122]. destruct (uint_kind t) as [w|] eqn:Ew.
      * now rewrite (map_id_uint _ _ _ _ Ew).
      * apply each_follows; [apply IH; cbn; lia|exact Hl].
    + destruct Hf as (l & -> & Hl). cbn [enc_core_z]. destruct l as [l|]; cbn [forget122].
      * rewrite zlen_map. apply then_same; [reflexivity|]. intro s1. destruct (uint_kind t) as [w|] eqn:Ew.
        -- now rewrite (map_id_uint _ _ _ _ Ew).
        -- apply then_same; [|reflexivity]. rewrite <- forget_firstn. apply each_follows; [apply IH; cbn; lia|].
           specialize (Hl l eq_refl). rewrite <- (firstn_skipn (Z.to_nat match o_size o with Some n => n | None => zlen l end) l) in Hl. now apply Forall_app in Hl.
      * apply then_same; [reflexivity|]. intro s1. now rewrite firstn_nil.
    + destruct Hf as (m & -> & Hm). cbn [enc_core_z]. destruct m as [m|]; cbn [forget122].
      * specialize (Hm m eq_refl).
        replace (map fst (map (fun e => (forget122 E false kt (fst e), forget122 E false vt (snd e))) m)) with (map (forget122 E false kt) (map fst m))
          by (rewrite !map_map; reflexivity).
        rewrite forget_keys. destruct (ordered_keys E kt (map fst m)) as [ks|] eqn:Eo; [|reflexivity]. rewrite zlen_map.
        apply then_same; [reflexivity|]. intro s1. unfold enc_map.
        assert (Hks : Forall (fits kt) ks).
        { apply Forall_forall. intros k Hk. assert (Hi : In k (map fst m)) by (eapply ordered_in; eauto).
          apply in_map_iff in Hi as (e & <- & Hi). rewrite Forall_forall in Hm. apply (Hm e Hi). }
        clear Eo. revert s1. induction Hks as [|k ks Hk _ IHk]; intro s1; [reflexivity|]. cbn [map each]. apply then_same; [|exact IHk].
        rewrite forget_iface. destruct (iface_elem kt k); [|reflexivity]. cbn [negb]. apply then_same.
        -- apply follows_plain; [apply IH; cbn; lia|exact Hk|apply unflagged_opt0].
        -- intro s2. rewrite (forget_index E kt vt m k Hm Hk). destruct (map_index kt m k) as [x|] eqn:Ex; [|reflexivity].
           rewrite forget_iface. destruct (iface_elem vt x); [|reflexivity]. cbn [negb].
           apply follows_plain; [apply IH; cbn; lia| |apply unflagged_opt0].
           unfold map_index in Ex. destruct (find _ m) as [e|] eqn:Ef; [|discriminate]. injection Ex as <-. apply find_some in Ef as [Ef _].
           rewrite Forall_forall in Hm. apply (Hm e Ef).
      * destruct E; reflexivity.
    + destruct Hf as (vs & -> & Hf). cbn [enc_core_z]. rewrite forget_struct. now apply Hstruct.
    + cbn [fits] in Hf. rewrite forget_codec. cbn [negb andb enc_core_z]. unfold method_takes.
      destruct (c_marshal c) as [f|], (c_byval c); cbn [isSome andb]; try reflexivity;
        (apply follows_plain; [apply IH; cbn; lia|exact Hf|apply unflagged_cut]).
Qed.

Theorem encode122_forget t v s : fits t v -> encode122 t v s = encode t (forget122 (e_enc s) false t v) s.
Proof.
  intro Hf. change (enc_val_z is_zero122 (e_enc s) t (EFull opt0) v s = enc_val (e_enc s) t (EFull opt0) (forget122 (e_enc s) false t v) s).
  rewrite enc_z_old. apply follows_plain; [apply all_follow|exact Hf|apply unflagged_opt0].
Qed.
Theorem marshal122_forget E t v : fits t v -> marshal122 E t v = marshal E t (forget122 E false t v).
Proof. intro Hf. unfold marshal122, marshal. rewrite (encode122_forget t v _ Hf). reflexivity. Qed.

(** * Where nothing is forgotten *)
Theorem forget_fits E t : forall b v, fits t v -> fits t (forget122 E b t v).
Proof.
  induction t as [t IH] using ty_strong_ind. intros b v Hf.
  destruct t as [|nm w|nm w|f| |sg| | |t|n t|t|kt vt|fs|c u|]; try exact Hf.
  - destruct Hf as (p & -> & Hx). destruct p as [x|]; cbn [forget122]; [|now exists None].
    destruct (b || _); [now exists (Some x)|]. eexists; split; [reflexivity|]. intros y [= <-]. apply IH; [cbn; lia|auto].
  - destruct Hf as (l & -> & Hn & Hl). cbn [forget122]. destruct b; [now exists l|]. eexists; split; [reflexivity|]. rewrite map_length.
    split; [exact Hn|]. apply Forall_forall. intros y Hy. apply in_map_iff in Hy as (x & <- & Hx). rewrite Forall_forall in Hl.
    apply IH; [cbn; lia|auto].
  - destruct Hf as (l & -> & Hl). destruct l as [l|]; cbn [forget122]; [|now exists None]. destruct b; [now exists (Some l)|].
    eexists; split; [reflexivity|]. intros l' [= <-]. specialize (Hl l eq_refl).
    apply Forall_forall. intros y Hy. apply in_map_iff in Hy as (x & <- & Hx). rewrite Forall_forall in Hl. apply IH; [cbn; lia|auto].
  - destruct Hf as (l & -> & Hl). destruct l as [l|]; cbn [forget122]; [|now exists None]. destruct b; [now exists (Some l)|].
    eexists; split; [reflexivity|]. intros l' [= <-]. specialize (Hl l eq_refl).
    apply Forall_forall. intros y Hy. apply in_map_iff in Hy as (x & <- & Hx). rewrite Forall_forall in Hl. destruct (Hl x Hx).
    split; apply IH; try (cbn; lia); auto.
  - destruct Hf as (vs & -> & Hf). rewrite forget_struct. eexists; split; [reflexivity|].
    assert (IHt : forall h t, In (h, t) fs -> forall b v, fits t v -> fits t (forget122 E b t v)).
    { intros h t Hin. apply IH. exact (ty_size_field _ _ _ Hin). }
    assert (IHp : forall h t t', In (h, t) fs -> t = TPtr t' -> forall b v, fits t' v -> fits t' (forget122 E b t' v)).
    { intros h t t' Hin ->. apply IH. pose proof (ty_size_field _ _ _ Hin) as H. cbn [ty_size] in *. lia. }
    clear IH. destruct (is_borsh E && is_enum fs).
    + revert vs Hf. induction fs as [|[h t] fs IHf]; intros [|v vs] Hf; [exact I|easy|easy|]. destruct Hf as [Hf1 Hf2].
      cbn [forget_each fits_fields fst snd] in *. split; [|apply IHf; [intros h0 t0 Hin; apply (IHt h0); now right|intros h0 t0 t' Hin; apply (IHp h0); now right|exact Hf2]].
      destruct t; try (apply (IHt h); [now left|assumption]). destruct Hf1 as (p & -> & Hx). destruct p as [x|]; [|now exists None].
      eexists; split; [reflexivity|]. intros y [= <-]. apply (IHp h _ t (or_introl eq_refl) eq_refl). auto.
    + revert vs Hf. induction fs as [|[h t] fs IHf]; intros [|v vs] Hf; [exact I|easy|easy|]. destruct Hf as [Hf1 Hf2].
      cbn [forget_fields fits_fields fst snd] in *. split; [|apply IHf; [intros h0 t0 Hin; apply (IHt h0); now right|intros h0 t0 t' Hin; apply (IHp h0); now right|exact Hf2]].
      destruct (_ && _); [apply DecWire.fits_zero|]. apply (IHt h); [now left|assumption].
  - rewrite forget_codec. destruct (negb b && _); [exact Hf|]. apply (IH u); [cbn; lia|exact Hf].
Qed.

(** Neither -0.0 nor fields called _ in the type. *)
Fixpoint sees_all (t : ty) : bool :=
  match t with
  | TFloat _ => false
  | TArray _ t' => sees_all t'
  | TStruct fs => forallb (fun ht => negb (String.eqb (f_name (fst ht)) "_") && sees_all (snd ht)) fs
  | TCodec _ u => sees_all u
  | _ => true
  end.
Lemma sees_all_zero t : sees_all t = true -> forall v, fits t v -> is_zero122 t v = is_zero v.
Proof.
  induction t as [t IH] using ty_strong_ind. intros Hs v Hf.
  destruct t as [|nm w|nm w|f| |sg| | |t|n t|t|kt vt|fs|c u|]; try reflexivity; try discriminate.
  - destruct Hf as (l & -> & _ & Hl). cbn [is_zero122 is_zero]. assert (IHt := IH t ltac:(cbn; lia) Hs).
    induction Hl as [|x l Hx _ IHl]; [reflexivity|]. cbn [forallb]. now rewrite IHt, IHl.
  - destruct Hf as (vs & -> & Hf). rewrite is_zero122_struct. cbn [is_zero sees_all] in *. rewrite forallb_forall in Hs.
    assert (IHt : forall h t, In (h, t) fs -> String.eqb (f_name h) "_" = false /\ forall v, fits t v -> is_zero122 t v = is_zero v).
    { intros h t Hin. specialize (Hs _ Hin). cbn [fst snd] in Hs. apply andb_true_iff in Hs as [H1 H2].
      split; [now destruct (String.eqb _ _)|]. apply IH; [exact (ty_size_field _ _ _ Hin)|exact H2]. }
    clear IH Hs. revert vs Hf. induction fs as [|[h t] fs IHf]; intros [|v vs] Hf; [reflexivity|easy|easy|]. destruct Hf as [Hf1 Hf2].
    cbn [fields_zero forallb fst snd] in *. destruct (IHt h t (or_introl eq_refl)) as [-> Hv]. rewrite (Hv v Hf1). cbn [orb]. f_equal.
    apply IHf; [|exact Hf2]. intros h0 t0 Hin. apply (IHt h0). now right.
  - cbn [is_zero122 sees_all] in *. apply (IH u); [cbn; lia|exact Hs|exact Hf].
Qed.

(** No optional field anywhere holds floats or has fields called _. *)
Fixpoint unaffected (E : encoding) (t : ty) : bool :=
  match t with
  | TPtr t' | TArray _ t' | TSlice t' | TCodec _ t' => unaffected E t'
  | TMap kt vt => unaffected E kt && unaffected E vt
  | TStruct fs => forallb (fun ht => (negb (flagged_field E (parse_field_tag (f_tag (fst ht)))) || sees_all (snd ht) && no_deep (snd ht)) && unaffected E (snd ht)) fs
  | _ => true
  end.
Lemma map_same {A} (f : A -> A) l : (forall x, In x l -> f x = x) -> map f l = l.
Proof. intro H. induction l as [|x l IH]; [reflexivity|]. cbn [map]. rewrite H by now left. f_equal. apply IH. intros y Hy. apply H. now right. Qed.
Theorem unaffected_same E t : unaffected E t = true -> forall b v, fits t v -> forget122 E b t v = v.
Proof.
  induction t as [t IH] using ty_strong_ind. intros Hu b v Hf.
  destruct t as [|nm w|nm w|f| |sg| | |t|n t|t|kt vt|fs|c u|]; try reflexivity; cbn [unaffected] in Hu.
  - destruct Hf as (p & -> & Hx). destruct p as [x|]; cbn [forget122]; [|reflexivity]. destruct (b || _); [reflexivity|].
    rewrite (IH t); auto; cbn; lia.
  - destruct Hf as (l & -> & _ & Hl). cbn [forget122]. destruct b; [reflexivity|]. f_equal. apply map_same. intros x Hx.
    rewrite Forall_forall in Hl. apply (IH t); auto; cbn; lia.
  - destruct Hf as (l & -> & Hl). destruct l as [l|]; cbn [forget122]; [|reflexivity]. destruct b; [reflexivity|]. do 2 f_equal. apply map_same. intros x Hx.
    specialize (Hl l eq_refl). rewrite Forall_forall in Hl. apply (IH t); auto; cbn; lia.
  - apply andb_true_iff in Hu as [Hu1 Hu2].
    destruct Hf as (l & -> & Hl). destruct l as [l|]; cbn [forget122]; [|reflexivity]. destruct b; [reflexivity|]. do 2 f_equal. apply map_same. intros [k x] Hx.
    specialize (Hl l eq_refl). rewrite Forall_forall in Hl. destruct (Hl _ Hx). cbn [fst snd] in *. rewrite (IH kt), (IH vt); auto; cbn; lia.
  - destruct Hf as (vs & -> & Hf). rewrite forget_struct. f_equal. rewrite forallb_forall in Hu.
    assert (IHt : forall h t, In (h, t) fs -> forall b v, fits t v -> forget122 E b t v = v).
    { intros h t Hin. apply IH; [exact (ty_size_field _ _ _ Hin)|]. specialize (Hu _ Hin). now apply andb_true_iff in Hu as [_ Hu]. }
    assert (IHp : forall h t, In (h, t) fs -> forall v, fits t v -> forget_variant E t v = v).
    { intros h t Hin v Hv. destruct t; try (apply (IHt h _ Hin true v Hv)). destruct Hv as (p & -> & Hx). destruct p as [x|]; [|reflexivity].
      cbn [forget_variant]. do 2 f_equal. apply IH; [|specialize (Hu _ Hin); now apply andb_true_iff in Hu as [_ Hu]|auto].
      pose proof (ty_size_field _ _ _ Hin) as H. cbn [ty_size] in *. lia. }
    assert (Hu' : forall h t, In (h, t) fs -> negb (flagged_field E (parse_field_tag (f_tag h))) || sees_all t && no_deep t = true).
    { intros h t Hin. specialize (Hu _ Hin). now apply andb_true_iff in Hu as [Hu _]. }
    clear IH Hu. destruct (is_borsh E && is_enum fs).
    + revert vs Hf. induction fs as [|[h t] fs IHf]; intros [|v vs] Hf; [reflexivity|easy|easy|]. destruct Hf as [Hf1 Hf2].
      cbn [forget_each fst snd] in *. rewrite (IHp h t (or_introl eq_refl) v Hf1). f_equal. apply IHf; auto; intros h0 t0 Hin;
      [apply (IHt h0)|apply (IHp h0)|apply Hu']; now right.
    + revert vs Hf. induction fs as [|[h t] fs IHf]; intros [|v vs] Hf; [reflexivity|easy|easy|]. destruct Hf as [Hf1 Hf2].
      cbn [forget_fields fst snd] in *. f_equal.
      * specialize (Hu' h t (or_introl eq_refl)). destruct (flagged_field E _); cbn [andb negb orb] in *; [|apply (IHt h t (or_introl eq_refl)); exact Hf1].
        apply andb_true_iff in Hu' as [Hs Hd]. rewrite (sees_all_zero t Hs v Hf1). destruct (is_zero v) eqn:Ez.
        -- symmetry. now apply is_zero_zero.
        -- apply (IHt h t (or_introl eq_refl)). exact Hf1.
      * apply IHf; auto; intros h0 t0 Hin; [apply (IHt h0)|apply (IHp h0)|apply Hu']; now right.
  - rewrite forget_codec. destruct (negb b && _); [reflexivity|]. apply (IH u); [cbn; lia|exact Hu|exact Hf].
Qed.

(** Nothing more is forgotten the second time. *)
Lemma zero_zero122 t : is_zero122 t (zero_val t) = true.
Proof. apply zero_grows; [apply DecWire.fits_zero|apply zero_is_zero]. Qed.
Theorem forget_again E t : forall b v, fits t v -> forget122 E b t (forget122 E b t v) = forget122 E b t v.
Proof.
  induction t as [t IH] using ty_strong_ind. intros b v Hf.
  destruct t as [|nm w|nm w|f| |sg| | |t|n t|t|kt vt|fs|c u|]; try reflexivity.
  - destruct Hf as (p & -> & Hx). destruct p as [x|]; cbn [forget122]; [|reflexivity]. destruct (b || pointer_taken t) eqn:Eb; cbn [forget122 orb]; rewrite ?Eb; [reflexivity|].
    rewrite (IH t); auto; cbn; lia.
  - destruct Hf as (l & -> & _ & Hl). cbn [forget122]. destruct b; [reflexivity|]. cbn [forget122]. f_equal. rewrite map_map. apply map_ext_in. intros x Hx.
    rewrite Forall_forall in Hl. apply (IH t); auto; cbn; lia.
  - destruct Hf as (l & -> & Hl). destruct l as [l|]; cbn [forget122]; [|reflexivity]. destruct b; [reflexivity|]. cbn [forget122]. do 2 f_equal. rewrite map_map. apply map_ext_in. intros x Hx.
    specialize (Hl l eq_refl). rewrite Forall_forall in Hl. apply (IH t); auto; cbn; lia.
  - destruct Hf as (l & -> & Hl). destruct l as [l|]; cbn [forget122]; [|reflexivity]. destruct b; [reflexivity|]. cbn [forget122]. do 2 f_equal. rewrite map_map. apply map_ext_in. intros [k x] Hx.
    specialize (Hl l eq_refl). rewrite Forall_forall in Hl. destruct (Hl _ Hx). cbn [fst snd] in *. rewrite (IH kt), (IH vt); auto; cbn; lia.
  - destruct Hf as (vs & -> & Hf). rewrite !forget_struct. f_equal.
    assert (IHt : forall h t, In (h, t) fs -> forall b v, fits t v -> forget122 E b t (forget122 E b t v) = forget122 E b t v).
    { intros h t Hin. apply IH. exact (ty_size_field _ _ _ Hin). }
    assert (IHp : forall h t, In (h, t) fs -> forall v, fits t v -> forget_variant E t (forget_variant E t v) = forget_variant E t v).
    { intros h t Hin v Hv. destruct t; try (apply (IHt h _ Hin true v Hv)). destruct Hv as (p & -> & Hx). destruct p as [x|]; [|reflexivity].
      cbn [forget_variant]. do 2 f_equal. apply IH; [|auto].
      pose proof (ty_size_field _ _ _ Hin) as H. cbn [ty_size] in *. lia. }
    clear IH. destruct (is_borsh E && is_enum fs).
    + revert vs Hf. induction fs as [|[h t] fs IHf]; intros [|v vs] Hf; [reflexivity|easy|easy|]. destruct Hf as [Hf1 Hf2].
      cbn [forget_each fst snd] in *. rewrite (IHp h t (or_introl eq_refl) v Hf1). f_equal. apply IHf; auto; intros h0 t0 Hin;
      [apply (IHt h0)|apply (IHp h0)]; now right.
    + revert vs Hf. induction fs as [|[h t] fs IHf]; intros [|v vs] Hf; [reflexivity|easy|easy|]. destruct Hf as [Hf1 Hf2].
      cbn [forget_fields fst snd] in *. f_equal.
      * destruct (flagged_field E _); cbn [andb]; [|apply (IHt h t (or_introl eq_refl)); exact Hf1].
        destruct (is_zero122 t v) eqn:Ez; [now rewrite zero_zero122|].
        destruct (is_zero122 t (forget122 E false t v)) eqn:Ez'; [|apply (IHt h t (or_introl eq_refl)); exact Hf1].
        exfalso. enough (is_zero122 t v = true) by congruence. revert Ez'. apply (forget_zero122 E t false v Hf1).
      * apply IHf; auto; intros h0 t0 Hin; [apply (IHt h0)|apply (IHp h0)]; now right.
  - rewrite !forget_codec. destruct (negb b && _); [reflexivity|]. apply (IH u); [cbn; lia|exact Hf].
Qed.

(** * IsZero and == *)
Theorem is_zero122_eq t : forall v, fits t v -> key_eqb t (zero_val t) (zero_val t) = true ->
  is_zero122 t v = key_eqb t v (zero_val t).
Proof.
  intros v Hf Hz. destruct (is_zero122 t v) eqn:Ez.
  - symmetry. destruct (zero_key t v Hf Ez (zero_val t)) as [H _]. congruence.
  - destruct (key_eqb t v (zero_val t)) eqn:Ek; [|reflexivity]. enough (is_zero122 t v = true) by congruence. clear Ez Hz. revert v Hf Ek.
    induction t as [t IH] using ty_strong_ind. intros v Hf Ek.
    destruct t as [|nm w|nm w|f| |sg| | |t|n t|t|kt vt|fs|c u|]; try discriminate Ek; cbn [fits] in Hf.
    + destruct Hf as (b & ->). destruct b; [discriminate|reflexivity].
    + destruct Hf as (z & -> & _). exact Ek.
    + destruct Hf as (z & -> & _). exact Ek.
    + destruct Hf as (b & -> & Hb). cbn [key_eqb zero_val is_zero122] in *. apply andb_true_iff in Ek as [_ Ek]. unfold f_key in Ek.
      replace (0 <? 2 ^ (fbits f - 1)) with true in Ek by (destruct f; reflexivity). unfold fmag in Ek. unfold negative_zero.
      destruct (b <? 2 ^ (fbits f - 1)) eqn:El; destruct f; cbn [fbits] in *; lia.
    + destruct Hf as (s & -> & _). cbn [key_eqb zero_val] in Ek. destruct (list_eq_dec Z.eq_dec s []) as [->|]; [reflexivity|discriminate].
    + destruct Hf as (z & -> & _). exact Ek.
    + destruct Hf as (d & ->). destruct d; [discriminate|reflexivity].
    + destruct Hf as (l & -> & Hl & Hf). cbn [zero_val is_zero122] in *. rewrite key_eqb_array in Ek. subst n.
      assert (IHt := IH t ltac:(cbn; lia)). clear IH.
      induction Hf as [|x l Hx Hf IHl]; [reflexivity|]. cbn [length repeat key_list forallb] in *. apply andb_true_iff in Ek as [E1 E2].
      now rewrite IHt, IHl.
    + destruct Hf as (vs & -> & Hf). cbn [zero_val] in Ek. rewrite is_zero122_struct. rewrite key_eqb_struct in Ek.
      assert (IHt : forall h t, In (h, t) fs -> forall v, fits t v -> key_eqb t v (zero_val t) = true -> is_zero122 t v = true).
      { intros h t Hin. apply IH. exact (ty_size_field _ _ _ Hin). }
      clear IH. revert vs Hf Ek. induction fs as [|[h t] fs IHf]; intros [|v vs] Hf Ek; [reflexivity|easy|easy|]. destruct Hf as [Hf1 Hf2].
      cbn [map key_fields fields_zero fst snd] in *. apply andb_true_iff in Ek as [E1 E2].
      rewrite (IHf (fun h t Hin => IHt h t (or_intror Hin)) vs Hf2 E2), andb_true_r. apply orb_true_iff in E1. apply orb_true_iff.
      destruct E1 as [E1|E1]; [now left|]. right. apply (IHt h t (or_introl eq_refl)); auto.
    + cbn [zero_val key_eqb is_zero122] in *. apply (IH u); [cbn; lia|exact Hf|exact Ek].
Qed.
