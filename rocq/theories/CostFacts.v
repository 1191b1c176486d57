(** The counting decoder does what the decoder does, and its work is bounded. *)
From Verif Require Import Types DecPrim Enc Dec Utf8 Builtin Spec NumFacts TyInd EncFacts DecWire DecEq DecWithin Cost.
Notation length := Datatypes.length.

(** * Counting changes nothing *)

Definition same {A} (p : priced A) (m : DM A) : Prop := forall s, prog p s = m s.

Lemma same_prim {A} (m : DM A) : same (prim m) m. Proof. easy. Qed.
Lemma same_prim_by {A} f (m : DM A) : same (prim_by f m) m. Proof. easy. Qed.
Lemma same_tick {A} n (p : priced A) m : same p m -> same (tick n p) m. Proof. easy. Qed.
Lemma same_bind {A B} (p : priced A) (k : A -> priced B) m n :
  same p m -> (forall a, same (k a) (n a)) -> same (p_bind p k) (bind m n).
Proof. intros Hp Hk s. cbn [p_bind prog]. unfold bind. rewrite Hp. destruct (m s) as [[a|e| | |] s']; try reflexivity. apply Hk. Qed.
Lemma same_fmap {A B} (f : A -> B) p m : same p m -> same (p_fmap f p) (fmap f m).
Proof. intros Hp s. cbn [p_fmap prog]. unfold fmap, bind. now rewrite Hp. Qed.
Lemma same_map_err {A} f (p : priced A) m : same p m -> same (p_map_err f p) (map_err f m).
Proof. intros Hp s. cbn [p_map_err prog]. unfold map_err. now rewrite Hp. Qed.
Create HintDb same.
#[global] Hint Resolve same_prim same_prim_by same_tick : same.
Ltac same :=
  repeat first
    [ solve [auto with same]
    | apply same_bind; [|intro]
    | apply same_fmap
    | apply same_map_err
    | apply same_tick
    | match goal with |- same (match ?x with _ => _ end) _ => destruct x end
    | match goal with |- same (if ?x then _ else _) _ => destruct x end ].

Lemma same_map kt n pk pv mk mv : same pk mk -> same pv mv ->
  forall m, same (p_map kt n pk pv m) (dec_map kt n mk mv m).
Proof. intros Hk Hv. induction n; intro m; cbn [p_map dec_map]; same. Qed.
Lemma same_each {A B} (f : A -> priced B) g l : (forall a, same (f a) (g a)) -> same (p_each f l) (each_dec g l).
Proof. intro H. induction l; cbn [p_each each_dec]; same. Qed.
Lemma same_rep {A} n (p : priced A) m : same p m -> same (p_rep n p) (read_rep n m).
Proof. intro H. induction n; cbn [p_rep read_rep]; same. Qed.
#[global] Hint Resolve same_map same_each same_rep : same.

Lemma unmarshaler_cases cc t :
  match p_field_unmarshaler cc t, borsh_field_unmarshaler t with
  | Some p, Some m => same p m
  | None, None => True
  | _, _ => False
  end.
Proof.
  destruct t; try exact I; cbn [p_field_unmarshaler borsh_field_unmarshaler].
  - destruct t; try exact I. destruct (c_unmarshal c); [|exact I]. apply same_tick, same_fmap. easy.
  - destruct (c_unmarshal c); [|exact I]. apply same_tick. easy.
Qed.

Lemma same_fields cc E rec rec' fs : Forall (fun ht => forall o v, same (rec (snd ht) o v) (rec' (snd ht) o v)) fs ->
  forall ps sizes seen, same (p_fields cc E rec fs ps sizes seen) (dec_fields E rec' fs ps sizes seen).
Proof.
  induction 1 as [|[h t] fs H1 H2 IH]; intros ps sizes seen; cbn [p_fields dec_fields]; [destruct ps; same|].
  destruct ps as [|p ps]; [same|]. cbn [snd] in H1. apply same_tick.
  destruct (ft_skip _); [same|]. destruct (negb _ && seen); [same|]. cbv zeta.
  assert (Hb : same
    (if negb (f_exported h) then p_fmap (cons p) (p_fields cc E rec fs ps sizes (seen || ft_ext (parse_field_tag (f_tag h))))
     else match is_borsh E, p_field_unmarshaler cc t with
          | true, Some m => p_bind m (fun x => p_fmap (cons x) (p_fields cc E rec fs ps sizes (seen || ft_ext (parse_field_tag (f_tag h)))))
          | _, _ =>
              p_bind (p_map_err EWrap (rec t (field_opt E (parse_field_tag (f_tag h)) (f_name h) sizes) p)) (fun x =>
              if String.eqb (ft_sizeof (parse_field_tag (f_tag h))) "" then p_fmap (cons x) (p_fields cc E rec fs ps sizes (seen || ft_ext (parse_field_tag (f_tag h))))
              else match sizeof_val t x with
                   | None => prim panic
                   | Some n => p_fmap (cons x) (p_fields cc E rec fs ps ((ft_sizeof (parse_field_tag (f_tag h)), n) :: sizes) (seen || ft_ext (parse_field_tag (f_tag h))))
                   end)
          end)
    (if negb (f_exported h) then fmap (cons p) (dec_fields E rec' fs ps sizes (seen || ft_ext (parse_field_tag (f_tag h))))
     else match is_borsh E, borsh_field_unmarshaler t with
          | true, Some m => x <- m ;; fmap (cons x) (dec_fields E rec' fs ps sizes (seen || ft_ext (parse_field_tag (f_tag h))))
          | _, _ =>
              x <- map_err EWrap (rec' t (field_opt E (parse_field_tag (f_tag h)) (f_name h) sizes) p) ;;
              if String.eqb (ft_sizeof (parse_field_tag (f_tag h))) "" then fmap (cons x) (dec_fields E rec' fs ps sizes (seen || ft_ext (parse_field_tag (f_tag h))))
              else match sizeof_val t x with
                   | None => panic
                   | Some n => fmap (cons x) (dec_fields E rec' fs ps ((ft_sizeof (parse_field_tag (f_tag h)), n) :: sizes) (seen || ft_ext (parse_field_tag (f_tag h))))
                   end
          end)).
  { destruct (negb (f_exported h)); [same|].
    pose proof (unmarshaler_cases cc t) as Hu.
    destruct (is_borsh E), (p_field_unmarshaler cc t), (borsh_field_unmarshaler t); try contradiction; same. }
  destruct (ft_ext _); [|exact Hb]. apply same_bind; [same|]. intros [|z l]; [same|exact Hb].
Qed.
Lemma same_sealed t : forall v, same (p_sealed t v) (dec_sealed t v).
Proof.
  induction t as [t IH] using ty_strong_ind. intro v.
  destruct t as [|un w|nm w|f| |sg| | |t|n t|t|t1 t2|fs|c t|]; cbn [p_sealed]; try solve [clear IH; same]; cbn [dec_sealed].
  - destruct v as [| | | |[x|]| | | | | |]; try solve [clear IH; same]. apply same_tick, IH. cbn. lia.
  - destruct (uint_kind t); [clear IH; same|]. destruct v; try solve [clear IH; same].
    apply same_bind; [|clear IH; same]. apply same_each. intro a. apply same_bind; [clear IH; same|]. intros _. apply IH. cbn. lia.
  - apply same_tick, IH. cbn. lia.
Qed.
#[global] Hint Resolve same_sealed : same.
Lemma same_variant rec rec' fs : Forall (fun ht => forall o v, same (rec (snd ht) o v) (rec' (snd ht) o v)) fs ->
  forall ps n, same (p_variant rec fs ps n) (dec_variant rec' fs ps n).
Proof.
  induction 1 as [|[h t] fs H1 H2 IH]; intros ps n; cbn [p_variant dec_variant]; [destruct ps; same|].
  destruct ps as [|p ps]; [same|]. cbn [snd] in H1. destruct n; same.
Qed.

(** Unfolding equations. *)
Section Equations.
  Variables (cc : codec -> val -> dst -> Z) (E : encoding).
  Let pd := pdec cc E.
  Lemma p_start_eq t o v : pd t (DStart o) v =
    p_bind (prim (d_set_cur (o_order o))) (fun _ =>
      if o_opt o || (is_borsh E && o_copt o) then pd t (DNull o) v else pd t (DWalk o false) v).
  Proof. destruct t; unfold pd; cbn [pdec mode_opt]; cbv zeta; reflexivity. Qed.

  Definition p_flagged (t : ty) (o : fopt) (v : val) : priced val :=
    if o_opt o then
      p_bind (prim (read_flag E)) (fun b =>
      if b then pd t (DWalk o (is_borsh E && o_copt o)) v else tick (room t) (prim (ret (zero_val t))))
    else
      p_bind (prim read_cflag) (fun b =>
      if b then pd t (DWalk o false) v else tick (room t) (prim (ret (zero_val t)))).

  Lemma p_null_eq t o v : pd t (DNull o) v =
    match t with
    | TPtr t' =>
        if is_ptr t' then
          match v with
          | VPtr (Some x) => tick 1 (p_fmap (fun y => VPtr (Some y)) (pd t' (DNull o) x))
          | _ => p_flagged t o v
          end
        else p_flagged t o v
    | TCodec c u => match c_unmarshal c with Some _ => prim panic | None => p_flagged t o v end
    | TDeep => prim deep
    | _ => p_flagged t o v
    end.
  Proof. destruct t; unfold p_flagged, pd; cbn [pdec mode_opt]; cbv zeta; reflexivity. Qed.

  Definition p_pend (pend : bool) (t : ty) (core : priced val) : priced val :=
    if pend then p_bind (prim read_cflag) (fun b => if b then core else tick (room t) (prim (ret (zero_val t)))) else core.

  Definition p_struct (fs : list (fhdr * ty)) (ps : list val) : priced val :=
    if is_borsh E && is_enum fs then
      p_bind (prim read_byte) (fun n =>
      match fs, ps with
      | (h, _) :: fs', _ :: ps' =>
          if negb (f_exported h) then prim panic
          else p_bind (p_variant (fun t' o' v' => pd t' (DStart o') v') fs' ps' (Z.to_nat n))
                 (fun rest => prim (ret (VStruct (VNum n :: rest))))
      | _, _ => prim stuck
      end)
    else p_fmap VStruct (p_fields cc E (fun t' o' v' => pd t' (DStart o') v') fs ps [] false).

  Definition p_slice (t' : ty) (l : Z) (v : val) : priced val :=
    if is_borsh E && (l =? 0) then prim (ret v)
    else
      p_bind (prim d_remaining) (fun r =>
      if r <? l then prim (fail EUnexpectedEOF)
      else
        match uint_kind t' with
        | Some w => p_fmap (fun zs => VSlice (Some (map VNum zs))) (prim_by zlen (read_uints w l))
        | None =>
            p_fmap (fun vs => VSlice (Some vs))
              (p_rep (Z.to_nat l) (tick (room t') (pd t' (DStart opt0) (zero_val t'))))
        end).

  Lemma p_walk_eq t o pend v : pd t (DWalk o pend) v =
    match t with
    | TPtr t' =>
        tick (match v with VPtr (Some _) => 1 | _ => 1 + room t' end)
          (p_fmap (fun x => VPtr (Some x)) (pd t' (DWalk o pend) (pointee t' v)))
    | TCodec c u =>
        match c_unmarshal c with
        | Some f => if pend then prim panic else p_codec cc c f v
        | None => tick 1 (pd u (DWalk o pend) v)
        end
    | TDeep => prim deep
    | TBool => p_pend pend t (prim (fmap VBool read_bool))
    | TUint _ w => p_pend pend t (prim (fmap VNum (read_uintw w (scalar_order E (o_order o)))))
    | TInt _ w => p_pend pend t (prim (fmap VNum (read_intw w (scalar_order E (o_order o)))))
    | TFloat f =>
        p_pend pend t (prim (fmap (fun b => VFloat (f32_through64 f b)) (read_float f (scalar_order E (o_order o)))))
    | TString => p_pend pend t (p_fmap VStr (prim_by zlen (read_str E)))
    | TIface => p_pend pend t (prim (ret v))
    | TArray n t' =>
        p_pend pend t
          (match uint_kind t' with
           | Some w => p_fmap (fun zs => VSeq (map VNum zs)) (prim_by zlen (read_uints w (Z.of_nat n)))
           | None =>
               match v with
               | VSeq ps => p_fmap VSeq (p_each (pd t' (DStart opt0)) ps)
               | _ => prim stuck
               end
           end)
    | TSlice t' =>
        p_pend pend t
          (p_bind (prim (match o_size o with Some n => ret n | None => read_count E end)) (fun l => p_slice t' l v))
    | TMap kt vt =>
        p_pend pend t
          (p_bind (prim (read_count E)) (fun l =>
           if l =? 0 then prim (ret v)
           else
             p_fmap (fun es => VMap (Some es))
               (p_map kt (Z.to_nat l)
                  (tick (room kt) (pd kt (DStart opt0) (zero_val kt)))
                  (tick (room vt) (pd vt (DStart opt0) (zero_val vt))) [])))
    | TStruct fs => p_pend pend t (match v with VStruct ps => p_struct fs ps | _ => prim stuck end)
    | TNative _ | TOther => p_pend pend t (prim (fail EMsg))
    end.
  Proof. destruct t; unfold p_slice, p_pend, p_struct, pd; cbn [pdec mode_opt]; cbv zeta; reflexivity. Qed.
End Equations.

Lemma same_pend pend t p m : same p m -> same (p_pend pend t p) (with_pend pend t m).
Proof. intro H. unfold p_pend, with_pend. same. Qed.
#[global] Hint Resolve same_pend : same.

Lemma same_dec cc E t : forall m v, same (pdec cc E t m v) (dec_val E t m v).
Proof.
  induction t as [t IH] using ty_strong_ind.
  assert (Hwalk : forall o pend v, same (pdec cc E t (DWalk o pend) v) (dec_val E t (DWalk o pend) v)).
  { intros o pend v. rewrite p_walk_eq, dec_walk_eq.
    destruct t as [|un w|nm w|f| |sg| | |t|n t|t|t1 t2|fs|c t|]; try apply same_pend; try solve [clear IH; same].
    - apply same_tick, same_fmap. apply IH. cbn; lia.
    - assert (IHt : forall m v, same (pdec cc E t m v) (dec_val E t m v)) by (intros; apply IH; cbn; lia). same.
    - assert (IHt : forall m v, same (pdec cc E t m v) (dec_val E t m v)) by (intros; apply IH; cbn; lia).
      unfold p_slice. same.
    - assert (IH1 : forall m v, same (pdec cc E t1 m v) (dec_val E t1 m v)) by (intros; apply IH; cbn; lia).
      assert (IH2 : forall m v, same (pdec cc E t2 m v) (dec_val E t2 m v)) by (intros; apply IH; cbn; lia).
      same.
    - destruct v; try solve [same]. unfold p_struct, dec_struct.
      assert (IHf : Forall (fun ht => forall o v, same (pdec cc E (snd ht) (DStart o) v) (dec_val E (snd ht) (DStart o) v)) fs).
      { apply Forall_forall. intros [h t'] Hin o' v'. apply IH. now apply (ty_size_field _ h). }
      destruct (is_borsh E && is_enum fs).
      + apply same_bind; [same|]. intro n. destruct fs as [|[h t] fs]; [same|]. destruct l as [|p ps]; [same|].
        destruct (negb (f_exported h)); [same|]. apply same_bind; [|intro; same].
        apply same_variant. now inversion_clear IHf.
      + apply same_fmap. now apply same_fields.
    - assert (IHt : forall m v, same (pdec cc E t m v) (dec_val E t m v)) by (intros; apply IH; cbn; lia).
      destruct (c_unmarshal c); same. easy. }
  assert (Hfl : forall o v, same (p_flagged cc E t o v) (dec_flagged E t o v)).
  { intros. unfold p_flagged, dec_flagged. same. }
  assert (Hnull : forall o v, same (pdec cc E t (DNull o) v) (dec_val E t (DNull o) v)).
  { intros o v. rewrite p_null_eq, dec_null_eq. destruct t; try solve [clear IH; same].
    destruct (is_ptr t); [|same]. destruct v; try solve [clear IH; same]. destruct p; [|same].
    apply same_tick, same_fmap. apply IH. cbn; lia. }
  intros [o|o|o pend] v; [rewrite p_start_eq, dec_start_eq; same|apply Hnull|apply Hwalk].
Qed.
