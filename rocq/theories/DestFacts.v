(** Facts about what failing decoders leave (C62). *)
From Verif Require Import Types DecPrim Enc Dec Builtin Spec NumFacts TyInd EncFacts DecWire DecEq DecWithin DecSafe Dest.
From Verif Require EncWire.
Notation length := Datatypes.length.

(** * Unfolding equations *)
Definition dest_struct E W (fs : list (fhdr * ty)) (ps : list val) : LM val :=
  if is_borsh E && is_enum fs then
    after read_byte (VStruct ps) (fun n =>
    match fs, ps with
    | (h, _) :: fs', _ :: ps' =>
        if negb (f_exported h) then stop Panic (VStruct ps)
        else hold (fun rest => VStruct (VNum n :: rest))
               (dest_variant (fun t' o' v' => dest_val E W t' (DStart o') v') fs' ps' (Z.to_nat n))
    | _, _ => stop Stuck (VStruct ps)
    end)
  else
    hold VStruct (dest_fields E (fun t' o' v' => dest_val E W t' (DStart o') v') fs ps [] false).

Definition dest_core E W (t : ty) (o : fopt) (v : val) : LM val :=
  match t with
  | TBool => scalar read_bool VBool (VBool false) v
  | TUint _ w => scalar (read_uintw w (scalar_order E (o_order o))) VNum (VNum 0) v
  | TInt _ w => scalar (read_intw w (scalar_order E (o_order o))) VNum (VNum 0) v
  | TFloat f =>
      scalar (read_float f (scalar_order E (o_order o))) (fun b => VFloat (f32_through64 f b)) (VFloat 0) v
  | TString => after (read_str E) v (fun s => done (VStr s))
  | TIface => done v
  | TArray n t' =>
      match uint_kind t' with
      | Some w => after (read_uints w (Z.of_nat n)) v (fun zs => done (VSeq (map VNum zs)))
      | None =>
          match v with
          | VSeq ps => hold VSeq (each_dest (dest_val E W t' (DStart opt0)) ps)
          | _ => stop Stuck v
          end
      end
  | TSlice t' =>
      after (match o_size o with Some n => ret n | None => read_count E end) v (fun l =>
      if is_borsh E && (l =? 0) then done v
      else
        after d_remaining v (fun r =>
        if r <? l then stop (Err EUnexpectedEOF) v
        else
          match uint_kind t' with
          | Some w => after (read_uints w l) v (fun zs => done (VSlice (Some (map VNum zs))))
          | None =>
              hold (fun vs => VSlice (Some vs))
                (rep_dest (Z.to_nat l) (dest_val E W t' (DStart opt0) (zero_val t')) [])
          end))
  | TMap kt vt =>
      after (read_count E) v (fun l =>
      if l =? 0 then done v
      else
        hold (fun es => VMap (Some es))
          (map_dest kt (Z.to_nat l)
             (dest_val E W kt (DStart opt0) (zero_val kt))
             (dest_val E W vt (DStart opt0) (zero_val vt)) []))
  | TStruct fs => match v with VStruct ps => dest_struct E W fs ps | _ => stop Stuck v end
  | TNative _ | TOther => stop (Err EMsg) v
  | TPtr _ | TCodec _ _ | TDeep => stop Stuck v
  end.

Definition pend_dest (pend : bool) (t : ty) (v : val) (core : LM val) : LM val :=
  if pend then after read_cflag v (fun b => if b then core else done (zero_val t)) else core.

Lemma dest_walk_eq E W t o pend v : dest_val E W t (DWalk o pend) v =
  match t with
  | TPtr t' => hold (fun x => VPtr (Some x)) (dest_val E W t' (DWalk o pend) (pointee t' v))
  | TCodec c u =>
      match c_unmarshal c with
      | Some f => if pend then stop Panic v else own W c u f v
      | None => dest_val E W u (DWalk o pend) v
      end
  | TDeep => stop Deep v
  | _ => pend_dest pend t v (dest_core E W t o v)
  end.
Proof. destruct t; reflexivity. Qed.

Definition dest_flagged E W (t : ty) (o : fopt) (v : val) : LM val :=
  if o_opt o then
    after (read_flag E) v (fun b =>
    if b then dest_val E W t (DWalk o (is_borsh E && o_copt o)) v else done (zero_val t))
  else
    after read_cflag v (fun b => if b then dest_val E W t (DWalk o false) v else done (zero_val t)).

Lemma dest_null_eq E W t o v : dest_val E W t (DNull o) v =
  match t with
  | TPtr t' =>
      if is_ptr t' then
        match v with
        | VPtr (Some x) => hold (fun y => VPtr (Some y)) (dest_val E W t' (DNull o) x)
        | _ => dest_flagged E W t o v
        end
      else dest_flagged E W t o v
  | TCodec c u =>
      match c_unmarshal c with Some _ => stop Panic v | None => dest_flagged E W t o v end
  | TDeep => stop Deep v
  | _ => dest_flagged E W t o v
  end.
Proof. destruct t; reflexivity. Qed.

Lemma dest_start_eq E W t o v : dest_val E W t (DStart o) v =
  after (d_set_cur (o_order o)) v (fun _ =>
    if o_opt o || (is_borsh E && o_copt o) then dest_val E W t (DNull o) v else dest_val E W t (DWalk o false) v).
Proof. destruct t; reflexivity. Qed.

(** * Agreement with Dec.v *)
Definition view {A} (r : outcome unit * A * dst) : outcome A * dst :=
  match r with
  | (Ok _, a, s) => (Ok a, s)
  | (Err e, _, s) => (Err e, s)
  | (Panic, _, s) => (Panic, s)
  | (Deep, _, s) => (Deep, s)
  | (Stuck, _, s) => (Stuck, s)
  end.
Definition agrees {A} (l : LM A) (m : DM A) : Prop := forall s, m s = view (l s).

Lemma agrees_done {A} (a : A) : agrees (done a) (ret a).
Proof. easy. Qed.
Lemma agrees_after {A B} (m : DM B) (a : A) k k' : (forall b, agrees (k b) (k' b)) -> agrees (after m a k) (bind m k').
Proof.
  intros H s. unfold after, bind. destruct (m s) as [[b|e| | |] s1]; try reflexivity. apply H.
Qed.
Lemma agrees_hold {A B} (f : A -> B) l m : agrees l m -> agrees (hold f l) (fmap f m).
Proof.
  intros H s. unfold hold, fmap, bind, ret. rewrite H. destruct (l s) as [[[[]|e| | |] a] s1]; reflexivity.
Qed.
Lemma agrees_next {A B} (l : LM A) m (bad : A -> B) k k' : agrees l m -> (forall a, agrees (k a) (k' a)) ->
  agrees (next l bad k) (bind m k').
Proof.
  intros H Hk s. unfold next, bind. rewrite H. destruct (l s) as [[[[]|e| | |] a] s1]; try reflexivity. apply Hk.
Qed.
Lemma agrees_scalar {A B} (m : DM B) (f : B -> A) z v : agrees (scalar m f z v) (fmap f m).
Proof. intro s. unfold scalar, fmap, bind, ret. destruct (m s) as [[b|e| | |] s1]; reflexivity. Qed.
Lemma agrees_wrap {A} (l : LM A) m : agrees l m -> agrees (wrap l) (map_err EWrap m).
Proof. intros H s. unfold wrap, map_err. rewrite H. destruct (l s) as [[[[]|e| | |] a] s1]; reflexivity. Qed.
Lemma agrees_ext {A} (l : LM A) m m' : (forall s, m s = m' s) -> agrees l m -> agrees l m'.
Proof. intros He H s. now rewrite <- He, H. Qed.

Lemma agrees_each (f : val -> LM val) g l : (forall x, agrees (f x) (g x)) -> agrees (each_dest f l) (each_dec g l).
Proof.
  intro H. induction l as [|p l IH]; [apply agrees_done|]. cbn [each_dest each_dec].
  apply agrees_next; [apply H|]. intro x. exact (agrees_hold (cons x) _ _ IH).
Qed.
Lemma agrees_rep m g n : agrees m g -> forall acc, agrees (rep_dest n m acc) (fmap (app acc) (read_rep n g)).
Proof.
  intro H. induction n as [|n IH]; intro acc; cbn [rep_dest read_rep].
  - intro s. cbn. now rewrite app_nil_r.
  - eapply agrees_ext; [|apply (agrees_next m g _ _ (fun x => fmap (app (acc ++ [x])) (read_rep n g)) H); intro x; apply IH].
    intro s. unfold fmap, bind, ret. destruct (g s) as [[a|e| | |] s1]; try reflexivity.
    destruct (read_rep n g s1) as [[b|e| | |] s2]; try reflexivity. now rewrite <- app_assoc.
Qed.
Lemma agrees_map kt mk mv gk gv n : agrees mk gk -> agrees mv gv -> forall m,
  agrees (map_dest kt n mk mv m) (dec_map kt n gk gv m).
Proof.
  intros Hk Hv. induction n as [|n IH]; intro m; cbn [map_dest dec_map]; [apply agrees_done|].
  apply agrees_next; [exact Hk|]. intro k. apply agrees_next; [exact Hv|]. intro v. apply IH.
Qed.

Lemma agrees_fields E rec grec fs : (forall h t, In (h, t) fs -> forall o v, agrees (rec t o v) (grec t o v)) ->
  forall ps sizes seen, agrees (dest_fields E rec fs ps sizes seen) (dec_fields E grec fs ps sizes seen).
Proof.
  induction fs as [|[h t] fs IH]; intros Hrec [|p ps] sizes seen; try easy.
  cbn [dest_fields dec_fields]. cbv zeta. set (tg := parse_field_tag (f_tag h)).
  assert (IH' : forall ps sizes seen, agrees (dest_fields E rec fs ps sizes seen) (dec_fields E grec fs ps sizes seen)).
  { apply IH. intros h' t' Hin. apply (Hrec h'). now right. }
  assert (Hg : forall x sizes seen, agrees (hold (cons x) (dest_fields E rec fs ps sizes seen))
                                  (fmap (cons x) (dec_fields E grec fs ps sizes seen))).
  { intros. apply agrees_hold, IH'. }
  destruct (ft_skip tg); [apply Hg|]. destruct (negb (ft_ext tg) && seen); [easy|].
  match goal with |- agrees (if _ then _ else ?b) (if _ then _ else ?b') => assert (Hb : agrees b b') end.
  { destruct (f_exported h); cbn [negb]; [|apply Hg].
    assert (Hn : agrees
      (next (wrap (rec t (field_opt E tg (f_name h) sizes) p)) (fun x => x :: ps) (fun x =>
         if String.eqb (ft_sizeof tg) "" then hold (cons x) (dest_fields E rec fs ps sizes (seen || ft_ext tg))
         else match sizeof_val t x with
              | None => stop Panic (x :: ps)
              | Some n => hold (cons x) (dest_fields E rec fs ps ((ft_sizeof tg, n) :: sizes) (seen || ft_ext tg))
              end))
      (x <- map_err EWrap (grec t (field_opt E tg (f_name h) sizes) p) ;;
       if String.eqb (ft_sizeof tg) "" then fmap (cons x) (dec_fields E grec fs ps sizes (seen || ft_ext tg))
       else match sizeof_val t x with
            | None => panic
            | Some n => fmap (cons x) (dec_fields E grec fs ps ((ft_sizeof tg, n) :: sizes) (seen || ft_ext tg))
            end)).
    { apply agrees_next; [apply agrees_wrap, (Hrec h); now left|]. intro x.
      destruct (String.eqb (ft_sizeof tg) ""); [apply Hg|]. destruct (sizeof_val t x); [apply Hg|easy]. }
    destruct (is_borsh E); [|exact Hn]. destruct (borsh_field_unmarshaler t) as [m|]; [|exact Hn].
    apply agrees_after. intro x. apply Hg. }
  destruct (ft_ext tg); [|exact Hb]. apply agrees_after. intros [|b rest]; [apply Hg|exact Hb].
Qed.

Lemma agrees_variant rec grec fs : (forall h t, In (h, t) fs -> forall o v, agrees (rec t o v) (grec t o v)) ->
  forall ps n, agrees (dest_variant rec fs ps n) (dec_variant grec fs ps n).
Proof.
  induction fs as [|[h t] fs IH]; intros Hrec [|p ps] n; try easy. cbn [dest_variant dec_variant]. destruct n as [|n].
  - destruct (negb (f_exported h)).
    { intro s. transitivity (((d_set_cur LE ;;; dec_sealed t p) ;;; ret (p :: ps)) s).
      - unfold bind. destruct (d_set_cur LE s) as [[[]|e| | |] s1]; try reflexivity.
      - apply (agrees_after (d_set_cur LE ;;; dec_sealed t p) (p :: ps) (fun _ => done (p :: ps)) (fun _ => ret (p :: ps))). easy. }
    apply (agrees_hold (fun x => x :: ps)), (Hrec h). now left.
  - apply agrees_hold, IH. intros h' t' Hin. apply (Hrec h'). now right.
Qed.

Theorem dest_agrees E W t : forall m v, agrees (dest_val E W t m v) (dec_val E t m v).
Proof.
  induction t as [t IH] using ty_strong_ind.
  assert (Hp : forall pend v core g, agrees core g -> agrees (pend_dest pend t v core) (with_pend pend t g)).
  { intros pend v core g H. unfold pend_dest, with_pend. destruct pend; [|exact H].
    apply agrees_after. intros [|]; [exact H|easy]. }
  assert (Hwalk : forall o pend v, agrees (dest_val E W t (DWalk o pend) v) (dec_val E t (DWalk o pend) v)).
  { intros o pend v. rewrite dest_walk_eq, dec_walk_eq.
    destruct t as [|un w|nm w|f| |sg| | |t|n t|t|t1 t2|fs|c t|]; try apply Hp; cbn [dest_core].
    - apply agrees_scalar.
    - apply agrees_scalar.
    - apply agrees_scalar.
    - apply agrees_scalar.
    - apply agrees_after. easy.
    - easy.
    - easy.
    - easy.
    - apply agrees_hold, IH. cbn; lia.
    - destruct (uint_kind t); [now apply agrees_after|]. destruct v; try easy.
      apply agrees_hold, agrees_each. intro x. apply IH. cbn; lia.
    - apply agrees_after. intro l0. destruct (is_borsh E && (l0 =? 0)); [easy|].
      apply agrees_after. intro r. destruct (r <? l0); [easy|].
      destruct (uint_kind t); [now apply agrees_after|].
      apply agrees_hold. eapply agrees_ext; [|apply agrees_rep, IH; cbn; lia].
      intro s. unfold fmap, bind, ret. destruct (read_rep _ _ s) as [[?| | | |] ?]; reflexivity.
    - apply agrees_after. intro l0. destruct (l0 =? 0); [easy|]. apply agrees_hold, agrees_map; apply IH; cbn; lia.
    - destruct v; try easy. unfold dest_struct, dec_struct. destruct (is_borsh E && is_enum fs).
      + apply agrees_after. intro n. destruct fs as [|[h t] fs]; [easy|]. destruct l as [|p l]; [easy|].
        destruct (negb (f_exported h)); [easy|].
        assert (Hv : agrees (dest_variant (fun t' o' v' => dest_val E W t' (DStart o') v') fs l (Z.to_nat n))
                            (dec_variant (fun t' o' v' => dec_val E t' (DStart o') v') fs l (Z.to_nat n))).
        { apply agrees_variant. intros h' t' Hin o' v. apply IH. apply (ty_size_field _ h'). now right. }
        exact (agrees_hold (fun rest => VStruct (VNum n :: rest)) _ _ Hv).
      + apply agrees_hold, agrees_fields. intros h t Hin o' v. apply IH. now apply (ty_size_field _ h).
    - destruct (c_unmarshal c) as [f|]; [|apply IH; cbn; lia]. destruct pend; [easy|].
      intro s. unfold own. destruct (f v s) as [[x|e| | |] s1]; reflexivity.
    - easy. }
  assert (Hfl : forall o v, agrees (dest_flagged E W t o v) (dec_flagged E t o v)).
  { intros o v. unfold dest_flagged, dec_flagged. destruct (o_opt o); apply agrees_after; intros [|]; try easy; apply Hwalk. }
  assert (Hnull : forall o v, agrees (dest_val E W t (DNull o) v) (dec_val E t (DNull o) v)).
  { intros o v. rewrite dest_null_eq, dec_null_eq. destruct t; try apply Hfl; try easy.
    - destruct (is_ptr t); [|apply Hfl]. destruct v as [| | | |[x|]| | | | | |]; try apply Hfl.
      apply agrees_hold, IH. cbn; lia.
    - destruct (c_unmarshal c); [easy|apply Hfl]. }
  intros [o|o|o pend] v; [|apply Hnull|apply Hwalk].
  rewrite dest_start_eq, dec_start_eq. apply agrees_after. intros _.
  destruct (o_opt o || (is_borsh E && o_copt o)); [apply Hnull|apply Hwalk].
Qed.

(** * What is left is a value of the type *)
Definition tsafe {A} (Q : A -> Prop) (m : DM A) : Prop :=
  forall s, calm true s -> match m s with (Ok a, s') => Q a /\ calm true s' | _ => True end.
Definition leaves {A} (Q : A -> Prop) (l : LM A) : Prop :=
  forall s, calm true s -> let '(r, a, s') := l s in Q a /\ (r = Ok tt -> calm true s').

Lemma tsafe_bind {A B} (P : A -> Prop) (Q : B -> Prop) m k : tsafe P m -> (forall a, P a -> tsafe Q (k a)) -> tsafe Q (bind m k).
Proof.
  intros Hm Hk s Hs. unfold bind. specialize (Hm s Hs). destruct (m s) as [[a|e| | |] s1]; try exact I.
  destruct Hm as [Ha Hs1]. exact (Hk a Ha s1 Hs1).
Qed.
Lemma tsafe_never {A} (Q : A -> Prop) (m : DM A) : (forall s x s', m s <> (Ok x, s')) -> tsafe Q m.
Proof. intros H s Hs. destruct (m s) as [[a| | | |] s'] eqn:E; try exact I. now apply H in E. Qed.
Lemma tsafe_ret {A} (Q : A -> Prop) a : Q a -> tsafe Q (ret a).
Proof. now intros H s Hs. Qed.
Lemma tsafe_set_cur o : tsafe (fun _ => True) (d_set_cur o).
Proof. intros s (Hi & Hb & Hc). cbn. split; [exact I|]. split; [exact Hi|]. split; [exact Hb|]. discriminate. Qed.

(** Types whose UnmarshalWithDecoder methods, if they succeed, leave values of
    the type. *)
Fixpoint typed (t : ty) : Prop :=
  match t with
  | TPtr t' | TArray _ t' | TSlice t' => typed t'
  | TMap k v => typed k /\ typed v
  | TCodec c u =>
      match c_unmarshal c with
      | Some f => forall v, fits u v -> tsafe (fits u) (f v)
      | None => typed u
      end
  | TStruct fs => (fix go fs := match fs with [] => True | ht :: fs' => typed (snd ht) /\ go fs' end) fs
  | _ => True
  end.
Lemma typed_struct fs : typed (TStruct fs) <-> Forall (fun ht => typed (snd ht)) fs.
Proof.
  cbn [typed]. induction fs as [|ht fs IH]; split; intro H; try easy.
  - destruct H as [H1 H2]. constructor; [exact H1|now apply IH].
  - inversion_clear H. split; [assumption|now apply IH].
Qed.

Lemma safe_tsafe {A} dp (Q : A -> Prop) m : safe dp true Q m -> tsafe Q m.
Proof.
  intros H s Hs. destruct (H s Hs) as [H1 H2]. destruct (m s) as [[a| | | |] s']; try exact I. now split.
Qed.
Lemma tsafe_weaken {A} (P Q : A -> Prop) m : (forall a, P a -> Q a) -> tsafe P m -> tsafe Q m.
Proof. intros H Hm s Hs. specialize (Hm s Hs). destruct (m s) as [[a| | | |] s']; try exact I. now destruct Hm; split; auto. Qed.

Lemma tsafe_sealed t : forall v, tsafe (fun _ => True) (dec_sealed t v).
Proof.
  assert (Hc : tsafe (fun _ => True) (read_count Borsh)).
  { eapply tsafe_weaken; [|eapply (safe_tsafe false), safe_count]. easy. }
  induction t as [t IH] using ty_strong_ind. intro v.
  destruct t as [|un w|nm w|f| |sg| | |t|n t|t|t1 t2|fs|c t|]; cbn [dec_sealed];
    try solve [apply tsafe_never; intros; first [apply hopeless_never|apply then_panic_never|discriminate]|now apply tsafe_ret].
  - destruct v as [| | | |[x|]| | | | | |]; try solve [apply tsafe_never; discriminate]. apply IH. cbn. lia.
  - destruct (uint_kind t).
    + apply (tsafe_bind (fun _ => True)).
      * eapply tsafe_weaken; [|eapply (safe_tsafe false), safe_uints; lia]. easy.
      * intros _ _. destruct n; [destruct (plain_uint t)|]; try (apply tsafe_never; discriminate). now apply tsafe_ret.
    + destruct v as [| | | | |ps| | | | |]; try solve [apply tsafe_never; discriminate].
      apply (tsafe_bind (fun _ => True)); [|intros; now apply tsafe_ret].
      induction ps as [|p ps IHp]; cbn [each_dec]; [now apply tsafe_ret|].
      apply (tsafe_bind (fun _ => True)).
      * apply (tsafe_bind (fun _ => True)); [apply tsafe_set_cur|]. intros _ _. apply IH. cbn. lia.
      * intros b _. apply (tsafe_bind (fun _ => True)); [exact IHp|]. intros. now apply tsafe_ret.
  - apply (tsafe_bind (fun _ => True)); [exact Hc|]. intros l _. destruct (l =? 0); [now apply tsafe_ret|].
    apply tsafe_never. intros s x s'.
    unfold bind at 1, d_remaining. cbn. destruct (_ <? l); [discriminate|].
    destruct (uint_kind t); [apply then_panic_never|discriminate].
  - apply (tsafe_bind (fun _ => True)); [exact Hc|]. intros l _. destruct (l =? 0); [now apply tsafe_ret|].
    apply tsafe_never. discriminate.
  - destruct v as [| | | | | | | |ps| |]; try solve [apply tsafe_never; discriminate].
    destruct (is_enum fs); [apply tsafe_never; intros; apply then_panic_never|].
    apply (tsafe_bind (fun _ => True)); [|intros; now apply tsafe_ret].
    destruct (hidden_fields (fun _ _ p => ret p) fs ps [] false) as (r & Hr & H).
    intros s Hs. rewrite H by apply Hs. destruct Hr as [->|[->| ->]]; now try split.
  - apply IH. cbn. lia.
Qed.
Lemma decodable_typed dp E t : decodable dp E t -> typed t.
Proof.
  induction t as [t IH] using ty_strong_ind.
  destruct t as [|un w|nm w|f| |sg| | |t|n t|t|t1 t2|fs|c t|]; try easy; intro H.
  - apply (IH t); [cbn; lia|exact H].
  - apply (IH t); [cbn; lia|exact H].
  - apply (IH t); [cbn; lia|exact H].
  - destruct H. split; [apply (IH t1)|apply (IH t2)]; auto; cbn; lia.
  - apply typed_struct. apply decodable_struct in H. destruct H as [_ H]. rewrite Forall_forall in *.
    intros [h t] Hin. apply IH; [now apply (ty_size_field _ h)|]. exact (H _ Hin).
  - cbn [typed decodable] in *. destruct (c_unmarshal c); [|apply (IH t); [cbn; lia|exact H]].
    intros x Hx. eapply safe_tsafe. now apply H.
Qed.

Lemma leaves_stop {A} (Q : A -> Prop) r a : Q a -> leaves Q (stop r a).
Proof. intros H s Hs. now split. Qed.
Lemma leaves_done {A} (Q : A -> Prop) a : Q a -> leaves Q (done a).
Proof. apply leaves_stop. Qed.
Lemma leaves_weaken {A} (P Q : A -> Prop) l : (forall a, P a -> Q a) -> leaves P l -> leaves Q l.
Proof. intros H Hl s Hs. specialize (Hl s Hs). destruct (l s) as [[r a] s']. destruct Hl. auto. Qed.
Lemma leaves_after {A B} (P : B -> Prop) (Q : A -> Prop) m a k : tsafe P m -> Q a -> (forall b, P b -> leaves Q (k b)) ->
  leaves Q (after m a k).
Proof.
  intros Hm Ha Hk s Hs. unfold after. specialize (Hm s Hs).
  destruct (m s) as [[b|e| | |] s1]; try (split; [exact Ha|discriminate]). destruct Hm. now apply Hk.
Qed.
Lemma leaves_hold {A B} (Q : B -> Prop) (f : A -> B) l : leaves (fun a => Q (f a)) l -> leaves Q (hold f l).
Proof. intros H s Hs. unfold hold. specialize (H s Hs). destruct (l s) as [[r a] s']. exact H. Qed.
Lemma leaves_next {A B} (P : A -> Prop) (Q : B -> Prop) l bad k : leaves P l -> (forall a, P a -> Q (bad a)) ->
  (forall a, P a -> leaves Q (k a)) -> leaves Q (next l bad k).
Proof.
  intros Hl Hb Hk s Hs. unfold next. specialize (Hl s Hs). destruct (l s) as [[[[]|e| | |] a] s']; destruct Hl as [H1 H2];
    try (split; [now apply Hb|discriminate]). apply Hk; auto.
Qed.
Lemma leaves_scalar {A B} (Q : A -> Prop) (m : DM B) f z v : tsafe (fun b => Q (f b)) m -> Q z -> Q v -> leaves Q (scalar m f z v).
Proof.
  intros Hm Hz Hv s Hs. unfold scalar. specialize (Hm s Hs). destruct (m s) as [[b|e| | |] s1]; try (split; [assumption|discriminate]).
  destruct Hm. auto.
Qed.
Lemma leaves_wrap {A} (Q : A -> Prop) l : leaves Q l -> leaves Q (wrap l).
Proof.
  intros H s Hs. unfold wrap. specialize (H s Hs). destruct (l s) as [[[[]|e| | |] a] s']; try exact H.
  destruct H. split; [assumption|discriminate].
Qed.
Lemma leaves_each (Q : val -> Prop) f l : (forall x, Q x -> leaves Q (f x)) -> Forall Q l ->
  leaves (fun r => length r = length l /\ Forall Q r) (each_dest f l).
Proof.
  intros Hf Hl. induction Hl as [|x l Hx Hl IH]; cbn [each_dest]; [now apply leaves_done|].
  eapply leaves_next; [now apply Hf| |]; cbv beta.
  - intros a Ha. cbn [length]. auto.
  - intros a Ha. apply leaves_hold. eapply leaves_weaken; [|exact IH]. cbv beta. intros r [H1 H2]. cbn [length]. auto.
Qed.
Lemma leaves_rep (Q : val -> Prop) n m : leaves Q m -> forall acc, Forall Q acc -> leaves (Forall Q) (rep_dest n m acc).
Proof.
  intro Hm. induction n as [|n IH]; intros acc Ha; cbn [rep_dest]; [now apply leaves_done|].
  eapply leaves_next; [exact Hm|auto|]. intros a Hx. apply IH. apply Forall_app. auto.
Qed.
Lemma map_set_all kt (K V : val -> Prop) m k v : K k -> V v -> Forall (fun e => K (fst e) /\ V (snd e)) m ->
  Forall (fun e => K (fst e) /\ V (snd e)) (map_set kt m k v).
Proof.
  intros Hk Hv Hm. induction Hm as [|[k' v'] m Ha Hm IH]; cbn [map_set]; [constructor; [now split|constructor]|].
  cbn [fst snd] in Ha. destruct (key_eqb kt k' k); constructor; cbn [fst snd]; tauto.
Qed.
Lemma leaves_map kt (K V : val -> Prop) n mk mv : leaves K mk -> leaves V mv -> forall m,
  Forall (fun e => K (fst e) /\ V (snd e)) m -> leaves (Forall (fun e => K (fst e) /\ V (snd e))) (map_dest kt n mk mv m).
Proof.
  intros Hk Hv. induction n as [|n IH]; intros m Hm; cbn [map_dest]; [now apply leaves_done|].
  eapply leaves_next; [exact Hk|auto|]. intros k Kk. eapply leaves_next; [exact Hv|auto|]. intros v Vv.
  apply IH. now apply map_set_all.
Qed.

Lemma tsafe_uints w l : tsafe (Forall (fun z => 0 <= z < 2 ^ wbits w)) (read_uints w l).
Proof.
  destruct (Z.le_gt_cases 0 l) as [H|H].
  - eapply tsafe_weaken; [|eapply (safe_tsafe false), safe_uints; exact H]. now intros a [].
  - intros s Hs. unfold read_uints, bind, d_remaining. destruct (_ <? _); [exact I|].
    destruct w; [|destruct (l <? 0) eqn:E; [exact I|lia]..].
    unfold read_n_bytes. destruct (l =? 0) eqn:E0; [lia|]. destruct (l <? 0) eqn:E1; [exact I|lia].
Qed.

Section Left.
  Variable E : encoding.
  Variable W : codec -> ty -> val -> dst -> val.
  Hypothesis HW : forall c u v s, fits u v -> fits u (W c u v s).

  Lemma leaves_fields rec fs : (forall h t, In (h, t) fs -> typed t /\ forall o v, fits t v -> leaves (fits t) (rec t o v)) ->
    forall ps sizes seen, fits_fields fits fs ps -> leaves (fits_fields fits fs) (dest_fields E rec fs ps sizes seen).
  Proof.
    induction fs as [|[h t] fs IH]; intros Hrec [|p ps] sizes seen Hf; try easy.
    cbn [dest_fields]. cbv zeta. set (tg := parse_field_tag (f_tag h)). pose proof Hf as Hall. destruct Hf as [Hp Hps]. cbn [snd] in *.
    assert (Hg : forall x sizes seen, fits t x ->
      leaves (fits_fields fits ((h, t) :: fs)) (hold (cons x) (dest_fields E rec fs ps sizes seen))).
    { intros x sz sn Hx. apply leaves_hold. eapply leaves_weaken; [|apply IH; [|exact Hps]].
      - intros vs Hvs. now split.
      - intros h' t' Hin. apply (Hrec h'). now right. }
    destruct (Hrec h t (or_introl eq_refl)) as [Ht Hr].
    destruct (ft_skip tg); [now apply Hg|]. destruct (negb (ft_ext tg) && seen); [now apply leaves_stop|].
    match goal with |- leaves _ (if _ then _ else ?b) => assert (Hb : leaves (fits_fields fits ((h, t) :: fs)) b) end.
    { destruct (f_exported h); cbn [negb]; [|now apply Hg].
      match goal with |- leaves _ (match _ with true => match _ with Some _ => _ | None => ?b end | false => _ end) =>
        assert (Hn : leaves (fits_fields fits ((h, t) :: fs)) b) end.
      { eapply leaves_next; [apply leaves_wrap, Hr, Hp|intros x Hx; now split|]. intros x Hx. cbv beta.
        destruct (String.eqb (ft_sizeof tg) ""); [now apply Hg|]. destruct (sizeof_val t x); [now apply Hg|].
        apply leaves_stop. now split. }
      destruct (is_borsh E); [|exact Hn]. destruct (borsh_field_unmarshaler t) as [m|] eqn:Em; [|exact Hn].
      apply (leaves_after (fits t)); [|exact Hall|intros x Hx; now apply Hg].
      destruct t as [| | | | | | | |t| | | | |c u|]; try discriminate.
      - destruct t as [| | | | | | | | | | | | |c u|]; try discriminate. cbn [borsh_field_unmarshaler typed] in *.
        destruct (c_unmarshal c) as [f|]; inversion Em; subst. intros s Hs. specialize (Ht (zero_val u) (fits_zero u) s Hs).
        unfold fmap, bind. destruct (f (zero_val u) s) as [[x| | | |] s1]; try exact I. destruct Ht as [Hx Hc]. cbn [ret].
        split; [|exact Hc]. cbn [fits]. eexists. split; [reflexivity|]. now intros y [= <-].
      - cbn [borsh_field_unmarshaler typed] in *. destruct (c_unmarshal c) as [f|]; inversion Em; subst. apply Ht, fits_zero. }
    destruct (ft_ext tg); [|exact Hb]. apply (leaves_after (fun _ => True)); [|exact Hall|].
    - eapply tsafe_weaken; [|eapply (safe_tsafe false), safe_rest]. easy.
    - intros [|b rest] _; [now apply Hg|exact Hb].
  Qed.

  Lemma leaves_variant rec fs : (forall h t, In (h, t) fs -> forall o v, fits t v -> leaves (fits t) (rec t o v)) ->
    forall ps n, fits_fields fits fs ps -> leaves (fits_fields fits fs) (dest_variant rec fs ps n).
  Proof.
    induction fs as [|[h t] fs IH]; intros Hrec [|p ps] n Hf; try easy. cbn [dest_variant]. destruct n as [|n].
    - destruct (negb (f_exported h)).
      { apply (leaves_after (fun _ => True)); [|exact Hf|intros _ _; now apply leaves_done].
        apply (tsafe_bind (fun _ => True)); [apply tsafe_set_cur|]. intros _ _. apply tsafe_sealed. }
      apply leaves_hold. destruct Hf as [Hp Hps].
      eapply leaves_weaken; [|apply (Hrec h t (or_introl eq_refl)), Hp]. intros x Hx. now split.
    - apply leaves_hold. destruct Hf as [Hp Hps]. eapply leaves_weaken; [|apply IH; [|exact Hps]].
      + intros vs Hvs. now split.
      + intros h' t' Hin. apply (Hrec h'). now right.
  Qed.

  Lemma leaves_pend pend t v core : fits t v -> leaves (fits t) core -> leaves (fits t) (pend_dest pend t v core).
  Proof.
    intros Hv H. unfold pend_dest. destruct pend; [|exact H].
    apply (leaves_after (fun _ => True)); [eapply (safe_tsafe false), safe_cflag|exact Hv|].
    intros [|] _; [exact H|apply leaves_done, fits_zero].
  Qed.

  Theorem dest_leaves t : typed t -> forall m v, fits t v -> leaves (fits t) (dest_val E W t m v).
  Proof.
    induction t as [t IH] using ty_strong_ind. intro Ht.
    assert (Hwalk : forall o pend v, fits t v -> leaves (fits t) (dest_val E W t (DWalk o pend) v)).
    { intros o pend v Hv. rewrite dest_walk_eq.
      destruct t as [|un w|nm w|f| |sg| | |t|n t|t|t1 t2|fs|c t|]; try (apply leaves_pend; [exact Hv|]); cbn [dest_core].
      - apply leaves_scalar; [|cbn; eauto|exact Hv]. eapply tsafe_weaken; [|eapply (safe_tsafe false), safe_bool]. cbn. eauto.
      - apply leaves_scalar; [|exact (fits_zero (TUint un w))|exact Hv]. eapply tsafe_weaken; [|eapply (safe_tsafe false), safe_uintw].
        cbn. eauto.
      - apply leaves_scalar; [|exact (fits_zero (TInt nm w))|exact Hv]. eapply tsafe_weaken; [|eapply (safe_tsafe false), safe_intw].
        cbn. eauto.
      - apply leaves_scalar; [|exact (fits_zero (TFloat f))|exact Hv]. eapply tsafe_weaken; [|eapply (safe_tsafe false), safe_float].
        intros b Hb. cbn [fits]. eexists. split; [reflexivity|]. rewrite EncWire.quiet_spec. now apply quiet_range.
      - eapply leaves_after; [eapply (safe_tsafe false), safe_str|exact Hv|]. intros s Hs. apply leaves_done. cbn. eauto.
      - now apply leaves_stop.
      - now apply leaves_stop.
      - now apply leaves_done.
      - apply leaves_hold. eapply leaves_weaken; [|apply IH; [cbn; lia|exact Ht|]].
        + intros x Hx. cbn [fits]. eexists. split; [reflexivity|]. now intros y [= <-].
        + destruct Hv as (q & -> & Hq). destruct q; cbn [pointee]; [now apply Hq|apply fits_zero].
      - destruct (uint_kind t) as [w|] eqn:Ew.
        + eapply leaves_after; [eapply (safe_tsafe false), safe_uints; lia|exact Hv|]. intros zs [Hl Hz]. apply leaves_done. cbn [fits].
          eexists. split; [reflexivity|]. rewrite map_length. split; [unfold zlen in Hl; lia|]. eapply uints_fit; eauto.
        + destruct Hv as (l & -> & Hl & Hf). apply leaves_hold.
          eapply leaves_weaken; [|apply (leaves_each (fits t)); [|exact Hf]].
          * intros r [H1 H2]. cbn [fits]. eexists. split; [reflexivity|]. split; [congruence|exact H2].
          * intros a Ha. apply IH; auto.
      - apply (leaves_after (fun _ => True)); [|exact Hv|].
        { destruct (o_size o) as [z|]; [intros s Hs; now split|]. eapply tsafe_weaken; [|eapply (safe_tsafe false), safe_count]. easy. }
        intros l _. destruct (is_borsh E && (l =? 0)); [now apply leaves_done|].
        apply (leaves_after (fun _ => True)); [intros s Hs; now split|exact Hv|]. intros r _.
        destruct (r <? l); [now apply leaves_stop|]. destruct (uint_kind t) as [w|] eqn:Ew.
        + eapply leaves_after; [apply tsafe_uints|exact Hv|]. intros zs Hz. apply leaves_done. cbn [fits].
          eexists. split; [reflexivity|]. intros l' [= <-]. eapply uints_fit; eauto.
        + apply leaves_hold. eapply leaves_weaken; [|apply (leaves_rep (fits t)); [apply IH; auto using fits_zero|constructor]].
          intros r' H2. cbn [fits]. eexists. split; [reflexivity|]. now intros l' [= <-].
      - apply (leaves_after (fun _ => True)); [|exact Hv|].
        { eapply tsafe_weaken; [|eapply (safe_tsafe false), safe_count]. easy. }
        intros l _. destruct (l =? 0); [now apply leaves_done|]. destruct Ht as [Ht1 Ht2].
        apply leaves_hold. eapply leaves_weaken; [|apply (leaves_map t1 (fits t1) (fits t2));
          [apply IH; [cbn; lia|exact Ht1|apply fits_zero]|apply IH; [cbn; lia|exact Ht2|apply fits_zero]|constructor]].
        intros m Hm. cbn [fits]. eexists. split; [reflexivity|]. now intros es [= <-].
      - destruct Hv as (vs & -> & Hvs). rewrite typed_struct, Forall_forall in Ht. unfold dest_struct.
        assert (Hfs : fits (TStruct fs) (VStruct vs)) by (cbn [fits]; eauto).
        destruct (is_borsh E && is_enum fs) eqn:Ee.
        + apply (leaves_after (fun b => 0 <= b < 256)); [eapply (safe_tsafe false), safe_byte|exact Hfs|].
          intros b Hb. destruct fs as [|[h t] fs]; [now apply leaves_stop|]. destruct vs as [|x vs]; [easy|].
          destruct (negb (f_exported h)); [now apply leaves_stop|]. destruct Hvs as [_ Hvs].
          apply leaves_hold. eapply leaves_weaken; [|apply leaves_variant; [|exact Hvs]].
          * intros rest Hrest. cbn [fits]. eexists. split; [reflexivity|]. split; [|exact Hrest]. cbn [snd].
            apply andb_prop in Ee. destruct Ee as [_ Ee].
            destruct t as [|un w| | | | | | | | | | | | |]; try discriminate.
            destruct un; try discriminate. destruct w; try discriminate. cbn [fits]. eexists. split; [reflexivity|exact Hb].
          * intros h' t' Hin o' v Hv. apply IH; [apply (ty_size_field _ h'); now right|exact (Ht (h', t') (or_intror Hin))|exact Hv].
        + apply leaves_hold. eapply leaves_weaken; [|apply leaves_fields; [|exact Hvs]].
          * intros vs' Hvs'. cbn [fits]. eauto.
          * intros h t Hin. split; [exact (Ht (h, t) Hin)|]. intros o' v Hv. apply IH; [now apply (ty_size_field _ h)|exact (Ht (h, t) Hin)|exact Hv].
      - cbn [typed] in Ht. destruct (c_unmarshal c) as [f|] eqn:Ef; [|apply (IH t); auto].
        destruct pend; [now apply leaves_stop|]. intros s Hs. unfold own. specialize (Ht v Hv s Hs).
        destruct (f v s) as [[x|e| | |] s1]; try (split; [exact (HW c t v s Hv)|discriminate]). destruct Ht. now split.
      - now apply leaves_stop. }
    assert (Hfl : forall o v, fits t v -> leaves (fits t) (dest_flagged E W t o v)).
    { intros o v Hv. unfold dest_flagged. destruct (o_opt o).
      - eapply leaves_after; [eapply (safe_tsafe false), safe_flag|exact Hv|]. intros [|] _; [now apply Hwalk|apply leaves_done, fits_zero].
      - eapply leaves_after; [eapply (safe_tsafe false), safe_cflag|exact Hv|]. intros [|] _; [now apply Hwalk|apply leaves_done, fits_zero]. }
    assert (Hnull : forall o v, fits t v -> leaves (fits t) (dest_val E W t (DNull o) v)).
    { intros o v Hv. rewrite dest_null_eq. destruct t; try solve [now apply Hfl]; try now apply leaves_stop.
      - destruct (is_ptr t); [|now apply Hfl]. destruct Hv as (q & -> & Hq). destruct q as [x|]; [|apply Hfl; now exists None].
        apply leaves_hold. eapply leaves_weaken; [|apply IH; [cbn; lia|exact Ht|now apply Hq]].
        intros y Hy. cbn [fits]. eexists. split; [reflexivity|]. now intros z [= <-].
      - destruct (c_unmarshal c); [now apply leaves_stop|now apply Hfl]. }
    intros [o|o|o pend] v Hv; [|now apply Hnull|now apply Hwalk].
    rewrite dest_start_eq. apply (leaves_after (fun _ => True)); [|exact Hv|].
    - intros s (H1 & H2 & H3). unfold d_set_cur. split; [exact I|]. split; [exact H1|now split].
    - intros _ _. destruct (o_opt o || (is_borsh E && o_copt o)); [now apply Hnull|now apply Hwalk].
  Qed.
End Left.

(** * How far a failing decoder came *)
(** [ls] and [ps] differ at most at places where a field is decoded. *)
Definition only_live (fs : list (fhdr * ty)) (ps ls : list val) : Prop :=
  forall i h t, nth_error fs i = Some (h, t) -> live h = false -> nth_error ls i = nth_error ps i.
(** The places before [k] hold what decoding [k] places gives, those after [k]
    what they held before. *)
Definition cut_at {A} (k : nat) (old left : list A) (got : list A -> Prop) : Prop :=
  got (firstn k left) /\ skipn (S k) left = skipn (S k) old.

Lemma only_live_cons h t fs p ps x ls : (live h = false -> x = p) -> only_live fs ps ls ->
  only_live ((h, t) :: fs) (p :: ps) (x :: ls).
Proof.
  intros Hx H [|i] h' t' Hn Hl; cbn [nth_error] in *.
  - injection Hn as -> ->. now rewrite Hx.
  - exact (H i h' t' Hn Hl).
Qed.
Lemma only_live_refl fs ps : only_live fs ps ps.
Proof. easy. Qed.

Lemma fields_cut E rec grec fs : (forall h t, In (h, t) fs -> forall o v, agrees (rec t o v) (grec t o v)) ->
  forall ps sizes seen s, length ps = length fs ->
  let '(r, ls, s') := dest_fields E rec fs ps sizes seen s in
  length ls = length ps /\ only_live fs ps ls /\
  (r = Ok tt \/ exists k, (k < length fs)%nat /\
     cut_at k ps ls (fun got => exists s1, dec_fields E grec (firstn k fs) (firstn k ps) sizes seen s = (Ok got, s1))).
Proof.
  induction fs as [|[h t] fs IH]; intros Hrec [|p ps] sizes seen s Hl; try discriminate Hl.
  { cbn. split; [reflexivity|]. split; [apply only_live_refl|now left]. }
  cbn [length] in Hl. injection Hl as Hl.
  assert (Hrec' : forall h t, In (h, t) fs -> forall o v, agrees (rec t o v) (grec t o v)).
  { intros h' t' Hin. apply (Hrec h'). now right. }
  specialize (IH Hrec').
  (* stopping at this field *)
  assert (Hstop : forall r x (s' : dst), (live h = false -> x = p) ->
    length (x :: ps) = length (p :: ps) /\ only_live ((h, t) :: fs) (p :: ps) (x :: ps) /\
    (r = Ok tt \/ exists k, (k < length ((h, t) :: fs))%nat /\
       cut_at k (p :: ps) (x :: ps) (fun got => exists s1, dec_fields E grec (firstn k ((h, t) :: fs)) (firstn k (p :: ps)) sizes seen s = (Ok got, s1)))).
  { intros r x s' Hx. split; [reflexivity|]. split; [apply only_live_cons; [exact Hx|apply only_live_refl]|]. right.
    exists 0%nat. split; [cbn; lia|]. split; [|reflexivity]. exists s. reflexivity. }
  (* going on after this field *)
  assert (Hgo : forall x sizes' seen' s1, (live h = false -> x = p) ->
    (forall k got s2, dec_fields E grec (firstn k fs) (firstn k ps) sizes' seen' s1 = (Ok got, s2) ->
       dec_fields E grec (firstn (S k) ((h, t) :: fs)) (firstn (S k) (p :: ps)) sizes seen s = (Ok (x :: got), s2)) ->
    let '(r, ls, s') := hold (cons x) (dest_fields E rec fs ps sizes' seen') s1 in
    length ls = length (p :: ps) /\ only_live ((h, t) :: fs) (p :: ps) ls /\
    (r = Ok tt \/ exists k, (k < length ((h, t) :: fs))%nat /\
       cut_at k (p :: ps) ls (fun got => exists s1, dec_fields E grec (firstn k ((h, t) :: fs)) (firstn k (p :: ps)) sizes seen s = (Ok got, s1)))).
  { intros x sizes' seen' s1 Hx Hd. unfold hold. specialize (IH ps sizes' seen' s1 Hl).
    destruct (dest_fields E rec fs ps sizes' seen' s1) as [[r ls] s']. destruct IH as (H1 & H2 & H3).
    split; [cbn [length]; lia|]. split; [now apply only_live_cons|]. destruct H3 as [H3|(k & Hk & [s2 H3] & H4)]; [now left|].
    right. exists (S k). split; [cbn [length]; lia|]. split; [|exact H4]. exists s2. now apply Hd. }
  cbn [dest_fields]. cbv zeta. unfold live in Hstop, Hgo. set (tg := parse_field_tag (f_tag h)) in *.
  destruct (ft_skip tg) eqn:Esk; cbn [negb andb] in Hstop, Hgo.
  { apply Hgo; [easy|]. intros k got s2 H. cbn [firstn dec_fields]. cbv zeta. fold tg. rewrite Esk.
    unfold fmap, bind, ret. now rewrite H. }
  destruct (negb (ft_ext tg) && seen) eqn:Eseen; [now apply Hstop|].
  match goal with |- context [if ft_ext tg then after d_rest _ _ else ?b] => set (body := b) in * end.
  assert (Hb : ft_ext tg = false \/ (exists b rest, d_rest s = (Ok (b :: rest), s)) ->
    let '(r, ls, s') := body s in length ls = length (p :: ps) /\ only_live ((h, t) :: fs) (p :: ps) ls /\
    (r = Ok tt \/ exists k, (k < length ((h, t) :: fs))%nat /\
       cut_at k (p :: ps) ls (fun got => exists s1, dec_fields E grec (firstn k ((h, t) :: fs)) (firstn k (p :: ps)) sizes seen s = (Ok got, s1)))).
  { intro Hext.
    assert (Hext' : forall (m1 m2 : DM (list val)),
      (if ft_ext tg then (rest <- d_rest ;; match rest with [] => m1 | _ => m2 end) else m2) s = m2 s).
    { intros m1 m2. destruct Hext as [->|(b & rest & Hr)]; [reflexivity|]. destruct (ft_ext tg); [|reflexivity]. unfold bind. now rewrite Hr. }
    unfold body. destruct (f_exported h) eqn:Eex; cbn [negb].
    2: { apply Hgo; [easy|]. intros k got s2 H. cbn [firstn dec_fields]. cbv zeta. fold tg. rewrite Esk, Eseen, Eex. cbn [negb]. rewrite Hext'.
       unfold fmap, bind, ret. now rewrite H. }
    assert (Hn : forall b1, (b1 = false \/ borsh_field_unmarshaler t = None) -> b1 = is_borsh E ->
      let '(r, ls, s') := (next (wrap (rec t (field_opt E tg (f_name h) sizes) p)) (fun x => x :: ps) (fun x =>
         if String.eqb (ft_sizeof tg) "" then hold (cons x) (dest_fields E rec fs ps sizes (seen || ft_ext tg))
         else match sizeof_val t x with
              | None => stop Panic (x :: ps)
              | Some n => hold (cons x) (dest_fields E rec fs ps ((ft_sizeof tg, n) :: sizes) (seen || ft_ext tg))
              end)) s in
      length ls = length (p :: ps) /\ only_live ((h, t) :: fs) (p :: ps) ls /\
      (r = Ok tt \/ exists k, (k < length ((h, t) :: fs))%nat /\
       cut_at k (p :: ps) ls (fun got => exists s1, dec_fields E grec (firstn k ((h, t) :: fs)) (firstn k (p :: ps)) sizes seen s = (Ok got, s1)))).
    { intros b1 Hb1 Heq.
      assert (Hd : forall k, dec_fields E grec (firstn (S k) ((h, t) :: fs)) (firstn (S k) (p :: ps)) sizes seen s =
        (x <- map_err EWrap (grec t (field_opt E tg (f_name h) sizes) p) ;;
         if String.eqb (ft_sizeof tg) "" then fmap (cons x) (dec_fields E grec (firstn k fs) (firstn k ps) sizes (seen || ft_ext tg))
         else match sizeof_val t x with
              | None => panic
              | Some n => fmap (cons x) (dec_fields E grec (firstn k fs) (firstn k ps) ((ft_sizeof tg, n) :: sizes) (seen || ft_ext tg))
              end) s).
      { intro k. cbn [firstn dec_fields]. cbv zeta. fold tg. rewrite Esk, Eseen, Eex. cbn [negb]. rewrite Hext'.
        rewrite <- Heq. destruct Hb1 as [-> | ->]; [reflexivity|]. now destruct b1. }
      unfold next, wrap. pose proof (Hrec h t (or_introl eq_refl) (field_opt E tg (f_name h) sizes) p s) as Ha.
      destruct (rec t (field_opt E tg (f_name h) sizes) p s) as [[[[]|e| | |] x] s1]; cbn [view] in Ha; try (now apply Hstop).
      destruct (String.eqb (ft_sizeof tg) "") eqn:Esz.
      - apply Hgo; [discriminate|]. intros k got s2 H. rewrite Hd.
        unfold bind at 1, map_err. rewrite Ha. unfold fmap, bind, ret. now rewrite H.
      - destruct (sizeof_val t x) as [n|] eqn:En; [|now apply Hstop].
        apply Hgo; [discriminate|]. intros k got s2 H. rewrite Hd.
        unfold bind at 1, map_err. rewrite Ha, En. unfold fmap, bind, ret. now rewrite H. }
    destruct (is_borsh E) eqn:Eb; [|apply (Hn false); auto].
    destruct (borsh_field_unmarshaler t) as [m|] eqn:Em; [|apply (Hn true); auto].
    unfold after. destruct (m s) as [[x|e| | |] s1] eqn:Ems; try (now apply Hstop).
    apply Hgo; [discriminate|]. intros k got s2 H. cbn [firstn dec_fields]. cbv zeta. fold tg. rewrite Esk, Eseen, Eex. cbn [negb]. rewrite Hext'. rewrite Eb, Em.
    unfold fmap, bind, ret. now rewrite Ems, H. }
  destruct (ft_ext tg) eqn:Eext; [|apply Hb; now left].
  unfold after. destruct (d_rest s) as [[rest|e| | |] s1] eqn:Er; try (now apply Hstop).
  assert (Hs1 : s1 = s). { unfold d_rest, d_get, bind, ret, panic in Er. destruct (slice_from (d_data s) (d_pos s)); congruence. }
  subst s1. destruct rest as [|b rest]; [|apply Hb; right; eauto].
  apply (Hgo p sizes (seen || true)); [easy|]. intros k got s2 H. cbn [firstn dec_fields]. cbv zeta. fold tg. rewrite Esk, Eext. cbn [negb andb].
  unfold fmap, bind, ret. now rewrite Er, H.
Qed.

Lemma each_cut f g l : (forall x, agrees (f x) (g x)) -> forall s,
  let '(r, ls, s') := each_dest f l s in
  length ls = length l /\
  (r = Ok tt \/ exists k, (k < length l)%nat /\ cut_at k l ls (fun got => exists s1, each_dec g (firstn k l) s = (Ok got, s1))).
Proof.
  intro H. induction l as [|p l IH]; intro s; cbn [each_dest]; [cbn; auto|].
  unfold next. pose proof (H p s) as Ha.
  assert (Hstop : forall r x, length (x :: l) = length (p :: l) /\
    (r = Ok tt \/ exists k, (k < length (p :: l))%nat /\ cut_at k (p :: l) (x :: l) (fun got => exists s1, each_dec g (firstn k (p :: l)) s = (Ok got, s1)))).
  { intros r x. split; [reflexivity|]. right. exists 0%nat. split; [cbn; lia|]. split; [exists s|]; reflexivity. }
  destruct (f p s) as [[[[]|e| | |] x] s1]; cbn [view] in Ha; try apply Hstop.
  unfold hold. specialize (IH s1). destruct (each_dest f l s1) as [[r ls] s2]. destruct IH as [H1 H2].
  split; [cbn [length]; lia|]. destruct H2 as [H2|(k & Hk & [s3 H2] & H3)]; [now left|]. right. exists (S k).
  split; [cbn [length]; lia|]. split; [|exact H3]. exists s3. cbn [firstn each_dec]. unfold bind, ret. now rewrite Ha, H2.
Qed.

(** [vs] are read one after the other, each into a new variable. *)
Inductive reads_seq E t : dst -> list val -> dst -> Prop :=
| rs_nil s : reads_seq E t s [] s
| rs_cons s v s1 vs s2 : dec_val E t (DStart opt0) (zero_val t) s = (Ok v, s1) -> reads_seq E t s1 vs s2 ->
    reads_seq E t s (v :: vs) s2.
Inductive reads_pairs E kt vt : dst -> list (val * val) -> dst -> Prop :=
| rp_nil s : reads_pairs E kt vt s [] s
| rp_cons s k s1 v s2 es s3 : dec_val E kt (DStart opt0) (zero_val kt) s = (Ok k, s1) ->
    dec_val E vt (DStart opt0) (zero_val vt) s1 = (Ok v, s2) -> reads_pairs E kt vt s2 es s3 ->
    reads_pairs E kt vt s ((k, v) :: es) s3.

Lemma rep_cut E t m : agrees m (dec_val E t (DStart opt0) (zero_val t)) -> forall n acc s,
  let '(r, ls, s') := rep_dest n m acc s in
  exists vs s1, ls = acc ++ vs /\ reads_seq E t s vs s1 /\
    ((r = Ok tt /\ length vs = n /\ s' = s1) \/
     (r <> Ok tt /\ (length vs < n)%nat /\ r = blame (fst (dec_val E t (DStart opt0) (zero_val t) s1)))).
Proof.
  intro H. induction n as [|n IH]; intros acc s; cbn [rep_dest].
  { cbn. exists [], s. rewrite app_nil_r. split; [reflexivity|]. split; [constructor|]. now left. }
  unfold next. pose proof (H s) as Ha. destruct (m s) as [[[[]|e| | |] x] s1] eqn:Em; cbn [view] in Ha.
  2-5: exists [], s; rewrite app_nil_r, Ha; split; [reflexivity|]; split; [constructor|]; right; cbn; (split; [discriminate|split; [lia|reflexivity]]).
  specialize (IH (acc ++ [x]) s1). destruct (rep_dest n m (acc ++ [x]) s1) as [[r ls] s2].
  destruct IH as (vs & s3 & -> & H1 & H2). exists (x :: vs), s3. split; [now rewrite <- app_assoc|].
  split; [econstructor; eauto|]. destruct H2 as [(-> & <- & ->)|(H2 & H3 & H4)]; [now left|]. right. cbn [length]. split; [exact H2|]. split; [lia|exact H4].
Qed.

Lemma map_cut E kt vt mk mv : agrees mk (dec_val E kt (DStart opt0) (zero_val kt)) ->
  agrees mv (dec_val E vt (DStart opt0) (zero_val vt)) -> forall n m s,
  let '(r, ls, s') := map_dest kt n mk mv m s in
  exists es s1, ls = fold_left (fun m e => map_set kt m (fst e) (snd e)) es m /\ reads_pairs E kt vt s es s1 /\
    (r = Ok tt /\ length es = n \/ r <> Ok tt /\ (length es < n)%nat).
Proof.
  intros Hk Hv. induction n as [|n IH]; intros m s; cbn [map_dest].
  { cbn. exists [], s. split; [reflexivity|]. split; [constructor|now left]. }
  unfold next. pose proof (Hk s) as Ha. destruct (mk s) as [[[[]|e| | |] k] s1] eqn:Em; cbn [view] in Ha.
  2-5: exists [], s; split; [reflexivity|]; split; [constructor|]; right; cbn; (split; [discriminate|lia]).
  pose proof (Hv s1) as Hb. destruct (mv s1) as [[[[]|e| | |] v] s2] eqn:Ev; cbn [view] in Hb.
  2-5: exists [], s; split; [reflexivity|]; split; [constructor|]; right; cbn; (split; [discriminate|lia]).
  specialize (IH (map_set kt m k v) s2). destruct (map_dest kt n mk mv (map_set kt m k v) s2) as [[r ls] s3].
  destruct IH as (es & s4 & -> & H1 & H2). exists ((k, v) :: es), s4. split; [reflexivity|]. split; [econstructor; eauto|].
  cbn [length]. destruct H2 as [[-> <-]|[H2 H3]]; [now left|]. right. split; [exact H2|lia].
Qed.

(** * The theorems *)
(** The state in which a new decoder starts on a value. *)
Definition at_start E (data : list Z) : dst := mkD data 0 (Some LE) E.

Lemma unmarshal_start E t v data : unmarshal E t v data = fst (dec_val E t (DWalk opt0 false) v (at_start E data)).
Proof.
  unfold unmarshal, decode, decode_target, bind, d_get_enc, new_decoder, fst. cbn [d_enc]. rewrite dec_start_eq.
  unfold bind, d_set_cur. cbn [opt0 o_order o_opt o_copt d_data d_pos d_enc]. rewrite andb_false_r. reflexivity.
Qed.
Lemma into_start E W t v data : unmarshal_into W E t v data = fst (dest_val E W t (DWalk opt0 false) v (at_start E data)).
Proof.
  unfold unmarshal_into, new_decoder. rewrite dest_start_eq. unfold after, d_set_cur.
  cbn [opt0 o_order o_opt o_copt d_data d_pos d_enc orb]. rewrite andb_false_r. reflexivity.
Qed.

Theorem into_unmarshal W E t v data : let '(r, x) := unmarshal_into W E t v data in
  unmarshal E t v data = match r with Ok _ => Ok x | Err e => Err e | Panic => Panic | Deep => Deep | Stuck => Stuck end.
Proof.
  rewrite unmarshal_start, into_start. rewrite dest_agrees with (W := W).
  destruct (dest_val E W t (DWalk opt0 false) v (at_start E data)) as [[[[]|e| | |] x] s]; reflexivity.
Qed.

Theorem into_fits W E t v data : (forall c u v s, fits u v -> fits u (W c u v s)) -> typed t -> fits t v -> bytes_ok data ->
  fits t (snd (unmarshal_into W E t v data)).
Proof.
  intros HW Ht Hv Hd. rewrite into_start. pose proof (dest_leaves E W HW t Ht (DWalk opt0 false) v Hv (at_start E data)) as H.
  destruct (dest_val E W t (DWalk opt0 false) v (at_start E data)) as [[r x] s]. apply H.
  split; [split; cbn; [lia|apply zlen_nonneg]|]. split; [exact Hd|discriminate].
Qed.

Lemma firstn_not_enum E fs k : is_borsh E && is_enum fs = false -> is_borsh E && is_enum (firstn k fs) = false.
Proof.
  intro H. destruct k; [now rewrite andb_false_r|]. destruct fs as [|[h t] fs]; [exact H|]. exact H.
Qed.

Theorem into_struct W E fs ps data : is_borsh E && is_enum fs = false -> length ps = length fs ->
  exists r ls, unmarshal_into W E (TStruct fs) (VStruct ps) data = (r, VStruct ls) /\
    length ls = length ps /\ only_live fs ps ls /\
    (r = Ok tt \/ exists k, (k < length fs)%nat /\
       cut_at k ps ls (fun got => unmarshal E (TStruct (firstn k fs)) (VStruct (firstn k ps)) data = Ok (VStruct got))).
Proof.
  intros He Hl. rewrite into_start, dest_walk_eq. unfold pend_dest. cbn [dest_core]. unfold dest_struct. rewrite He. unfold hold.
  pose proof (fields_cut E (fun t' o' v' => dest_val E W t' (DStart o') v') (fun t' o' v' => dec_val E t' (DStart o') v') fs
    (fun h t _ o v => dest_agrees E W t (DStart o) v) ps [] false (at_start E data) Hl) as H.
  destruct (dest_fields E _ fs ps [] false (at_start E data)) as [[r ls] s]. exists r, ls. destruct H as (H1 & H2 & H3).
  split; [reflexivity|]. split; [exact H1|]. split; [exact H2|]. destruct H3 as [H3|(k & Hk & [s1 H3] & H4)]; [now left|].
  right. exists k. split; [exact Hk|]. split; [|exact H4]. rewrite unmarshal_start, dec_walk_eq. unfold with_pend.
  unfold dec_struct. rewrite (firstn_not_enum E fs k He). unfold fmap, bind, ret. now rewrite H3.
Qed.

Theorem into_array W E n t ps data : uint_kind t = None -> length ps = n ->
  exists r ls, unmarshal_into W E (TArray n t) (VSeq ps) data = (r, VSeq ls) /\ length ls = length ps /\
    (r = Ok tt \/ exists k, (k < n)%nat /\
       cut_at k ps ls (fun got => unmarshal E (TArray k t) (VSeq (firstn k ps)) data = Ok (VSeq got))).
Proof.
  intros Hu Hl. rewrite into_start, dest_walk_eq. unfold pend_dest. cbn [dest_core]. rewrite Hu. unfold hold.
  pose proof (each_cut (dest_val E W t (DStart opt0)) (dec_val E t (DStart opt0)) ps (fun x => dest_agrees E W t (DStart opt0) x) (at_start E data)) as H.
  destruct (each_dest _ ps (at_start E data)) as [[r ls] s]. exists r, ls. destruct H as (H1 & H3).
  split; [reflexivity|]. split; [exact H1|]. destruct H3 as [H3|(k & Hk & [s1 H3] & H4)]; [now left|].
  right. exists k. split; [lia|]. split; [|exact H4]. rewrite unmarshal_start, dec_walk_eq. unfold with_pend.
  rewrite Hu. unfold fmap, bind, ret. now rewrite H3.
Qed.

Theorem into_slice W E t v data : uint_kind t = None -> let '(r, x) := unmarshal_into W E (TSlice t) v data in
  r = Ok tt \/ x = v \/
  exists n vs s1 s2, x = VSlice (Some vs) /\ read_count E (at_start E data) = (Ok n, s1) /\
    reads_seq E t s1 vs s2 /\ zlen vs < n /\ r = blame (fst (dec_val E t (DStart opt0) (zero_val t) s2)).
Proof.
  intro Hu. rewrite into_start, dest_walk_eq. unfold pend_dest. cbn [dest_core opt0 o_size]. unfold after.
  destruct (read_count E (at_start E data)) as [[n|e| | |] s1] eqn:Ec; try (right; left; reflexivity).
  destruct (is_borsh E && (n =? 0)); [now left|]. cbn [d_remaining]. rewrite Hu. unfold d_remaining.
  match goal with |- context [if ?c then _ else _] => destruct c end; [right; left; reflexivity|].
  unfold hold. pose proof (rep_cut E t _ (dest_agrees E W t (DStart opt0) (zero_val t)) (Z.to_nat n) [] s1) as H.
  destruct (rep_dest _ _ [] s1) as [[r ls] s]. destruct H as (vs & s2 & -> & H1 & [H2|(H2 & H3 & H4)]); [now left|].
  right. right. exists n, vs, s1, s2. split; [reflexivity|]. split; [reflexivity|]. split; [exact H1|]. split; [unfold zlen; lia|exact H4].
Qed.

Theorem into_map W E kt vt v data : let '(r, x) := unmarshal_into W E (TMap kt vt) v data in
  r = Ok tt \/ x = v \/
  exists n es s1 s2, x = VMap (Some (fold_left (fun m e => map_set kt m (fst e) (snd e)) es [])) /\
    read_count E (at_start E data) = (Ok n, s1) /\ reads_pairs E kt vt s1 es s2 /\ zlen es < n.
Proof.
  rewrite into_start, dest_walk_eq. unfold pend_dest. cbn [dest_core opt0 o_size]. unfold after.
  destruct (read_count E (at_start E data)) as [[n|e| | |] s1] eqn:Ec; try (right; left; reflexivity).
  destruct (n =? 0); [now left|]. unfold hold.
  pose proof (map_cut E kt vt _ _ (dest_agrees E W kt (DStart opt0) (zero_val kt)) (dest_agrees E W vt (DStart opt0) (zero_val vt)) (Z.to_nat n) [] s1) as H.
  destruct (map_dest _ _ _ _ [] s1) as [[r ls] s]. destruct H as (es & s2 & -> & H1 & [H2|(H2 & H3)]); [now left|].
  right. right. exists n, es, s1, s2. split; [reflexivity|]. split; [reflexivity|]. split; [exact H1|]. unfold zlen; lia.
Qed.

Definition is_scalar (t : ty) : bool :=
  match t with TBool | TUint _ _ | TInt _ _ | TFloat _ => true | _ => false end.
Theorem into_scalar W E t v data e x : is_scalar t = true -> unmarshal_into W E t v data = (Err e, x) -> x = zero_val t.
Proof.
  intros Hs H. rewrite into_start, dest_walk_eq in H. unfold pend_dest in H.
  destruct t; try discriminate Hs; cbn [dest_core] in H; unfold scalar in H;
    match type of H with fst (match ?m with _ => _ end) = _ => destruct m as [[?|?| | |] ?] end; now inversion H.
Qed.

Definition is_bulk (t : ty) : bool :=
  match t with
  | TString => true
  | TArray _ t' | TSlice t' => match uint_kind t' with Some _ => true | None => false end
  | _ => false
  end.
Local Ltac fin H := solve [inversion H; subst; first [reflexivity|congruence]].
Theorem into_bulk W E t v data r x : is_bulk t = true -> unmarshal_into W E t v data = (r, x) -> r <> Ok tt -> x = v.
Proof.
  intros Hs H Hr. rewrite into_start, dest_walk_eq in H. unfold pend_dest in H.
  destruct t; try discriminate Hs; cbn [dest_core is_bulk] in *; unfold after, stop, done in H.
  - destruct (read_str _ _) as [[?|?| | |] ?]; fin H.
  - destruct (uint_kind t); [|discriminate]. destruct (read_uints _ _ _) as [[?|?| | |] ?]; fin H.
  - destruct (uint_kind t); [|discriminate]. cbn [opt0 o_size] in H. destruct (read_count _ _) as [[?|?| | |] ?]; try fin H.
    destruct (_ && _); [fin H|]. destruct (d_remaining _) as [[?|?| | |] ?]; try fin H.
    destruct (_ <? _); [fin H|]. destruct (read_uints _ _ _) as [[?|?| | |] ?]; fin H.
Qed.

Theorem into_pointer W E t q data : unmarshal_into W E (TPtr t) (VPtr q) data =
  let '(r, x) := unmarshal_into W E t (match q with Some y => y | None => zero_val t end) data in (r, VPtr (Some x)).
Proof.
  rewrite !into_start, dest_walk_eq. unfold hold.
  assert (Hq : pointee t (VPtr q) = match q with Some y => y | None => zero_val t end) by now destruct q.
  rewrite Hq. destruct (dest_val E W t _ _ _) as [[r x] s]. reflexivity.
Qed.

Lemma variant_only rec fs : forall ps n s, length ps = length fs ->
  let '(r, ls, s') := dest_variant rec fs ps n s in
  length ls = length ps /\ forall i, i <> n -> nth_error ls i = nth_error ps i.
Proof.
  induction fs as [|[h t] fs IH]; intros [|p ps] n s Hl; try discriminate Hl; cbn [dest_variant]; [now split|].
  destruct n as [|n].
  - destruct (negb (f_exported h)).
    { unfold after. destruct ((d_set_cur LE ;;; dec_sealed t p) s) as [[[]|e| | |] s1]; now split. }
    unfold hold. destruct (rec t opt0 p s) as [[r x] s']. split; [reflexivity|].
    now intros [|i] Hi.
  - unfold hold. injection Hl as Hl. specialize (IH ps n s Hl). destruct (dest_variant rec fs ps n s) as [[r ls] s'].
    destruct IH as [H1 H2]. split; [cbn [length]; lia|]. intros [|i] Hi; [reflexivity|]. apply H2. lia.
Qed.

Theorem into_enum W h t fs p ps data : is_enum ((h, t) :: fs) = true -> f_exported h = true -> length ps = length fs ->
  exists r ls, unmarshal_into W Borsh (TStruct ((h, t) :: fs)) (VStruct (p :: ps)) data = (r, VStruct ls) /\
    length ls = length (p :: ps) /\
    match data with
    | [] => ls = p :: ps
    | n :: _ => nth_error ls 0 = Some (VNum n) /\ forall i, i <> 0%nat -> i <> S (Z.to_nat n) -> nth_error ls i = nth_error (p :: ps) i
    end.
Proof.
  intros He Hx Hl. rewrite into_start, dest_walk_eq. unfold pend_dest. cbn [dest_core]. unfold dest_struct. rewrite He. cbn [is_borsh andb].
  unfold after. destruct data as [|n data].
  { eexists _, (p :: ps). split; [vm_compute; reflexivity|]. now split. }
  assert (Hr : exists s1, read_byte (at_start Borsh (n :: data)) = (Ok n, s1)).
  { eexists. exact (keeps_read_byte Borsh n [] data (Some LE)). }
  destruct Hr as [s1 ->]. rewrite Hx. cbn [negb]. unfold hold.
  pose proof (variant_only (fun t' o' v' => dest_val Borsh W t' (DStart o') v') fs ps (Z.to_nat n) s1 Hl) as H.
  destruct (dest_variant _ fs ps (Z.to_nat n) s1) as [[r ls] s']. destruct H as [H1 H2].
  exists r, (VNum n :: ls). split; [reflexivity|]. split; [cbn [length]; lia|]. split; [reflexivity|].
  intros [|i] Hi Hn; [easy|]. apply H2. lia.
Qed.
