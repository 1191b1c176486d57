(** The transcription of the decoders agrees with Dest.v (C64). *)
From Verif Require Import Types DecPrim Enc Dec Builtin Spec NumFacts TyInd DecWire RoundTrip RoundTripProps Dest DestFacts GoEnc GoEncFacts GoDec.
Notation length := Datatypes.length.

(** * Memory *)
Lemma set_nth_length l : forall i x, length (set_nth l i x) = length l.
Proof. induction l as [|y l IH]; intros [|i] x; cbn [set_nth length]; auto. Qed.
Lemma nth_set_nth l : forall i x y, nth_error l i = Some y -> nth_error (set_nth l i x) i = Some x.
Proof. induction l as [|z l IH]; intros [|i] x y H; cbn [set_nth nth_error] in *; try easy. now apply (IH i x y). Qed.
Lemma set_nth_twice l : forall i x y, set_nth (set_nth l i x) i y = set_nth l i y.
Proof. induction l as [|z l IH]; intros [|i] x y; cbn [set_nth]; try easy. now rewrite IH. Qed.
Lemma set_nth_same l : forall i x, nth_error l i = Some x -> set_nth l i x = l.
Proof. induction l as [|z l IH]; intros [|i] x H; cbn [set_nth nth_error] in *; try easy. - now injection H as ->. - now rewrite IH. Qed.
Lemma set_nth_app l : forall m i x y, nth_error l i = Some y -> set_nth (l ++ m) i x = set_nth l i x ++ m.
Proof. induction l as [|z l IH]; intros m [|i] x y H; cbn [set_nth nth_error app] in *; try easy. now rewrite (IH m i x y). Qed.
Lemma set_nth_last l : forall x m y, set_nth (l ++ x :: m) (length l) y = l ++ y :: m.
Proof. induction l as [|z l IH]; intros x m y; cbn [set_nth length app]; [easy|]. now rewrite IH. Qed.

Lemma part_set v s w x : part v s = Some w -> part (set_part v s x) s = Some x.
Proof. destruct s, v; cbn [part set_part]; try easy; apply nth_set_nth. Qed.
Lemma set_part_twice v s w x y : part v s = Some w -> set_part (set_part v s x) s y = set_part v s y.
Proof. destruct s, v; cbn [part set_part]; try easy; now rewrite set_nth_twice. Qed.
Lemma set_part_same v s w : part v s = Some w -> set_part v s w = v.
Proof. destruct s, v; cbn [part set_part]; try easy; intro H; [now rewrite H|now rewrite set_nth_same..]. Qed.

Lemma get_path_app p : forall v q, get_path v (p ++ q) = match get_path v p with Some w => get_path w q | None => None end.
Proof. induction p as [|s p IH]; intros v q; cbn [get_path app]; [easy|]. now destruct (part v s). Qed.
Lemma get_set_path p : forall v w x, get_path v p = Some w -> get_path (set_path v p x) p = Some x.
Proof.
  induction p as [|s p IH]; intros v w x H; cbn [get_path set_path] in *; [easy|].
  destruct (part v s) as [u|] eqn:E; [|easy]. rewrite (part_set _ _ _ _ E). now apply (IH u w).
Qed.
Lemma set_path_twice p : forall v w x y, get_path v p = Some w -> set_path (set_path v p x) p y = set_path v p y.
Proof.
  induction p as [|s p IH]; intros v w x y H; cbn [get_path set_path] in *; [easy|].
  destruct (part v s) as [u|] eqn:E; [|easy]. rewrite (part_set _ _ _ _ E), (set_part_twice _ _ _ _ _ E). now rewrite (IH u w).
Qed.
Lemma set_path_same p : forall v w, get_path v p = Some w -> set_path v p w = v.
Proof.
  induction p as [|s p IH]; intros v w H; cbn [get_path set_path] in *; [congruence|].
  destruct (part v s) as [u|] eqn:E; [|easy]. rewrite (IH u w H). now apply set_part_same.
Qed.
Lemma set_path_app p : forall v w s u x, get_path v p = Some w -> part w s = Some u -> set_path v (p ++ [s]) x = set_path v p (set_part w s x).
Proof.
  induction p as [|s' p IH]; intros v w s u x H Hp; cbn [get_path set_path app] in *.
  - injection H as ->. now rewrite Hp.
  - destruct (part v s') as [v'|] eqn:E; [|easy]. now rewrite (IH v' w s u x H Hp).
Qed.

Lemma mget_app st g l v : mget st l = Some v -> mget (st ++ g) l = Some v.
Proof.
  unfold mget. destruct (nth_error st (l_var l)) as [w|] eqn:E; [|easy].
  rewrite nth_error_app1 by (apply nth_error_Some; congruence). now rewrite E.
Qed.
Lemma mset_app st g l v x : mget st l = Some v -> mset (st ++ g) l x = mset st l x ++ g.
Proof.
  unfold mget, mset. destruct (nth_error st (l_var l)) as [w|] eqn:E; [|easy]. intros _.
  rewrite nth_error_app1 by (apply nth_error_Some; congruence). rewrite E. now apply (set_nth_app _ _ _ _ w).
Qed.
Lemma mget_mset st l v x : mget st l = Some v -> mget (mset st l x) l = Some x.
Proof.
  unfold mget, mset. destruct (nth_error st (l_var l)) as [w|] eqn:E; [|easy]. intro H.
  rewrite (nth_set_nth _ _ _ _ E). now apply (get_set_path _ _ v).
Qed.
Lemma mset_mset st l v x y : mget st l = Some v -> mset (mset st l x) l y = mset st l y.
Proof.
  unfold mget, mset. destruct (nth_error st (l_var l)) as [w|] eqn:E; [|easy]. intro H.
  rewrite (nth_set_nth _ _ _ _ E), set_nth_twice. now rewrite (set_path_twice _ _ v).
Qed.
Lemma mset_same st l v : mget st l = Some v -> mset st l v = st.
Proof.
  unfold mget, mset. destruct (nth_error st (l_var l)) as [w|] eqn:E; [|easy]. intro H.
  rewrite (set_path_same _ _ _ H). now apply set_nth_same.
Qed.
Lemma mget_into st l v s : mget st l = Some v -> mget st (into l s) = part v s.
Proof.
  unfold mget, into. cbn [l_var l_path]. destruct (nth_error st (l_var l)) as [w|] eqn:E; [|easy]. intro H.
  rewrite get_path_app, H. cbn [get_path]. now destruct (part v s).
Qed.
Lemma mset_into st l v s w x : mget st l = Some v -> part v s = Some w -> mset st (into l s) x = mset st l (set_part v s x).
Proof.
  unfold mget, mset, into. cbn [l_var l_path]. destruct (nth_error st (l_var l)) as [u|] eqn:E; [|easy]. intros H Hp.
  now rewrite (set_path_app _ _ v s w).
Qed.
Definition fresh (st : mem) : loc := mkLoc (length st) [].
Lemma mget_fresh st x g : mget (st ++ x :: g) (fresh st) = Some x.
Proof. unfold mget, fresh. cbn [l_var l_path]. rewrite nth_error_app2 by lia. now rewrite Nat.sub_diag. Qed.
Lemma mset_fresh st x g y : mset (st ++ x :: g) (fresh st) y = st ++ y :: g.
Proof.
  unfold mset, fresh. cbn [l_var l_path]. rewrite nth_error_app2 by lia. rewrite Nat.sub_diag. cbn [nth_error set_path].
  apply set_nth_last.
Qed.

(** * Actions on one location *)

(** [m], started in memory [st], does to location [l] what [lm] says; new
    variables may have come into being.  After a panic the decoder's position
    is not compared. *)
Definition same (l : loc) (st : mem) (x : outcome unit * gst) (y : outcome unit * val * dst) : Prop :=
  let '(r, v, d) := y in exists g d1, x = (r, mkG d1 (mset st l v ++ g)) /\ (r <> Panic -> d1 = d).
Definition does (st : mem) (l : loc) (m : GM unit) (lm : LM val) : Prop := forall d, same l st (m (mkG d st)) (lm d).

Lemma does_ext st l m m' lm lm' : (forall s, m s = m' s) -> (forall d, lm d = lm' d) -> does st l m' lm' -> does st l m lm.
Proof. intros H1 H2 H d. rewrite H1, H2. apply H. Qed.
Lemma does_stop st l v (m : GM unit) r : mget st l = Some v -> (forall s, m s = (r, s)) -> does st l m (stop r v).
Proof. intros Hg H d. rewrite H. exists [], d. now rewrite (mset_same _ _ _ Hg), app_nil_r. Qed.
Lemma does_panic st l v (m : GM unit) (m' : DM unit) : mget st l = Some v -> (forall s, m s = (Panic, mkG (snd (m' (g_dec s))) (g_mem s))) ->
  does st l m (stop Panic v).
Proof. intros Hg H d. rewrite H. cbn [g_dec g_mem]. exists [], (snd (m' d)). now rewrite (mset_same _ _ _ Hg), app_nil_r. Qed.
Lemma does_ret st l v : mget st l = Some v -> does st l (ret tt) (done v).
Proof. intro H. now apply (does_stop _ _ _ _ (Ok tt)). Qed.
Lemma does_store st l v x : mget st l = Some v -> does st l (store l x) (done x).
Proof. intros H d. exists [], d. now rewrite app_nil_r. Qed.
Lemma does_after {A} st l v (m : DM A) k kk : mget st l = Some v -> (forall b, does st l (k b) (kk b)) ->
  does st l (x <- lift m ;; k x) (after m v kk).
Proof.
  intros Hg H d. unfold bind, lift, after. cbn [g_dec g_mem]. destruct (m d) as [[b|e| | |] d'].
  - apply H.
  - exists [], d'. now rewrite (mset_same _ _ _ Hg), app_nil_r.
  - exists [], d'. now rewrite (mset_same _ _ _ Hg), app_nil_r.
  - exists [], d'. now rewrite (mset_same _ _ _ Hg), app_nil_r.
  - exists [], d'. now rewrite (mset_same _ _ _ Hg), app_nil_r.
Qed.
Lemma does_hold st l v s w m lm : mget st l = Some v -> part v s = Some w -> does st (into l s) m lm ->
  does st l m (hold (set_part v s) lm).
Proof.
  intros Hg Hp H d. specialize (H d). unfold hold. destruct (lm d) as [[r x] d']. destruct H as (g & d1 & H & Hd).
  exists g, d1. now rewrite <- (mset_into _ _ _ _ w).
Qed.
Lemma does_seq st l v m lm k kk : mget st l = Some v -> does st l m lm ->
  (forall x g, does (mset st l x ++ g) l k (kk x)) -> does st l (m ;;; k) (next lm (fun x => x) kk).
Proof.
  intros Hg H Hk d. specialize (H d). unfold bind, next. destruct (lm d) as [[r x] d'].
  destruct H as (g & d1 & -> & Hd). destruct r as [[]|e| | |].
  - rewrite Hd by discriminate. specialize (Hk x g d'). unfold same in *. destruct (kk x d') as [[r y] d2].
    destruct Hk as (g' & d3 & Hk & Hd'). exists (g ++ g'), d3. rewrite Hk. split; [|exact Hd'].
    rewrite (mset_app _ _ _ x) by now apply (mget_mset _ _ v). rewrite (mset_mset _ _ v) by exact Hg. now rewrite app_assoc.
  - now exists g, d1.
  - now exists g, d1.
  - now exists g, d1.
  - now exists g, d1.
Qed.
Lemma does_store_then st l v x k kk : mget st l = Some v -> does (mset st l x) l k kk -> does st l (store l x ;;; k) kk.
Proof.
  intros Hg H d. specialize (H d). unfold bind, store. cbn [g_dec g_mem]. unfold same in *. destruct (kk d) as [[r y] d'].
  destruct H as (g & d1 & H & Hd). rewrite (mset_mset _ _ v) in H by exact Hg. now exists g, d1.
Qed.
(** Something done to a new variable first. *)
Lemma does_fresh st l v z m lm k kk : mget st l = Some v -> does (st ++ [z]) (fresh st) m lm ->
  (forall x g, does (st ++ x :: g) l k (kk x)) ->
  does st l (fun s => (m ;;; k) (mkG (g_dec s) (g_mem s ++ [z]))) (next lm (fun _ => v) kk).
Proof.
  intros Hg H Hk d. specialize (H d). cbn [g_dec g_mem]. unfold bind, next. destruct (lm d) as [[r x] d'].
  destruct H as (g & d1 & -> & Hd). rewrite mset_fresh, <- app_assoc. cbn [app]. destruct r as [[]|e| | |].
  - rewrite Hd by discriminate. specialize (Hk x g d'). unfold same in *. destruct (kk x d') as [[r y] d2].
    destruct Hk as (g' & d3 & Hk & Hd'). exists ((x :: g) ++ g'), d3. rewrite Hk. split; [|exact Hd'].
    rewrite (mset_app st (x :: g) _ v) by exact Hg. now rewrite <- app_assoc.
  - exists (x :: g), d1. now rewrite (mset_same _ _ _ Hg).
  - exists (x :: g), d1. now rewrite (mset_same _ _ _ Hg).
  - exists (x :: g), d1. now rewrite (mset_same _ _ _ Hg).
  - exists (x :: g), d1. now rewrite (mset_same _ _ _ Hg).
Qed.
Lemma does_load st l v l' w (k : val -> GM unit) lm : mget st l' = Some w -> does st l (k w) lm -> mget st l = Some v ->
  does st l (x <- load l' ;; k x) lm.
Proof. intros Hw H _ d. unfold bind, load. cbn [g_mem]. rewrite Hw. apply H. Qed.
Lemma does_at st l m m' lm : (forall d, m (mkG d st) = m' (mkG d st)) -> does st l m' lm -> does st l m lm.
Proof. intros H1 H d. rewrite H1. apply H. Qed.

(** * indirect *)
Definition method_at (t : ty) (l : loc) : option method :=
  match t with
  | TCodec c u => match c_unmarshal c with Some f => Some (mkMethod c u f l) | None => None end
  | _ => None
  end.
(** Types in which no interface occurs; types for which pointers in interfaces
    play no role. *)
Fixpoint no_iface (t : ty) : Prop :=
  match t with
  | TIface => False
  | TPtr t' | TArray _ t' | TSlice t' | TCodec _ t' => no_iface t'
  | TMap k v => no_iface k /\ no_iface v
  | TStruct fs => (fix go fs := match fs with [] => True | ht :: fs' => no_iface (snd ht) /\ go fs' end) fs
  | _ => True
  end.
Lemma no_iface_struct fs : no_iface (TStruct fs) <-> Forall (fun ht => no_iface (snd ht)) fs.
Proof.
  cbn [no_iface]. induction fs as [|ht fs IH]; split; intro H; try easy.
  - destruct H as [H1 H2]. constructor; [exact H1|now apply IH].
  - inversion_clear H. split; [assumption|now apply IH].
Qed.
Definition settled (named : outside) (t : ty) : Prop := go_type t /\ ((forall z, holds named z = None) \/ no_iface t).
Lemma settled_part named t t' : settled named t -> (go_type t -> go_type t') -> (no_iface t -> no_iface t') -> settled named t'.
Proof. unfold settled. tauto. Qed.
Lemma settled_codec named c u : settled named (TCodec c u) -> bare u /\ settled named u.
Proof. unfold settled. cbn [go_type no_iface]. tauto. Qed.
Lemma settled_field named fs h t : settled named (TStruct fs) -> In (h, t) fs -> settled named t.
Proof.
  intros H Hin. apply (settled_part _ _ _ H); intro H'; [apply go_type_struct in H'|apply no_iface_struct in H'];
    rewrite Forall_forall in H'; exact (H' _ Hin).
Qed.
Lemma kind_ptr t : go_type t -> is_kptr (kind_of t) = is_ptr t.
Proof. destruct t; try reflexivity. intros [Hb _]. unfold kind_of. cbn [under is_ptr]. destruct t; cbn [bare] in Hb; easy. Qed.
Lemma kind_iface named t : settled named t -> is_kiface (kind_of t) = true -> forall z, holds named z = None.
Proof.
  intros [Hg Hi] Hk. destruct Hi as [Hi|Hi]; [exact Hi|exfalso].
  destruct t; try discriminate; cbn [no_iface] in Hi; try easy. destruct Hg as [Hb _]. destruct t; cbn [bare] in Hb; easy.
Qed.
Lemma dynamic_none named t l ro d st v : settled named t -> mget st l = Some v ->
  (if is_kiface (kind_of t) then r_dynamic named (RVar t l ro) else ret None) (mkG d st) = (Ok None, mkG d st).
Proof.
  intros Hp Hm. destruct (is_kiface (kind_of t)) eqn:Ek; [|reflexivity]. pose proof (kind_iface _ _ Hp Ek) as Hh.
  unfold r_dynamic, r_load, load, bind, ret. cbn [g_mem]. rewrite Hm. destruct v as [| | | | | | | | |[z|]|]; try reflexivity. now rewrite Hh.
Qed.
Lemma itself_none named t l ro d st v : settled named t -> mget st l = Some v ->
  r_itself named (RAddr t l) (RVar t l ro) (mkG d st) = (Ok false, mkG d st).
Proof.
  intros Hp Hm. pose proof (dynamic_none named t l ro d st v Hp Hm) as H. unfold r_itself. cbn [r_kind].
  destruct (is_kiface (kind_of t)); [|reflexivity]. unfold bind. now rewrite H.
Qed.
Lemma indirect_var named fuel t l null : settled named t -> (2 <= fuel)%nat -> exists f, (fuel <= S f)%nat /\ forall d st v, mget st l = Some v ->
  indirect named fuel (RVar t l false) null (mkG d st) =
  match method_at t l with Some m => (Ok (Some m, RZero), mkG d st) | None => indirect_loop named f (RVar t l false) (RVar t l false) false null (mkG d st) end.
Proof.
  intros Hp Hf. pose proof (proj1 Hp) as Hg. unfold indirect. cbn [r_kind]. rewrite kind_ptr by exact Hg.
  destruct (is_ptr t) eqn:Ep. { exists fuel. split; [lia|]. now destruct t. }
  destruct (has_name named t) eqn:En.
  - destruct fuel as [|fuel]; [lia|]. exists fuel. split; [lia|]. intros d st v Hm. cbn [r_can_addr andb]. unfold r_type, bind at 1, ret at 1.
    rewrite En. cbn [andb r_addr r_pointer indirect_loop r_kind is_kptr is_kiface negb r_elem r_is_nil r_type r_can_set]. unfold bind at 1, ret at 1.
    unfold bind at 1, ret at 1. cbn [r_kind]. rewrite kind_ptr, Ep, andb_false_r by exact Hg.
    unfold bind at 1. rewrite (itself_none named t l false d st v Hp Hm). unfold bind, ret.
    cbn [unmarshaler]. destruct t; try reflexivity.
    cbn [method_at]. now destruct (c_unmarshal c).
  - exists fuel. split; [lia|]. intros d st v Hm. unfold bind, r_type, ret. rewrite En. cbn [andb]. now destruct t.
Qed.
Lemma indirect_addr named fuel t l : settled named t -> (2 <= fuel)%nat -> exists f, (fuel <= S f)%nat /\ forall d st v, mget st l = Some v ->
  indirect named fuel (RAddr t l) false (mkG d st) =
  match method_at t l with Some m => (Ok (Some m, RZero), mkG d st) | None => indirect_loop named f (RVar t l false) (RAddr t l) false false (mkG d st) end.
Proof.
  intros Hp Hf. destruct fuel as [|fuel]; [lia|]. exists fuel. split; [lia|]. intros d st v Hm.
  unfold indirect. cbn [r_kind is_kptr is_kiface indirect_loop negb r_elem r_is_nil r_type r_can_set]. unfold bind at 1, ret at 1. unfold bind at 1, ret at 1.
  cbn [r_kind]. rewrite andb_false_r. cbn [andb]. unfold bind at 1. rewrite (itself_none named t l false d st v Hp Hm). unfold bind, ret.
  cbn [unmarshaler]. destruct t; try reflexivity.
  cbn [method_at]. now destruct (c_unmarshal c).
Qed.
Lemma loop_end named f t l ro v0 b null d st v : settled named t -> is_ptr t = false -> t <> TDeep -> mget st l = Some v ->
  indirect_loop named (S f) (RVar t l ro) v0 b null (mkG d st) = (Ok (None, RVar t l ro), mkG d st).
Proof.
  intros Hp Hn Hd Hm. pose proof (kind_ptr t (proj1 Hp)) as Hk. rewrite Hn in Hk.
  transitivity ((p <- (if is_kiface (kind_of t) then r_dynamic named (RVar t l ro) else ret None) ;;
    match p with Some (t', l') => if negb null || is_kptr (kind_of t') then indirect_loop named f (r_pointer (r_ro (RVar t l ro)) t' l') v0 false null else ret (None, RVar t l ro)
    | None => ret (None, RVar t l ro) end) (mkG d st)).
  - cbn [indirect_loop r_kind]. rewrite Hk. cbn [negb]. destruct t; try reflexivity. congruence.
  - pose proof (dynamic_none named t l ro d st v Hp Hm) as H. destruct (is_kiface (kind_of t)); [|reflexivity]. unfold bind. now rewrite H.
Qed.
Lemma unmarshaler_ptr t l : unmarshaler (RVar (TPtr t) l false) = method_at t (into l Elem).
Proof. destruct t; reflexivity. Qed.
Lemma loop_some named f t l v0 null d st x : go_type t -> mget st l = Some (VPtr (Some x)) -> (null = true -> is_ptr t = true) ->
  indirect_loop named (S f) (RVar (TPtr t) l false) v0 false null (mkG d st) =
  match method_at t (into l Elem) with
  | Some m => (Ok (Some m, RZero), mkG d st)
  | None => indirect_loop named f (RVar t (into l Elem) false) v0 false null (mkG d st)
  end.
Proof.
  intros Hg Hm Hn. cbn [indirect_loop r_kind]. change (kind_of (TPtr t)) with KPtr. cbn [is_kptr is_kiface negb r_elem r_is_nil r_itself].
  unfold bind, load, ret at 1. cbn [g_mem]. rewrite Hm. unfold ret. cbn [r_kind]. change (elem_type (TPtr t)) with t. rewrite kind_ptr by exact Hg.
  replace (negb (is_ptr t) && null && r_can_set (RVar (TPtr t) l false)) with false.
  2:{ destruct null; [now rewrite Hn|now rewrite andb_false_r]. }
  cbn [g_mem]. rewrite Hm. cbn [r_type]. unfold ret. rewrite unmarshaler_ptr. destruct (method_at t (into l Elem)); [reflexivity|].
  cbn [g_mem]. now rewrite Hm.
Qed.
Lemma loop_none named f t l v0 d st : go_type t -> mget st l = Some (VPtr None) ->
  indirect_loop named (S f) (RVar (TPtr t) l false) v0 false false (mkG d st) =
  match method_at t (into l Elem) with
  | Some m => (Ok (Some m, RZero), mkG d (mset st l (VPtr (Some (zero_val t)))))
  | None => indirect_loop named f (RVar t (into l Elem) false) v0 false false (mkG d (mset st l (VPtr (Some (zero_val t)))))
  end.
Proof.
  intros Hg Hm. cbn [indirect_loop r_kind]. change (kind_of (TPtr t)) with KPtr. cbn [is_kptr is_kiface negb r_elem r_is_nil r_itself].
  unfold bind, load, ret at 1. cbn [g_mem]. rewrite Hm. unfold ret. cbn [r_kind is_kptr negb andb].
  cbn [g_mem]. rewrite Hm. cbn [r_type r_set]. unfold ret, store. cbn [g_dec g_mem]. change (elem_type (TPtr t)) with t.
  rewrite unmarshaler_ptr. destruct (method_at t (into l Elem)); [reflexivity|].
  cbn [g_mem]. now rewrite (mget_mset _ _ _ _ Hm).
Qed.
Lemma loop_stop named f t l v0 d st p : go_type t -> mget st l = Some (VPtr p) -> is_ptr t = false \/ p = None ->
  indirect_loop named (S f) (RVar (TPtr t) l false) v0 false true (mkG d st) = (Ok (None, RVar (TPtr t) l false), mkG d st).
Proof.
  intros Hg Hm Hp. cbn [indirect_loop r_kind]. change (kind_of (TPtr t)) with KPtr. cbn [is_kptr is_kiface negb r_elem r_is_nil r_itself].
  unfold bind, load, ret at 1. cbn [g_mem]. rewrite Hm. destruct p as [x|]; [|reflexivity]. destruct Hp as [Hp|]; [|discriminate].
  unfold ret. cbn [r_kind]. change (elem_type (TPtr t)) with t. rewrite kind_ptr, Hp by exact Hg. reflexivity.
Qed.

Definition final (t : ty) : Prop := is_ptr t = false /\ t <> TDeep /\ forall l, method_at t l = None.

Lemma loop_walk named E W o pend k t : forall fuel v st l v0, settled named t -> fits t v -> mget st l = Some v -> (ty_size t <= fuel)%nat ->
  method_at t l = None ->
  (forall t1 l1 st1 v1, final t1 -> settled named t1 -> (ty_size t1 <= ty_size t)%nat -> fits t1 v1 -> mget st1 l1 = Some v1 ->
    does st1 l1 (k (None, RVar t1 l1 false)) (dest_val E W t1 (DWalk o pend) v1)) ->
  (forall c u f l1 st1 v1, c_unmarshal c = Some f -> mget st1 l1 = Some v1 ->
    does st1 l1 (k (Some (mkMethod c u f l1), RZero)) (dest_val E W (TCodec c u) (DWalk o pend) v1)) ->
  does st l (x <- indirect_loop named fuel (RVar t l false) v0 false false ;; k x) (dest_val E W t (DWalk o pend) v).
Proof.
  induction t as [t IH] using ty_strong_ind. intros fuel v st l v0 Hg Hf Hm Hn Hmeth Kn Km.
  destruct fuel as [|fuel]; [destruct t; cbn [ty_size] in Hn; lia|].
  destruct (is_ptr t) eqn:Ep.
  - destruct t as [| | | | | | | |t| | | | | |]; try discriminate. clear Ep Hmeth.
    assert (Hgp := Hg). apply (fun H => settled_part named (TPtr t) t H (fun x => x) (fun x => x)) in Hg. cbn [ty_size] in Hn. rewrite dest_walk_eq.
    assert (Hsome : forall st x, mget st l = Some (VPtr (Some x)) -> fits t x ->
      does st l (y <- (fun s => match method_at t (into l Elem) with
                                | Some m => (Ok (Some m, RZero), s)
                                | None => indirect_loop named fuel (RVar t (into l Elem) false) v0 false false s
                                end) ;; k y) (hold (fun y => VPtr (Some y)) (dest_val E W t (DWalk o pend) x))).
    { clear st v Hf Hm. intros st x Hm Hx. apply (does_hold st l (VPtr (Some x)) Elem x); [exact Hm|reflexivity|].
      pose proof (mget_into _ _ _ Elem Hm) as Hi. cbn [part] in Hi.
      destruct (method_at t (into l Elem)) as [m|] eqn:Em.
      - destruct t as [| | | | | | | | | | | | |c u|]; try discriminate. cbn [method_at] in Em.
        destruct (c_unmarshal c) as [f|] eqn:Ec; [|discriminate]. injection Em as <-.
        apply (does_at _ _ _ (k (Some (mkMethod c u f (into l Elem)), RZero))); [reflexivity|]. now apply Km.
      - apply (IH t ltac:(cbn [ty_size]; lia)); try assumption; [lia|].
        intros t1 l1 st1 v1 H1 H2 H3. apply Kn; auto. cbn [ty_size]. lia. }
    destruct Hf as (p & -> & Hx). destruct p as [x|].
    + cbn [pointee]. eapply does_at; [|apply (Hsome st x Hm); now apply Hx].
      intro d. unfold bind at 1 2. now rewrite (loop_some named _ _ _ _ _ _ _ x (proj1 Hg) Hm).
    + cbn [pointee]. eapply does_at; [|exact (does_store_then st l (VPtr None) (VPtr (Some (zero_val t))) _ _ Hm
        (Hsome _ (zero_val t) (mget_mset _ _ _ _ Hm) (fits_zero t)))].
      intro d. unfold bind at 1 2 3. rewrite (loop_none named _ _ _ _ _ _ (proj1 Hg) Hm). reflexivity.
  - assert (Hd : t = TDeep \/ t <> TDeep) by (destruct t; (now left) || (right; discriminate)).
    destruct Hd as [->|Hd].
    + rewrite dest_walk_eq. now apply does_stop.
    + eapply does_at; [|apply (Kn t l st v); auto; split; [exact Ep|split; [exact Hd|]]].
      * intro d. unfold bind. now rewrite (loop_end named _ _ _ _ _ _ _ _ _ v).
      * intro l'. destruct t; try reflexivity. cbn [method_at] in *. now destruct (c_unmarshal c).
Qed.

Lemma loop_null named E W o k t : forall fuel v st l v0, settled named t -> fits t v -> mget st l = Some v -> (ty_size t <= fuel)%nat ->
  method_at t l = None ->
  (forall t1 l1 st1 v1, t1 <> TDeep -> (forall l, method_at t1 l = None) -> settled named t1 -> (ty_size t1 <= ty_size t)%nat -> fits t1 v1 ->
    mget st1 l1 = Some v1 -> does st1 l1 (k (None, RVar t1 l1 false)) (dest_flagged E W t1 o v1)) ->
  does st l (x <- indirect_loop named fuel (RVar t l false) v0 false true ;; k x) (dest_val E W t (DNull o) v).
Proof.
  induction t as [t IH] using ty_strong_ind. intros fuel v st l v0 Hg Hf Hm Hn Hmeth Kn.
  destruct fuel as [|fuel]; [destruct t; cbn [ty_size] in Hn; lia|].
  destruct (is_ptr t) eqn:Ep.
  - destruct t as [| | | | | | | |t| | | | | |]; try discriminate. clear Ep Hmeth.
    assert (Hgp := Hg). apply (fun H => settled_part named (TPtr t) t H (fun x => x) (fun x => x)) in Hg. cbn [ty_size] in Hn. rewrite dest_null_eq.
    assert (Hff := Hf). destruct Hf as (p & -> & Hx).
    assert (Hflag : is_ptr t = false \/ p = None -> does st l (x <- indirect_loop named (S fuel) (RVar (TPtr t) l false) v0 false true ;; k x)
                      (dest_flagged E W (TPtr t) o (VPtr p))).
    { intro H. eapply does_at; [|apply (Kn (TPtr t) l st (VPtr p)); auto; discriminate].
      intro d. unfold bind. now rewrite (loop_stop named _ _ _ _ _ _ p (proj1 Hg) Hm). }
    destruct (is_ptr t) eqn:Ep; [|apply Hflag; now left]. destruct p as [x|]; [|apply Hflag; now right].
    apply (does_hold st l (VPtr (Some x)) Elem x); [exact Hm|reflexivity|].
    pose proof (mget_into _ _ _ Elem Hm) as Hi. cbn [part] in Hi.
    eapply does_at; [|apply (IH t ltac:(cbn [ty_size]; lia) fuel x st (into l Elem) v0); auto; [lia|now destruct t|]].
    + intro d. unfold bind. rewrite (loop_some named _ _ _ _ _ _ _ x (proj1 Hg) Hm) by auto. destruct t; try discriminate. reflexivity.
    + intros t1 l1 st1 v1 H1 H2 H3 H4. apply Kn; auto. cbn [ty_size]. lia.
  - assert (Hd : t = TDeep \/ t <> TDeep) by (destruct t; (now left) || (right; discriminate)).
    destruct Hd as [->|Hd].
    + rewrite dest_null_eq. now apply does_stop.
    + replace (dest_val E W t (DNull o) v) with (dest_flagged E W t o v).
      2:{ rewrite dest_null_eq. destruct t; try reflexivity; try discriminate; try congruence.
          cbn [method_at] in Hmeth. now destruct (c_unmarshal c). }
      eapply does_at; [|apply (Kn t l st v); auto].
      * intro d. unfold bind. now rewrite (loop_end named _ _ _ _ _ _ _ _ _ v).
      * intro l'. destruct t; try reflexivity. cbn [method_at] in *. now destruct (c_unmarshal c).
Qed.

(** * More actions *)
Lemma does_wrap st l m lm : does st l m lm -> does st l (map_err EWrap m) (wrap lm).
Proof.
  intros H d. specialize (H d). unfold map_err, wrap. destruct (lm d) as [[r x] d']. destruct H as (g & d1 & -> & Hd).
  destruct r as [[]|e| | |]; exists g, d1; split; try reflexivity; try exact Hd. intros _. apply Hd. discriminate.
Qed.
Lemma does_seq_part st l v s w m lm k kk : mget st l = Some v -> part v s = Some w -> does st (into l s) m lm ->
  (forall x g, does (mset st l (set_part v s x) ++ g) l k (kk x)) -> does st l (m ;;; k) (next lm (set_part v s) kk).
Proof.
  intros Hg Hp H Hk d. specialize (H d). unfold bind, next. destruct (lm d) as [[r x] d'].
  destruct H as (g & d1 & -> & Hd). rewrite (mset_into _ _ v _ w) by assumption. destruct r as [[]|e| | |].
  - rewrite Hd by discriminate. specialize (Hk x g d'). unfold same in *. destruct (kk x d') as [[r y] d2].
    destruct Hk as (g' & d3 & Hk & Hd'). exists (g ++ g'), d3. rewrite Hk. split; [|exact Hd'].
    rewrite (mset_app _ _ _ (set_part v s x)) by now apply (mget_mset _ _ v). rewrite (mset_mset _ _ v) by exact Hg. now rewrite app_assoc.
  - now exists g, d1.
  - now exists g, d1.
  - now exists g, d1.
  - now exists g, d1.
Qed.
Lemma hold_hold {A B C} (f : B -> C) (g : A -> B) (m : LM A) d : hold f (hold g m) d = hold (fun x => f (g x)) m d.
Proof. unfold hold. now destruct (m d) as [[r a] d']. Qed.
Lemma hold_after {A B C} (f : A -> B) (m : DM C) a k d : hold f (after m a k) d = after m (f a) (fun b => hold f (k b)) d.
Proof. unfold hold, after. now destruct (m d) as [[b|e| | |] d']. Qed.
Lemma hold_next {A B C} (f : B -> C) (m : LM A) bad k d : hold f (next m bad k) d = next m (fun a => f (bad a)) (fun a => hold f (k a)) d.
Proof. unfold hold, next. now destruct (m d) as [[[[]|e| | |] a] d']. Qed.
Lemma next_same {A B} (m : LM A) (bad bad' : A -> B) k k' d : (forall a, bad a = bad' a) -> (forall a d, k a d = k' a d) ->
  next m bad k d = next m bad' k' d.
Proof. intros H1 H2. unfold next. destruct (m d) as [[[[]|e| | |] a] d']; rewrite ?H1; auto. Qed.
Lemma after_same {A B} (m : DM B) (a : A) k k' d : (forall b d, k b d = k' b d) -> after m a k d = after m a k' d.
Proof. intros H. unfold after. destruct (m d) as [[b|e| | |] d']; auto. Qed.

Lemma r_set_does st l t v x : mget st l = Some v -> does st l (r_set (RVar t l false) x) (done x).
Proof. apply does_store. Qed.
Lemma read_set_does {A} st l t v (m : DM A) f z : mget st l = Some v ->
  does st l (read_set (RVar t l false) m f z) (scalar m f z v).
Proof.
  intros Hg d. unfold read_set, catch, fmap, bind, lift, scalar, r_set, store, ret, fail. cbn [g_dec g_mem].
  destruct (m d) as [[b|e| | |] d']; cbn [g_dec g_mem blame].
  - exists [], d'. now rewrite app_nil_r.
  - exists [], d'. now rewrite app_nil_r.
  - exists [], d'. now rewrite (mset_same _ _ _ Hg), app_nil_r.
  - exists [], d'. now rewrite (mset_same _ _ _ Hg), app_nil_r.
  - exists [], d'. now rewrite (mset_same _ _ _ Hg), app_nil_r.
Qed.

(** Elements of an array. *)
Lemma array_does (body : nat -> GM unit) (f : val -> LM val) l (P : val -> Prop) :
  (forall st dn p r, mget st l = Some (VSeq (dn ++ p :: r)) -> P p -> does st (into l (Index (length dn))) (body (length dn)) (f p)) ->
  forall ps dn st, mget st l = Some (VSeq (dn ++ ps)) -> Forall P ps ->
  does st l (for_d (length ps) (length dn) body) (hold (fun xs => VSeq (dn ++ xs)) (each_dest f ps)).
Proof.
  intros Hb. induction ps as [|p ps IH]; intros dn st Hm HP.
  - cbn [length for_d each_dest]. eapply does_ext; [reflexivity| |apply (does_ret st l _ Hm)]. reflexivity.
  - inversion_clear HP. cbn [length for_d each_dest].
    assert (Hp : part (VSeq (dn ++ p :: ps)) (Index (length dn)) = Some p).
    { cbn [part]. rewrite nth_error_app2 by lia. now rewrite Nat.sub_diag. }
    assert (Hset : forall x, set_part (VSeq (dn ++ p :: ps)) (Index (length dn)) x = VSeq (dn ++ x :: ps)).
    { intro x. cbn [set_part]. now rewrite set_nth_last. }
    eapply does_ext; [reflexivity| |].
    2:{ apply (does_seq_part st l _ _ p _ _ _ (fun x => hold (fun xs => VSeq ((dn ++ [x]) ++ xs)) (each_dest f ps)) Hm Hp (Hb _ _ _ _ Hm H)).
        intros x g. rewrite Hset. specialize (IH (dn ++ [x]) (mset st l (VSeq (dn ++ x :: ps)) ++ g)).
        rewrite app_length, Nat.add_1_r in IH. apply IH; [|assumption]. rewrite <- app_assoc. cbn [app].
        apply mget_app. now apply (mget_mset _ _ _ _ Hm). }
    intro d. rewrite hold_next. apply next_same; [intro a; now rewrite Hset|]. intros a d'. rewrite hold_hold.
    unfold hold. destruct (each_dest f ps d') as [[r xs] d2]. now rewrite <- app_assoc.
Qed.

(** Elements of a slice, entries of a map. *)
Lemma new_then {A} (z : val) (k : loc -> GM A) d st : (l <- new_var z ;; k l) (mkG d st) = k (fresh st) (mkG d (st ++ [z])).
Proof. reflexivity. Qed.
Lemma slice_does (dec : rval -> GM unit) (m : LM val) t t' l :
  (forall st, does (st ++ [zero_val t]) (fresh st) (dec (RAddr t (fresh st))) m) -> elem_type t' = t ->
  forall n i acc st, mget st l = Some (VSlice (Some acc)) ->
  does st l (for_d n i (fun _ => element <- r_new (elem_type t') ;; dec element ;;; append_to (RVar t' l false) element))
    (hold (fun vs => VSlice (Some vs)) (rep_dest n m acc)).
Proof.
  intros Hm Ht. rewrite Ht. induction n as [|n IH]; intros i acc st Hg; cbn [for_d rep_dest].
  - eapply does_ext; [reflexivity| |apply (does_ret st l _ Hg)]. reflexivity.
  - eapply does_ext; [reflexivity| |].
    2:{ eapply does_at.
        2:{ apply (does_fresh st l (VSlice (Some acc)) (zero_val t) (dec (RAddr t (fresh st))) m
              (append_to (RVar t' l false) (RAddr t (fresh st)) ;;;
               for_d n (S i) (fun _ => element <- r_new t ;; dec element ;;; append_to (RVar t' l false) element))
              (fun x => hold (fun vs => VSlice (Some vs)) (rep_dest n m (acc ++ [x]))) Hg (Hm st)).
            intros x g. pose proof (mget_app st (x :: g) l _ Hg) as Hg'. pose proof (mget_fresh st x g) as Hx.
            eapply does_at; [|exact (does_store_then _ _ _ (VSlice (Some (acc ++ [x]))) _ _ Hg' (IH (S i) _ _ (mget_mset _ _ _ _ Hg')))].
            intro d. unfold bind, append_to, r_elem, r_load, load, bind, ret. cbn [g_mem]. rewrite Hx. cbn [g_mem]. now rewrite Hg'. }
        intro d. unfold bind, r_new, new_var, bind, ret. cbn [g_dec g_mem].
        change (mkLoc (List.length st) []) with (fresh st). destruct (dec (RAddr t (fresh st)) (mkG d (st ++ [zero_val t]))) as [[[]|e| | |] s']; reflexivity. }
    intro d. rewrite hold_next. now apply next_same.
Qed.
Lemma map_does (dec : rval -> GM unit) (mk mv : LM val) kt vt t' l :
  (forall st, does (st ++ [zero_val kt]) (fresh st) (dec (RVar kt (fresh st) false)) mk) ->
  (forall st, does (st ++ [zero_val vt]) (fresh st) (dec (RVar vt (fresh st) false)) mv) ->
  key_type t' = kt -> elem_type t' = vt ->
  forall n i es st, mget st l = Some (VMap (Some es)) ->
  does st l (for_d n i (fun _ =>
      key <- r_new (key_type t') ;; k <- r_elem key ;; dec k ;;;
      value <- r_new (elem_type t') ;; x <- r_elem value ;; dec x ;;;
      set_map_index (RVar t' l false) (key_type t') k x))
    (hold (fun es => VMap (Some es)) (map_dest kt n mk mv es)).
Proof.
  intros Hk Hv Hkt Hvt. rewrite Hkt, Hvt. induction n as [|n IH]; intros i es st Hg; cbn [for_d map_dest].
  - eapply does_ext; [reflexivity| |apply (does_ret st l _ Hg)]. reflexivity.
  - set (body := fun _ : nat =>
      key <- r_new kt ;; k <- r_elem key ;; dec k ;;; value <- r_new vt ;; x <- r_elem value ;; dec x ;;;
      set_map_index (RVar t' l false) kt k x) in *.
    eapply does_ext; [reflexivity| |].
    2:{ eapply does_at.
        2:{ apply (does_fresh st l (VMap (Some es)) (zero_val kt) (dec (RVar kt (fresh st) false)) mk
              ((value <- r_new vt ;; x <- r_elem value ;; dec x ;;; set_map_index (RVar t' l false) kt (RVar kt (fresh st) false) x) ;;;
               for_d n (S i) body)
              (fun k => next mv (fun _ => VMap (Some es)) (fun v => hold (fun es => VMap (Some es)) (map_dest kt n mk mv (map_set kt es k v)))) Hg (Hk st)).
            intros k g. pose proof (mget_app st (k :: g) l _ Hg) as Hg'. set (st1 := st ++ k :: g) in *.
            eapply does_at.
            2:{ apply (does_fresh st1 l (VMap (Some es)) (zero_val vt) (dec (RVar vt (fresh st1) false)) mv
                 (set_map_index (RVar t' l false) kt (RVar kt (fresh st) false) (RVar vt (fresh st1) false) ;;; for_d n (S i) body)
                 (fun v => hold (fun es => VMap (Some es)) (map_dest kt n mk mv (map_set kt es k v))) Hg' (Hv st1)).
                intros x g'. pose proof (mget_app st1 (x :: g') l _ Hg') as Hg2. pose proof (mget_fresh st1 x g') as Hx.
                assert (Hkk : mget (st1 ++ x :: g') (fresh st) = Some k) by (apply mget_app, mget_fresh).
                eapply does_at; [|exact (does_store_then _ _ _ (VMap (Some (map_set kt es k x))) _ _ Hg2 (IH (S i) _ _ (mget_mset _ _ _ _ Hg2)))].
                intro d. unfold bind, set_map_index, r_load, load, bind. cbn [g_mem]. rewrite Hkk. cbn [g_mem]. rewrite Hx. cbn [g_mem]. now rewrite Hg2. }
            intro d. unfold bind, r_new, new_var, r_elem, bind, ret. cbn [g_dec g_mem].
            change (mkLoc (List.length st1) []) with (fresh st1).
            destruct (dec (RVar vt (fresh st1) false) (mkG d (st1 ++ [zero_val vt]))) as [[[]|e| | |] s']; reflexivity. }
        intro d. unfold body at 1. unfold bind, r_new, new_var, r_elem, bind, ret. cbn [g_dec g_mem].
        change (mkLoc (List.length st) []) with (fresh st).
        destruct (dec (RVar kt (fresh st) false) (mkG d (st ++ [zero_val kt]))) as [[[]|e| | |] s']; reflexivity. }
    intro d. rewrite hold_next. apply next_same; [reflexivity|]. intros k d'. rewrite hold_next. now apply next_same.
Qed.

(** Own methods. *)
Lemma same_later l st v y g0 r s : mget st l = Some v -> same l (mset st l y ++ g0) r s -> same l st r s.
Proof.
  intros Hg H. unfold same in *. destruct s as [[o x] d]. destruct H as (g & d1 & -> & Hd). exists (g0 ++ g), d1.
  rewrite (mset_app _ _ _ y) by now apply (mget_mset _ _ v). rewrite (mset_mset _ _ v) by exact Hg. now rewrite app_assoc.
Qed.
Lemma call_does W st l v c u f : mget st l = Some v -> does st l (call_unmarshaler W (mkMethod c u f l)) (own W c u f v).
Proof.
  intros Hg d. unfold call_unmarshaler, own, bind, load. cbn [m_recv m_fun m_codec m_under g_mem]. rewrite Hg. cbn [g_dec g_mem].
  destruct (f v d) as [[x|e| | |] d']; unfold store; cbn [g_dec g_mem blame]; exists [], d'; now rewrite app_nil_r.
Qed.
Lemma borsh_own_none W v ft : borsh_field_unmarshaler ft = None -> borsh_own W v ft = None.
Proof. destruct ft as [| | | | | | | |t| | | | |c u|]; try easy; cbn; [destruct t; try easy|]; now destruct (c_unmarshal c). Qed.
Lemma borsh_own_does W st l vv i w ft mm : borsh_field_unmarshaler ft = Some mm -> mget st l = Some vv -> part vv (Field i) = Some w ->
  exists m, borsh_own W (RVar ft (into l (Field i)) false) ft = Some m /\
    forall k kk, (forall x g, does (mset st l (set_part vv (Field i) x) ++ g) l k (kk x)) -> does st l (m ;;; k) (after mm vv kk).
Proof.
  intros Hb Hg Hp.
  destruct ft as [| | | | | | | |t| | | | |c u|]; try discriminate; cbn [borsh_field_unmarshaler] in Hb.
  - destruct t as [| | | | | | | | | | | | |c u|]; try discriminate. cbn [borsh_own]. destruct (c_unmarshal c) as [f|] eqn:Ec; [|discriminate].
    injection Hb as <-. eexists. split; [reflexivity|]. intros k kk Hk d.
    unfold bind, r_new, new_var, bind, ret. cbn [unmarshaler g_dec g_mem]. rewrite Ec. change (mkLoc (List.length st) []) with (fresh st).
    unfold call_unmarshaler, load, bind. cbn [m_recv m_fun m_codec m_under g_mem]. rewrite mget_fresh. cbn [g_dec g_mem].
    unfold after, fmap, bind, ret. cbn [zero_val]. destruct (f (zero_val u) d) as [[x|e| | |] d']; unfold store; cbn [g_dec g_mem blame].
    + rewrite mset_fresh. unfold r_elem, r_load, r_set, ret, load, store. cbn [g_dec g_mem]. rewrite mget_fresh. cbn [g_dec g_mem].
      rewrite (mset_app _ _ _ w) by now rewrite (mget_into _ _ _ _ Hg). rewrite (mset_into _ _ vv _ w) by assumption.
      apply (same_later _ _ _ (set_part vv (Field i) (VPtr (Some x))) [x] _ _ Hg). apply Hk.
    + rewrite mset_fresh. eexists [_], d'. now rewrite (mset_same _ _ _ Hg).
    + rewrite mset_fresh. eexists [_], d'. now rewrite (mset_same _ _ _ Hg).
    + rewrite mset_fresh. eexists [_], d'. now rewrite (mset_same _ _ _ Hg).
    + rewrite mset_fresh. eexists [_], d'. now rewrite (mset_same _ _ _ Hg).
  - cbn [borsh_own]. destruct (c_unmarshal c) as [f|] eqn:Ec; [|discriminate].
    injection Hb as <-. eexists. split; [reflexivity|]. intros k kk Hk d.
    unfold bind, r_new, new_var, bind, ret. cbn [unmarshaler g_dec g_mem]. rewrite Ec. change (mkLoc (List.length st) []) with (fresh st).
    unfold call_unmarshaler, load, bind. cbn [m_recv m_fun m_codec m_under g_mem]. rewrite mget_fresh. cbn [g_dec g_mem].
    unfold after. cbn [zero_val]. destruct (f (zero_val u) d) as [[x|e| | |] d']; unfold store; cbn [g_dec g_mem blame].
    + rewrite mset_fresh. unfold r_elem, r_load, r_set, ret, load, store. cbn [g_dec g_mem]. rewrite mget_fresh. cbn [g_dec g_mem].
      rewrite (mset_app _ _ _ w) by now rewrite (mget_into _ _ _ _ Hg). rewrite (mset_into _ _ vv _ w) by assumption.
      apply (same_later _ _ _ (set_part vv (Field i) x) [x] _ _ Hg). apply Hk.
    + rewrite mset_fresh. eexists [_], d'. now rewrite (mset_same _ _ _ Hg).
    + rewrite mset_fresh. eexists [_], d'. now rewrite (mset_same _ _ _ Hg).
    + rewrite mset_fresh. eexists [_], d'. now rewrite (mset_same _ _ _ Hg).
    + rewrite mset_fresh. eexists [_], d'. now rewrite (mset_same _ _ _ Hg).
Qed.

(** Fields of a struct. *)
Definition go_field E W (dec : rval -> fopt -> GM unit) (v : rval) (ft : ty) (tg : field_tag) (size : option Z) : GM bool :=
  let o := mkOpt (ft_option tg) (is_borsh E && ft_coption tg) size (ft_order tg) in
  match (if is_borsh E then borsh_own W v ft else None) with
  | Some m => m ;;; ret false
  | None => map_err EWrap (dec v o) ;;; ret true
  end.
Lemma gassoc {A B C} (m : GM A) (f : A -> GM B) (g : B -> GM C) s : bind (bind m f) g s = bind m (fun a => bind (f a) g) s.
Proof. unfold bind. destruct (m s) as [[a|e| | |] s']; reflexivity. Qed.

Lemma fields_does E W dec rec l rt fs : type_fields rt = fs ->
  (forall i h t o st p, nth_error fs i = Some (h, t) -> fits t p -> mget st (into l (Field i)) = Some p ->
     does st (into l (Field i)) (dec (RVar t (into l (Field i)) false) o) (rec t o p)) ->
  forall fs2 fs1 dn ps sizes seen st, fs = fs1 ++ fs2 -> length dn = length fs1 -> fits_fields fits fs2 ps ->
  mget st l = Some (VStruct (dn ++ ps)) ->
  does st l (fields_loop (go_field E W dec) (RVar rt l false) rt (length fs2) (length fs1) sizes seen)
    (hold (fun xs => VStruct (dn ++ xs)) (dest_fields E rec fs2 ps sizes seen)).
Proof.
  intros Hfs Hdec. induction fs2 as [|[h t] fs2 IH]; intros fs1 dn ps sizes seen st Heq Hl Hf Hm.
  - destruct ps; [|easy]. cbn [length fields_loop dest_fields]. eapply does_ext; [reflexivity| |apply (does_ret st l _ Hm)]. reflexivity.
  - destruct ps as [|p ps]; [easy|]. cbn [fits_fields snd] in Hf. destruct Hf as [Hp Hf].
    assert (Hnth : nth_error fs (length fs1) = Some (h, t)).
    { rewrite Heq, nth_error_app2 by lia. now rewrite Nat.sub_diag. }
    assert (Hpart : forall x, part (VStruct (dn ++ x :: ps)) (Field (length fs1)) = Some x).
    { intro x. cbn [part]. rewrite <- Hl, nth_error_app2 by lia. now rewrite Nat.sub_diag. }
    assert (Hset : forall x, set_part (VStruct (dn ++ p :: ps)) (Field (length fs1)) x = VStruct (dn ++ x :: ps)).
    { intro x. cbn [set_part]. now rewrite <- Hl, set_nth_last. }
    assert (IH' : forall x sz sn st, mget st l = Some (VStruct (dn ++ x :: ps)) ->
      does st l (fields_loop (go_field E W dec) (RVar rt l false) rt (length fs2) (S (length fs1)) sz sn)
        (hold (fun xs => VStruct (dn ++ xs)) (hold (cons x) (dest_fields E rec fs2 ps sz sn)))).
    { intros x sz sn st' Hm'. specialize (IH (fs1 ++ [(h, t)]) (dn ++ [x]) ps sz sn st').
      rewrite <- !app_assoc, !app_length, !Nat.add_1_r in IH. cbn [app] in IH.
      eapply does_ext; [reflexivity| |apply IH; auto; lia].
      intro d. rewrite hold_hold. unfold hold. destruct (dest_fields E rec fs2 ps sz sn d) as [[r xs] d2]. now rewrite <- app_assoc. }
    cbn [length fields_loop dest_fields]. cbv zeta. rewrite Hfs, Hnth. set (tg := parse_field_tag (f_tag h)).
    destruct (ft_skip tg); [now apply IH'|]. destruct (negb (ft_ext tg) && seen).
    { eapply does_ext; [reflexivity| |apply (does_stop st l _ panic Panic Hm); reflexivity]. reflexivity. }
    match goal with |- does st l (if _ then _ else ?b) (hold _ (if _ then _ else ?b')) =>
      assert (Hb : does st l b (hold (fun xs => VStruct (dn ++ xs)) b')) end.
    { cbn [r_field r_can_set r_can_addr orb]. destruct (f_exported h) eqn:Ex; cbn [negb andb].
      2:{ cbn [r_addr r_can_set negb]. now apply IH'. }
      cbn [r_can_set negb].
      assert (Hn : does st l
        (heed <- (map_err EWrap (dec (RVar t (into l (Field (length fs1))) false) (field_opt E tg (f_name h) sizes)) ;;; ret true) ;;
         if heed && negb (String.eqb (ft_sizeof tg) "") then
           x <- r_load (RVar t (into l (Field (length fs1))) false) ;;
           match sizeof_val t x with
           | None => panic
           | Some size => fields_loop (go_field E W dec) (RVar rt l false) rt (length fs2) (S (length fs1)) ((ft_sizeof tg, size) :: sizes) (seen || ft_ext tg)
           end
         else fields_loop (go_field E W dec) (RVar rt l false) rt (length fs2) (S (length fs1)) sizes (seen || ft_ext tg))
        (hold (fun xs => VStruct (dn ++ xs))
          (next (wrap (rec t (field_opt E tg (f_name h) sizes) p)) (fun x => x :: ps) (fun x =>
           if String.eqb (ft_sizeof tg) "" then hold (cons x) (dest_fields E rec fs2 ps sizes (seen || ft_ext tg))
           else match sizeof_val t x with
                | None => stop Panic (x :: ps)
                | Some n => hold (cons x) (dest_fields E rec fs2 ps ((ft_sizeof tg, n) :: sizes) (seen || ft_ext tg))
                end)))).
      { eapply does_ext; [intro s; apply gassoc|intro d; apply hold_next|].
        eapply does_ext; [reflexivity| |].
        2:{ apply (does_seq_part st l _ (Field (length fs1)) p _ (wrap (rec t (field_opt E tg (f_name h) sizes) p)) _ (fun x => hold (fun xs => VStruct (dn ++ xs))
              (if String.eqb (ft_sizeof tg) "" then hold (cons x) (dest_fields E rec fs2 ps sizes (seen || ft_ext tg))
               else match sizeof_val t x with
                    | None => stop Panic (x :: ps)
                    | Some n => hold (cons x) (dest_fields E rec fs2 ps ((ft_sizeof tg, n) :: sizes) (seen || ft_ext tg))
                    end)) Hm (Hpart p)).
            - apply does_wrap. apply (Hdec _ h); auto. rewrite (mget_into _ _ _ _ Hm). apply Hpart.
            - intros x g. rewrite Hset. assert (Hm2 : mget (mset st l (VStruct (dn ++ x :: ps)) ++ g) l = Some (VStruct (dn ++ x :: ps))).
              { apply mget_app. now apply (mget_mset _ _ _ _ Hm). }
              set (st2 := mset st l (VStruct (dn ++ x :: ps)) ++ g) in *.
              apply (does_at _ _ _ (if true && negb (String.eqb (ft_sizeof tg) "") then
                x <- r_load (RVar t (into l (Field (length fs1))) false) ;;
                match sizeof_val t x with
                | None => panic
                | Some size => fields_loop (go_field E W dec) (RVar rt l false) rt (length fs2) (S (length fs1)) ((ft_sizeof tg, size) :: sizes) (seen || ft_ext tg)
                end
                else fields_loop (go_field E W dec) (RVar rt l false) rt (length fs2) (S (length fs1)) sizes (seen || ft_ext tg))); [reflexivity|].
              cbn [andb]. destruct (String.eqb (ft_sizeof tg) ""); cbn [negb]; [now apply IH'|].
              cbn [r_load]. apply (does_load _ _ (VStruct (dn ++ x :: ps)) _ x); [rewrite (mget_into _ _ _ _ Hm2); apply Hpart| |exact Hm2].
              destruct (sizeof_val t x); [now apply IH'|].
              eapply does_ext; [reflexivity| |apply (does_stop st2 l _ panic Panic Hm2); reflexivity]. reflexivity. }
        intro d. apply next_same; [intro; now rewrite Hset|reflexivity]. }
      unfold go_field at 1. cbv zeta. unfold field_opt in *. destruct (is_borsh E) eqn:Eb.
      2:{ exact Hn. }
      destruct (borsh_field_unmarshaler t) as [mm|] eqn:Em.
      2:{ rewrite (borsh_own_none W _ t Em). exact Hn. }
      destruct (borsh_own_does W st l _ _ p t mm Em Hm (Hpart p)) as (m & -> & Hown).
      eapply does_ext; [|intro d; apply hold_after|
        apply (Hown (fields_loop (go_field E W dec) (RVar rt l false) rt (length fs2) (S (length fs1)) sizes (seen || ft_ext tg))
                    (fun x => hold (fun xs => VStruct (dn ++ xs)) (hold (cons x) (dest_fields E rec fs2 ps sizes (seen || ft_ext tg)))))].
      { intro s. unfold bind. now destruct (m s) as [[[]|e| | |] s']. }
      intros x g. rewrite Hset. apply IH'. apply mget_app. now apply (mget_mset _ _ _ _ Hm). }
    destruct (ft_ext tg) eqn:Ee; [|exact Hb].
    eapply does_ext; [reflexivity|intro d; apply hold_after|]. apply does_after; [exact Hm|].
    intros [|b rest]; [now apply IH'|]. cbn [zlen]. exact Hb.
Qed.

Lemma variant_eq rec n : forall fs ps, length fs = length ps -> forall d,
  dest_variant rec fs ps n d =
  match nth_error fs n, nth_error ps n with
  | Some (h, t), Some p => if negb (f_exported h) then after (d_set_cur LE ;;; dec_sealed t p) ps (fun _ => done ps) d else hold (set_nth ps n) (rec t opt0 p) d
  | _, _ => stop (Err EMsg) ps d
  end.
Proof.
  induction n as [|n IH]; intros [|[h t] fs] [|p ps] Hl d; try discriminate; try reflexivity.
  - cbn [dest_variant nth_error]. now destruct (negb (f_exported h)).
  - cbn [dest_variant nth_error]. injection Hl as Hl. unfold hold at 1. rewrite IH by exact Hl.
    destruct (nth_error fs n) as [[h' t']|]; [|reflexivity]. destruct (nth_error ps n) as [q|]; [|reflexivity].
    destruct (negb (f_exported h')); [unfold hold, after, done; now destruct ((d_set_cur LE ;;; dec_sealed t' q) d) as [[]]|]. unfold hold. now destruct (rec t' opt0 q d) as [[r x] d'].
Qed.

(** * Values that cannot be set *)

(** [m] does what [dm] says, and the memory stays as it is.  After a panic the
    decoder's position is not compared. *)
Definition idle (st : mem) (m : GM unit) (dm : DM unit) : Prop :=
  forall d, exists d1, m (mkG d st) = (fst (dm d), mkG d1 st) /\ (fst (dm d) <> Panic -> d1 = snd (dm d)).
Lemma idle_does st l v m dm : mget st l = Some v -> idle st m dm -> does st l m (after dm v (fun _ => done v)).
Proof.
  intros Hg H d. destruct (H d) as (d1 & H1 & H2). unfold same, after, done. destruct (dm d) as [[[]|e| | |] d']; cbn [fst snd] in *;
    exists [], d1; rewrite app_nil_r, (mset_same _ _ _ Hg); auto.
Qed.
Lemma idle_ext st m m' dm dm' : (forall d, m (mkG d st) = m' (mkG d st)) -> (forall d, dm d = dm' d) -> idle st m' dm' -> idle st m dm.
Proof. intros H1 H2 H d. rewrite H1, H2. apply H. Qed.
Lemma idle_ret st : idle st (ret tt) (ret tt).
Proof. intro d. now exists d. Qed.
Lemma idle_fail st e : idle st (fail e) (fail e).
Proof. intro d. now exists d. Qed.
Lemma idle_deep st : idle st deep deep.
Proof. intro d. now exists d. Qed.
Lemma idle_panic st : idle st panic panic.
Proof. intro d. now exists d. Qed.
Lemma idle_lift {A} st (m : DM A) k kk : (forall x, idle st (k x) (kk x)) -> idle st (x <- lift m ;; k x) (x <- m ;; kk x).
Proof.
  intros H d. unfold bind, lift. cbn [g_dec g_mem]. destruct (m d) as [[b|e| | |] d']; [apply H|now exists d'..].
Qed.
Lemma idle_bind st m dm k kk : idle st m dm -> idle st k kk -> idle st (m ;;; k) (dm ;;; kk).
Proof.
  intros H Hk d. destruct (H d) as (d1 & H1 & H2). unfold bind. rewrite H1. destruct (dm d) as [[[]|e| | |] d']; cbn [fst snd] in *.
  - rewrite H2 by discriminate. apply Hk.
  - now exists d1.
  - now exists d1.
  - now exists d1.
  - now exists d1.
Qed.
Lemma read_set_idle {A} st t l (m : DM A) f z : idle st (read_set (RVar t l true) m f z) (hopeless m).
Proof.
  intro d. unfold read_set, catch, fmap, hopeless, then_panic, bind, lift, r_set, ret, fail, panic. cbn [g_dec g_mem].
  destruct (m d) as [[b|e| | |] d']; cbn [fst snd]; now exists d'.
Qed.
Lemma fields_idle field st rt l rec fs : type_fields rt = fs -> forall fs2 fs1 ps sizes seen, fs = fs1 ++ fs2 -> length fs2 = length ps ->
  idle st (fields_loop field (RVar rt l true) rt (length fs2) (length fs1) sizes seen)
    (dec_fields Borsh rec (hide fs2) ps sizes seen ;;; ret tt).
Proof.
  intro Hfs. induction fs2 as [|[h t] fs2 IH]; intros fs1 [|p ps] sizes seen Heq Hl; try discriminate Hl; [apply idle_ret|].
  assert (Hnth : nth_error fs (length fs1) = Some (h, t)).
  { rewrite Heq, nth_error_app2 by lia. now rewrite Nat.sub_diag. }
  cbn [length fields_loop hide map dec_fields fst snd f_tag f_exported f_name]. fold (hide fs2). cbv zeta. rewrite Hfs, Hnth.
  assert (Hk : forall sn, idle st (fields_loop field (RVar rt l true) rt (length fs2) (S (length fs1)) sizes sn)
    (fmap (cons p) (dec_fields Borsh rec (hide fs2) ps sizes sn) ;;; ret tt)).
  { intro sn. specialize (IH (fs1 ++ [(h, t)]) ps sizes sn). rewrite app_length, Nat.add_1_r in IH. cbn [length] in IH.
    eapply idle_ext; [reflexivity| |apply IH; [now rewrite <- app_assoc|now injection Hl]].
    intro d. unfold fmap, bind, ret. destruct (dec_fields Borsh rec (hide fs2) ps sizes sn d) as [[x|e| | |] d']; reflexivity. }
  destruct (ft_skip _); [apply Hk|]. destruct (_ && seen); [apply idle_panic|].
  cbn [r_field r_can_set r_can_addr orb negb andb r_addr r_pointer]. cbn [r_can_set negb].
  destruct (ft_ext _); [|apply Hk].
  eapply idle_ext; [reflexivity| |apply (idle_lift st d_rest _ (fun _ => fmap (cons p) (dec_fields Borsh rec (hide fs2) ps sizes (seen || true)) ;;; ret tt))].
  2: { intros [|b rest]; [|cbn [zlen]]; apply Hk. }
  intro d. unfold bind at 1 2 3. destruct (d_rest d) as [[[|b rest]|e| | |] d']; reflexivity.
Qed.
Lemma array_idle (body : nat -> GM unit) (f : val -> DM unit) st ps : forall dn,
  (forall i p, nth_error (dn ++ ps) i = Some p -> idle st (body i) (f p)) ->
  idle st (for_d (length ps) (length dn) body) (each_dec f ps ;;; ret tt).
Proof.
  induction ps as [|p ps IH]; intros dn H; cbn [length for_d each_dec]; [apply idle_ret|].
  specialize (IH (dn ++ [p])). rewrite app_length, Nat.add_1_r in IH.
  eapply idle_ext; [reflexivity| |apply (idle_bind _ _ (f p) _ (each_dec f ps ;;; ret tt))].
  - intro d. unfold bind, ret. destruct (f p d) as [[x|e| | |] d1]; try reflexivity. now destruct (each_dec f ps d1) as [[y|e| | |] d2].
  - apply H. rewrite nth_error_app2 by lia. now rewrite Nat.sub_diag.
  - apply IH. intros i q Hq. apply H. now rewrite <- app_assoc in Hq.
Qed.
Lemma loop_idle named k t : forall fuel v st l v0, settled named t -> fits t v -> mget st l = Some v -> (ty_size t <= fuel)%nat ->
  (forall t1 l1 v1, is_ptr t1 = false -> t1 <> TDeep -> settled named t1 -> (ty_size t1 <= ty_size t)%nat -> fits t1 v1 -> mget st l1 = Some v1 ->
    idle st (k (None, RVar t1 l1 true)) (dec_sealed t1 v1)) ->
  idle st (x <- indirect_loop named fuel (RVar t l true) v0 false false ;; k x) (dec_sealed t v).
Proof.
  induction t as [t IH] using ty_strong_ind. intros fuel v st l v0 Hg Hf Hm Hn Kn.
  destruct fuel as [|fuel]; [destruct t; cbn [ty_size] in Hn; lia|].
  destruct (is_ptr t) eqn:Ep.
  - destruct t as [| | | | | | | |t| | | | | |]; try discriminate. clear Ep.
    apply (fun H => settled_part named (TPtr t) t H (fun x => x) (fun x => x)) in Hg. cbn [ty_size] in Hn.
    destruct Hf as (p & -> & Hx). cbn [dec_sealed]. destruct p as [x|].
    + pose proof (mget_into _ _ _ Elem Hm) as Hi. cbn [part] in Hi.
      eapply idle_ext; [|reflexivity|apply (IH t ltac:(cbn [ty_size]; lia) fuel x st (into l Elem) v0); auto; [lia|]].
      * intro d. cbn [indirect_loop r_kind]. change (kind_of (TPtr t)) with KPtr. cbn [is_kptr is_kiface negb r_elem r_is_nil r_itself].
        unfold bind, load, ret at 1. cbn [g_mem]. rewrite Hm. unfold ret. cbn [r_kind]. change (elem_type (TPtr t)) with t.
        rewrite andb_false_r. cbn [andb g_mem]. rewrite Hm. cbn [r_type]. unfold ret.
        replace (unmarshaler (RVar (TPtr t) l true)) with (@None method) by (now destruct t). cbn [g_mem]. now rewrite Hm.
      * intros t1 l1 v1 H1 H2 H3 H4. apply Kn; auto. cbn [ty_size]. lia.
    + eapply idle_ext; [|reflexivity|apply idle_panic].
      intro d. unfold bind at 1. cbn [indirect_loop r_kind]. change (kind_of (TPtr t)) with KPtr. cbn [is_kptr is_kiface negb r_elem r_is_nil r_itself].
      unfold bind, load, ret at 1. cbn [g_mem]. rewrite Hm. unfold ret. cbn [r_kind is_kptr negb andb g_mem]. rewrite Hm. reflexivity.
  - assert (Hd : t = TDeep \/ t <> TDeep) by (destruct t; (now left) || (right; discriminate)).
    destruct Hd as [->|Hd]; [apply idle_deep|].
    eapply idle_ext; [|reflexivity|apply (Kn t l v); auto].
    intro d. unfold bind. now rewrite (loop_end named _ _ _ _ _ _ _ _ _ v).
Qed.
Lemma indirect_ro named fuel t l : settled named t -> (2 <= fuel)%nat -> exists f, (fuel <= S f)%nat /\ forall d st v, mget st l = Some v ->
  indirect named fuel (RVar t l true) false (mkG d st) = indirect_loop named f (RVar t l true) (RVar t l true) false false (mkG d st).
Proof.
  intros Hp Hf. pose proof (proj1 Hp) as Hg. unfold indirect. cbn [r_kind]. rewrite kind_ptr by exact Hg.
  destruct (is_ptr t) eqn:Ep. { exists fuel. split; [lia|]. now destruct t. }
  destruct (has_name named t) eqn:En.
  - destruct fuel as [|fuel]; [lia|]. exists fuel. split; [lia|]. intros d st v Hm. cbn [r_can_addr andb]. unfold r_type, bind at 1, ret at 1.
    rewrite En. cbn [andb r_addr r_pointer indirect_loop r_kind is_kptr is_kiface negb r_elem r_is_nil r_type r_can_set]. unfold bind at 1, ret at 1.
    unfold bind at 1, ret at 1. cbn [r_kind]. rewrite kind_ptr, Ep, andb_false_r by exact Hg.
    unfold bind at 1. change (r_itself named (RAddrRo t l) (RVar t l true)) with (r_itself named (RAddr t l) (RVar t l true)).
    rewrite (itself_none named t l true d st v Hp Hm). reflexivity.
  - exists fuel. split; [lia|]. intros d st v Hm. unfold bind, r_type, ret. rewrite En. cbn [andb]. now destruct t.
Qed.

(** * The three decoders as one *)
Definition goD E W named fuel : rval -> option fopt -> GM unit :=
  match E with Bin => decodeBin W named fuel | CompactU16 => decodeCompactU16 W named fuel | Borsh => decodeBorsh W named fuel end.
Definition goDS E W named fuel : ty -> rval -> GM unit :=
  match E with
  | Bin => decodeStructBin W named fuel
  | CompactU16 => decodeStructCompactU16 W named fuel
  | Borsh => decodeStructBorsh W named fuel
  end.
Definition d_switch E W named fuel (rt : ty) (rv : rval) (o : fopt) : GM unit :=
  match r_kind rv with
  | KString => s <- lift (read_str E) ;; r_set rv (VStr s)
  | KUint w => read_set rv (read_uintw w (scalar_order E (o_order o))) VNum (VNum 0)
  | KInt w => read_set rv (read_intw w (scalar_order E (o_order o))) VNum (VNum 0)
  | KFloat f => read_set rv (read_float f (scalar_order E (o_order o))) (fun b => VFloat (f32_through64 f b)) (VFloat 0)
  | KBool => read_set rv read_bool VBool (VBool false)
  | KInterface => ret tt
  | KArray =>
      match uint_kind (elem_type rt) with
      | Some k => read_array k (type_len rt) rv
      | None => for_d (Z.to_nat (type_len rt)) 0 (fun i => goD E W named fuel (r_index rv i) None)
      end
  | KSlice =>
      l <- match o_size o with Some l => ret l | None => lift (read_count E) end ;;
      if is_borsh E && (l =? 0) then ret tt
      else
        remaining <- lift d_remaining ;;
        if remaining <? l then fail EUnexpectedEOF
        else
          match uint_kind (elem_type rt) with
          | Some k => read_array k l rv
          | None => slice_loop (fun x => goD E W named fuel x None) rv rt l
          end
  | KStruct => goDS E W named fuel rt rv
  | KMap =>
      l <- lift (read_count E) ;;
      if l =? 0 then ret tt else map_loop (fun x => goD E W named fuel x None) rv rt l
  | KDeep => deep
  | _ => fail EMsg
  end.
Definition go_rest E W named fuel (o : fopt) (ur : option method * rval) : GM unit :=
  let '(u, rv) := ur in
  match u with
  | Some m => call_unmarshaler W m
  | None => rt <- r_type rv ;; d_switch E W named fuel rt rv o
  end.
Definition raw_flag E : DM bool :=
  match E with
  | Bin => fmap (fun n => negb (n =? 0)) (read_uint 4 LE)
  | CompactU16 => fmap (fun n => negb (n =? 0)) read_byte
  | Borsh => read_option
  end.
Definition go_flag named fuel (m : DM bool) (k : option method * rval -> GM unit) (ur : option method * rval) : GM unit :=
  let '(_, rv) := ur in
  isPresent <- catch (lift m) (fun _ => r_type rv ;;; fail EMsg) ;;
  if negb isPresent then t <- r_type rv ;; r_set rv (zero_val t)
  else ur <- indirect named fuel rv false ;; k ur.
Definition go_coption E W named fuel (o : fopt) (ur : option method * rval) : GM unit :=
  if is_borsh E && o_copt o then go_flag named fuel read_coption (go_rest E W named fuel o) ur else go_rest E W named fuel o ur.
Definition go_top E W named fuel (o : fopt) (ur : option method * rval) : GM unit :=
  if o_opt o then go_flag named fuel (raw_flag E) (go_coption E W named fuel o) ur else go_coption E W named fuel o ur.

Lemma gbind_same {A B} (m : GM A) (k k' : A -> GM B) s : (forall a s', k a s' = k' a s') -> (x <- m ;; k x) s = (x <- m ;; k' x) s.
Proof. intros Hk. unfold bind. destruct (m s) as [[a|e| | |] s1]; auto. Qed.
Lemma flag_same (m : DM Z) rv (a b b' : GM unit) s : (forall s, b s = b' s) ->
  (x <- catch (lift m) (fun _ => r_type rv ;;; fail EMsg) ;; if x =? 0 then a else b) s =
  (x <- catch (lift (fmap (fun n => negb (n =? 0)) m)) (fun _ => r_type rv ;;; fail EMsg) ;; if negb x then a else b') s.
Proof.
  intro H. unfold bind, catch, lift, fmap, bind, ret, fail. destruct (m (g_dec s)) as [[z|e| | |] d]; try reflexivity.
  - cbn [negb]. rewrite Bool.negb_involutive. destruct (z =? 0); [reflexivity|]. apply H.
  - destruct rv; reflexivity.
Qed.
Ltac to_rest := let ur := fresh "ur" in let rv := fresh "rv" in let rt := fresh "rt" in let s := fresh "s" in
  intros ur s; destruct ur as [[?m|] rv]; [reflexivity|]; unfold go_rest; apply gbind_same; intros rt s'; unfold d_switch;
  destruct (r_kind rv) as [| |[]|[]| | | | | | | | | | |]; reflexivity.
Lemma goD_eq E W named fuel rv opt s : goD E W named (S fuel) rv opt s =
  (lift (d_set_cur (o_order (or_default opt))) ;;;
   ur <- indirect named fuel rv (o_opt (or_default opt) || (is_borsh E && o_copt (or_default opt))) ;;
   go_top E W named fuel (or_default opt) ur) s.
Proof.
  set (o := or_default opt). unfold go_top, go_coption, go_flag.
  destruct E; unfold goD; cbn [decodeBin decodeCompactU16 decodeBorsh is_borsh andb raw_flag]; cbv zeta; fold o;
    rewrite ?orb_false_r; apply gbind_same; intros _ s1; apply gbind_same.
  - destruct (o_opt o); [|to_rest]. intros [u rv'] s2. apply flag_same. intro s3. apply gbind_same. to_rest.
  - destruct (o_opt o); [|to_rest]. intros [u rv'] s2. apply flag_same. intro s3. apply gbind_same. to_rest.
  - destruct (o_opt o).
    + intros [u rv'] s2. apply gbind_same. intros b s3. destruct b; [cbn [negb]|reflexivity]. apply gbind_same.
      destruct (o_copt o); [|to_rest]. intros [u2 rv2] s4. apply gbind_same. intros b s5. destruct b; [cbn [negb]|reflexivity]. apply gbind_same. to_rest.
    + destruct (o_copt o); [|to_rest]. intros [u2 rv2] s4. apply gbind_same. intros b s5. destruct b; [cbn [negb]|reflexivity]. apply gbind_same. to_rest.
Qed.

(** * Agreement *)
Definition decodes E W named (t : ty) : Prop :=
  forall v o st l fuel, fits t v -> mget st l = Some v -> (3 * ty_size t <= fuel)%nat ->
    does st l (goD E W named fuel (RVar t l false) (Some o)) (dest_val E W t (DStart o) v) /\
    does st l (goD E W named fuel (RAddr t l) None) (dest_val E W t (DStart opt0) v).
Lemma goD_none E W named fuel rv s : goD E W named fuel rv None s = goD E W named fuel rv (Some opt0) s.
Proof. destruct fuel; [now destruct E|]. now rewrite !goD_eq. Qed.
Lemma does_none E W named t st l fuel v : decodes E W named t -> fits t v -> mget st l = Some v -> (3 * ty_size t <= fuel)%nat ->
  does st l (goD E W named fuel (RVar t l false) None) (dest_val E W t (DStart opt0) v).
Proof. intros H Hf Hm Hn. eapply does_ext; [intro s; apply goD_none|reflexivity|]. now apply H. Qed.

Lemma fits_fields_nth fs : forall vs i h t p, fits_fields fits fs vs -> nth_error fs i = Some (h, t) -> nth_error vs i = Some p -> fits t p.
Proof.
  induction fs as [|[h t] fs IH]; intros [|v vs] [|i] h' t' p Hf H1 H2; try discriminate; cbn [fits_fields snd nth_error] in *; try easy.
  - destruct Hf as [Hf _]. congruence.
  - destruct Hf as [_ Hf]. now apply (IH vs i h').
Qed.
Lemma ff_length fs : forall vs, fits_fields fits fs vs -> length vs = length fs.
Proof. induction fs as [|ht fs IH]; intros [|v vs] H; cbn [fits_fields length] in *; try easy. destruct H as [_ H]. now rewrite (IH vs H). Qed.

Definition core_type (t : ty) : Prop := match t with TPtr _ | TCodec _ _ | TDeep => False | _ => True end.
Definition seals W named (t : ty) : Prop := forall v st l fuel, fits t v -> mget st l = Some v -> (3 * ty_size t <= fuel)%nat ->
  idle st (goD Borsh W named fuel (RVar t l true) None) (d_set_cur LE ;;; dec_sealed t v).
Lemma switch_idle W named F rt tu v st l : under rt = tu -> core_type tu -> fits tu v -> mget st l = Some v ->
  settled named tu -> (3 * ty_size tu <= S F)%nat -> (forall t, (ty_size t < ty_size tu)%nat -> settled named t -> seals W named t) ->
  idle st (d_switch Borsh W named F rt (RVar rt l true) opt0) (dec_sealed tu v).
Proof.
  intros Hu Hc Hf Hm Hg Hn IH. unfold d_switch. cbn [r_kind].
  assert (Hk : kind_of rt = kind_of tu).
  { unfold kind_of. rewrite Hu. destruct tu; try reflexivity. easy. }
  assert (He : elem_type rt = elem_type tu).
  { unfold elem_type. rewrite Hu. destruct tu; try reflexivity. easy. }
  assert (Htl : type_len rt = type_len tu).
  { unfold type_len. rewrite Hu. destruct tu; try reflexivity. easy. }
  assert (Hfs : type_fields rt = type_fields tu).
  { unfold type_fields. rewrite Hu. destruct tu; try reflexivity. easy. }
  rewrite Hk.
  destruct tu as [|n w|n w|f| |sg| | |t|n t|t|kt vt|fs|c u|]; try easy; cbn [dec_sealed]; cbn [fits] in Hf;
    cbv beta iota delta [kind_of under].
  - apply read_set_idle.
  - apply read_set_idle.
  - apply read_set_idle.
  - apply read_set_idle.
  - apply (idle_lift st read_string). intro s. apply idle_panic.
  - apply idle_fail.
  - apply idle_fail.
  - apply idle_ret.
  - rewrite He, Htl. change (elem_type (TArray n t)) with t. change (type_len (TArray n t)) with (Z.of_nat n).
    destruct (uint_kind t) as [k|].
    + unfold read_array. cbn [r_kind r_ro r_type]. rewrite Hk. change (kind_of (TArray n t)) with KArray. cbn iota.
      apply idle_lift. intro zs. eapply (idle_ext st _ (if true && negb (plain_uint t) && (Z.of_nat n <=? 0) then ret tt else panic)); [|reflexivity|].
      { intro d. unfold bind, ret. rewrite He. change (elem_type (TArray n t)) with t. reflexivity. }
      cbn [andb]. destruct n; [|rewrite andb_false_r; apply idle_panic]. cbn. rewrite andb_true_r. destruct (plain_uint t); [apply idle_panic|apply idle_ret].
    + destruct Hf as (ps & -> & Hl & Hf). rewrite Nat2Z.id, <- Hl. apply (array_idle _ _ st ps []).
      intros i p Hp. cbn [app] in Hp. cbn [r_index]. rewrite He. change (elem_type (TArray (length ps) t)) with t.
      apply IH; [cbn [ty_size]; lia|now apply (settled_part _ _ _ Hg)| | |cbn [ty_size] in Hn; lia].
      * rewrite Forall_forall in Hf. apply Hf. now apply (nth_error_In _ i).
      * now rewrite (mget_into _ _ _ _ Hm).
  - cbn [opt0 o_size is_borsh andb]. rewrite He. change (elem_type (TSlice t)) with t.
    apply (idle_lift st (read_count Borsh)). intro x. destruct (x =? 0); [apply idle_ret|].
    apply (idle_lift st d_remaining). intro r. destruct (r <? x); [apply idle_fail|]. destruct (uint_kind t).
    + unfold read_array. cbn [r_kind]. rewrite Hk. apply (idle_lift st (read_uints _ x)). intro zs. apply idle_panic.
    + eapply idle_ext; [|reflexivity|apply idle_panic]. reflexivity.
  - apply (idle_lift st (read_count Borsh)). intro x. destruct (x =? 0); [apply idle_ret|].
    eapply idle_ext; [|reflexivity|apply idle_panic]. reflexivity.
  - destruct Hf as (ps & -> & Hf). change (type_fields (TStruct fs)) with fs in Hfs.
    destruct F as [|F]; [cbn [ty_size] in Hn; lia|]. cbn [goDS decodeStructBorsh]. rewrite Hfs.
    assert (Hloop : forall field, idle st (fields_loop field (RVar rt l true) rt (length fs) 0 [] false)
      (dec_fields Borsh (fun _ _ p => ret p) (hide fs) ps [] false ;;; ret tt)).
    { intro field. apply (fields_idle field st rt l _ fs Hfs fs [] ps); [reflexivity|]. symmetry. now apply ff_length. }
    destruct fs as [|[h0 t0] fs]; [apply Hloop|]. unfold is_enum.
    destruct t0 as [|[] []| | | | | | | | | | | | |]; try apply Hloop. destruct (ft_enum _); [|apply Hloop].
    destruct F as [|F]; [cbn [ty_size] in Hn; lia|]. cbn [deserializeComplexEnum]. apply (idle_lift st read_byte). intro x.
    rewrite Hfs. cbn [nth_error r_field]. cbn [orb r_set]. eapply idle_ext; [|reflexivity|apply idle_panic]. reflexivity.
Qed.
Lemma sealed_idle W named t : settled named t -> seals W named t.
Proof.
  induction t as [t IH] using ty_strong_ind. intros Hg v st l fuel Hf Hm Hn.
  assert (Hpos : (1 <= ty_size t)%nat) by (destruct t; cbn [ty_size]; lia).
  destruct fuel as [|F]; [lia|].
  eapply idle_ext; [intro d; apply (goD_eq Borsh)|reflexivity|]. cbn [or_default opt0 o_order o_opt o_copt is_borsh andb orb].
  apply (idle_lift st (d_set_cur LE)). intros _. unfold go_top, go_coption. cbn [o_opt o_copt is_borsh andb].
  destruct (indirect_ro named F t l Hg ltac:(lia)) as (f & Hfu & He).
  eapply idle_ext; [|reflexivity|apply (loop_idle named (go_rest Borsh W named F opt0) t f v st l (RVar t l true) Hg Hf Hm ltac:(lia))].
  { intro d. unfold bind. now rewrite (He d st v Hm). }
  intros t1 l1 v1 Hp Hd Hg1 Hs Hf1 Hm1. unfold go_rest. cbn [r_type]. 
  eapply (idle_ext st _ (d_switch Borsh W named F t1 (RVar t1 l1 true) opt0)); [reflexivity|reflexivity|].
  destruct t1 as [|n w|n w|g| |sg| | |t1|n t1|t1|kt vt|fs|c u|]; try discriminate; try congruence;
    try (apply switch_idle; auto; try exact I; [lia|intros t2 Hs2 Hg2; apply IH; [lia|exact Hg2]]).
  destruct (settled_codec _ _ _ Hg1) as [Hb Hgu]. cbn [dec_sealed ty_size fits] in *.
  apply switch_idle; auto; try lia.
  - cbn [under]. destruct u; cbn [bare] in Hb; easy || reflexivity.
  - destruct u; cbn [bare] in Hb; easy.
  - intros t2 Hs2 Hg2. apply IH; [lia|exact Hg2].
Qed.

Lemma struct_does E W named fuel rt fs vs st l : type_fields rt = fs -> fits_fields fits fs vs -> mget st l = Some (VStruct vs) ->
  (3 * ty_size (TStruct fs) <= S fuel)%nat -> (forall h t, In (h, t) fs -> settled named t) -> (forall h t, In (h, t) fs -> decodes E W named t) ->
  does st l (goDS E W named fuel rt (RVar rt l false)) (dest_struct E W fs vs).
Proof.
  intros Hfs Hf Hm Hn Hgs IH.
  assert (Hpos : (1 <= ty_size (TStruct fs))%nat) by (cbn [ty_size]; lia).
  destruct fuel as [|fuel]; [lia|].
  assert (Hloop : does st l
    (fields_loop (go_field E W (fun v o => goD E W named fuel v (Some o))) (RVar rt l false) rt (length fs) 0 [] false)
    (hold VStruct (dest_fields E (fun t' o' v' => dest_val E W t' (DStart o') v') fs vs [] false))).
  { apply (fields_does E W (fun v o => goD E W named fuel v (Some o)) (fun t' o' v' => dest_val E W t' (DStart o') v') l rt fs Hfs) with (fs1 := []) (dn := []); try easy.
    intros i h t o st' p H1 Hp Hm'. pose proof (ty_size_field fs h t (nth_error_In _ _ H1)) as Hs.
    apply (IH h t (nth_error_In _ _ H1)); auto; lia. }
  assert (Henum : is_enum fs = true -> E = Borsh -> does st l (deserializeComplexEnum W named fuel rt (RVar rt l false)) (dest_struct E W fs vs)).
  { intros He HE. unfold dest_struct. rewrite HE, He. cbn [is_borsh andb]. rewrite <- HE.
    destruct fs as [|[h0 t0] fs]; [discriminate|]. destruct vs as [|p0 vs]; [easy|].
    assert (Hpos2 : (2 <= ty_size (TStruct ((h0, t0) :: fs)))%nat).
    { pose proof (ty_size_field ((h0, t0) :: fs) h0 t0 ltac:(now left)). destruct t0; cbn [ty_size] in *; lia. }
    destruct fuel as [|fuel]; [lia|]. cbn [deserializeComplexEnum]. rewrite Hfs. cbn [nth_error]. apply does_after; [exact Hm|]. intro n.
    cbn [r_field orb r_set]. destruct (f_exported h0) eqn:Ex; cbn [negb].
    2:{ now apply does_stop. }
    assert (Hp0 : part (VStruct (p0 :: vs)) (Field 0) = Some p0) by reflexivity.
    set (i := (Z.to_nat n + 1)%nat).
    set (K := if (List.length ((h0, t0) :: fs) <=? i)%nat then fail EMsg else
      match nth_error ((h0, t0) :: fs) i with
      | None => stuck
      | Some (h, ft) => decodeBorsh W named fuel (r_field (RVar rt l false) i h ft) None
      end).
    assert (HK : forall st, mget st l = Some (VStruct (VNum n :: vs)) ->
      does st l K (hold (fun rest => VStruct (VNum n :: rest)) (dest_variant (fun t' o' v' => dest_val E W t' (DStart o') v') fs vs (Z.to_nat n)))).
    { clear st Hm Hloop. intros st Hm. unfold K.
      cbn [fits_fields snd] in Hf. destruct Hf as [Hf0 Hf]. pose proof (ff_length fs vs Hf) as Hl.
      eapply does_ext; [reflexivity|intro d; unfold hold; rewrite variant_eq by (symmetry; exact Hl); reflexivity|].
      assert (Hi : forall {A} (x : A) r, nth_error (x :: r) i = nth_error r (Z.to_nat n)) by (intros; unfold i; now rewrite Nat.add_1_r).
      rewrite Hi. destruct (length ((h0, t0) :: fs) <=? i)%nat eqn:Ei.
      - apply Nat.leb_le in Ei. cbn [length] in Ei. rewrite (proj2 (nth_error_None fs (Z.to_nat n))) by lia.
        eapply does_ext; [reflexivity| |apply (does_stop st l _ (fail EMsg) (Err EMsg) Hm); reflexivity]. reflexivity.
      - apply Nat.leb_gt in Ei. cbn [length] in Ei.
        destruct (nth_error fs (Z.to_nat n)) as [[h t]|] eqn:E1; [|apply nth_error_None in E1; lia].
        destruct (nth_error vs (Z.to_nat n)) as [p|] eqn:E2; [|apply nth_error_None in E2; lia].
        assert (Hpart : part (VStruct (VNum n :: vs)) (Field i) = Some p) by (cbn [part]; now rewrite Hi).
        assert (Hin : In (h, t) ((h0, t0) :: fs)) by (right; exact (nth_error_In _ _ E1)).
        pose proof (ty_size_field _ h t Hin) as Hs.
        destruct (negb (f_exported h)) eqn:Eh.
        { eapply does_ext; [reflexivity| |eapply (idle_does st l _ _ (d_set_cur LE ;;; dec_sealed t p) Hm)].
          - intro d. unfold after, done. now destruct ((d_set_cur LE ;;; dec_sealed t p) d) as [[]].
          - cbn [r_field orb]. rewrite Eh. apply (sealed_idle W named t (Hgs h t Hin)); [|rewrite (mget_into _ _ _ _ Hm); exact Hpart|lia].
            now apply (fits_fields_nth fs vs (Z.to_nat n) h). }
        eapply does_ext; [reflexivity| |
          apply (does_hold st l (VStruct (VNum n :: vs)) (Field i) p (decodeBorsh W named fuel (r_field (RVar rt l false) i h t) None)
            (dest_val E W t (DStart opt0) p) Hm Hpart)].
        + intro d. unfold hold. destruct (dest_val E W t (DStart opt0) p d) as [[r x] d']. cbn [set_part].
          unfold i. rewrite Nat.add_1_r. reflexivity.
        + cbn [r_field orb]. rewrite Eh. replace (decodeBorsh W named fuel) with (goD E W named fuel) by (now rewrite HE).
          apply does_none; [now apply (IH h)|now apply (fits_fields_nth fs vs (Z.to_nat n) h)| |lia].
          rewrite (mget_into _ _ _ _ Hm). exact Hpart. }
    eapply does_at; [|exact (does_store_then st l _ (VStruct (VNum n :: vs)) K _ Hm (HK _ (mget_mset _ _ _ _ Hm)))].
    intro d. unfold bind, store. cbn [g_dec g_mem]. rewrite (mset_into _ _ _ _ p0 _ Hm Hp0). reflexivity. }
  assert (Hfold : fields_loop (go_field E W (fun v o => goD E W named fuel v (Some o))) (RVar rt l false) rt (length fs) 0 [] false =
    goDS E W named (S fuel) rt (RVar rt l false) \/ (E = Borsh /\ is_enum fs = true)).
  { destruct E; [left; cbn [goDS decodeStructBin]; rewrite Hfs; reflexivity|left; cbn [goDS decodeStructCompactU16]; rewrite Hfs; reflexivity|].
    destruct (is_enum fs) eqn:He; [now right|left]. cbn [goDS decodeStructBorsh]. rewrite Hfs. unfold is_enum in He.
    destruct fs as [|[h0 t0] fs]; [reflexivity|]. destruct t0 as [|[] []| | | | | | | | | | | | |]; try reflexivity. now rewrite He. }
  destruct (is_borsh E && is_enum fs) eqn:Ee.
  - apply andb_true_iff in Ee. destruct Ee as [Eb Ee]. destruct E; try discriminate.
    cbn [goDS decodeStructBorsh]. rewrite Hfs. pose proof (Henum Ee eq_refl) as H. unfold is_enum in Ee.
    destruct fs as [|[h0 t0] fs]; [discriminate|]. destruct t0 as [|[] []| | | | | | | | | | | | |]; try discriminate. now rewrite Ee.
  - unfold dest_struct. rewrite Ee. destruct Hfold as [<-|[-> He]]; [exact Hloop|]. rewrite He in Ee. discriminate.
Qed.

Lemma array_set_does k n rv_t l v st : mget st l = Some v ->
  does st l (read_array k n (RVar rv_t l false))
    (after (read_uints k n) v (fun zs => done (match kind_of rv_t with KArray => VSeq (map VNum zs) | _ => VSlice (Some (map VNum zs)) end))).
Proof.
  intro Hm. unfold read_array. apply does_after; [exact Hm|]. intro zs. cbn [r_kind].
  destruct (kind_of rv_t); apply (r_set_does _ _ _ v); exact Hm.
Qed.
Lemma core_does E W named F rt tu o v st l : under rt = tu -> core_type tu -> fits tu v -> mget st l = Some v ->
  settled named tu -> (3 * ty_size tu <= S F)%nat -> (forall t, (ty_size t < ty_size tu)%nat -> settled named t -> decodes E W named t) ->
  does st l (d_switch E W named F rt (RVar rt l false) o) (dest_core E W tu o v).
Proof.
  intros Hu Hc Hf Hm Hg Hn IH. unfold d_switch. cbn [r_kind].
  assert (Hk : kind_of rt = kind_of tu).
  { unfold kind_of. rewrite Hu. destruct tu; try reflexivity. easy. }
  assert (He : elem_type rt = elem_type tu).
  { unfold elem_type. rewrite Hu. destruct tu; try reflexivity. easy. }
  assert (Hkt : key_type rt = key_type tu).
  { unfold key_type. rewrite Hu. destruct tu; try reflexivity. easy. }
  assert (Htl : type_len rt = type_len tu).
  { unfold type_len. rewrite Hu. destruct tu; try reflexivity. easy. }
  rewrite Hk.
  destruct tu as [|n w|n w|f| |sg| | |t|n t|t|kt vt|fs|c u|]; try easy; cbn [dest_core]; cbn [fits] in Hf;
    cbv beta iota delta [kind_of under].
  - now apply read_set_does.
  - now apply read_set_does.
  - now apply read_set_does.
  - now apply read_set_does.
  - apply does_after; [exact Hm|]. intro s. now apply (r_set_does _ _ _ v).
  - now apply does_stop.
  - now apply does_stop.
  - now apply does_ret.
  - (* array *)
    rewrite He, Htl. cbv beta iota delta [elem_type type_len under]. cbn [ty_size] in Hn, IH. cbn [go_type] in Hg.
    destruct (uint_kind t) as [w|] eqn:Eu.
    + eapply does_ext; [reflexivity| |apply (array_set_does _ _ rt l v st Hm)]. rewrite Hk. reflexivity.
    + destruct Hf as (ps & -> & Hl & Hps). rewrite Nat2Z.id, <- Hl.
      apply (array_does (fun i => goD E W named F (r_index (RVar rt l false) i) None) (dest_val E W t (DStart opt0)) l (fits t)) with (dn := []); [|exact Hm|exact Hps].
      intros st' dn p r Hm' Hp. cbn [r_index]. rewrite He. cbv beta iota delta [elem_type under].
      apply does_none; [apply IH; [lia|exact Hg]|exact Hp| |lia].
      rewrite (mget_into _ _ _ _ Hm'). cbn [part]. rewrite nth_error_app2 by lia. now rewrite Nat.sub_diag.
  - (* slice *)
    rewrite He. cbv beta iota delta [elem_type under]. cbn [ty_size] in Hn, IH. cbn [go_type] in Hg.
    set (K := fun l0 => if is_borsh E && (l0 =? 0) then ret tt else _).
    assert (HK : forall l0, does st l (K l0)
      (if is_borsh E && (l0 =? 0) then done v
       else
         after d_remaining v (fun r =>
         if r <? l0 then stop (Err EUnexpectedEOF) v
         else
           match uint_kind t with
           | Some w => after (read_uints w l0) v (fun zs => done (VSlice (Some (map VNum zs))))
           | None =>
               hold (fun vs => VSlice (Some vs))
                 (rep_dest (Z.to_nat l0) (dest_val E W t (DStart opt0) (zero_val t)) [])
           end))).
    { intro l0. unfold K. destruct (is_borsh E && (l0 =? 0)); [now apply does_ret|].
      apply does_after; [exact Hm|]. intro r. destruct (r <? l0); [now apply does_stop|].
      destruct (uint_kind t) as [w|] eqn:Eu.
      + eapply does_ext; [reflexivity| |apply (array_set_does _ _ rt l v st Hm)]. rewrite Hk. reflexivity.
      + unfold slice_loop. cbn [r_set]. apply (does_store_then _ _ v _ _ _ Hm).
        apply (slice_does (fun x => goD E W named F x None) (dest_val E W t (DStart opt0) (zero_val t)) t rt l).
        * intro st'. apply IH; [lia|exact Hg|exact opt0|apply fits_zero|apply mget_fresh|lia].
        * rewrite He. reflexivity.
        * now apply (mget_mset _ _ v). }
    destruct (o_size o) as [sz|].
    + eapply does_ext; [| |apply (HK sz)]; reflexivity.
    + apply does_after; [exact Hm|]. exact HK.
  - (* map *)
    cbn [ty_size] in Hn, IH.
    assert (Hgk : settled named kt) by (apply (settled_part _ _ _ Hg); cbn [go_type no_iface]; tauto).
    assert (Hgv : settled named vt) by (apply (settled_part _ _ _ Hg); cbn [go_type no_iface]; tauto).
    apply does_after; [exact Hm|]. intro n. destruct (n =? 0); [now apply does_ret|].
    unfold map_loop. cbn [r_set]. apply (does_store_then _ _ v _ _ _ Hm).
    apply (map_does (fun x => goD E W named F x None) (dest_val E W kt (DStart opt0) (zero_val kt)) (dest_val E W vt (DStart opt0) (zero_val vt)) kt vt rt l).
    + intro st'. apply does_none; [apply IH; [lia|exact Hgk]|apply fits_zero|apply mget_fresh|lia].
    + intro st'. apply does_none; [apply IH; [lia|exact Hgv]|apply fits_zero|apply mget_fresh|lia].
    + rewrite Hkt. reflexivity.
    + rewrite He. reflexivity.
    + now apply (mget_mset _ _ v).
  - (* struct *)
    destruct Hf as (vs & -> & Hf). apply struct_does; [unfold type_fields; now rewrite Hu|exact Hf|exact Hm|exact Hn|intros h t Hin; exact (settled_field named fs h t Hg Hin)|].
    intros h t Hin. apply IH; [now apply (ty_size_field _ h)|]. exact (settled_field named fs h t Hg Hin).
Qed.

(** The flags. *)
Definition ends {A} (m : DM A) : Prop := forall d, match fst (m d) with Ok _ | Err _ | Panic => True | _ => False end.
Lemma read_byte_ends : ends read_byte.
Proof.
  intro d. unfold read_byte, bind, d_remaining. destruct (remaining_of d <? 1); [easy|]. unfold d_take, bind, d_get, slice_n.
  destruct ((0 <=? d_pos d) && (0 <=? 1) && (d_pos d + 1 <=? zlen (d_data d))) eqn:E; [|easy].
  apply andb_true_iff in E. destruct E as [E E3]. apply andb_true_iff in E. destruct E as [E1 _].
  apply Z.leb_le in E1, E3. unfold zlen in E3.
  assert (H : length (firstn (Z.to_nat 1) (skipn (Z.to_nat (d_pos d)) (d_data d))) = 1%nat).
  { rewrite firstn_length, skipn_length. change (Z.to_nat 1) with 1%nat. lia. }
  destruct (firstn (Z.to_nat 1) (skipn (Z.to_nat (d_pos d)) (d_data d))) as [|b [|c r]]; try discriminate H. easy.
Qed.
Lemma read_uint_ends n o : ends (read_uint n o).
Proof.
  intro d. unfold read_uint, bind, d_remaining. destruct (remaining_of d <? Z.of_nat n); [easy|]. unfold d_take, bind, d_get.
  now destruct (slice_n (d_data d) (d_pos d) (Z.of_nat n)).
Qed.
Lemma flag_ends E : ends (raw_flag E).
Proof.
  intro d. destruct E; cbn [raw_flag]; unfold read_option, fmap, map_err, bind, ret.
  - pose proof (read_uint_ends 4 LE d). now destruct (read_uint 4 LE d) as [[]?].
  - pose proof (read_byte_ends d). now destruct (read_byte d) as [[]?].
  - pose proof (read_byte_ends d). now destruct (read_byte d) as [[]?].
Qed.
Lemma cflag_ends : ends read_coption.
Proof.
  intro d. unfold read_coption, map_err, bind, ret, fail. pose proof (read_uint_ends 4 LE d).
  destruct (read_uint 4 LE d) as [[z| | | |]?]; try easy. now destruct (1 <? z).
Qed.
(** The receiver of a method has no value left to look at. *)
Lemma flag_method named fuel m k u st l v : ends m -> mget st l = Some v ->
  does st l (go_flag named fuel m k (Some u, RZero)) (stop Panic v).
Proof.
  intros He Hm d. unfold go_flag, bind, catch, lift. cbn [g_dec g_mem]. specialize (He d). destruct (m d) as [[b|e| | |] d1]; try easy.
  - exists [], d1. rewrite (mset_same _ _ _ Hm), app_nil_r. now destruct b.
  - exists [], d1. now rewrite (mset_same _ _ _ Hm), app_nil_r.
  - exists [], d1. now rewrite (mset_same _ _ _ Hm), app_nil_r.
Qed.
Lemma flag_does named fuel m k t st l v XX : mget st l = Some v ->
  does st l (ur <- indirect named fuel (RVar t l false) false ;; k ur) XX ->
  does st l (go_flag named fuel m k (None, RVar t l false)) (after (map_err (fun _ => EMsg) m) v (fun b => if b then XX else done (zero_val t))).
Proof.
  intros Hm H d. unfold go_flag, after, map_err, catch, lift. unfold bind at 1. cbn [g_dec g_mem]. destruct (m d) as [[b|e| | |] d1].
  - destruct b; cbn [negb]; [apply H|]. now apply (r_set_does st l t v).
  - exists [], d1. now rewrite (mset_same _ _ _ Hm), app_nil_r.
  - exists [], d1. now rewrite (mset_same _ _ _ Hm), app_nil_r.
  - exists [], d1. now rewrite (mset_same _ _ _ Hm), app_nil_r.
  - exists [], d1. now rewrite (mset_same _ _ _ Hm), app_nil_r.
Qed.

(** From indirect on. *)
Lemma bind_at {A} st l (m m' : GM A) (k : A -> GM unit) lm : (forall d, m (mkG d st) = m' (mkG d st)) ->
  does st l (x <- m' ;; k x) lm -> does st l (x <- m ;; k x) lm.
Proof. intros H H' d. unfold bind. rewrite H. apply H'. Qed.
Lemma method_some t l m : method_at t l = Some m -> exists c u f, t = TCodec c u /\ c_unmarshal c = Some f /\ m = mkMethod c u f l.
Proof.
  destruct t as [| | | | | | | | | | | | |c u|]; try discriminate. cbn [method_at]. destruct (c_unmarshal c) as [f|] eqn:Ec; [|discriminate].
  intro H. injection H as <-. now exists c, u, f.
Qed.
Lemma size_pos t : (1 <= ty_size t)%nat.
Proof. destruct t; cbn [ty_size]; lia. Qed.

Section From.
  Variables (E : encoding) (W : codec -> ty -> val -> dst -> val) (named : outside) (F : nat) (t0 : ty) (o : fopt).
  Hypothesis HF : (3 * ty_size t0 <= S F)%nat.
  Hypothesis IH : forall t, (ty_size t < ty_size t0)%nat -> settled named t -> decodes E W named t.
  Let pend := is_borsh E && o_copt o.

  Lemma indirect_walk p k t st l v : settled named t -> fits t v -> mget st l = Some v -> (ty_size t <= ty_size t0)%nat ->
    (forall t1 l1 st1 v1, final t1 -> settled named t1 -> (ty_size t1 <= ty_size t)%nat -> fits t1 v1 -> mget st1 l1 = Some v1 ->
      does st1 l1 (k (None, RVar t1 l1 false)) (dest_val E W t1 (DWalk o p) v1)) ->
    (forall c u f l1 st1 v1, c_unmarshal c = Some f -> mget st1 l1 = Some v1 ->
      does st1 l1 (k (Some (mkMethod c u f l1), RZero)) (dest_val E W (TCodec c u) (DWalk o p) v1)) ->
    does st l (x <- indirect named F (RVar t l false) false ;; k x) (dest_val E W t (DWalk o p) v).
  Proof.
    intros Hg Hf Hm Hs Kn Km. pose proof (size_pos t).
    destruct (indirect_var named F t l false Hg ltac:(lia)) as (f & Hfu & He).
    apply (bind_at _ _ _ (fun s => match method_at t l with Some m => (Ok (Some m, RZero), s)
      | None => indirect_loop named f (RVar t l false) (RVar t l false) false false s end)); [intro d; exact (He d st v Hm)|]. destruct (method_at t l) as [m|] eqn:Em.
    - destruct (method_some _ _ _ Em) as (c & u & g & -> & Hc & ->).
      apply (does_at _ _ _ (k (Some (mkMethod c u g l), RZero))); [reflexivity|]. now apply Km.
    - apply (loop_walk named E W o p k t f v st l); auto. lia.
  Qed.
  Lemma indirect_null k t st l v : settled named t -> fits t v -> mget st l = Some v -> (ty_size t <= ty_size t0)%nat ->
    (forall t1 l1 st1 v1, t1 <> TDeep -> (forall l, method_at t1 l = None) -> settled named t1 -> (ty_size t1 <= ty_size t)%nat -> fits t1 v1 ->
      mget st1 l1 = Some v1 -> does st1 l1 (k (None, RVar t1 l1 false)) (dest_flagged E W t1 o v1)) ->
    (forall m st1 l1 v1, mget st1 l1 = Some v1 -> does st1 l1 (k (Some m, RZero)) (stop Panic v1)) ->
    does st l (x <- indirect named F (RVar t l false) true ;; k x) (dest_val E W t (DNull o) v).
  Proof.
    intros Hg Hf Hm Hs Kn Km. pose proof (size_pos t).
    destruct (indirect_var named F t l true Hg ltac:(lia)) as (f & Hfu & He).
    apply (bind_at _ _ _ (fun s => match method_at t l with Some m => (Ok (Some m, RZero), s)
      | None => indirect_loop named f (RVar t l false) (RVar t l false) false true s end)); [intro d; exact (He d st v Hm)|]. destruct (method_at t l) as [m|] eqn:Em.
    - destruct (method_some _ _ _ Em) as (c & u & g & -> & Hc & ->). rewrite dest_null_eq, Hc.
      apply (does_at _ _ _ (k (Some (mkMethod c u g l), RZero))); [reflexivity|]. now apply Km.
    - apply (loop_null named E W o k t f v st l); auto. lia.
  Qed.

  Lemma rest_none t st l v : final t -> settled named t -> (ty_size t <= ty_size t0)%nat -> fits t v -> mget st l = Some v ->
    does st l (go_rest E W named F o (None, RVar t l false)) (dest_val E W t (DWalk o false) v).
  Proof.
    intros (Hp & Hd & Hme) Hg Hs Hf Hm. unfold go_rest. apply (does_at _ _ _ (d_switch E W named F t (RVar t l false) o)); [reflexivity|].
    rewrite dest_walk_eq.
    assert (Hcore : under t = t -> core_type t -> does st l (d_switch E W named F t (RVar t l false) o) (dest_core E W t o v)).
    { intros H1 H2. apply core_does; auto; [lia|]. intros t' H'. apply IH. lia. }
    destruct t as [| | | | | | | | | | | | |c u|]; try (now apply Hcore); try discriminate; try congruence.
    specialize (Hme l). cbn [method_at] in Hme. destruct (c_unmarshal c); [discriminate|].
    apply settled_codec in Hg. destruct Hg as [Hb Hg]. cbn [ty_size] in Hs. cbn [fits] in Hf. rewrite dest_walk_eq.
    assert (Hu : under u = u) by (destruct u; cbn [bare] in Hb; easy).
    assert (Hcu : core_type u) by (destruct u; cbn [bare] in Hb; easy).
    assert (H : does st l (d_switch E W named F (TCodec c u) (RVar (TCodec c u) l false) o) (dest_core E W u o v)).
    { apply core_does; auto; [lia|]. intros t' H'. apply IH. lia. }
    destruct u; cbn [bare] in Hb; try easy; exact H.
  Qed.
  Lemma rest_some c u f st l v : c_unmarshal c = Some f -> mget st l = Some v ->
    does st l (go_rest E W named F o (Some (mkMethod c u f l), RZero)) (dest_val E W (TCodec c u) (DWalk o false) v).
  Proof. intros Hc Hm. rewrite dest_walk_eq, Hc. now apply call_does. Qed.
  Lemma rest_walk t st l v : settled named t -> fits t v -> mget st l = Some v -> (ty_size t <= ty_size t0)%nat ->
    does st l (x <- indirect named F (RVar t l false) false ;; go_rest E W named F o x) (dest_val E W t (DWalk o false) v).
  Proof.
    intros Hg Hf Hm Hs. apply indirect_walk; auto; [|now intros; apply rest_some].
    intros t1 l1 st1 v1 H1 H2 H3. apply rest_none; auto. lia.
  Qed.

  Lemma coption_none t st l v : final t -> settled named t -> (ty_size t <= ty_size t0)%nat -> fits t v -> mget st l = Some v ->
    does st l (go_coption E W named F o (None, RVar t l false)) (dest_val E W t (DWalk o pend) v).
  Proof.
    intros Hfin Hg Hs Hf Hm. unfold go_coption. fold pend. destruct pend eqn:Epd; [|now apply rest_none].
    eapply does_ext; [reflexivity| |exact (flag_does named F read_coption (go_rest E W named F o) t st l v _ Hm (rest_walk t st l v Hg Hf Hm Hs))].
    intro d. destruct Hfin as (Hp & Hd & Hme). rewrite !dest_walk_eq.
    destruct t as [| | | | | | | | | | | | |c u|]; try reflexivity; try discriminate; try congruence.
    specialize (Hme l). cbn [method_at] in Hme. destruct (c_unmarshal c); [discriminate|]. rewrite !dest_walk_eq.
    apply settled_codec in Hg. destruct Hg as [Hb Hg]. destruct u; cbn [bare] in Hb; try easy; reflexivity.
  Qed.
  Lemma coption_some c u f st l v : c_unmarshal c = Some f -> mget st l = Some v ->
    does st l (go_coption E W named F o (Some (mkMethod c u f l), RZero)) (dest_val E W (TCodec c u) (DWalk o pend) v).
  Proof.
    intros Hc Hm. unfold go_coption. fold pend. destruct pend eqn:Epd; [|now intros; apply rest_some].
    rewrite dest_walk_eq, Hc. apply flag_method; [apply cflag_ends|exact Hm].
  Qed.
  Lemma coption_walk t st l v : settled named t -> fits t v -> mget st l = Some v -> (ty_size t <= ty_size t0)%nat ->
    does st l (x <- indirect named F (RVar t l false) false ;; go_coption E W named F o x) (dest_val E W t (DWalk o pend) v).
  Proof.
    intros Hg Hf Hm Hs. apply indirect_walk; auto; [|now intros; apply coption_some].
    intros t1 l1 st1 v1 H1 H2 H3. apply coption_none; auto. lia.
  Qed.

  Lemma top_null t st l v : o_opt o || pend = true -> settled named t -> (ty_size t <= ty_size t0)%nat -> fits t v -> mget st l = Some v ->
    does st l (go_top E W named F o (None, RVar t l false)) (dest_flagged E W t o v).
  Proof.
    intros Hnull Hg Hs Hf Hm. unfold go_top, dest_flagged. destruct (o_opt o) eqn:Eo.
    - exact (flag_does named F (raw_flag E) _ t st l v _ Hm (coption_walk t st l v Hg Hf Hm Hs)).
    - cbn [orb] in Hnull. unfold go_coption. fold pend. rewrite Hnull.
      exact (flag_does named F read_coption _ t st l v _ Hm (rest_walk t st l v Hg Hf Hm Hs)).
  Qed.
  Lemma top_method m st l v : o_opt o || pend = true -> mget st l = Some v ->
    does st l (go_top E W named F o (Some m, RZero)) (stop Panic v).
  Proof.
    intros Hnull Hm. unfold go_top. destruct (o_opt o) eqn:Eo; [apply flag_method; [apply flag_ends|exact Hm]|].
    cbn [orb] in Hnull. unfold go_coption. fold pend. rewrite Hnull. apply flag_method; [apply cflag_ends|exact Hm].
  Qed.
  Lemma go_does st l v : settled named t0 -> fits t0 v -> mget st l = Some v ->
    does st l (goD E W named (S F) (RVar t0 l false) (Some o)) (dest_val E W t0 (DStart o) v).
  Proof.
    intros Hg Hf Hm. eapply does_ext; [intro s; apply goD_eq|reflexivity|]. cbn [or_default]. rewrite dest_start_eq.
    apply does_after; [exact Hm|]. intros _. fold pend. destruct (o_opt o || pend) eqn:Enull.
    - apply indirect_null; auto; [|now intros; apply top_method].
      intros t1 l1 st1 v1 _ _ H2 H3. apply top_null; auto.
    - apply orb_false_iff in Enull. destruct Enull as [E1 E2]. eapply does_ext; [|reflexivity|apply (rest_walk t0 st l v Hg Hf Hm); lia].
      intro s. apply gbind_same. intros ur s'. unfold go_top, go_coption. fold pend. now rewrite E1, E2.
  Qed.
End From.

Lemma go_does_addr E W named F t st l v : (3 * ty_size t <= S F)%nat ->
  (forall t', (ty_size t' < ty_size t)%nat -> settled named t' -> decodes E W named t') -> settled named t -> fits t v -> mget st l = Some v ->
  does st l (goD E W named (S F) (RAddr t l) None) (dest_val E W t (DStart opt0) v).
Proof.
  intros HF IH Hg Hf Hm. pose proof (size_pos t).
  eapply does_ext; [intro s; apply goD_eq|reflexivity|]. cbn [or_default]. rewrite dest_start_eq.
  apply does_after; [exact Hm|]. intros _.
  replace (o_opt opt0 || (is_borsh E && o_copt opt0)) with false by now destruct E.
  destruct (indirect_addr named F t l Hg ltac:(lia)) as (f & Hfu & He).
  apply (bind_at _ _ _ (fun s => match method_at t l with Some m => (Ok (Some m, RZero), s)
      | None => indirect_loop named f (RVar t l false) (RAddr t l) false false s end)); [intro d; exact (He d st v Hm)|].
  assert (Htop : forall ur s, go_top E W named F opt0 ur s = go_rest E W named F opt0 ur s) by (intros; now destruct E).
  destruct (method_at t l) as [m|] eqn:Em.
  - destruct (method_some _ _ _ Em) as (c & u & g & -> & Hc & ->).
    apply (does_at _ _ _ (go_rest E W named F opt0 (Some (mkMethod c u g l), RZero))); [intro d; apply Htop|].
    now apply rest_some.
  - eapply does_ext; [intro s; apply gbind_same; intros ur s'; apply Htop|reflexivity|].
    apply (loop_walk named E W opt0 false); auto; [lia| |now intros; apply rest_some].
    intros t1 l1 st1 v1 H1 H2 H3. apply (rest_none E W named F t opt0 HF IH); auto.
Qed.

Theorem go_decodes E W named t : settled named t -> decodes E W named t.
Proof.
  induction t as [t IH] using ty_strong_ind. intros Hg v o st l fuel Hf Hm Hn. pose proof (size_pos t).
  destruct fuel as [|F]; [lia|]. split; [apply (go_does E W named F t o Hn IH)|apply go_does_addr]; auto.
Qed.

Theorem go_decode_does W named t v s fuel : settled named t -> fits t v -> (3 * ty_size t <= fuel)%nat ->
  same (mkLoc 0 []) [v] (go_decode W named fuel (RAddr t (mkLoc 0 [])) (mkG s [v])) (dest_val (d_enc s) W t (DStart opt0) v s).
Proof.
  intros Hg Hf Hn.
  destruct (go_decodes (d_enc s) W named t Hg v opt0 [v] (mkLoc 0 []) fuel Hf eq_refl Hn) as [_ H]. specialize (H s).
  unfold go_decode, bind, lift, d_get_enc. cbn [g_dec g_mem]. destruct (d_enc s); exact H.
Qed.
Theorem go_decode_run W named t v s fuel : settled named t -> fits t v -> (3 * ty_size t <= fuel)%nat ->
  exists x g d, go_decode W named fuel (RAddr t (mkLoc 0 [])) (mkG s [v]) = (blame (fst (decode t v s)), mkG d (x :: g)) /\
    (fst (decode t v s) <> Panic -> d = snd (decode t v s)) /\
    (forall y, fst (decode t v s) = Ok y -> x = y) /\
    x = snd (fst (dest_val (d_enc s) W t (DStart opt0) v s)).
Proof.
  intros Hg Hf Hn. pose proof (go_decode_does W named t v s fuel Hg Hf Hn) as H.
  unfold decode, decode_target, bind, d_get_enc. rewrite (dest_agrees (d_enc s) W t (DStart opt0) v s).
  unfold same in H. destruct (dest_val (d_enc s) W t (DStart opt0) v s) as [[r x] d]. destruct H as (g & d1 & H & Hd).
  exists x, g, d1. cbn [fst snd]. change (mset [v] (mkLoc 0 []) x) with [x] in H. rewrite H. clear H.
  destruct r as [[]|e| | |]; cbn [view fst snd blame]; (split; [reflexivity|]); (split; [intro Hp; try congruence; now apply Hd|]); (split; [|reflexivity]); congruence.
Qed.
Theorem go_decode_not_pointer W named fuel rv s : is_kptr (r_kind rv) = false -> go_decode W named fuel rv s = (Err EInvalidDecoder, s).
Proof.
  intro H. destruct s as [d m]. unfold go_decode, bind, lift, d_get_enc, decodeWithOption. cbn [g_dec g_mem]. rewrite H. now destruct (d_enc d).
Qed.
Theorem go_decode_nil W named fuel t s : fst (go_decode W named (S (S fuel)) (RNil t) s) = Panic /\
  g_mem (snd (go_decode W named (S (S fuel)) (RNil t) s)) = g_mem s.
Proof.
  destruct s as [d m]. unfold go_decode, bind, lift, d_get_enc, decodeWithOption. cbn [g_dec g_mem r_kind is_kptr negb].
  destruct (d_enc d); split; reflexivity.
Qed.

Theorem go_round_trip E W named t v fuel : settled named t -> fits t v -> ok E t None LE v -> canon E t None LE v -> (3 * ty_size t <= fuel)%nat ->
  exists b g d,
    (let '(r, s) := go_encode unknown fuel (Rv t v) (new_encoder E buffer) in (r, e_acc s)) = (Ok tt, b) /\
    go_decode W named fuel (RAddr t (mkLoc 0 [])) (mkG (new_decoder E b) [zero_val t]) = (Ok tt, mkG d (v :: g)) /\
    d_pos d = zlen b.
Proof.
  intros Hg Hf Hok Hc Hn. destruct (round_trip E t v Hok) as (b & c & Hm & Hd & Hu). specialize (Hu Hc). exists b.
  destruct (go_decode_run W named t (zero_val t) (new_decoder E b) fuel Hg (fits_zero t) Hn) as (x & g & d & H1 & H2 & H3 & _).
  unfold unmarshal in Hu. rewrite Hu in *. exists g, d. split; [|split].
  - rewrite (go_encode_eq t v _ fuel (proj1 Hg) Hf Hn). exact Hm.
  - rewrite H1. now rewrite (H3 v eq_refl).
  - rewrite H2 by discriminate. now rewrite Hd.
Qed.
