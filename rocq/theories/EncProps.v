(** Consequences of the script form of the encoder: byte counts, Written(),
    failing writers, WriteByWrite. *)
From Verif Require Import Types EncPrim DecPrim Enc Dec Builtin Spec NumFacts EncFacts Tools Ops.

Definition total (l : list (list Z)) : Z := fold_right (fun b n => zlen b + n) 0 l.

Lemma total_app a b : total (a ++ b) = total a + total b.
Proof. induction a as [|x a IH]; cbn [app total fold_right]; [reflexivity|]. unfold total in *. lia. Qed.
Lemma total_cons b l : total (b :: l) = zlen b + total l.
Proof. reflexivity. Qed.
Lemma total_concat l : total l = zlen (List.concat l).
Proof.
  induction l as [|x l IH]; [reflexivity|]. cbn [total fold_right List.concat].
  unfold total in IH. rewrite IH, zlen_app. reflexivity.
Qed.
Lemma fold_total l : forall n, fold_left (fun c b => c + zlen b) l n = n + total l.
Proof.
  induction l as [|x l IH]; intro n; cbn [fold_left total fold_right]; [lia|].
  rewrite IH. unfold total. lia.
Qed.

(** Operations on encodable types. *)
Definition eop_ok (op : eop) : Prop :=
  match op with OpEncode t _ => all_codecs codec_scripted t | _ => True end.

Lemma scripted_eop op : eop_ok op -> scripted (eop_run op).
Proof.
  destruct op; cbn [eop_run eop_ok]; intro H; try solve [unfold write_raw; scripted].
  now apply scripted_encode.
Qed.

Lemma play_count w cs : forall n hist acc f n' hist' acc',
  play w cs n hist acc = (f, n', hist', acc') ->
  n' - total hist' = n - total hist.
Proof.
  induction cs as [|b cs IH]; intros n hist acc f n' hist' acc'; cbn [play].
  - intros [= _ <- <- _]. reflexivity.
  - destruct (w (hist ++ [b])) as [[k x]|].
    + intros [= _ <- <- _]. rewrite total_app. cbn. lia.
    + intro H. apply IH in H. rewrite total_app in H. cbn in H. lia.
Qed.

Lemma scripted_count {A} (m : EM A) s : scripted m ->
  e_count (snd (m s)) - total (e_hist (snd (m s))) = e_count s - total (e_hist s).
Proof.
  intro H. destruct s as [E w c n hist acc]. destruct (H E c) as (cs & r & c' & Hs).
  specialize (Hs w n hist acc).
  destruct (play w cs n hist acc) as [[[f n'] hist'] acc'] eqn:P. apply play_count in P.
  destruct f; [destruct Hs as (e & c'' & _ & Hs)|]; rewrite Hs; exact P.
Qed.

Lemma written ops : forall s, Forall eop_ok ops ->
  e_count (snd (eops_run ops s)) - total (e_hist (snd (eops_run ops s))) =
  e_count s - total (e_hist s).
Proof.
  induction ops as [|op ops IH]; intros s H; cbn [eops_run]; [reflexivity|].
  inversion_clear H as [|? ? H1 H2].
  pose proof (scripted_count (eop_run op) s (scripted_eop op H1)) as C.
  destruct (eop_run op s) as [r s1]. cbn [snd] in C. specialize (IH s1 H2).
  destruct (eops_run ops s1) as [rs s2]. cbn [snd] in *. lia.
Qed.

(** * The writer accepts the chunks up to the first failure *)

Lemma play_ok w cs : forall n hist acc,
  (forall i, (i < length cs)%nat -> w (hist ++ firstn (S i) cs) = None) ->
  play w cs n hist acc = (None, n + total cs, hist ++ cs, acc ++ List.concat cs).
Proof.
  induction cs as [|b cs IH]; intros n hist acc H; cbn [play List.concat].
  - rewrite !app_nil_r. cbn [total fold_right]. now rewrite Z.add_0_r.
  - pose proof (H 0%nat ltac:(cbn; lia)) as H0. cbn [firstn] in H0. rewrite H0. rewrite IH.
    + rewrite <- !app_assoc, total_cons, Z.add_assoc. reflexivity.
    + intros i Hi. specialize (H (S i) ltac:(cbn; lia)). cbn [firstn] in H.
      rewrite <- app_assoc. exact H.
Qed.

Lemma play_fail w cs : forall n hist acc i k x,
  (i < length cs)%nat ->
  (forall j, (j < i)%nat -> w (hist ++ firstn (S j) cs) = None) ->
  w (hist ++ firstn (S i) cs) = Some (k, x) ->
  play w cs n hist acc =
    (Some x, n + total (firstn (S i) cs), hist ++ firstn (S i) cs,
     acc ++ List.concat (firstn i cs) ++ firstn k (nth i cs [])).
Proof.
  induction cs as [|b cs IH]; intros n hist acc i k x Hi Hb Hf; cbn [length] in Hi; [lia|].
  cbn [play]. destruct i as [|i].
  - cbn [firstn] in Hf. rewrite Hf. cbn [firstn List.concat nth app].
    rewrite total_cons. cbn [total fold_right]. now rewrite Z.add_0_r.
  - pose proof (Hb 0%nat ltac:(lia)) as H0. cbn [firstn] in H0. rewrite H0.
    rewrite (IH _ _ _ i k x).
    + cbn [firstn List.concat nth]. rewrite <- !app_assoc, total_cons, Z.add_assoc. reflexivity.
    + lia.
    + intros j Hj. specialize (Hb (S j) ltac:(lia)). cbn [firstn] in Hb.
      rewrite <- app_assoc. exact Hb.
    + rewrite <- app_assoc. exact Hf.
Qed.

(** What a run on a buffer says about the script. *)
Lemma script_buffer {A} E c (m : EM A) cs r c' : script E c m cs r c' ->
  forall n hist acc,
  m (mkE E buffer c n hist acc) =
    (r, mkE E buffer c' (n + total cs) (hist ++ cs) (acc ++ List.concat cs)).
Proof.
  intros H n hist acc. specialize (H buffer n hist acc).
  rewrite play_ok in H; [exact H|reflexivity].
Qed.

Lemma byte_counts E t v : all_codecs codec_scripted t ->
  byte_count E t v =
    match marshal E t v with
    | (Ok _, b) => Ok (uwrap 64 (zlen b))
    | (Err e, _) => Err (EWrap e)
    | (Panic, _) => Panic
    | (Deep, _) => Deep
    | (Stuck, _) => Stuck
    end.
Proof.
  intro H. destruct (scripted_encode t v H E None) as (cs & r & c' & Hs).
  pose proof (script_buffer _ _ _ _ _ _ Hs 0 [] []) as Hr.
  unfold byte_count, marshal, new_encoder. rewrite Hr. cbn [app e_hist e_acc].
  destruct r; try reflexivity. rewrite fold_total, total_concat. reflexivity.
Qed.

Lemma must_byte_counts E t v : all_codecs codec_scripted t ->
  must_byte_count E t v =
    match marshal E t v with
    | (Ok _, b) => Ok (uwrap 64 (zlen b))
    | (Err _, _) | (Panic, _) => Panic
    | (Deep, _) => Deep
    | (Stuck, _) => Stuck
    end.
Proof.
  intros H. unfold must_byte_count. rewrite (byte_counts E t v H).
  now destruct (marshal E t v) as [[] b].
Qed.

(** An operation on a fault-free writer, and the same on any other. *)
Lemma faults op E c : eop_ok op ->
  let '(r0, s0) := eop_run op (mkE E buffer c 0 [] []) in
  let cs := e_hist s0 in
  e_acc s0 = List.concat cs /\
  forall w n hist acc, exists s e,
    eop_run op (mkE E w c n hist acc) = (e, s) /\
    ((forall i, (i < length cs)%nat -> w (hist ++ firstn (S i) cs) = None) ->
       e = r0 /\ e_hist s = hist ++ cs /\ e_acc s = acc ++ List.concat cs /\
       e_count s = n + total cs) /\
    (forall i k x, (i < length cs)%nat ->
       (forall j, (j < i)%nat -> w (hist ++ firstn (S j) cs) = None) ->
       w (hist ++ firstn (S i) cs) = Some (k, x) ->
       (exists e', e = Err e' /\ err_is e' (EWriter x)) /\
       e_hist s = hist ++ firstn (S i) cs /\
       e_acc s = acc ++ List.concat (firstn i cs) ++ firstn k (nth i cs []) /\
       e_count s = n + total (firstn (S i) cs)).
Proof.
  intro H. destruct (scripted_eop op H E c) as (cs & r & c' & Hs).
  pose proof (script_buffer _ _ _ _ _ _ Hs 0 [] []) as Hr. rewrite Hr. cbn [app e_hist e_acc].
  split; [reflexivity|]. intros w n hist acc. specialize (Hs w n hist acc).
  destruct (eop_run op (mkE E w c n hist acc)) as [e s]. exists s, e. split; [reflexivity|].
  split.
  - intro Ha. rewrite play_ok in Hs by exact Ha. inversion Hs. subst. cbn. auto.
  - intros i k x Hi Hb Hf. rewrite (play_fail w cs n hist acc i k x Hi Hb Hf) in Hs.
    destruct Hs as (e' & c'' & He & Hs). inversion Hs. subst. cbn [e_hist e_acc e_count].
    repeat split; auto. exists e'. auto.
Qed.

(** * WriteByWrite *)

Lemma fold_app_concat (l : list (list Z)) : forall out,
  fold_left (fun out v => out ++ v) l out = out ++ List.concat l.
Proof.
  induction l as [|x l IH]; intro out; cbn [fold_left List.concat]; [now rewrite app_nil_r|].
  now rewrite IH, app_assoc.
Qed.
Lemma wbw_writes_fold l : forall rec, 
  fold_left wbw_write l rec = mkWBW (wbw_writes rec ++ l) (wbw_name rec).
Proof.
  induction l as [|x l IH]; intro rec; cbn [fold_left]; [now rewrite app_nil_r; destruct rec|].
  rewrite IH. unfold wbw_write. cbn. now rewrite <- app_assoc.
Qed.
Lemma wbw_concat l name :
  wbw_bytes (fold_left wbw_write l (new_write_by_write name)) = List.concat l.
Proof. rewrite wbw_writes_fold. unfold wbw_bytes. cbn. apply fold_app_concat. Qed.

Lemma buffer_acc ops : forall E c n hist acc, Forall eop_ok ops ->
  List.concat hist = acc ->
  let s := snd (eops_run ops (mkE E buffer c n hist acc)) in
  List.concat (e_hist s) = e_acc s.
Proof.
  induction ops as [|op ops IH]; intros E c n hist acc H Ha; cbn [eops_run]; [exact Ha|].
  inversion_clear H as [|? ? H1 H2].
  destruct (scripted_eop op H1 E c) as (cs & r & c' & Hs).
  rewrite (script_buffer _ _ _ _ _ _ Hs).
  specialize (IH E c' (n + total cs) (hist ++ cs) (acc ++ List.concat cs) H2).
  destruct (eops_run ops _) as [rs s2]. cbn [snd] in *. apply IH.
  now rewrite concat_app, Ha.
Qed.

(** * The library's own codecs *)

Lemma scripted_emit_num f v : (forall z, scripted (f z)) -> scripted (with_num f v).
Proof. intro H. unfold with_num. destruct v; scripted. Qed.
Lemma simple_scripted m u t : (forall v, scripted (m v)) -> codec_scripted (simple_codec m u) t.
Proof. intro H. split; [intros f v [= <-]; apply H|]. cbn. scripted. Qed.
Lemma scripted_e_cur_order : scripted e_cur_order.
Proof. unfold e_cur_order. scripted. Qed.
#[global] Hint Resolve scripted_e_cur_order : scripted.
Lemma scripted_u128 v : scripted (u128_marshal v).
Proof. unfold u128_marshal. scripted. Qed.
#[global] Hint Resolve scripted_u128 : scripted.

(** The types of the library that have codec methods. *)
Definition library_types : list ty :=
  [SafeString; Bool_; HexBytes; Varint16; Varuint16; Varuint32; Varint32;
   JSONFloat64; Int64; Uint64; Uint128; Int128; Float128; EmptyVariant; BorshEnum].

Lemma library_scripted : Forall (all_codecs codec_scripted) library_types.
Proof.
  repeat constructor; cbn [all_codecs]; repeat split;
    try (intros f v [= <-]); try (apply scripted_emit_num; intro); try (apply (@scripted_panic unit)); try (apply (scripted_ret tt)); scripted.
Qed.
