(** The methods of the library hand over little; Marshal; nil pointers. *)
From Coq Require Import String.
From Verif Require Import Types EncPrim Enc Builtin Spec NumFacts TyInd EncFacts EncProps Ops DecLocal Cost MemSpec MemFacts WriteSpec WriteFacts BulkSpec BulkFacts.
Notation length := Datatypes.length.
Notation concat := List.concat.

Lemma terse_by c t f : c_marshal c = Some f -> (forall v, sends (f v) (11 * slots v)) -> sends (c_marshal_nil c) 0 -> codec_terse (fun _ => 11) c t.
Proof.
  intros Hf H Hn. split.
  - intros g Hg v s. assert (g = f) as -> by congruence. apply H.
  - intro s. specialize (Hn s). lia.
Qed.
Lemma sends_cur_order {A} (k : order -> EM A) n : 0 <= n -> (forall o, sends (k o) n) -> sends (bind e_cur_order k) n.
Proof.
  intros Hn H. apply sends_bind_free; [|exact H|exact Hn]. intro s. unfold e_cur_order, bind, e_get_cur. destruct (e_cur s); reflexivity.
Qed.
Lemma sends_u128 lo hi o : sends (write_uint128 lo hi o) 17.
Proof. unfold write_uint128. destruct o; (eapply sends_le; [apply sends_writer|]); rewrite zlen_app, !zlen_put; cbn; lia. Qed.
Lemma sends_u128_marshal v : sends (u128_marshal v) (11 * slots v).
Proof.
  pose proof (slots_pos v). unfold u128_marshal.
  destruct v as [| | | | | | | |[|[] [|[] [|[] [|]]]]| |]; try (eapply sends_le; [apply sends_stuck|lia]).
  apply sends_bind_free; [reflexivity| |lia]. intros [o|]; [eapply sends_le; [apply sends_u128|cbn; lia]|].
  destruct (iface_order d); [eapply sends_le; [apply sends_u128|cbn; lia]|eapply sends_le; [apply sends_stuck|lia]].
Qed.
Lemma library_terse : Forall (all_codecs (codec_terse (fun _ => 11))) library_types.
Proof.
  unfold library_types.
  repeat first [apply Forall_nil | apply Forall_cons];
  lazymatch goal with
  | |- all_codecs _ ?t => let t' := eval hnf in t in change t with t'
  end;
  lazymatch goal with
  | |- all_codecs _ (TCodec _ _) => split; [|cbn; tauto]
  | |- _ => exact I
  end;
  (eapply terse_by; [reflexivity| |first [apply sends_panic|apply sends_ret]]);
  intro v; pose proof (slots_pos v); cbv beta;
  try (destruct v; cbn [with_num]; try (eapply sends_le; [apply sends_stuck|lia]);
       first [eapply sends_le; [apply sends_bool|lia] | eapply sends_le; [apply sends_varint|lia] | eapply sends_le; [apply sends_uvarint|lia]
             | apply sends_cur_order; [lia|]; intro o; first [eapply sends_le; [apply sends_float|lia] | eapply sends_le; [apply (sends_uint 8)|lia]]]).
  - destruct v; try (eapply sends_le; [apply sends_stuck|lia]). eapply sends_le; [apply sends_bytes|]. cbn [slots]. pose proof (zlen_nonneg s). lia.
  - destruct (bytes_val v) as [b|] eqn:Eb; [|eapply sends_le; [apply sends_stuck|lia]]. eapply sends_le; [apply sends_bytes|].
    destruct v as [| | | | | |[l|]| | | |]; try discriminate; cbn [bytes_val] in Eb.
    + rewrite slots_slice. rewrite (nums_len l b Eb). pose proof (sum_len l). pose proof (zlen_nonneg l). lia.
    + injection Eb as <-. change (zlen (@nil Z)) with 0. cbn [slots]. lia.
  - apply sends_u128_marshal.
  - apply sends_u128_marshal.
  - apply sends_u128_marshal.
  - eapply sends_le; [apply sends_ret|lia].
Qed.

Lemma weight_mono kc kc' E t : (forall c, kc c <= kc' c) -> weight kc E t <= weight kc' E t.
Proof.
  intro H. induction t as [| | | | | | | |t IH|n t IH|t IH|k v IHk IHv|fs IH|c u IH|] using ty_ind'; cbn [weight]; try lia.
  - pose proof (room_pos t). destruct (is_borsh E); nia.
  - induction IH as [|f fs Hf Hfs IHf]; cbn [fold_right]; lia.
Qed.
(** Without methods and outside of Borsh all slots are good for 24. *)
Lemma weight_flat kc E t : is_borsh E = false -> all_codecs (fun _ _ => False) t -> weight kc E t = 24.
Proof.
  intro HE. induction t as [| | | | | | | |t IH|n t IH|t IH|k v IHk IHv|fs IH|c u IH|] using ty_ind'; cbn [weight all_codecs]; intro Hc; auto.
  - rewrite HE. auto.
  - destruct Hc. rewrite IHk, IHv by assumption. reflexivity.
  - apply all_codecs_struct in Hc. induction Hc as [|f fs Hf Hfs IHf]; [reflexivity|]. inversion_clear IH. cbn [fold_right]. rewrite H, IHf by auto. reflexivity.
  - now destruct Hc.
Qed.

Lemma marshal_load kc E lim t v : 0 < lim -> all_codecs (codec_terse kc) t -> all_codecs codec_scripted t -> real lim t v ->
  zlen (snd (marshal E t v)) <= weight kc E t * slots v.
Proof.
  intros Hl Hc Hs Hv. pose proof (encode_load kc E buffer lim t v Hl Hc Hv) as H.
  pose proof (faults (OpEncode t v) E None Hs) as Hf. unfold marshal. cbn [eop_run] in Hf. change (mkE E buffer None 0 [] []) with (new_encoder E buffer) in Hf.
  destruct (encode t v (new_encoder E buffer)) as [r s]. cbn [snd] in *. destruct Hf as [-> _]. unfold load in H. pose proof (zlen_nonneg (e_hist s)). lia.
Qed.

(** A nil pointer to an array of n numbers: one slot, 8 n bytes. *)
Definition wide (n : nat) : ty := TPtr (TArray n (TInt false W64)).
Lemma each_zeros n s : e_enc s = Borsh -> e_w s = buffer -> 
  exists s', each (enc_val Borsh (TInt false W64) (EFull opt0)) (repeat (VNum 0) n) s = (Ok tt, s') /\ e_enc s' = Borsh /\ e_w s' = buffer /\
    zlen (e_acc s') = zlen (e_acc s) + 8 * Z.of_nat n.
Proof.
  revert s. induction n as [|n IH]; intros s HE Hw.
  - exists s. cbn [repeat each]. repeat split; auto. lia.
  - cbn [repeat each]. unfold bind at 1.
    assert (H1 : exists s1, enc_val Borsh (TInt false W64) (EFull opt0) (VNum 0) s = (Ok tt, s1) /\ e_enc s1 = Borsh /\ e_w s1 = buffer /\ zlen (e_acc s1) = zlen (e_acc s) + 8).
    { destruct s as [en w cu co hi ac]. cbn in HE, Hw. subst.
      exists (mkE Borsh buffer (Some LE) (co + 8) (hi ++ [repeat 0 8]) (ac ++ repeat 0 8)). split; [vm_compute; reflexivity|].
      repeat split. cbn [e_acc]. rewrite zlen_app. reflexivity. }
    destruct H1 as (s1 & -> & H1 & H2 & H3). destruct (IH s1 H1 H2) as (s' & -> & H4 & H5 & H6). exists s'. repeat split; auto. lia.
Qed.
Lemma wide_bytes n : fst (marshal Borsh (wide n) (VPtr None)) = Ok tt /\ zlen (snd (marshal Borsh (wide n) (VPtr None))) = 8 * Z.of_nat n.
Proof.
  unfold marshal, encode, wide.
  destruct (each_zeros n (mkE Borsh buffer (Some LE) 0 [] []) eq_refl eq_refl) as (s' & He & _ & _ & Hl).
  assert (H : (E <- e_get_enc ;; enc_val E (TPtr (TArray n (TInt false W64))) (EFull opt0) (VPtr None)) (new_encoder Borsh buffer) = (Ok tt, s')) by exact He.
  rewrite H. split; [reflexivity|]. exact Hl.
Qed.
