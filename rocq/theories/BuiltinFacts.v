(** The codec methods of the library's own types satisfy the hypotheses of the
    decoder theorems. *)
From Verif Require Import Types EncPrim DecPrim Enc Dec Utf8 Builtin Spec NumFacts TyInd EncFacts
  EncProps DecWire DecEq DecWithin DecLocal DecBound Utf8Facts.

Lemma within_cur_order : within d_cur_order.
Proof. unfold d_cur_order. within. Qed.
Lemma local_cur_order b : local b d_cur_order.
Proof. unfold d_cur_order. local. Qed.
#[global] Hint Resolve within_cur_order : within.
#[global] Hint Resolve local_cur_order : local.

Ltac each_type :=
  unfold library_types;
  repeat first [apply Forall_nil | apply Forall_cons];
  lazymatch goal with
  | |- all_codecs _ ?t => let t' := eval hnf in t in change t with t'
  end;
  lazymatch goal with
  | |- all_codecs _ (TCodec _ _) => split; [intros f v [= <-]|cbn; tauto]
  | |- _ => exact I
  end.

Lemma library_within : Forall (all_codecs codec_within) library_types.
Proof. each_type; unfold u128_unmarshal, emsg; within. Qed.

Lemma library_local b : Forall (all_codecs (codec_local b)) library_types.
Proof. each_type; unfold u128_unmarshal, emsg, safe_read_utf8_string; local. Qed.

Lemma yields_u128 n b v : yields n (small n) (u128_unmarshal b v).
Proof.
  destruct v; try now apply yields_never.
  destruct l as [|x [|y [|z [|? ?]]]]; try now apply yields_never.
  2: { apply yields_never. destruct z; easy. }
  destruct z; try now apply yields_never. cbn [u128_unmarshal].
  apply yields_then; [within|]. intro c.
  destruct (match c with Some o => Some o | None => iface_order d end); [|now apply yields_never].
  apply yields_then; [destruct b; unfold emsg; within|]. intro p. apply yields_ret. cbn. tauto.
Qed.

Lemma library_small : Forall (all_codecs codec_small) library_types.
Proof.
  each_type; (split; [unfold u128_unmarshal, emsg; solve [within]|intros n Hn Hv]);
    try (apply yields_fmap, yields_any);
    try (apply yields_then; [within|]; intro; apply yields_fmap, yields_any).
  - unfold safe_read_utf8_string. do 2 apply yields_fmap.
    eapply yields_weaken; [|apply yields_byte_slice]. cbn [small]. intros s Hs.
    pose proof (safe_len s). lia.
  - apply yields_fmap. apply yields_map_err. eapply yields_weaken; [|apply yields_byte_slice].
    intros s Hs. apply small_slice. rewrite zlen_map. split; [exact Hs|apply small_nums].
  - apply yields_u128.
  - apply yields_u128.
  - apply yields_u128.
  - now apply yields_ret.
Qed.
