(** What decoded values take up: the methods of the library, and values that
    take up much. *)
From Coq Require Import String.
From Verif Require Import Types DecPrim Enc Dec Utf8 Utf8Facts Builtin Spec NumFacts TyInd EncFacts EncProps DecWithin DecLocal AccSpec AccFacts AccLib AgainLib Cost CostSpec CostFacts CostBound CostReach MemSpec MemFacts.
Notation length := Datatypes.length.

Lemma slots_paid cc E t v data x s' :
  all_codecs codec_within t -> all_codecs (codec_modest cc) t -> fits t v ->
  decode t v (new_decoder E data) = (Ok x, s') -> slots x <= slots v + work cc E t v data.
Proof.
  intros Hw Hc Hv Hd. pose proof (zlen_nonneg data).
  destruct (paid_dec cc E t Hw Hc (DStart opt0) v Hv (new_decoder E data)) as [_ Hp];
    [unfold inside; cbn [new_decoder d_pos d_data]; lia|].
  rewrite same_dec in Hp. rewrite decode_run in Hd. cbn [new_decoder d_enc] in Hd.
  destruct (Hp _ _ Hd). unfold work. unfold new_decoder in *. lia.
Qed.

(** * The methods of the library *)

(** Three units for each byte: SafeString puts three bytes for one. *)
Definition thrice (c : codec) (v : val) (s : dst) : Z := 3 * byte_cost c v s.

Lemma modest_by c t f : c_unmarshal c = Some f -> (forall v, within (f v)) ->
  (forall v s x s', inside s -> fits t v -> f v s = (Ok x, s') -> slots x <= slots v + 4 + 3 * (d_pos s' - d_pos s)) ->
  codec_modest thrice c t.
Proof.
  intros Hf Hw H g Hg v s Hs Hv. assert (g = f) as -> by congruence. unfold thrice, byte_cost. rewrite Hf.
  pose proof (used_nonneg (f v) s (Hw v) Hs). split; [lia|]. intros x s' Hx. specialize (H v s x s' Hs Hv Hx).
  unfold used. rewrite Hx. cbn [fst snd]. lia.
Qed.
Lemma modest_flat c t f : c_unmarshal c = Some f -> (forall v, within (f v)) ->
  (forall v s x s', fits t v -> f v s = (Ok x, s') -> slots x <= slots v + 4) -> codec_modest thrice c t.
Proof.
  intros Hf Hw H. apply (modest_by c t f Hf Hw). intros v s x s' Hs Hv Hx. specialize (H v s x s' Hv Hx).
  specialize (Hw v s Hs). rewrite Hx in Hw. unfold onward in Hw. cbn [snd] in Hw. lia.
Qed.
Lemma fmap_ok {A} (f : A -> val) (m : DM A) s x s' : fmap f m s = (Ok x, s') -> exists a, x = f a /\ m s = (Ok a, s').
Proof. unfold fmap, bind. destruct (m s) as [[a|e| | |] s1]; try discriminate. cbn. intro H. injection H as <- <-. now exists a. Qed.
Lemma fmap_one {A} (f : A -> val) (m : DM A) v s x s' : (forall a, slots (f a) = 1) -> fmap f m s = (Ok x, s') -> slots x <= slots v + 4.
Proof. intros Hf H. destruct (fmap_ok f m s x s' H) as (a & -> & _). rewrite Hf. pose proof (slots_pos v). lia. Qed.
Lemma emsg_ok {A} (m : DM A) s x s' : emsg m s = (Ok x, s') -> m s = (Ok x, s').
Proof. unfold emsg, map_err. destruct (m s) as [[a|e| | |] s1]; congruence. Qed.
Lemma bind_one {A B} (f : A -> val) (p : DM B) (m : B -> DM A) v s x s' : (forall a, slots (f a) = 1) ->
  bind p (fun b => fmap f (m b)) s = (Ok x, s') -> slots x <= slots v + 4.
Proof. intros Hf H. unfold bind in H. destruct (p s) as [[a|e| | |] s1]; try discriminate. now apply (fmap_one f (m a) v s1 x s'). Qed.
Lemma gives_byte_slice : gives read_byte_slice. Proof. exact (gives_str CompactU16). Qed.

Lemma u128_slots float v s x s' : fits (TStruct u128_fields) v -> u128_unmarshal float v s = (Ok x, s') -> slots x <= slots v + 4.
Proof.
  intros Hv H. enough (slots x = 4) by (pose proof (slots_pos v); lia).
  unfold u128_unmarshal in H. destruct v as [| | | | | | | |[|a [|b [|[| | | | | | | | |e|] [|]]]]| |]; try discriminate.
  unfold bind in H. cbn [d_get_cur] in H. unfold d_get_cur in H. destruct (match d_cur s with Some o => Some o | None => iface_order e end) as [o|]; [|discriminate].
  match type of H with (let (_, _) := ?m in _) = _ => destruct m as [[p|er| | |] s1]; try discriminate end.
  unfold ret in H. assert (x = u128_val (fst p) (snd p) None) as -> by congruence. reflexivity.
Qed.

Lemma library_modest : Forall (all_codecs (codec_modest thrice)) library_types.
Proof.
  unfold library_types.
  repeat first [apply Forall_nil | apply Forall_cons];
  lazymatch goal with
  | |- all_codecs _ ?t => let t' := eval hnf in t in change t with t'
  end;
  lazymatch goal with
  | |- all_codecs _ (TCodec _ _) => split; [|cbn; tauto]
  | |- _ => exact I
  end;
  try (eapply modest_flat; [reflexivity|intro; unfold emsg; within|]; intros v s x s' _ Hx; revert Hx;
       first [apply fmap_one; reflexivity | apply bind_one; reflexivity]).
  - eapply modest_by; [reflexivity|intro; unfold safe_read_utf8_string; within|]. intros v s x s' Hs _ Hx.
    apply fmap_ok in Hx. destruct Hx as (a & -> & Hx). unfold safe_read_utf8_string, fmap, bind in Hx.
    destruct (read_byte_slice s) as [[b|e| | |] s1] eqn:Eb; try discriminate. cbn in Hx. injection Hx as <- <-.
    pose proof (gives_byte_slice s b s1 Hs Eb). pose proof (safe_len b). pose proof (slots_pos v). cbn [slots]. lia.
  - eapply modest_by; [reflexivity|intro; unfold emsg; within|]. intros v s x s' Hs _ Hx.
    apply fmap_ok in Hx. destruct Hx as (a & -> & Hx). apply emsg_ok in Hx.
    pose proof (gives_byte_slice s a s' Hs Hx). pose proof (slots_pos v). rewrite slots_slice, sum_nums. pose proof (zlen_nonneg a). lia.
  - eapply modest_flat; [reflexivity|intro; unfold u128_unmarshal, emsg; within|]. intros v s x s' Hv. now apply u128_slots.
  - eapply modest_flat; [reflexivity|intro; unfold u128_unmarshal, emsg; within|]. intros v s x s' Hv. now apply u128_slots.
  - eapply modest_flat; [reflexivity|intro; unfold u128_unmarshal, emsg; within|]. intros v s x s' Hv. now apply u128_slots.
  - eapply modest_flat; [reflexivity|intro; within|]. intros v s x s' _ Hx. unfold ret in Hx. injection Hx as <- _. lia.
Qed.
Lemma thrice_cheap c t : codec_cheap byte_cost (fun _ => 1) c t -> codec_cheap thrice (fun _ => 3) c t.
Proof.
  intros H f Hf. destruct (H f Hf) as [H1 H2]. split; [|exact H2]. intros v s Hs Hv. specialize (H1 v s Hs Hv). unfold thrice. lia.
Qed.

(** * Pointers to nothing *)

Definition ptr0 : val := VPtr (Some (VStruct [])).
Definition ptrs : ty := TSlice (TPtr (TStruct [])).
Definition ptrs_val (n : Z) : val := VSlice (Some (repeat ptr0 (Z.to_nat n))).

Lemma count_read E n rest : 0 <= n <= count_max E -> count_in E (count E n) rest n.
Proof.
  intro Hn. destruct E; cbn [count count_in count_max] in *.
  - split; [|lia]. destruct (leb128_shape n ltac:(lia)) as (init & last & E1 & E2 & E3). exists init, last.
    pose proof (leb128_len64 n ltac:(lia)). rewrite groups_leb128 by lia. repeat split; auto. lia.
  - auto.
  - unfold unsigned. split; [cbn; lia|reflexivity].
Qed.
Lemma rep_same {A} n (R : rel A) b (x : A) rest :
  (forall k, (k < n)%nat -> R b (List.concat (repeat b k) ++ rest) x) -> rep_in n R (List.concat (repeat b n)) rest (repeat x n).
Proof.
  induction n as [|n IH]; intro H; [now split|]. cbn [repeat List.concat rep_in].
  exists b, (List.concat (repeat b n)), x. split; [reflexivity|]. split; [apply H; lia|].
  exists (repeat x n). split; [reflexivity|]. apply IH. intros k Hk. apply H. lia.
Qed.
Lemma concat_nils {A} n : List.concat (repeat (@nil A) n) = [].
Proof. induction n; auto. Qed.
Lemma unit_accepted E rest : accepts E (TPtr (TStruct [])) (Front false false) None LE (VPtr None) [] rest ptr0.
Proof.
  cbn [accepts deref zero_val map]. replace (enum_struct E []) with false by now destruct E.
  exists (VStruct []). split; [reflexivity|]. exists []. now split.
Qed.
Lemma slice_accepted E t b v n rest : uint_kind t = None -> 0 < n <= count_max E ->
  (forall k, (k < Z.to_nat n)%nat -> accepts E t (Front false false) None LE (zero_val t) b (List.concat (repeat b k) ++ rest) v) ->
  n <= zlen rest ->
  accepts E (TSlice t) (Front false false) None LE (VSlice None) (count E n ++ List.concat (repeat b (Z.to_nat n))) rest
    (VSlice (Some (repeat v (Z.to_nat n)))).
Proof.
  intros Hu Hn Hv Hr. cbn [accepts]. rewrite Hu. cbn [orb].
  exists (count E n), (List.concat (repeat b (Z.to_nat n))), n. split; [reflexivity|]. split; [apply count_read; lia|].
  replace (is_borsh E && (n =? 0)) with false by (destruct E; cbn; lia).
  unfold left_in. rewrite zlen_app. pose proof (zlen_nonneg (List.concat (repeat b (Z.to_nat n)))).
  replace (_ <? n) with false by lia. exists (repeat v (Z.to_nat n)). split; [reflexivity|]. now apply rep_same.
Qed.
Lemma ptrs_accepted E n rest : 0 < n <= count_max E -> n <= zlen rest ->
  accepts E ptrs (Front false false) None LE (VSlice None) (count E n) rest (ptrs_val n).
Proof.
  intros Hn Hr. unfold ptrs, ptrs_val. pose proof (slice_accepted E (TPtr (TStruct [])) [] ptr0 n rest eq_refl Hn) as H.
  rewrite concat_nils, app_nil_r in H. apply H; [|exact Hr]. intros k _. apply unit_accepted.
Qed.
Lemma sum_repeat v n : sum (repeat v n) = Z.of_nat n * slots v.
Proof. induction n as [|n IH]; [reflexivity|]. cbn [repeat]. rewrite sum_cons, IH. lia. Qed.
Lemma zeros_len n : 0 <= n -> zlen (repeat 0 (Z.to_nat n)) = n.
Proof. intro. unfold zlen. rewrite repeat_length. lia. Qed.
Lemma count_bytes E n : 0 <= n -> bytes_ok (count E n).
Proof. intro. destruct E; cbn [count]; [now apply leb128_ok..|apply fixed_ok]. Qed.
Lemma thick_slots E n : 0 < n <= count_max E -> exists x s',
  decode (TSlice ptrs) (VSlice None) (new_decoder E (thick E n)) = (Ok x, s') /\ n * n <= slots x.
Proof.
  intro Hn. set (rest := repeat 0 (Z.to_nat n)). set (b := count E n ++ List.concat (repeat (count E n) (Z.to_nat n))).
  assert (Ha : accepts E (TSlice ptrs) (Front false false) None LE (VSlice None) b rest (VSlice (Some (repeat (ptrs_val n) (Z.to_nat n))))).
  { apply slice_accepted; [reflexivity|exact Hn| |].
    - intros k _. apply (ptrs_accepted E n); [exact Hn|]. rewrite zlen_app. unfold rest. rewrite zeros_len by lia.
      pose proof (zlen_nonneg (List.concat (repeat (count E n) k))). lia.
    - unfold rest. rewrite zeros_len by lia. lia. }
  assert (Hd : thick E n = b ++ rest) by (unfold thick, b, rest; now rewrite app_assoc).
  apply (accepts_exact E (TSlice ptrs) (VSlice None) [] (thick E n) None) in Ha; [|split; [constructor|easy]| |exact Hd].
  - destruct Ha as (c' & Ha). eexists _, _. split; [exact Ha|].
    rewrite slots_slice, sum_repeat. unfold ptrs_val. rewrite slots_slice, sum_repeat. cbn [ptr0 slots]. rewrite Z2Nat.id by lia. nia.
  - rewrite Hd. unfold b, rest. apply Forall_app. split; [apply Forall_app; split|].
    + apply count_bytes; lia.
    + apply Forall_concat. apply Forall_forall. intros l Hl. apply repeat_spec in Hl. subst l. apply count_bytes; lia.
    + apply Forall_forall. intros z Hz. apply repeat_spec in Hz. subst z. unfold is_byte. lia.
Qed.
