(** Texts of the recorder and of the 128-bit numbers, preimages of the
    sighashes, strings read from shared memory. *)
From Coq Require Import String.
From Verif Require Import Types Num Spec Text Tools U128 Json DecPrim NumFacts NumProps TextFacts JsonFacts JsonSpec JsonExact
  Heck HeckFacts Sha256 Sighash NameFacts Builtin DecWithin DecSafe DecProps VariantFacts Alias AliasFacts.
Notation length := Datatypes.length.

(** * WriteByWrite.String *)

Definition no_pair (s : list Z) : Prop := forall a b, s <> a ++ 58 :: 10 :: b.
Lemma no_pair_58 s : ~ In 58 s -> no_pair s.
Proof. intros H a b ->. apply H. apply in_app_iff. right. now left. Qed.
Lemma no_pair_10 s : ~ In 10 s -> no_pair s.
Proof. intros H a b ->. apply H. apply in_app_iff. right. right. now left. Qed.
Lemma no_pair_app x c y : no_pair (x ++ [c]) -> no_pair y -> c <> 58 -> no_pair ((x ++ [c]) ++ y).
Proof.
  intros Hx Hy Hc a b H. symmetry in H. apply app_eq_app in H. destruct H as [l [[H1 H2]|[H1 H2]]].
  - exact (Hy _ _ H2).
  - destruct l as [|x1 [|x2 l]]; cbn [app] in H2.
    + exact (Hy [] b (eq_sym H2)).
    + injection H2 as <- H2. apply app_inj_tail in H1 as [_ H1]. congruence.
    + injection H2 as <- <- H2. exact (Hx a l H1).
Qed.
Lemma digits_not c s : ~ digit c -> Forall digit s -> ~ In c s.
Proof. intros H F K. rewrite Forall_forall in F. exact (H (F c K)). Qed.
Lemma itoa_chars z c : ~ digit c -> c <> 45 -> ~ In c (itoa z).
Proof.
  intros Hc Hm. pose proof (itoa_spec z) as S. unfold integer in S. destruct (z <? 0).
  - destruct S as (ds & -> & D). apply decimal_digits in D. intros [K|K]; [congruence|]. now apply (digits_not c ds).
  - apply decimal_digits in S. now apply digits_not.
Qed.
Lemma join_chars c sep l : ~ In c sep -> Forall (fun s => ~ In c s) l -> ~ In c (join sep l).
Proof.
  intros Hs. induction 1 as [|x l Hx Hl IH]; [easy|]. destruct l as [|y l]; [exact Hx|].
  change (join sep (x :: y :: l)) with (x ++ sep ++ join sep (y :: l)).
  intro K. apply in_app_iff in K as [K|K]; [easy|]. apply in_app_iff in K as [K|K]; easy.
Qed.
Lemma format_chars v c : c = 58 \/ c = 10 -> ~ In c (format_byte_slice v).
Proof.
  intros Hc. unfold format_byte_slice.
  assert (Hi : forall z, ~ In c (itoa z)) by (intro z; apply itoa_chars; unfold digit; lia).
  repeat (intro K; apply in_app_iff in K as [K|K]; [revert K|revert K]).
  - cbn. lia.
  - apply join_chars; [cbn; lia|]. apply Forall_map, Forall_forall. auto.
  - cbn. lia.
  - cbn. lia.
  - apply Hi.
  - cbn. lia.
Qed.

Lemma line_no_pair i v : no_pair (str "- " ++ itoa i ++ str ": " ++ format_byte_slice v ++ [10]).
Proof.
  replace (str "- " ++ itoa i ++ str ": " ++ format_byte_slice v ++ [10])
    with (((str "- " ++ itoa i ++ [58]) ++ [32]) ++ format_byte_slice v ++ [10])
    by (change (str ": ") with (@app Z [58] [32]); now rewrite <- !app_assoc).
  apply no_pair_app; [|apply no_pair_58|lia].
  - apply no_pair_10. intro K. repeat (apply in_app_iff in K as [K|K]); try (cbn in K; lia).
    revert K. apply itoa_chars; unfold digit; lia.
  - intro K. apply in_app_iff in K as [K|K]; [revert K; apply format_chars; auto|cbn in K; lia].
Qed.
Lemma lines_cons i v r : wbw_lines i (v :: r) =
  ((str "- " ++ itoa i ++ str ": " ++ format_byte_slice v) ++ [10]) ++ wbw_lines (i + 1) r.
Proof. cbn [wbw_lines]. now rewrite <- !app_assoc. Qed.
Lemma lines_no_pair l : forall i, no_pair (wbw_lines i l).
Proof.
  induction l as [|v l IH]; intro i; [apply no_pair_58; easy|]. rewrite lines_cons. apply no_pair_app; [|apply IH|lia].
  rewrite <- !app_assoc. apply line_no_pair.
Qed.
Lemma split_at (c : Z) a : forall b x y, ~ In c a -> ~ In c b -> a ++ c :: x = b ++ c :: y -> a = b /\ x = y.
Proof.
  induction a as [|d a IH]; intros [|e b] x y Ha Hb H; cbn [app] in H.
  - injection H as ->. auto.
  - injection H as -> H. exfalso. apply Hb. now left.
  - injection H as -> H. exfalso. apply Ha. now left.
  - injection H as -> H. destruct (IH b x y) as [-> ->]; auto; intro K; [apply Ha|apply Hb]; now right.
Qed.
Lemma lines_inj l : forall i l', Forall bytes_ok l -> Forall bytes_ok l' -> wbw_lines i l = wbw_lines i l' -> l = l'.
Proof.
  induction l as [|v l IH]; intros i [|v' l'] Hl Hl' H; try discriminate; [reflexivity|].
  inversion_clear Hl as [|? ? Hv Hr]. inversion_clear Hl' as [|? ? Hv' Hr'].
  cbn [wbw_lines] in H. do 3 apply app_inv_head in H. cbn [app] in H.
  apply split_at in H as [H1 H2]; [|apply format_chars; auto..].
  apply format_byte_slice_inj in H1 as ->; [|assumption..]. f_equal. now apply IH with (i + 1).
Qed.
Lemma header_inj n n' L L' : no_pair L -> no_pair L' -> n ++ 58 :: 10 :: L = n' ++ 58 :: 10 :: L' -> n = n' /\ L = L'.
Proof.
  assert (W : forall n n' L L' l, no_pair L' -> n = n' ++ l -> 58 :: 10 :: L' = l ++ 58 :: 10 :: L -> n = n' /\ L = L').
  { clear. intros n n' L L' l HL Hn H. destruct l as [|x [|y l]]; cbn [app] in H.
    - injection H as ->. now rewrite app_nil_r in Hn.
    - discriminate.
    - injection H as _ _ H. exfalso. exact (HL _ _ H). }
  intros HL HL' H. apply app_eq_app in H as [l [[H1 H2]|[H1 H2]]].
  - now apply W with l.
  - destruct (W n' n L' L l HL H1 H2). auto.
Qed.
Theorem wbw_string_inj a b : Forall bytes_ok (wbw_writes a) -> Forall bytes_ok (wbw_writes b) ->
  wbw_string a = wbw_string b -> a = b.
Proof.
  destruct a as [l n], b as [l' n']. cbn [wbw_writes]. unfold wbw_string. cbn [wbw_name wbw_writes]. intros Hl Hl' H.
  pose proof (lines_no_pair l 0) as P. pose proof (lines_no_pair l' 0) as P'.
  assert (E : forall c (m x : list Z), ((c :: m) ++ str ":" ++ [10]) ++ x = (c :: m) ++ 58 :: 10 :: x)
    by (intros; now rewrite <- !app_assoc).
  destruct n as [|c n], n' as [|c' n']; rewrite ?E in H.
  - apply lines_inj in H; [congruence|assumption..].
  - exfalso. exact (P _ _ H).
  - exfalso. exact (P' _ _ (eq_sym H)).
  - apply header_inj in H as [H0 H]; [|assumption..].
    apply lines_inj in H; [congruence|assumption..].
Qed.
(** What it looks like: a line of its number and the text of the bytes for each
    write. *)
Definition header (name s : list Z) : Prop := name = [] /\ s = [] \/ name <> [] /\ s = name ++ [58; 10].
Fixpoint report (i : Z) (writes : list (list Z)) (s : list Z) : Prop :=
  match writes with
  | [] => s = []
  | w :: r => exists num rest, decimal i num /\ report (i + 1) r rest /\
      s = [45; 32] ++ num ++ [58; 32] ++ format_byte_slice w ++ [10] ++ rest
  end.
Lemma lines_report l : forall i, 0 <= i -> report i l (wbw_lines i l).
Proof.
  induction l as [|w l IH]; intros i Hi; [reflexivity|]. exists (itoa i), (wbw_lines (i + 1) l).
  split; [|split; [apply IH; lia|reflexivity]].
  pose proof (itoa_spec i) as S. unfold integer in S. now replace (i <? 0) with false in S by lia.
Qed.
Theorem wbw_string_report name l : exists h r, header name h /\ report 0 l r /\
  wbw_string (fold_left wbw_write l (new_write_by_write name)) = h ++ r.
Proof.
  assert (F : forall l w, fold_left wbw_write l w = mkWBW (wbw_writes w ++ l) (wbw_name w)).
  { clear. induction l as [|x l IH]; intros [ws n]; cbn [fold_left wbw_writes wbw_name]; [now rewrite app_nil_r|].
    rewrite IH. cbn [wbw_write wbw_writes wbw_name]. now rewrite <- app_assoc. }
  rewrite F. unfold wbw_string, new_write_by_write. cbn [wbw_name wbw_writes app].
  eexists. exists (wbw_lines 0 l). split; [|split; [apply lines_report; lia|reflexivity]].
  unfold header. destruct name; [now left|now right].
Qed.

(** * Texts of the 128-bit types *)

Theorem hex_string_spec lo hi o : 0 <= lo < 2 ^ 64 -> 0 <= hi < 2 ^ 64 ->
  exists ds, u128_hex_string lo hi o = [48; 120] ++ ds /\ length ds = 32%nat /\
    hex_text ds (fixed BE 16 (hi * 2 ^ 64 + lo)) /\ Forall (fun c => 48 <= c <= 57 \/ 97 <= c <= 102) ds.
Proof.
  intros Hl Hh. unfold u128_hex_string. rewrite u128_bytes_spec by assumption.
  pose proof (fixed_ok BE 16 (hi * 2 ^ 64 + lo)) as Hok. set (bs := fixed BE 16 (hi * 2 ^ 64 + lo)) in *.
  exists (hex_encode bs). split; [reflexivity|]. split.
  - pose proof (hex_length bs) as L. unfold zlen, bs in L. rewrite fixed_length in L. fold bs in L. lia.
  - split; [now apply hex_decode_exact, hex_round|now apply hex_chars].
Qed.
Theorem decimal_string_spec lo hi o : 0 <= lo < 2 ^ 64 -> 0 <= hi < 2 ^ 64 ->
  decimal (hi * 2 ^ 64 + lo) (u128_string lo hi o) /\
  integer (if hi <? 2 ^ 63 then hi * 2 ^ 64 + lo else hi * 2 ^ 64 + lo - 2 ^ 128) (i128_decimal_string lo hi o).
Proof.
  intros Hl Hh. split.
  - unfold u128_string. rewrite u128_bigint_spec by assumption. pose proof (itoa_spec (hi * 2 ^ 64 + lo)) as S.
    unfold integer in S. now replace (hi * 2 ^ 64 + lo <? 0) with false in S by lia.
  - unfold i128_decimal_string. rewrite i128_bigint_spec by assumption.
    replace (if hi <? 2 ^ 63 then hi * 2 ^ 64 + lo else hi * 2 ^ 64 + lo - 2 ^ 128) with (swrap 128 (hi * 2 ^ 64 + lo));
      [apply itoa_spec|].
    unfold swrap. rewrite Z.mod_small by lia. change (2 ^ (128 - 1)) with (2 ^ 63 * 2 ^ 64).
    destruct (hi <? 2 ^ 63) eqn:E1; destruct (_ <? 2 ^ 63 * 2 ^ 64) eqn:E2; lia.
Qed.

(** * JSON of Bool *)

Theorem bool_text b : bool_marshal_json b = if b then true_text else false_text.
Proof. now destruct b. Qed.

(** * Sighashes of ASCII names *)

Theorem instruction_preimage u name : ascii name -> exists rest,
  sha256 (str "global:" ++ join [95] (map (map lower_of) (text_words name))) = sighash_instruction u name ++ rest /\
  length (sighash_instruction u name) = 8%nat.
Proof.
  intro H. unfold sighash_instruction. rewrite snake_for_sighash, snake_words by assumption.
  destruct (sighash_prefix global_namespace (join [95] (map (map lower_of) (text_words name)))) as (rest & E & L & _).
  exists rest. split; [|exact L]. rewrite <- E. reflexivity.
Qed.
Theorem account_preimage u name : ascii name -> exists rest,
  sha256 (str "account:" ++ List.concat (map capital (text_words name))) = sighash_account u name ++ rest /\
  length (sighash_account u name) = 8%nat.
Proof.
  intro H. unfold sighash_account. rewrite pascal_words by assumption.
  destruct (sighash_prefix account_namespace (List.concat (map capital (text_words name)))) as (rest & E & L & _).
  exists rest. split; [|exact L]. rewrite <- E. reflexivity.
Qed.

(** * Strings read from shared memory *)

Theorem h_string_agrees h d : hready h d -> bytes_ok (view h (hd_data d)) ->
  exists d', h_read_string (h, d) = (fst (read_string (plain_dst h d)), (h, d')) /\ hd_data d' = hd_data d /\
    plain_dst h d' = snd (read_string (plain_dst h d)).
Proof.
  intros Hr Hb. pose proof (h_slice_agrees h d Hr Hb) as H. unfold read_string.
  unfold h_read_string, bind. destruct (read_byte_slice (plain_dst h d)) as [[bs|e| | |] s']; cbn [fst snd]; try easy.
  - destruct H as (s & d' & E & H1 & H2 & _ & H3). rewrite E. exists d'. unfold h_heap. cbn [fst]. now rewrite H3.
  - destruct H as (d' & E & H1 & H2). rewrite E. now exists d'.
Qed.
Theorem h_type_id_agrees h d : hready h d -> 8 <= s_len (hd_data d) - hd_pos d ->
  h_read_type_id (h, d) = (Ok (window (plain_dst h d) 8), (h, advanced d 8)).
Proof.
  intros Hr Hl. destruct (h_read_n_ok h d 8 Hr ltac:(lia) Hl) as (s & E & Hp & _).
  unfold h_read_type_id, bind. rewrite E. unfold h_heap, ret. cbn [fst]. f_equal. f_equal.
  rewrite (part_window h d s 8 Hr Hp). apply type_id_full. destruct (ready_inside h d Hr) as [Hi Hrem].
  unfold window. rewrite firstn_length, skipn_length. unfold plain_dst, DecWithin.inside, zlen in *. cbn [d_data d_pos] in *.
  destruct Hr as (Hv & Hq). pose proof (view_length h (hd_data d) Hv) as L. unfold zlen in L. lia.
Qed.
(** The recorder with shared slices: the writes in their order. *)
Theorem h_wbw_order grow h l : Forall (valid h) l ->
  let '(h', out) := h_wbw_bytes grow h (fold_left h_wbw_write l []) in view h' out = List.concat (map (view h) l).
Proof.
  intro Hl. assert (H : forall r, fold_left h_wbw_write l r = r ++ l).
  { clear Hl. induction l as [|s l IH]; intro r; cbn [fold_left]; [now rewrite app_nil_r|].
    rewrite IH. unfold h_wbw_write. now rewrite <- app_assoc. }
  rewrite H. cbn [app]. pose proof (wbw_views grow h l Hl) as W. destruct (h_wbw_bytes grow h l). exact (proj1 W).
Qed.
