(** Byte counts, Written(), failing writers, WriteByWrite (C11-C13, C43). *)
From Verif Require Import Types EncPrim DecPrim Enc Dec Builtin Spec EncFacts EncProps Text Tools Ops PropsCodec.

(** The codec methods of user types are assumed to write through the encoder
    they are given and to pass its errors on ([codec_scripted]); those of the
    library do. *)
Theorem library_codecs_scripted : Forall (all_codecs codec_scripted) library_types.
Proof. exact library_scripted. Qed.
Print Assumptions library_codecs_scripted.

(** ** C11 *)

Theorem C11_byte_count : forall E t v, all_codecs codec_scripted t ->
  byte_count E t v =
    match marshal E t v with
    | (Ok _, b) => Ok (uwrap 64 (zlen b))
    | (Err e, _) => Err (EWrap e)
    | (Panic, _) => Panic
    | (Deep, _) => Deep
    | (Stuck, _) => Stuck
    end.
Proof. exact byte_counts. Qed.
Print Assumptions C11_byte_count.

(** MustBinByteCount etc. give the number of bytes or panic. *)
Theorem C11_must_byte_count : forall E t v, all_codecs codec_scripted t ->
  must_byte_count E t v =
    match marshal E t v with
    | (Ok _, b) => Ok (uwrap 64 (zlen b))
    | (Err _, _) | (Panic, _) => Panic
    | (Deep, _) => Deep
    | (Stuck, _) => Stuck
    end.
Proof. exact must_byte_counts. Qed.
Print Assumptions C11_must_byte_count.

Example C11_ex :
  byte_count Borsh (TSlice TString) (VSlice (Some [VStr [104; 105]; VStr []])) = Ok 14 /\
  zlen (snd (marshal Borsh (TSlice TString) (VSlice (Some [VStr [104; 105]; VStr []])))) = 14 /\
  byte_count Borsh (TFloat F32) (VFloat 0x7fc00000) = Err (EWrap EMsg) /\
  must_byte_count Borsh (TFloat F32) (VFloat 0x7fc00000) = Panic.
Proof. vm_compute. auto. Qed.

(** ** C12 *)

(** [total]: sum of the lengths. *)
Theorem C12_written : forall E w ops, Forall eop_ok ops ->
  let s := snd (eops_run ops (new_encoder E w)) in
  e_count s = total (e_hist s) /\ total (e_hist s) = zlen (List.concat (e_hist s)).
Proof.
  intros E w ops H. split; [|apply total_concat].
  pose proof (written ops (new_encoder E w) H) as W. cbn in W.
  destruct (eops_run ops (new_encoder E w)) as [rs s]. cbn in *. lia.
Qed.
Print Assumptions C12_written.

(** A writer that takes 2 bytes of each chunk after the first and fails. *)
Definition flaky : writer := fun h => if (length h <=? 1)%nat then None else Some (2%nat, 7).
Example C12_ex :
  let '(rs, s) := eops_run [OpWriteUint 2 513 LE; OpWriteString [97; 98; 99]; OpWriteVarInt (2 ^ 60); OpWriteBool true]
                    (new_encoder Borsh flaky) in
  rs = [Ok tt; Err (EWriter 7); Panic; Err (EWriter 7)] /\
  e_count s = 7 /\ e_hist s = [[1; 2]; [3; 0; 0; 0]; [1]] /\ e_acc s = [1; 2; 3; 0; 1].
Proof. vm_compute. auto. Qed.

(** ** C13 *)

(** [cs] are the chunks that the operation writes to a buffer and [r0] its
    result there.  On a writer that accepts all of them the outcome is the
    same; on one whose first failure is at chunk [i] (accepting [k] bytes of
    it) nothing is written afterwards, and the error is found in the result. *)
Theorem C13_failing_writer : forall op E c, eop_ok op ->
  let '(r0, s0) := eop_run op (mkE E buffer c 0 [] []) in
  let cs := e_hist s0 in
  e_acc s0 = List.concat cs /\
  forall w n hist acc, exists s r,
    eop_run op (mkE E w c n hist acc) = (r, s) /\
    ((forall i, (i < length cs)%nat -> w (hist ++ firstn (S i) cs) = None) ->
       r = r0 /\ e_hist s = hist ++ cs /\ e_acc s = acc ++ List.concat cs /\
       e_count s = n + total cs) /\
    (forall i k x, (i < length cs)%nat ->
       (forall j, (j < i)%nat -> w (hist ++ firstn (S j) cs) = None) ->
       w (hist ++ firstn (S i) cs) = Some (k, x) ->
       (exists e, r = Err e /\ err_is e (EWriter x)) /\
       e_hist s = hist ++ firstn (S i) cs /\
       e_acc s = acc ++ List.concat (firstn i cs) ++ firstn k (nth i cs []) /\
       e_count s = n + total (firstn (S i) cs)).
Proof. exact faults. Qed.
Print Assumptions C13_failing_writer.

(** The bytes accepted before a failure are a prefix of the fault-free
    encoding. *)
Theorem C13_prefix : forall (cs : list (list Z)) i k, (i < length cs)%nat ->
  exists rest, List.concat cs = (List.concat (firstn i cs) ++ firstn k (nth i cs [])) ++ rest.
Proof.
  induction cs as [|b cs IH]; intros i k Hi; cbn [length] in Hi; [lia|].
  destruct i as [|i]; cbn [firstn List.concat nth app].
  - exists (skipn k b ++ List.concat cs). now rewrite app_assoc, firstn_skipn.
  - destruct (IH i k) as [rest H]; [lia|]. exists rest. now rewrite H, !app_assoc.
Qed.
Print Assumptions C13_prefix.

Example C13_ex :
  let t := TStruct [plain "A" (TUint UPlain W16); plain "B" TString] in
  let v := VStruct [VNum 258; VStr [97; 98; 99]] in
  let '(r, s) := encode t v (new_encoder Bin flaky) in
  r = Err (EWrap (EWriter 7)) /\ e_hist s = [[2; 1]; [3; 0; 0; 0; 0; 0; 0; 0]] /\
  e_acc s = [2; 1; 3; 0] /\ snd (marshal Bin t v) = [2; 1; 3; 0; 0; 0; 0; 0; 0; 0; 97; 98; 99].
Proof. vm_compute. auto. Qed.

(** ** C43 *)

Theorem C43_bytes : forall l name,
  wbw_bytes (fold_left wbw_write l (new_write_by_write name)) = List.concat l.
Proof. exact wbw_concat. Qed.
Print Assumptions C43_bytes.

(** The recorder and a buffer after the same operations. *)
Theorem C43_recorder_is_buffer : forall E name ops, Forall eop_ok ops ->
  let s := snd (eops_run ops (new_encoder E buffer)) in
  wbw_bytes (recorded name s) = e_acc s.
Proof.
  intros E name ops H. unfold recorded. rewrite wbw_concat.
  now apply buffer_acc.
Qed.
Print Assumptions C43_recorder_is_buffer.

Example C43_ex :
  let s := snd (eops_run [OpWriteUint 2 513 LE; OpEncode TString (VStr [97])] (new_encoder CompactU16 buffer)) in
  wbw_bytes (recorded [] s) = [1; 2; 1; 97] /\ length (wbw_writes (recorded [] s)) = 3%nat /\
  wbw_string (recorded (str "x") s) =
    str "x:" ++ [10] ++ str "- 0: {1, 2}(len=2)" ++ [10] ++ str "- 1: {1}(len=1)" ++ [10] ++ str "- 2: {97}(len=1)" ++ [10].
Proof. vm_compute. auto. Qed.
