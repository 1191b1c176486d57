(** What a writer that keeps the slices it is given sees of an Encoder: C86. *)
From Verif Require Import Types Num EncPrim Compact Enc Ops Builtin Alias AliasFacts AliasEnc AliasEncFacts.
Notation length := Datatypes.length.

(** ** C86 *)

(** A program that calls the methods of an Encoder on a WriteByWrite and assigns
    to its own slices in between: Bytes at the end shows the pieces that the calls
    have handed over, in order: those made by the encoder as they were, and the
    slices of the caller as they are then.  The encoder changes nothing in the
    memory of the caller, and Written is the number of the bytes. *)
Theorem C86_program : forall grow E ops h, Forall (hop_ok h) ops ->
  let '(rs, st) := hops_run grow ops (mkHE h E 0 []) in let '(rs', ps, h') := expected E ops h in
  rs = rs' /\ (exists y, he_heap st = h' ++ y) /\
  (let '(h'', out) := h_wbw_bytes grow (he_heap st) (he_rec st) in view h'' out) = List.concat (map (now h') ps) /\
  he_count st = zlen (List.concat (map (now h') ps)).
Proof. exact program_bytes. Qed.
Print Assumptions C86_program.
(** Without assignments: the bytes, results and count of the model without sharing. *)
Theorem C86_plain : forall grow E ops h, Forall (hop_ok h) ops -> Forall (fun op => ~ is_store op) ops ->
  exists eos, map (plain_op h) ops = map Some eos /\
  let '(rs, st) := hops_run grow ops (mkHE h E 0 []) in let '(rs', s) := eops_run eos (new_encoder E buffer) in
  rs = rs' /\ (let '(h'', out) := h_wbw_bytes grow (he_heap st) (he_rec st) in view h'' out) = e_acc s /\ he_count st = e_count s.
Proof. exact program_plain. Qed.
Print Assumptions C86_plain.
(** If no call hands over a slice of the caller (Encode of []byte does not),
    assignments afterwards are not seen. *)
Theorem C86_copied : forall grow grow' E ops stores h, Forall (hop_ok h) ops -> Forall (hop_ok h) stores ->
  Forall (fun op => handed op = None) ops -> Forall is_store stores ->
  let '(_, st) := hops_run grow ops (mkHE h E 0 []) in let '(_, st') := hops_run grow' (ops ++ stores) (mkHE h E 0 []) in
  (let '(h1, out) := h_wbw_bytes grow (he_heap st) (he_rec st) in view h1 out) =
  (let '(h1, out) := h_wbw_bytes grow' (he_heap st') (he_rec st') in view h1 out).
Proof. exact program_copied. Qed.
Print Assumptions C86_copied.
(** One call: the heap grows, and the new entries of the record are new arrays or
    the slice of the caller. *)
Theorem C86_call : forall grow E h op eo, hop_ok h op -> plain_op h op = Some eo ->
  let '(r, ps) := pieces E h op eo in
  forall st x, he_enc st = E -> he_heap st = h ++ x ->
  exists y news, hop_run grow op st =
      (r, mkHE (he_heap st ++ y) E (he_count st + zlen (List.concat (map (now h) ps))) (he_rec st ++ news)) /\
    Forall2 (fun s p => match p with
                        | Own bs => (length (he_heap st) <= s_arr s)%nat /\ valid (he_heap st ++ y) s /\ view (he_heap st ++ y) s = bs
                        | Theirs b => s = b
                        end) news ps.
Proof. intros grow E h op eo H1 H2. pose proof (op_pieces grow E h op eo H1 H2) as H. destruct (pieces E h op eo). exact (proj1 H). Qed.
Print Assumptions C86_call.

(** Encode keeps no reference to what it is given: false for HexBytes, which is
    written with WriteBytes; a []byte with the same contents is copied. *)
Definition c86_shown (E : encoding) (ops : list hop) : list (outcome unit) * list Z :=
  let g := fun _ n => Z.to_nat n in
  let '(rs, st) := hops_run g ops (mkHE [[1; 2; 3]] E 0 []) in
  let '(h, out) := h_wbw_bytes g (he_heap st) (he_rec st) in (rs, view h out).
Theorem C86_independent_refuted : exists h b, valid h b /\ forall grow E,
  (let '(_, st) := hops_run grow [HEncodeHex b] (mkHE h E 0 []) in
   let '(h1, out) := h_wbw_bytes grow (he_heap st) (he_rec st) in view h1 out) <>
  (let '(_, st) := hops_run grow [HEncodeHex b; HStore b 0 7] (mkHE h E 0 []) in
   let '(h1, out) := h_wbw_bytes grow (he_heap st) (he_rec st) in view h1 out).
Proof.
  exists [[1; 2; 3]], (mkS 0 0 3 3). assert (Hv : valid [[1; 2; 3]] (mkS 0 0 3 3)) by (unfold valid; cbn; lia). split; [exact Hv|].
  intros grow E.
  assert (H1 : Forall (hop_ok [[1; 2; 3]]) [HEncodeHex (mkS 0 0 3 3)]) by (constructor; [exact Hv|constructor]).
  assert (H2 : Forall (hop_ok [[1; 2; 3]]) [HEncodeHex (mkS 0 0 3 3); HStore (mkS 0 0 3 3) 0 7]) by (constructor; [exact Hv|constructor; [exact Hv|constructor]]).
  pose proof (program_bytes grow E [HEncodeHex (mkS 0 0 3 3)] [[1; 2; 3]] H1) as P.
  pose proof (program_bytes grow E [HEncodeHex (mkS 0 0 3 3); HStore (mkS 0 0 3 3) 0 7] [[1; 2; 3]] H2) as Q.
  destruct (hops_run grow [HEncodeHex (mkS 0 0 3 3)] _) as [rs st]. destruct (hops_run grow [HEncodeHex (mkS 0 0 3 3); _] _) as [rs' st'].
  destruct E;
    match type of P with context [expected ?E ?o ?h] => let v := eval vm_compute in (expected E o h) in replace (expected E o h) with v in P by reflexivity end;
    match type of Q with context [expected ?E ?o ?h] => let v := eval vm_compute in (expected E o h) in replace (expected E o h) with v in Q by reflexivity end;
    destruct P as (_ & _ & -> & _), Q as (_ & _ & -> & _); discriminate.
Qed.
Print Assumptions C86_independent_refuted.
Example C86_sample : let b := mkS 0 1 2 2 in
  c86_shown Bin [HWriteUint 2 258 LE; HWriteBytes b true; HStore b 0 9; HEncodeBytes b; HStore b 1 8; HWriteString [65]]
  = ([Ok tt; Ok tt; Ok tt; Ok tt; Ok tt; Ok tt], [2; 1;  2; 9; 8;  2; 9; 3;  1; 65]) /\
  c86_shown CompactU16 [HWrite b; HWriteCompactU16 300; HStore b 0 200; HStore b 2 1; HWriteFloat F64 0 BE]
  = ([Ok tt; Ok tt; Ok tt; Panic; Ok tt], [200; 3;  172; 2;  0; 0; 0; 0; 0; 0; 0; 0]).
Proof. split; reflexivity. Qed.
