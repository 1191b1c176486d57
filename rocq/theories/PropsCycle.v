(** C88. *)
From Coq Require Import String.
From Verif Require Import Types EncPrim Enc Builtin Spec NumFacts EncFacts EncProps GoEncFacts WriteSpec RecSpec RecEncEnds CycleSpec CycleFacts.

(** * C88: values that contain themselves *)

(** If encoding comes to a place where the recursive type was cut, it does not
    succeed, whatever is encoded before that and whatever the writer does. *)
Theorem C88_never : forall t v x s, reaches (e_enc s) t v TDeep x -> fst (encode t v s) <> Ok tt.
Proof. intros t v x s H. exact (deep_avoids _ t v x s eq_refl H). Qed.
Print Assumptions C88_never.

(** So Encode never succeeds with a value that contains itself through pointers,
    elements, entries and fields that are encoded: in none of its unrollings. *)
Theorem C88_cycle : forall F G n x s, contains_itself (e_enc s) F G -> fst (encode (unroll F n) (again G n x) s) <> Ok tt.
Proof. intros F G n x s H. exact (C88_never _ _ x s (again_reaches _ F G n x H)). Qed.
Print Assumptions C88_cycle.
Theorem C88_marshal : forall E F G n x, contains_itself E F G -> fst (marshal E (unroll F n) (again G n x)) <> Ok tt.
Proof.
  intros E F G n x H. unfold marshal. pose proof (C88_cycle F G n x (new_encoder E buffer) H) as Hc.
  destruct (encode _ _ _) as [r s] eqn:Ee. exact Hc.
Qed.
Print Assumptions C88_marshal.

(** [chain] is type T struct { V uint8; Next *T }; a ring of one: it is written over
    and over again.  (The real encoder ends when the stack is full, which a
    program cannot recover from.) *)
Theorem C88_ring : forall E n z x, is_byte z ->
  marshal E (unroll chain n) (again (fun y => VStruct [VNum z; VPtr (Some y)]) n x) = (Deep, repeat z n).
Proof. exact ring_bytes. Qed.
Print Assumptions C88_ring.

(** ** Cases *)

Example ring_contains : forall E z, contains_itself E chain (ring_of z).
Proof.
  intros E z r x Hr. eapply r_on.
  { apply (l_field E _ _ 1 (mkF "Next" true notag) (TPtr r) (VPtr (Some x))); try reflexivity; try discriminate.
    intros h t [H|[H|[]]]; injection H as <- <-; discriminate. }
  eapply r_on; [|apply r_here]. apply l_ptr. intros c u ->. destruct Hr as [H|[q H]]; discriminate H.
Qed.
(** Through a flagged pointer, after a field that is written. *)
Definition flagged_node : ty := TStruct
  [ (mkF "Name" true notag, TString); (mkF "Next" true (mkTag "optional" "" ""), TPtr TDeep); (mkF "Back" true (mkTag "-" "" ""), TPtr TDeep) ].
Example flagged_contains : forall E s y, contains_itself E flagged_node (fun x => VStruct [VStr s; VPtr (Some x); y]).
Proof.
  intros E s y r x Hr. eapply r_on.
  { apply (l_field E _ _ 1 (mkF "Next" true (mkTag "optional" "" "")) (TPtr r) (VPtr (Some x))); try reflexivity; try discriminate.
    intros h t [H|[H|[H|[]]]]; injection H as <- <-; discriminate. }
  eapply r_on; [|apply r_here]. apply l_ptr. intros c u ->. destruct Hr as [H|[q H]]; discriminate H.
Qed.
(** A cycle through a field that is skipped does no harm. *)
Example skipped_cycle : forall E n x, fst (marshal E (unroll flagged_node (S n)) (VStruct [VStr [104; 105]; VPtr None; VPtr (Some x)])) = Ok tt.
Proof. intros E n x. destruct E; vm_compute; reflexivity. Qed.
(** type T []T with t[1] = t; type M map[string]M with m["a"] = m. *)
Example slice_contains : forall E, contains_itself E (TSlice TDeep) (fun x => VSlice (Some [VSlice None; x])).
Proof. intros E r x Hr. eapply r_on; [|apply r_here]. apply l_slice; [now destruct Hr as [->|[q ->]]|]. right. now left. Qed.
Example map_contains : forall E, contains_itself E (TMap TString TDeep) (fun x => VMap (Some [(VStr [97], x)])).
Proof. intros E r x Hr. eapply r_on; [|apply r_here]. apply (l_entry E _ _ _ (VStr [97])); [repeat constructor|now left]. Qed.
Example map_sample : marshal Borsh (unroll (TMap TString TDeep) 3) (again (fun x => VMap (Some [(VStr [97], x)])) 3 (VMap None)) =
  (Deep, [1;0;0;0; 1;0;0;0;97; 1;0;0;0; 1;0;0;0;97; 1;0;0;0; 1;0;0;0;97]).
Proof. vm_compute. reflexivity. Qed.
(** A Borsh enum: type X struct { Enum borsh.Enum `borsh_enum:"true"`; Neg *X; Lit uint8 }, x.Neg = x. *)
Definition expr : ty := TStruct
  [ (mkF "Enum" true (mkTag "" "" "true"), TUint UBorshEnum W8); (mkF "Neg" true notag, TPtr TDeep); (mkF "Lit" true notag, TUint UPlain W8) ].
Example expr_contains : contains_itself Borsh expr (fun x => VStruct [VNum 0; VPtr (Some x); VNum 0]).
Proof.
  intros r x Hr. eapply r_on; [|apply r_here].
  apply (l_variant Borsh _ 0 _ (mkF "Neg" true notag)); try reflexivity. now destruct Hr as [->|[q ->]].
Qed.
Example expr_sample : marshal Borsh (unroll expr 4) (again (fun x => VStruct [VNum 0; VPtr (Some x); VNum 0]) 4 VOther) = (Deep, [0; 0; 0; 0]).
Proof. vm_compute. reflexivity. Qed.
