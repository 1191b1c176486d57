(** C80: structs that embed types with methods. *)
From Verif Require Import Types EncPrim DecPrim Enc Dec Builtin Spec Check NumFacts Embed EmbedSpec EmbedFacts.

Local Open Scope string_scope.
Local Open Scope list_scope.

(** The search finds the method that Go's rule for selectors gives: alone at the
    shallowest depth at which there is one. *)
Theorem C80_rule : forall has d p c, promoted has d = Some (p, c) <-> the_method has d p c.
Proof. exact promoted_rule. Qed.
Print Assumptions C80_rule.
(** Marshal writes the field that the method comes from, and nothing else.  The
    method has to be on the value, or the field below an embedded pointer. *)
Theorem C80_marshal : forall E fs p m u v x, the_method has_marshal (DStruct fs) p m -> c_byval (fst m) = true \/ pointing p -> find p v = At x ->
  marshal E (elab (DStruct fs)) v = marshal E (TCodec (by_value (fst m)) u) x.
Proof. exact embed_marshal. Qed.
Print Assumptions C80_marshal.
(** Nil pointers: one that is the field itself is passed to a method on the
    pointer; otherwise, and on the way to the field, they panic. *)
Theorem C80_marshal_nil : forall E fs p m v, the_method has_marshal (DStruct fs) p m -> c_byval (fst m) = true \/ pointing p ->
  (find p v = Nil -> c_byval (fst m) = false -> forall x u, marshal E (elab (DStruct fs)) v =
    marshal E (TCodec (mkCodec (Some (fun _ => c_marshal_nil (fst m))) true panic None) u) x) /\
  (find p v = Nil -> c_byval (fst m) = true -> marshal E (elab (DStruct fs)) v = (Panic, [])) /\
  (find p v = Lost -> marshal E (elab (DStruct fs)) v = (Panic, [])).
Proof. exact embed_marshal_nil. Qed.
Print Assumptions C80_marshal_nil.
(** So it does through a pointer, also if the method is on the pointer; a nil
    pointer panics outside Borsh, whatever the method does on nil pointers. *)
Theorem C80_pointer : forall E fs p m u v x, the_method has_marshal (DStruct fs) p m -> find p v = At x ->
  marshal E (TPtr (elab (DStruct fs))) (VPtr (Some v)) = marshal E (TPtr (TCodec (fst m) u)) (VPtr (Some x)).
Proof. exact embed_pointer. Qed.
Print Assumptions C80_pointer.
Theorem C80_nil : forall E fs p m, the_method has_marshal (DStruct fs) p m -> E <> Borsh ->
  fst (marshal E (TPtr (elab (DStruct fs))) (VPtr None)) = Panic.
Proof. exact embed_nil. Qed.
Print Assumptions C80_nil.
(** If the method is on the pointer and no embedded pointer leads to it, or there
    is none, Marshal of a value goes field by field. *)
Theorem C80_value : forall E fs v, (forall p m, the_method has_marshal (DStruct fs) p m -> c_byval (fst m) = false /\ ~ pointing p) ->
  marshal E (elab (DStruct fs)) v = marshal E (fields_of fs) v.
Proof. exact embed_walk. Qed.
Print Assumptions C80_value.
(** Without methods, or with two at the shallowest depth, it is a struct like any
    other. *)
Theorem C80_none : forall fs, (forall p m, ~ the_method has_marshal (DStruct fs) p m) -> (forall p m, ~ the_method has_unmarshal (DStruct fs) p m) ->
  elab (DStruct fs) = fields_of fs.
Proof. exact embed_none. Qed.
Print Assumptions C80_none.
(** Unmarshal reads the field that the method comes from ... *)
Theorem C80_unmarshal : forall E fs p m u v x data, the_method has_unmarshal (DStruct fs) p m -> find p v = At x ->
  unmarshal E (elab (DStruct fs)) v data =
  match unmarshal E (TCodec (fst m) u) x data with
  | Ok y => Ok (put p v y) | Err e => Err e | Panic => Panic | Deep => Deep | Stuck => Stuck
  end.
Proof. exact embed_unmarshal. Qed.
Print Assumptions C80_unmarshal.
(** ... and leaves the others alone. *)
Theorem C80_put : forall p v x y, find p v = At x -> find p (put p v y) = At y /\
  forall q, apart p q -> find q (put p v y) = find q v.
Proof. intros p v x y H. split; [exact (find_put p v x y H)|]. intros q Hq. exact (find_put_apart p q Hq v y). Qed.
Print Assumptions C80_put.
(** Unmarshal does not make the pointers on the way: a new variable can be read
    into if there are none, and never otherwise (if the method needs its pointer,
    as all methods of the library but those of EmptyVariant do). *)
Theorem C80_unmarshal_nil : forall E fs p m v data, the_method has_unmarshal (DStruct fs) p m ->
  (find p v = Nil -> unmarshal E (elab (DStruct fs)) v data =
    match fst (snd m (mkD data 0 (Some LE) E)) with
    | Ok _ => Ok v | Err e => Err e | Panic => Panic | Deep => Deep | Stuck => Stuck
    end) /\
  (find p v = Lost -> unmarshal E (elab (DStruct fs)) v data = Panic).
Proof. exact embed_unmarshal_nil. Qed.
Print Assumptions C80_unmarshal_nil.
(** EmptyVariant leaves the variable alone and writes nothing, also if a nil
    pointer to it is embedded. *)
Theorem C80_variant : forall E fs p m u v data, empty_decl = DOwn m u -> find p v = Nil ->
  (the_method has_unmarshal (DStruct fs) p m -> unmarshal E (elab (DStruct fs)) v data = Ok v) /\
  (the_method has_marshal (DStruct fs) p m -> pointing p -> marshal E (elab (DStruct fs)) v = (Ok tt, [])).
Proof.
  intros E fs p m u v data Hm Hv. cbn [empty_decl EmptyVariant] in Hm. injection Hm as <- <-. split.
  - intro H. destruct (C80_unmarshal_nil E fs p _ v data H) as [Hn _]. now rewrite (Hn Hv).
  - intros H Hp. destruct (C80_marshal_nil E fs p _ v H (or_intror Hp)) as [Hn _].
    rewrite (Hn Hv eq_refl (VBool true) TBool). destruct E; reflexivity.
Qed.
Print Assumptions C80_variant.
Theorem C80_fresh : forall E fs p m data, the_method has_unmarshal (DStruct fs) p m -> pointing p ->
  (forall d x d', snd m d <> (Ok x, d')) -> forall y, unmarshal E (elab (DStruct fs)) (zero_val (elab (DStruct fs))) data <> Ok y.
Proof. exact embed_fresh. Qed.
Print Assumptions C80_fresh.
Theorem C80_fresh_value : forall fs p m has, the_method has (DStruct fs) p m -> ~ pointing p ->
  exists x, find p (zero_val (elab (DStruct fs))) = At x.
Proof. exact embed_fresh_value. Qed.
Print Assumptions C80_fresh_value.

(** ** Examples *)
Definition e_hdr (n : string) : fhdr := mkF n true notag.
(** struct { N uint8; Uint64; S string } *)
Definition e_u64 : decl := lib_decl Uint64.
Definition e_bool : decl := lib_decl Bool_.
Definition e_one : decl :=
  DStruct [(Named, e_hdr "N", DPlain (TUint UPlain W8)); (Embedded, e_hdr "Uint64", e_u64); (Named, e_hdr "S", DPlain TString)].
Definition e_val : val := VStruct [VNum 7; VNum 513; VStr [104; 105]].
Example C80_one : exists c, the_method has_marshal e_one [(1%nat, false)] c /\ the_method has_unmarshal e_one [(1%nat, false)] c /\ c_byval (fst c) = true.
Proof. eexists. split; [apply C80_rule; reflexivity|]. split; [apply C80_rule; reflexivity|reflexivity]. Qed.
(** N and S are lost. *)
Example C80_one_bytes : forall E, marshal E (elab e_one) e_val = (Ok tt, [1; 2; 0; 0; 0; 0; 0; 0]).
Proof. destruct E; vm_compute; reflexivity. Qed.
Theorem C80_round_trip_refuted : exists d v, forall E, fits (elab d) v /\
  exists b y, marshal E (elab d) v = (Ok tt, b) /\ unmarshal E (elab d) (zero_val (elab d)) b = Ok y /\ y <> v.
Proof.
  exists e_one, e_val. intro E. split; [apply fitsb_ok; reflexivity|]. exists [1; 2; 0; 0; 0; 0; 0; 0], (VStruct [VNum 0; VNum 513; VStr []]).
  split; [apply C80_one_bytes|]. split; [destruct E; vm_compute; reflexivity|discriminate].
Qed.
Print Assumptions C80_round_trip_refuted.
(** Two of them: field by field again. *)
Definition e_two : decl :=
  DStruct [(Embedded, e_hdr "Uint64", e_u64); (Named, e_hdr "N", DPlain (TUint UPlain W8)); (Embedded, e_hdr "Bool", e_bool)].
Example C80_two : elab e_two = TStruct [(e_hdr "Uint64", Uint64); (e_hdr "N", TUint UPlain W8); (e_hdr "Bool", Bool_)].
Proof. reflexivity. Qed.
Example C80_two_bytes : forall E, marshal E (elab e_two) (VStruct [VNum 513; VNum 7; VBool true]) = (Ok tt, [1; 2; 0; 0; 0; 0; 0; 0; 7; 1]).
Proof. destruct E; vm_compute; reflexivity. Qed.
(** The shallower one hides two deeper ones. *)
Definition e_deep : decl := DStruct [(Embedded, e_hdr "Two", e_two); (Named, e_hdr "N", DPlain (TUint UPlain W8)); (Embedded, e_hdr "Bool", e_bool)].
Example C80_deep : forall E, marshal E (elab e_deep) (VStruct [VStruct [VNum 513; VNum 7; VBool true]; VNum 9; VBool false]) = (Ok tt, [0]).
Proof. destruct E; vm_compute; reflexivity. Qed.
(** Two levels down, on the only way. *)
Definition e_below : decl := DStruct [(Named, e_hdr "N", DPlain (TUint UPlain W8)); (Embedded, e_hdr "One", e_one); (Named, e_hdr "Two", e_two)].
Example C80_below : exists c, promoted has_marshal e_below = Some ([(1%nat, false); (1%nat, false)], c) /\
  forall E, marshal E (elab e_below) (VStruct [VNum 3; e_val; VStruct [VNum 513; VNum 7; VBool true]]) = (Ok tt, [1; 2; 0; 0; 0; 0; 0; 0]).
Proof. eexists. split; [reflexivity|]. intros []; vm_compute; reflexivity. Qed.
(** EmptyVariant has its methods on the pointer: Marshal of a value writes all
    fields, Marshal of a pointer none, and Unmarshal reads none. *)
Definition e_variant : decl := DStruct [(Embedded, e_hdr "EmptyVariant", empty_decl); (Named, e_hdr "N", DPlain (TUint UPlain W8))].
Definition e_variant_val : val := VStruct [VStruct []; VNum 7].
Theorem C80_pointer_agrees_refuted : exists d v, forall E, fits (elab d) v /\
  marshal E (elab d) v = (Ok tt, [7]) /\ marshal E (TPtr (elab d)) (VPtr (Some v)) = (Ok tt, []) /\
  unmarshal E (elab d) (zero_val (elab d)) [7] = Ok (zero_val (elab d)).
Proof.
  exists e_variant, e_variant_val. intro E. split; [apply fitsb_ok; reflexivity|].
  split; [destruct E; vm_compute; reflexivity|]. split; destruct E; vm_compute; reflexivity.
Qed.
Print Assumptions C80_pointer_agrees_refuted.
(** struct { N uint8; *Uint64 }: written without N, but Unmarshal into a new
    variable panics once it has read the number. *)
Definition e_ptr : decl := DStruct [(Named, e_hdr "N", DPlain (TUint UPlain W8)); (Pointed, e_hdr "Uint64", e_u64)].
Definition e_ptr_val : val := VStruct [VNum 7; VPtr (Some (VNum 513))].
Theorem C80_fresh_refuted : exists d v, forall E, fits (elab d) v /\ exists b, marshal E (elab d) v = (Ok tt, b) /\
  unmarshal E (elab d) (zero_val (elab d)) b = Panic.
Proof.
  exists e_ptr, e_ptr_val. intro E. split; [apply fitsb_ok; reflexivity|]. exists [1; 2; 0; 0; 0; 0; 0; 0].
  split; destruct E; vm_compute; reflexivity.
Qed.
Print Assumptions C80_fresh_refuted.
Example C80_fresh_sample : exists m, the_method has_unmarshal e_ptr [(1%nat, true)] m /\ pointing [(1%nat, true)] /\
  (forall d x d', snd m d <> (Ok x, d')) /\
  forall E, unmarshal E (elab e_ptr) e_ptr_val [9; 0; 0; 0; 0; 0; 0; 0] = Ok (VStruct [VNum 7; VPtr (Some (VNum 9))]) /\
    marshal E (elab e_ptr) (zero_val (elab e_ptr)) = (Panic, []).
Proof.
  eexists. split; [apply C80_rule; reflexivity|]. split; [exists 1%nat; now left|]. split.
  - intros d x d'. apply never_ok.
  - intro E. split; destruct E; vm_compute; reflexivity.
Qed.
(** struct { *EmptyVariant; N uint8 }: now Marshal of a value writes nothing
    either, with a nil pointer as well; and Unmarshal into a new variable works. *)
Definition e_pvariant : decl := DStruct [(Pointed, e_hdr "EmptyVariant", empty_decl); (Named, e_hdr "N", DPlain (TUint UPlain W8))].
Example C80_pvariant : forall E, let v := VStruct [VPtr (Some (VStruct [])); VNum 7] in
  marshal E (elab e_pvariant) v = (Ok tt, []) /\ marshal E (elab e_pvariant) (VStruct [VPtr None; VNum 7]) = (Ok tt, []) /\
  unmarshal E (elab e_pvariant) (zero_val (elab e_pvariant)) [7] = Ok (zero_val (elab e_pvariant)).
Proof. intro E. repeat split; destruct E; vm_compute; reflexivity. Qed.
(** A nil pointer on the way: struct { *One }. *)
Definition e_way : decl := DStruct [(Pointed, e_hdr "One", e_one)].
Example C80_way : forall E, find [(0%nat, true); (1%nat, false)] (zero_val (elab e_way)) = Lost /\
  marshal E (elab e_way) (zero_val (elab e_way)) = (Panic, []) /\
  marshal E (elab e_way) (VStruct [VPtr (Some e_val)]) = (Ok tt, [1; 2; 0; 0; 0; 0; 0; 0]) /\
  unmarshal E (elab e_way) (VStruct [VPtr (Some e_val)]) [9; 0; 0; 0; 0; 0; 0; 0] = Ok (VStruct [VPtr (Some (VStruct [VNum 7; VNum 9; VStr [104; 105]]))]).
Proof. intro E. repeat split; destruct E; vm_compute; reflexivity. Qed.
