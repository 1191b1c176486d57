(** C81: what comes back is written as it was. *)
From Coq Require Import String.
From Verif Require Import Types Tags DecPrim Dec Enc Builtin Spec RoundTrip Check AccSpec SteadySpec MapFacts AgainSpec AgainFacts AgainLib.
Open Scope string_scope.
Open Scope list_scope.
Open Scope Z_scope.

(** A value that was encoded and decoded into a new variable is encoded to the
    same bytes. *)
Theorem C81_same_bytes : forall E t v, lasting E t -> fits t v -> ok E t None LE v ->
  exists b v', marshal E t v = (Ok tt, b) /\ unmarshal E t (zero_val t) b = Ok v' /\ marshal E t v' = (Ok tt, b).
Proof.
  intros E t v HL HF HO. destruct (marshal_again E t v HL HF HO) as (b & v' & H1 & H2 & H3 & _). eauto.
Qed.
Print Assumptions C81_same_bytes.

(** In Borsh that does not depend on the order in which maps are visited. *)
Theorem C81_any_order : forall t v, lasting Borsh t -> fits t v -> ok Borsh t None LE v ->
  exists b v', marshal Borsh t v = (Ok tt, b) /\ unmarshal Borsh t (zero_val t) b = Ok v' /\
    forall v'', shuffled good_keys t v' v'' -> marshal Borsh t v'' = (Ok tt, b).
Proof. exact marshal_again_shuffled. Qed.
Print Assumptions C81_any_order.

(** From whatever bytes a value was decoded (the entries of maps in any order,
    keys repeated, counts not minimal): it can be encoded, and from then on the
    bytes stay. *)
Theorem C81_decoded : forall E t inp v s, steady E false t -> lasting E t -> tame E t -> bytes_ok inp ->
  decode t (zero_val t) (new_decoder E inp) = (Ok v, s) ->
  exists b v', marshal E t v = (Ok tt, b) /\ unmarshal E t (zero_val t) b = Ok v' /\ marshal E t v' = (Ok tt, b).
Proof. exact decode_again. Qed.
Print Assumptions C81_decoded.

(** Fields that may be optional, keys of maps, library types. *)
Theorem C81_optional : forall E t, scalar_or_pointer t = true -> marked E t.
Proof. exact scalar_marked. Qed.
Print Assumptions C81_optional.
Theorem C81_keys : forall t, scalar t = true -> kept_key Borsh t.
Proof. exact scalar_kept. Qed.
Print Assumptions C81_keys.
Theorem C81_plain_keys : forall t, exact_key t = true -> plain_keys t.
Proof. exact exact_plain. Qed.
Print Assumptions C81_plain_keys.
Theorem C81_library : forall E, Forall (stays_ty E) lasting_library.
Proof. exact library_stays. Qed.
Print Assumptions C81_library.

(** ** Where it fails *)
Definition opt_slice : ty := TStruct [(mkF "A" true (mkTag "optional" "" ""), TSlice (TUint UPlain W16))].
Definition opt_map : ty := TStruct [(mkF "A" true (mkTag "optional" "" ""), TMap TString (TUint UPlain W8))].
Definition opt_skip : ty := TStruct [(mkF "A" true (mkTag "optional" "" ""),
  TStruct [(mkF "X" true notag, TUint UPlain W8); (mkF "Y" true (mkTag "-" "" ""), TUint UPlain W8)])].

(** An empty optional slice (Borsh) or map comes back nil, and is then absent; a
    struct that differs from zero in a field that is not written likewise; a
    SafeString that is not UTF-8 changes. *)
Theorem C81_same_bytes_refuted : Forall (fun '(E, t, v) => fits t v /\ exists b b' v',
  marshal E t v = (Ok tt, b) /\ unmarshal E t (zero_val t) b = Ok v' /\ marshal E t v' = (Ok tt, b') /\ b <> b')
  [ (Borsh, opt_slice, VStruct [VSlice (Some [])]);
    (Borsh, opt_map, VStruct [VMap (Some [])]);
    (Bin, opt_map, VStruct [VMap (Some [])]);
    (Bin, opt_skip, VStruct [VStruct [VNum 0; VNum 1]]);
    (Borsh, opt_skip, VStruct [VStruct [VNum 0; VNum 1]]);
    (Bin, SafeString, VStr [255]) ].
Proof.
  repeat (apply Forall_cons; [split; [apply fitsb_ok; reflexivity|];
    do 3 eexists; split; [vm_compute; reflexivity|]; split; [vm_compute; reflexivity|]; split; [vm_compute; reflexivity|]; discriminate|]).
  apply Forall_nil.
Qed.
Print Assumptions C81_same_bytes_refuted.

(** A map with boolean keys can be decoded from Borsh and not be encoded. *)
Theorem C81_decoded_refuted : exists t inp v s, bytes_ok inp /\
  decode t (zero_val t) (new_decoder Borsh inp) = (Ok v, s) /\ marshal Borsh t v = (Panic, []).
Proof.
  exists (TMap TBool (TUint UPlain W8)), [2; 0; 0; 0; 1; 7; 0; 8]. do 2 eexists.
  split; [repeat (apply Forall_cons; [unfold is_byte; lia|]); apply Forall_nil|]. split; vm_compute; reflexivity.
Qed.
Print Assumptions C81_decoded_refuted.

(** ** Samples *)
Definition sample_ty : ty := TStruct
  [ (mkF "M" true notag, TMap TString (TMap (TInt false W16) (TSlice TBool)));
    (mkF "O" true (mkTag "optional" "" ""), TPtr (TFloat F32));
    (mkF "U" true notag, Uint128);
    (mkF "S" true (mkTag "-" "" ""), TString) ].
Definition sample_val : val := VStruct
  [ VMap (Some [(VStr [98], VMap (Some [(VNum 5, VSlice (Some [VBool true])); (VNum (-3), VSlice None)])); (VStr [97], VMap None)]);
    VPtr None; VStruct [VNum 1; VNum 2; VIface None]; VStr [1] ].
Example C81_sample_lasting : lasting Borsh sample_ty.
Proof.
  pose proof (library_stays Borsh) as HL. rewrite Forall_forall in HL.
  cbn. repeat split; try (now right); try (intros _; apply scalar_marked; reflexivity); try (apply scalar_kept; reflexivity); try discriminate.
  exact (HL Uint128 (nth_error_In lasting_library 9 eq_refl)).
Qed.
(** Two maps, one in the other, both out of order: a, b and -3, 5 in the file. *)
Example C81_sample : exists v', unmarshal Borsh sample_ty (zero_val sample_ty) (snd (marshal Borsh sample_ty sample_val)) = Ok v' /\
  v' <> sample_val /\ marshal Borsh sample_ty v' = marshal Borsh sample_ty sample_val /\ Datatypes.length (snd (marshal Borsh sample_ty sample_val)) = 52%nat.
Proof. eexists. split; [vm_compute; reflexivity|]. split; [discriminate|]. split; vm_compute; reflexivity. Qed.
(** A map whose entries are not sorted, one of them twice: the later entry
    stays where the first one was. *)
Definition sample_map : ty := TMap TString (TUint UPlain W8).
Example C81_sample_decoded :
  steady Borsh false sample_map /\ lasting Borsh sample_map /\ tame Borsh sample_map /\ ~ orderly Borsh sample_map /\
  let inp := [3; 0; 0; 0] ++ [1; 0; 0; 0; 98; 1] ++ [1; 0; 0; 0; 97; 2] ++ [1; 0; 0; 0; 98; 3] in
  let out := [2; 0; 0; 0] ++ [1; 0; 0; 0; 97; 2] ++ [1; 0; 0; 0; 98; 3] in
  unmarshal Borsh sample_map (zero_val sample_map) inp = Ok (VMap (Some [(VStr [98], VNum 3); (VStr [97], VNum 2)])) /\
  marshal Borsh sample_map (VMap (Some [(VStr [98], VNum 3); (VStr [97], VNum 2)])) = (Ok tt, out) /\
  unmarshal Borsh sample_map (zero_val sample_map) out = Ok (VMap (Some [(VStr [97], VNum 2); (VStr [98], VNum 3)])) /\
  marshal Borsh sample_map (VMap (Some [(VStr [97], VNum 2); (VStr [98], VNum 3)])) = (Ok tt, out).
Proof.
  split; [split; [reflexivity|]; split; [exact I|]; split; [exact I|]; split; [exact I|]; apply exact_plain; reflexivity|].
  split; [split; [reflexivity|]; split; [apply scalar_kept; reflexivity|]; split; exact I|].
  split; [split; [constructor|intros _ H; now destruct H]|].
  split; [intros [H _]; congruence|]. cbv zeta. repeat split; vm_compute; reflexivity.
Qed.
