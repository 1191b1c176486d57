(** Maps: C14, C15. *)
From Verif Require Import Types EncPrim DecPrim Enc Dec Builtin Spec NumFacts EncWire DecWire Check
  PropsCodec MapFacts.
From Coq Require Import Permutation Sorting.Sorted.

(** ** C14: Borsh maps are encoded canonically *)

(** Whatever the type and wherever the maps are in the value: the order of the
    entries makes no difference to the result, the bytes, or any other part of
    the encoder's state - also with failing writers and values that cannot be
    encoded. *)
Theorem C14_order_irrelevant : forall t v v' s,
  e_enc s = Borsh -> shuffled good_keys t v v' -> encode t v s = encode t v' s.
Proof. exact encode_same. Qed.
Print Assumptions C14_order_irrelevant.
(** The keys are ascending. *)
Theorem C14_ascending : forall kt vt m, ok Borsh (TMap kt vt) None LE (VMap (Some m)) ->
  exists l, Permutation m l /\
    StronglySorted (fun a b => key_before kt (fst a) (fst b) = true) l /\
    marshal Borsh (TMap kt vt) (VMap (Some m)) =
      (Ok tt, fixed LE 4 (zlen m) ++
              flat_map (fun e => snd (marshal Borsh kt (fst e)) ++ snd (marshal Borsh vt (snd e))) l).
Proof. exact borsh_map_sorted. Qed.
Print Assumptions C14_ascending.

Definition c14_t : ty := TStruct [plain "M" (TMap TString (TMap (TInt false W16) u8))].
Definition c14_a : list (val * val) := [(VNum (-3), VNum 1); (VNum 2, VNum 5); (VNum 300, VNum 7)].
Definition c14_b : list (val * val) := [(VNum 300, VNum 7); (VNum (-3), VNum 1); (VNum 2, VNum 5)].
Definition c14_v : val :=
  VStruct [VMap (Some [(VStr [98], VMap (Some c14_a)); (VStr [97; 120], VMap None)])].
Definition c14_v' : val :=
  VStruct [VMap (Some [(VStr [97; 120], VMap None); (VStr [98], VMap (Some c14_b))])].
Definition c14_bytes : list Z :=
  [2;0;0;0; 2;0;0;0;97;120; 0;0;0;0; 1;0;0;0;98; 3;0;0;0; 253;255;1; 2;0;5; 44;1;7].
Lemma c14_perm : Permutation c14_a c14_b.
Proof.
  unfold c14_a, c14_b. eapply perm_trans; [apply perm_skip, perm_swap|]. apply perm_swap.
Qed.
Ltac good := split; [repeat constructor|repeat (constructor; try (split; reflexivity))].
Example C14_ex : shuffled good_keys c14_t c14_v c14_v' /\
  marshal Borsh c14_t c14_v = (Ok tt, c14_bytes) /\ marshal Borsh c14_t c14_v' = (Ok tt, c14_bytes).
Proof.
  split; [|split; vm_compute; reflexivity].
  right. do 2 eexists. do 2 (split; [reflexivity|]). split; [|exact I].
  right. do 3 eexists. do 2 (split; [reflexivity|]). split; [good|]. split; [apply perm_swap|].
  constructor; [split; [reflexivity|apply shuffled_refl]|]. constructor; [|constructor].
  split; [reflexivity|]. right. do 3 eexists. do 2 (split; [reflexivity|]). split; [good|].
  split; [apply c14_perm|].
  repeat (constructor; [split; [reflexivity|apply shuffled_refl]|]). constructor.
Qed.
Example C14_ascending_ex :
  ok Borsh (TMap (TInt false W16) u8) None LE (VMap (Some c14_b)) /\
  marshal Borsh (TMap (TInt false W16) u8) (VMap (Some c14_b)) =
    (Ok tt, [3;0;0;0; 253;255;1; 2;0;5; 44;1;7]).
Proof. split; [apply okb_ok; vm_compute; reflexivity|vm_compute; reflexivity]. Qed.
(** Keys that vComp does not compare (bool, arrays, defined int64 types): the
    encoder panics as soon as there are two. *)
Theorem C14_bool_keys_refuted : exists t v, fits t v /\
  marshal Borsh t v = (Panic, []) /\ exists b, marshal Bin t v = (Ok tt, b).
Proof.
  exists (TMap TBool u8), (VMap (Some [(VBool true, VNum 1); (VBool false, VNum 2)])).
  split; [apply fitsb_ok; reflexivity|]. split; [reflexivity|]. eexists. vm_compute. reflexivity.
Qed.
Print Assumptions C14_bool_keys_refuted.
Theorem C14_named_int64_keys_refuted : exists t v, fits t v /\ marshal Borsh t v = (Panic, []).
Proof.
  exists (TMap (TInt true W64) u8), (VMap (Some [(VNum 1, VNum 1); (VNum 2, VNum 2)])).
  split; [apply fitsb_ok; reflexivity|reflexivity].
Qed.
Print Assumptions C14_named_int64_keys_refuted.

(** ** C15: Bin and compact-u16 maps in any order *)

(** Any type, maps at any depth. *)
Theorem C15_same_value_and_length : forall E t v v' p,
  E <> Borsh -> fits t p ->
  ok E t None LE v -> ok E t None LE v' -> shuffled any_map t v v' ->
  exists b b' x x',
    marshal E t v = (Ok tt, b) /\ marshal E t v' = (Ok tt, b') /\ zlen b = zlen b' /\
    unmarshal E t p b = Ok x /\ unmarshal E t p b' = Ok x' /\ shuffled any_map t x x'.
Proof. exact maps_any_order. Qed.
Print Assumptions C15_same_value_and_length.
(** One map: the same set of entries. *)
Theorem C15_one_map : forall E kt vt m m',
  E <> Borsh -> m <> [] -> ok E (TMap kt vt) None LE (VMap (Some m)) -> Permutation m m' ->
  exists b b' x x',
    marshal E (TMap kt vt) (VMap (Some m)) = (Ok tt, b) /\
    marshal E (TMap kt vt) (VMap (Some m')) = (Ok tt, b') /\ zlen b = zlen b' /\
    unmarshal E (TMap kt vt) (zero_val (TMap kt vt)) b = Ok (VMap (Some x)) /\
    unmarshal E (TMap kt vt) (zero_val (TMap kt vt)) b' = Ok (VMap (Some x')) /\ Permutation x x'.
Proof. exact one_map_any_order. Qed.
Print Assumptions C15_one_map.
(** The bytes do depend on the order. *)
Example C15_ex : let t := TMap (TInt false W16) u8 in
  ok Bin t None LE (VMap (Some c14_a)) /\ Permutation c14_a c14_b /\
  marshal Bin t (VMap (Some c14_a)) = (Ok tt, [3; 253;255;1; 2;0;5; 44;1;7]) /\
  marshal Bin t (VMap (Some c14_b)) = (Ok tt, [3; 44;1;7; 253;255;1; 2;0;5]) /\
  unmarshal Bin t (VMap None) [3; 253;255;1; 2;0;5; 44;1;7] = Ok (VMap (Some c14_a)) /\
  unmarshal Bin t (VMap None) [3; 44;1;7; 253;255;1; 2;0;5] = Ok (VMap (Some c14_b)).
Proof.
  cbv zeta. split; [apply okb_ok; vm_compute; reflexivity|]. split; [exact c14_perm|].
  repeat split; vm_compute; reflexivity.
Qed.
