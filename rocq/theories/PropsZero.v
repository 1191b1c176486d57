(** The encoders with the IsZero of Go 1.22 (C75). *)
From Coq Require Import String.
From Verif Require Import Types EncPrim Enc DecPrim Dec Builtin Spec TyInd PropsCodec Zero ZeroFacts.
Notation length := Datatypes.length.

(** ** C75: what changes with Go 1.22 *)

(** Built with Go 1.22 the encoders write what they wrote before for the value in
    which optional fields that equal zero are forgotten: same bytes, errors,
    panics and state, with any writer.  So what is stated about Encode elsewhere
    holds for [forget122 E false t v] in place of [v]. *)
Theorem C75_encode : forall t v s, fits t v -> encode122 t v s = encode t (forget122 (e_enc s) false t v) s.
Proof. exact encode122_forget. Qed.
Print Assumptions C75_encode.
Theorem C75_marshal : forall E t v, fits t v -> marshal122 E t v = marshal E t (forget122 E false t v).
Proof. exact marshal122_forget. Qed.
Print Assumptions C75_marshal.

(** Nothing changes for types whose optional fields contain neither floats nor
    fields called _. *)
Theorem C75_unaffected : forall E t v, unaffected E t = true -> fits t v -> marshal122 E t v = marshal E t v.
Proof. intros E t v Hu Hf. rewrite (marshal122_forget E t v Hf), (unaffected_same E t Hu false v Hf). reflexivity. Qed.
Print Assumptions C75_unaffected.

(** What is forgotten cannot be seen with ==; a second time nothing more is
    forgotten. *)
Theorem C75_equal : forall E t v c, fits t v ->
  key_eqb t (forget122 E false t v) c = key_eqb t v c /\ key_eqb t c (forget122 E false t v) = key_eqb t c v.
Proof. intros E t v c Hf. exact (forget_key E t false v Hf c). Qed.
Print Assumptions C75_equal.
Theorem C75_again : forall E t v, fits t v ->
  fits t (forget122 E false t v) /\ forget122 E false t (forget122 E false t v) = forget122 E false t v /\
  marshal122 E t (forget122 E false t v) = marshal122 E t v.
Proof.
  intros E t v Hf. pose proof (forget_fits E t false v Hf) as Hf'. split; [exact Hf'|]. split; [now apply forget_again|].
  rewrite !marshal122_forget by assumption. now rewrite forget_again.
Qed.
Print Assumptions C75_again.
(** IsZero of Go 1.22 is comparison with the zero value, wherever == can compare. *)
Theorem C75_is_zero : forall t v, fits t v -> key_eqb t (zero_val t) (zero_val t) = true ->
  is_zero122 t v = key_eqb t v (zero_val t).
Proof. exact is_zero122_eq. Qed.
Print Assumptions C75_is_zero.

(** struct { A float64 `bin:"optional"`; B struct { _ uint8; C uint8 } `bin:"optional"` }. *)
Definition c75_t : ty := TStruct
  [ (mkF "A" true (mkTag "optional" "" ""), TFloat F64);
    (mkF "B" true (mkTag "optional" "" ""), TStruct [(mkF "_" false notag, u8); plain "C" u8]) ].
Definition c75_v : val := VStruct [VFloat (2 ^ 63); VStruct [VNum 7; VNum 0]].
(** The sign of -0.0 survives with Go up to 1.19 and is lost with Go 1.22. *)
Example C75_sample :
  marshal Borsh c75_t c75_v = (Ok tt, [1; 0; 0; 0; 0; 0; 0; 0; 128; 1; 0]) /\
  marshal122 Borsh c75_t c75_v = (Ok tt, [0; 0]) /\
  forget122 Borsh false c75_t c75_v = VStruct [VFloat 0; VStruct [VNum 0; VNum 0]] /\
  unmarshal Borsh c75_t (zero_val c75_t) [0; 0] = Ok (VStruct [VFloat 0; VStruct [VNum 0; VNum 0]]).
Proof. vm_compute. auto. Qed.
Theorem C75_same_refuted : exists E t v, fits t v /\ marshal122 E t v <> marshal E t v.
Proof.
  exists Borsh, c75_t, c75_v. split; [|vm_compute; discriminate].
  eexists. split; [reflexivity|]. split; [exists (2 ^ 63); split; [reflexivity|cbn; lia]|]. split; [|exact I].
  eexists. split; [reflexivity|]. repeat split; [exists 7|exists 0]; (split; [reflexivity|cbn; lia]).
Qed.
Print Assumptions C75_same_refuted.
Example C75_sample_unaffected :
  unaffected Borsh (TStruct [(mkF "A" true (mkTag "optional" "" ""), TStruct [plain "N" u8; plain "S" TString]); plain "F" (TFloat F32)]) = true.
Proof. reflexivity. Qed.
