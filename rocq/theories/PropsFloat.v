(** Floating-point numbers: the order of float keys in Borsh maps (C14), JSON
    texts of JSONFloat64 (C59). *)
From Coq Require Import String.
From Verif Require Import Base Num Types EncPrim Enc Builtin Text Json Spec Check TextFacts JsonSpec FloatSpec FloatKeys ParseFloat
  FloatFacts FloatRound FloatExact FloatJson.
From Coq Require Import Permutation Sorting.Sorted Lia.
Notation length := Datatypes.length.

(** ** C14 *)

(** vComp on floats is the order of the numbers denoted by the bits. *)
Theorem C14_float_order : forall f x y, 0 <= x < 2 ^ fbits f -> 0 <= y < 2 ^ fbits f ->
  (key_before (TFloat f) (VFloat x) (VFloat y) = true <-> float_units f x < float_units f y).
Proof. exact float_key_before. Qed.
Print Assumptions C14_float_order.
(** A map with float keys is written as the number of entries and the entries in
    ascending order of the numbers. *)
Theorem C14_float_keys : forall f vt m, ok Borsh (TMap (TFloat f) vt) None LE (VMap (Some m)) ->
  exists l : list (Z * val), Permutation m (map (fun p => (VFloat (fst p), snd p)) l) /\
    StronglySorted (fun a b => float_units f (fst a) < float_units f (fst b)) l /\
    marshal Borsh (TMap (TFloat f) vt) (VMap (Some m)) =
      (Ok tt, fixed LE 4 (zlen m) ++
              flat_map (fun e => fixed LE (fbytes f) (fst e) ++ snd (marshal Borsh vt (snd e))) l).
Proof. exact float_map. Qed.
Print Assumptions C14_float_keys.
(** 1, -2, -0.5, +Inf, 0: in the file -2, -0.5, 0, 1, +Inf. *)
Definition c14_floats : list (val * val) :=
  [(VFloat 0x3F800000, VBool true); (VFloat 0xC0000000, VBool false); (VFloat 0xBF000000, VBool true);
   (VFloat 0x7F800000, VBool true); (VFloat 0, VBool false)].
Example C14_float_keys_sample :
  ok Borsh (TMap (TFloat F32) TBool) None LE (VMap (Some c14_floats)) /\
  marshal Borsh (TMap (TFloat F32) TBool) (VMap (Some c14_floats)) =
    (Ok tt, [5;0;0;0; 0;0;0;0xC0;0; 0;0;0;0xBF;1; 0;0;0;0;0; 0;0;0x80;0x3F;1; 0;0;0x80;0x7F;1]) /\
  map (float_units F32) [0xC0000000; 0xBF000000; 0; 0x3F800000; 0x7F800000] =
    [- 2 ^ 150; - 2 ^ 148; 0; 2 ^ 149; 2 ^ 277].
Proof. split; [apply okb_ok; vm_compute; reflexivity|]. vm_compute. auto. Qed.

(** ** C59 *)

(** The texts JSONFloat64.UnmarshalJSON accepts, and the float64 each of them
    gives: a JSON string holding a floating-point literal of Go (decimal or
    hexadecimal, underscores between digits), an infinity or NaN; a number of
    JSON; null.  A number is rounded to the nearest float64, ties to even; one
    that rounds to infinity is refused.  Texts shorter than 2000 bytes. *)
Theorem C59_exact : forall data b, bytes_ok data -> zlen data < 2000 ->
  (jsonfloat64_unmarshal_json data = Ok b <->
   (exists r s, data = 34 :: r /\ json_str s data /\ float_value s b) \/
   (json_nil data /\ b = 0) \/ (exists s, json_num s /\ padded s data /\ float_value s b)).
Proof. exact jsonfloat_exact. Qed.
Print Assumptions C59_exact.
(** strconv.ParseFloat. *)
Theorem C59_parse : forall s b, zlen s < 2000 -> (parse_float s = Some b <-> float_value s b).
Proof. exact parse_float_exact. Qed.
Print Assumptions C59_parse.
(** Literals without an exponent, however long. *)
Theorem C59_plain : forall s neg u m k b, signed neg u s -> mantissa 10 (digits_of 10) m k u ->
  (parse_float s = Some b <->
   exists n d a, in_units m 10 (- k) n d /\ nearest n d a /\ a < infinity64 /\ b = sign_bit neg + a).
Proof. exact parse_plain. Qed.
Print Assumptions C59_plain.
(** The rounding is determined: there is one nearest number, and a number that
    is a float64 is its own nearest. *)
Theorem C59_nearest : forall n d, 0 <= n -> 0 < d -> exists a, nearest n d a /\ forall a', nearest n d a' -> a' = a.
Proof.
  intros n d Hn Hd. eexists. split; [now apply round_nearest|]. intros a' H.
  apply (nearest_unique n d); [exact Hd|exact H|now apply round_nearest].
Qed.
Print Assumptions C59_nearest.
Theorem C59_nearest_exact : forall a d, 0 <= a < infinity64 -> 0 < d -> nearest (d * float_units F64 a) d a.
Proof. exact nearest_exact. Qed.
Print Assumptions C59_nearest_exact.
(** Every finite float64, with either sign, has a JSON number that gives it. *)
Theorem C59_every_number : forall b, 0 <= b < 2 ^ 64 -> b mod 2 ^ 63 < infinity64 ->
  exists s, json_num s /\ float_value s b /\ jsonfloat64_unmarshal_json s = Ok b.
Proof. exact every_float. Qed.
Print Assumptions C59_every_number.
(** In long texts the exponent is cut short: a JSON number that denotes 1 is
    read as 0, without an error. *)
Theorem C59_long_refuted : exists s, json_num s /\ float_value s 0x3FF0000000000000 /\ jsonfloat64_unmarshal_json s = Ok 0.
Proof. exists long_one. exact long_exponent_reads. Qed.
Print Assumptions C59_long_refuted.
(** Different numbers can give the same float64. *)
Theorem C59_injective_refuted : exists s s', json_num s /\ json_num s' /\ s <> s' /\
  integer (2 ^ 53) s /\ integer (2 ^ 53 + 1) s' /\ jsonfloat64_unmarshal_json s = jsonfloat64_unmarshal_json s' /\
  exists b, jsonfloat64_unmarshal_json s = Ok b.
Proof.
  exists (itoa (2 ^ 53)), (itoa (2 ^ 53 + 1)). split; [apply number_ok_exact; reflexivity|].
  split; [apply number_ok_exact; reflexivity|]. split; [discriminate|]. split; [apply itoa_spec|]. split; [apply itoa_spec|].
  split; [vm_compute; reflexivity|]. eexists. vm_compute. reflexivity.
Qed.
Print Assumptions C59_injective_refuted.

(** -0.1; the largest finite number; half way between two; hexadecimal; an
    escape in the string; infinity and NaN. *)
Example C59_sample : map (fun s => jsonfloat64_unmarshal_json (str s))
  [" -0.1 "; """1.7976931348623158e308"""; "9007199254740993"; """0x1.8p+1"""; """1_0"""; """-Inf"""; """nan"""; "null"]%string =
  [Ok 0xBFB999999999999A; Ok 0x7FEFFFFFFFFFFFFF; Ok 0x4340000000000000; Ok 0x4008000000000000; Ok 0x4024000000000000;
   Ok 0xFFF0000000000000; Ok 0x7FF8000000000001; Ok 0].
Proof. vm_compute. reflexivity. Qed.
Example C59_refused : map (fun s => jsonfloat64_unmarshal_json (str s))
  [" ""1"""; "1.7976931348623159e308"; "01"; "NaN"; "0x1p0"; "1_0"; """1__0"""; """0x1"""; """1 """; ""]%string = repeat (Err EMsg) 10.
Proof. vm_compute. reflexivity. Qed.
(** The value of a text by the specification alone: 0.1. *)
Example C59_spec_sample : float_value (str "0.1") 0x3FB999999999999A.
Proof. apply C59_parse; vm_compute; reflexivity. Qed.
