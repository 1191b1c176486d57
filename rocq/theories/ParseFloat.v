(** strconv.ParseFloat(s, 64), json.Unmarshal into a float64 variable, and
    JSONFloat64.UnmarshalJSON, /repo/types.go:178-207.

    Simplifications: the conversion of the digits (strconv's atof64exact,
    eiselLemire64, decimal and atofHex) is modelled as what they compute, the
    correctly rounded number; the error texts are not modelled. *)
From Coq Require Import String.
From Verif Require Import Base Num Types Text Json.
Notation length := Datatypes.length.

(** ** Rounding *)

(** [n / d] (not negative), in units of 2^-1074, rounded to the nearest float64,
    ties to even; the result is the bit pattern.  Overflow gives a pattern from
    that of infinity on. *)
Definition round_pattern (n d : Z) : Z :=
  let e := Z.max 0 (Z.log2 (n / d) - 52) in
  let D := d * 2 ^ e in
  let q := n / D in
  let r := n mod D in
  e * 2 ^ 52 + (if (D <? 2 * r) || ((D =? 2 * r) && Z.odd q) then q + 1 else q).
(** m * b^p in units of 2^-1074, as a fraction. *)
Definition scaled_num (m b p : Z) : Z := m * b ^ Z.max p 0 * 2 ^ 1074.
Definition scaled_den (b p : Z) : Z := b ^ Z.max (- p) 0.

(** ** readFloat *)

Definition fl_digit (hex : bool) (c : Z) : option Z :=
  if hex then hex_val c else if is_digit c then Some (c - 48) else None.
(** The loop over the digits of the mantissa: digits seen?, the number they
    form, how many stand after the point, what follows. *)
Fixpoint fl_mant (hex : bool) (s : list Z) (dot saw : bool) (m k : Z) : bool * Z * Z * list Z :=
  match s with
  | [] => (saw, m, k, [])
  | c :: r =>
      if c =? 95 then fl_mant hex r dot saw m k
      else if c =? 46 then (if dot then (saw, m, k, s) else fl_mant hex r true saw m k)
      else match fl_digit hex c with
           | Some d => fl_mant hex r dot true (m * (if hex then 16 else 10) + d) (if dot then k + 1 else k)
           | None => (saw, m, k, s)
           end
  end.
(** The digits of the exponent; once it is 10000 or more, further digits are
    ignored. *)
Fixpoint fl_exp (s : list Z) (e : Z) : Z * list Z :=
  match s with
  | [] => (e, [])
  | c :: r =>
      if c =? 95 then fl_exp r e
      else if is_digit c then fl_exp r (if e <? 10000 then e * 10 + (c - 48) else e)
      else (e, s)
  end.
(** e or p, sign, at least one digit.  Hexadecimal mantissas must have an
    exponent. *)
Definition fl_exponent (hex : bool) (s : list Z) : option (Z * list Z) :=
  match s with
  | c :: r =>
      if (if hex then (c =? 112) || (c =? 80) else (c =? 101) || (c =? 69)) then
        let '(neg, r1) := match r with
                          | 43 :: r' => (false, r')
                          | 45 :: r' => (true, r')
                          | _ => (false, r)
                          end in
        match r1 with
        | c1 :: _ =>
            if is_digit c1 then
              let '(e, r2) := fl_exp r1 0 in Some (if neg : bool then - e else e, r2)
            else None
        | [] => None
        end
      else if hex then None else Some (0, s)
  | [] => if hex then None else Some (0, [])
  end.

(** underscoreOK: underscores separate digits; a base prefix counts as a
    digit. *)
Fixpoint under_loop (hex : bool) (prev : big_prev) (s : list Z) : bool :=
  match s with
  | [] => match prev with PSep => false | _ => true end
  | c :: r =>
      match fl_digit hex c with
      | Some _ => under_loop hex PDigit r
      | None =>
          if c =? 95 then match prev with PDigit => under_loop hex PSep r | _ => false end
          else match prev with PSep => false | _ => under_loop hex PStart r end
      end
  end.
Definition strip_sign (s : list Z) : bool * list Z :=
  match s with
  | 43 :: r => (false, r)
  | 45 :: r => (true, r)
  | _ => (false, s)
  end.
Definition is_x (c : Z) : bool := (c =? 120) || (c =? 88).
Definition underscore_ok (s : list Z) : bool :=
  let r := snd (strip_sign s) in
  match r with
  | 48 :: c :: r' =>
      if (c =? 98) || (c =? 66) || (c =? 111) || (c =? 79) || is_x c then under_loop (is_x c) PDigit r'
      else under_loop false PStart r
  | _ => under_loop false PStart r
  end.

(** ** The special values *)

(** Equal up to ASCII case; [p] in lower case. *)
Fixpoint same_ci (p s : list Z) : bool :=
  match p, s with
  | [], [] => true
  | a :: p', c :: s' => ((c =? a) || (c =? a - 32)) && same_ci p' s'
  | _, _ => false
  end.
Definition inf64 : Z := 2047 * 2 ^ 52.
(** math.NaN() *)
Definition nan64 : Z := 0x7FF8000000000001.
Definition sign64 (neg : bool) : Z := if neg then 2 ^ 63 else 0.
Definition fl_special (s : list Z) : option Z :=
  if same_ci (str "nan") s then Some nan64
  else let '(neg, r) := strip_sign s in
       if same_ci (str "inf") r || same_ci (str "infinity") r then Some (sign64 neg + inf64) else None.

(** ** strconv.ParseFloat(s, 64); the result is the bit pattern *)
Definition fl_value (neg hex : bool) (m k e : Z) : option Z :=
  let b := if hex then 2 else 10 in
  let p := if hex then e - 4 * k else e - k in
  let a := round_pattern (scaled_num m b p) (scaled_den b p) in
  if a <? inf64 then Some (sign64 neg + a) else None.
Definition parse_float (s : list Z) : option Z :=
  match fl_special s with
  | Some b => Some b
  | None =>
      let '(neg, s1) := strip_sign s in
      let '(hex, s2) := match s1 with
                        | 48 :: c :: r =>
                            if is_x c && negb (zlen r =? 0) then (true, r) else (false, s1)
                        | _ => (false, s1)
                        end in
      let '(saw, m, k, s3) := fl_mant hex s2 false false 0 0 in
      if negb saw then None
      else match fl_exponent hex s3 with
           | Some (e, []) =>
               if existsb (fun c => c =? 95) s && negb (underscore_ok s) then None
               else fl_value neg hex m k e
           | _ => None
           end
  end.

(** ** encoding/json *)

Fixpoint skip_digits (s : list Z) : list Z :=
  match s with
  | c :: r => if is_digit c then skip_digits r else s
  | [] => []
  end.
(** The scanner on a number: fraction and exponent. *)
Definition json_exp_ok (s : list Z) : bool :=
  match s with
  | [] => true
  | c :: r =>
      ((c =? 101) || (c =? 69)) &&
      match snd (strip_sign r) with
      | c1 :: r1 => is_digit c1 && (zlen (skip_digits r1) =? 0)
      | [] => false
      end
  end.
Definition json_frac_ok (s : list Z) : bool :=
  match s with
  | c :: r =>
      if c =? 46 then match r with
                      | c1 :: r1 => is_digit c1 && json_exp_ok (skip_digits r1)
                      | [] => false
                      end
      else json_exp_ok s
  | [] => true
  end.
Definition json_number_ok (s : list Z) : bool :=
  match (match s with 45 :: r => r | _ => s end) with
  | c :: r =>
      if c =? 48 then json_frac_ok r
      else is_digit c && json_frac_ok (skip_digits r)
  | [] => false
  end.
(** json.Unmarshal(data, &x) for a float64 variable holding [old]. *)
Definition json_float64 (old : Z) (data : list Z) : option Z :=
  let s := json_trim data in
  if is_null s then Some old
  else if json_number_ok s then parse_float s else None.

(** JSONFloat64.UnmarshalJSON, /repo/types.go:178-207. *)
Definition jsonfloat64_unmarshal_json (data : list Z) : outcome Z :=
  match data with
  | [] => Err EMsg
  | 34 :: _ => match json_string [] data with
               | Some s => of_option (parse_float s)
               | None => Err EMsg
               end
  | _ => of_option (json_float64 0 data)
  end.

(** ** Samples *)
Example pf_1 : parse_float (str "1") = Some 0x3FF0000000000000. Proof. vm_compute. reflexivity. Qed.
Example pf_2 : parse_float (str "-0.1") = Some (2 ^ 63 + 0x3FB999999999999A). Proof. vm_compute. reflexivity. Qed.
Example pf_3 : parse_float (str "9007199254740993") = Some 0x4340000000000000. Proof. vm_compute. reflexivity. Qed.
Example pf_4 : parse_float (str "5e-324") = Some 1. Proof. vm_compute. reflexivity. Qed.
Example pf_5 : parse_float (str "2e-324") = Some 0. Proof. vm_compute. reflexivity. Qed.
Example pf_6 : parse_float (str "1.7976931348623157e308") = Some 0x7FEFFFFFFFFFFFFF. Proof. vm_compute. reflexivity. Qed.
Example pf_7 : parse_float (str "1.7976931348623159e308") = None. Proof. vm_compute. reflexivity. Qed.
Example pf_8 : parse_float (str "0x1.8p+1") = Some 0x4008000000000000. Proof. vm_compute. reflexivity. Qed.
Example pf_9 : parse_float (str "1_23.50_0_0e+1_2") = parse_float (str "1.235e+14"). Proof. vm_compute. reflexivity. Qed.
Example pf_10 : map (fun s => parse_float (str s))
  ["_1"; "1_"; "1__2"; "1._5"; "1_.5"; "1e_5"; "1e5_"; "0x_.8p0"; "0x1"; "0x"; ""; "."; "e5"; "1e"; "1e+"; "+"; "+nan"; "infi"; "1 "; "0b1"]%string
  = repeat None 20. Proof. vm_compute. reflexivity. Qed.
Example pf_11 : parse_float (str "0x_1_2.3_4_5p+1_2") = parse_float (str "74565"). Proof. vm_compute. reflexivity. Qed.
Example pf_12 : parse_float (str "-INFinity") = Some 0xFFF0000000000000. Proof. vm_compute. reflexivity. Qed.
Example pf_13 : map (fun s => jsonfloat64_unmarshal_json (str s)) ["1.5"; " -2e0 "; "null"; "01"; "1."; ".5"; "+1"; "1e400"; "true"; ""]%string
  = [Ok 0x3FF8000000000000; Ok 0xC000000000000000; Ok 0; Err EMsg; Err EMsg; Err EMsg; Err EMsg; Err EMsg; Err EMsg; Err EMsg].
Proof. vm_compute. reflexivity. Qed.
