(** JSON methods of the library's own types: /repo/types.go (Bool, HexBytes,
    Int64, Uint64) and /repo/u128.go (Uint128, Int128, Float128), with the
    parts of encoding/json, strconv and math/big that they use.

    Simplifications: the text of errors is not modelled (every error is
    [EMsg]); JSONFloat64 (types.go:176-206, strconv.ParseFloat) is in
    ParseFloat.v.  Inputs are byte strings; nothing is assumed about them. *)
From Coq Require Import String Ascii.
From Verif Require Import Types DecPrim Text Tools U128 Utf8 Builtin.

(** * encoding/json *)

(** White space, encoding/json isSpace. *)
Definition json_space (c : Z) : bool := (c =? 32) || (c =? 9) || (c =? 13) || (c =? 10).
Fixpoint json_skip (s : list Z) : list Z :=
  match s with
  | c :: r => if json_space c then json_skip r else s
  | [] => []
  end.
Definition json_trim (s : list Z) : list Z := rev (json_skip (rev (json_skip s))).

(** Four hexadecimal digits (getu4 without the backslash and the u). *)
Definition hex4 (s : list Z) : option (Z * list Z) :=
  match s with
  | a :: b :: c :: d :: r =>
      match hex_val a, hex_val b, hex_val c, hex_val d with
      | Some a', Some b', Some c', Some d' => Some (((a' * 16 + b') * 16 + c') * 16 + d', r)
      | _, _, _, _ => None
      end
  | _ => None
  end.
(** The escapes of one character. *)
Definition json_escape (c : Z) : option Z :=
  if (c =? 34) || (c =? 92) || (c =? 47) then Some c
  else if c =? 98 then Some 8
  else if c =? 102 then Some 12
  else if c =? 110 then Some 10
  else if c =? 114 then Some 13
  else if c =? 116 then Some 9
  else None.
(** A second half of a surrogate pair, written as an escape. *)
Definition low_surrogate (s : list Z) : option (Z * list Z) :=
  match s with
  | 92 :: 117 :: r =>
      match hex4 r with
      | Some (n, r') => if (0xDC00 <=? n) && (n <? 0xE000) then Some (n, r') else None
      | None => None
      end
  | _ => None
  end.

(** The text of a string literal whose opening quote has been read: up to the
    closing quote, which has to be the end of the input.  (The scanner and
    unquoteBytes of encoding/json in one: an error of either is [None].)
    [fuel]: at least the length of [s]. *)
Fixpoint json_unquote (fuel : nat) (s : list Z) : option (list Z) :=
  match fuel, s with
  | S f, c :: r =>
      if c =? 34 then match r with [] => Some [] | _ => None end
      else if c =? 92 then
        match r with
        | 117 :: r1 =>
            match hex4 r1 with
            | None => None
            | Some (n, r2) =>
                if (0xD800 <=? n) && (n <? 0xE000) then
                  match (if n <? 0xDC00 then low_surrogate r2 else None) with
                  | Some (n2, r3) =>
                      option_map (fun t => encode_rune (0x10000 + (n - 0xD800) * 1024 + (n2 - 0xDC00)) ++ t)
                        (json_unquote f r3)
                  | None => option_map (fun t => encode_rune rune_error ++ t) (json_unquote f r2)
                  end
                else option_map (fun t => encode_rune n ++ t) (json_unquote f r2)
            end
        | e :: r1 =>
            match json_escape e with
            | Some c' => option_map (cons c') (json_unquote f r1)
            | None => None
            end
        | [] => None
        end
      else if c <? 32 then None
      else if c <? 128 then option_map (cons c) (json_unquote f r)
      else let '(n, k) := decode_rune s in
           option_map (fun t => encode_rune n ++ t) (json_unquote f (skipn k s))
  | _, _ => None
  end.

Definition is_null (s : list Z) : bool :=
  match s with [110; 117; 108; 108] => true | _ => false end.

(** json.Unmarshal(data, &x) for a string variable holding [old]: a string
    literal replaces it, null leaves it, everything else (also arrays, objects,
    ...) is an error. *)
Definition json_string (old : list Z) (data : list Z) : option (list Z) :=
  match json_trim data with
  | 34 :: r => json_unquote (length r) r
  | s => if is_null s then Some old else None
  end.

Definition is_digit (c : Z) : bool := (48 <=? c) && (c <=? 57).
(** One or more digits and nothing else. *)
Definition digits_number (s : list Z) : option Z :=
  match s with
  | [] => None
  | _ => if forallb is_digit s then Some (fold_left (fun a c => 10 * a + (c - 48)) s 0) else None
  end.
(** A JSON number without fraction and exponent: no superfluous zeros. *)
Definition json_natural (s : list Z) : option Z :=
  match s with
  | 48 :: _ :: _ => None
  | _ => digits_number s
  end.

(** json.Unmarshal(data, &x) for an int64 variable holding [old]: numbers with
    a fraction or an exponent, or out of range, are errors. *)
Definition json_int64 (old : Z) (data : list Z) : option Z :=
  let s := json_trim data in
  if is_null s then Some old
  else match s with
       | 45 :: r => match json_natural r with
                    | Some n => if n <=? 2 ^ 63 then Some (- n) else None
                    | None => None
                    end
       | _ => match json_natural s with
              | Some n => if n <? 2 ^ 63 then Some n else None
              | None => None
              end
       end.
(** ... for a uint64 variable (strconv.ParseUint rejects any sign). *)
Definition json_uint64 (old : Z) (data : list Z) : option Z :=
  let s := json_trim data in
  if is_null s then Some old
  else match json_natural s with
       | Some n => if n <? 2 ^ 64 then Some n else None
       | None => None
       end.
(** ... for a bool variable. *)
Definition json_bool (old : bool) (data : list Z) : option bool :=
  match json_trim data with
  | [116; 114; 117; 101] => Some true
  | [102; 97; 108; 115; 101] => Some false
  | s => if is_null s then Some old else None
  end.

(** A string literal around characters that need no escapes. *)
Definition quoted (s : list Z) : list Z := [34] ++ s ++ [34].

(** * strconv *)

(** strconv.ParseUint(s, 10, 64). *)
Definition parse_uint (s : list Z) : option Z :=
  match digits_number s with
  | Some n => if n <? 2 ^ 64 then Some n else None
  | None => None
  end.
(** strconv.ParseInt(s, 10, 64). *)
Definition parse_int (s : list Z) : option Z :=
  match s with
  | 45 :: r => match parse_uint r with
               | Some n => if n <=? 2 ^ 63 then Some (- n) else None
               | None => None
               end
  | _ => match parse_uint (match s with 43 :: r => r | _ => s end) with
         | Some n => if n <? 2 ^ 63 then Some n else None
         | None => None
         end
  end.

(** * math/big: (&big.Int{}).SetString(s, 0) *)

Definition big_digit (c : Z) : Z :=
  if is_digit c then c - 48
  else if (97 <=? c) && (c <=? 122) then c - 87
  else if (65 <=? c) && (c <=? 90) then c - 55
  else 63.
(** The character before: none or something else, a digit (or the base
    prefix), an underscore. *)
Inductive big_prev : Type := PStart | PDigit | PSep.
(** The loop of nat.scan, with the checks after it; [octal]: the prefix was a
    single 0. *)
Fixpoint big_scan (b : Z) (octal : bool) (prev : big_prev) (bad : bool) (count acc : Z) (s : list Z)
  : option Z :=
  match s with
  | [] =>
      if bad || match prev with PSep => true | _ => false end then None
      else if count =? 0 then (if octal then Some 0 else None)
      else Some acc
  | c :: r =>
      if c =? 95 then
        big_scan b octal PSep (bad || match prev with PDigit => false | _ => true end) count acc r
      else if big_digit c <? b then big_scan b octal PDigit bad (count + 1) (acc * b + big_digit c) r
      else None
  end.
(** Base prefixes, nat.scan with base 0. *)
Definition big_nat (s : list Z) : option Z :=
  match s with
  | 48 :: r =>
      match r with
      | [] => big_scan 10 false PDigit false 1 0 []
      | c :: r' =>
          if (c =? 98) || (c =? 66) then big_scan 2 false PDigit false 0 0 r'
          else if (c =? 111) || (c =? 79) then big_scan 8 false PDigit false 0 0 r'
          else if (c =? 120) || (c =? 88) then big_scan 16 false PDigit false 0 0 r'
          else big_scan 8 true PDigit false 0 0 r
      end
  | _ => big_scan 10 false PStart false 0 0 s
  end.
Definition big_set_string (s : list Z) : option Z :=
  match s with
  | 45 :: r => option_map Z.opp (big_nat r)
  | 43 :: r => big_nat r
  | _ => big_nat s
  end.

(** big.Int.FillBytes of a 16-byte buffer: the absolute value; panics when it
    does not fit. *)
Definition fill_bytes16 (z : Z) : option (list Z) :=
  if Z.abs z <? 2 ^ 128 then Some (put_uint BE 16 (Z.abs z)) else None.

(** * The methods *)

Definition of_option {A} (o : option A) : outcome A :=
  match o with Some a => Ok a | None => Err EMsg end.

(** Bool.UnmarshalJSON, /repo/types.go:46-61.  (Bool has no MarshalJSON: the
    default text for a bool.) *)
Definition bool_unmarshal_json (data : list Z) : outcome bool :=
  match json_int64 0 data with
  | Some n => Ok (negb (n =? 0))
  | None => of_option (json_bool false data)
  end.
Definition bool_marshal_json (b : bool) : list Z := str (if b then "true" else "false").

(** HexBytes.MarshalJSON, /repo/types.go:79-81. *)
Definition hexbytes_marshal_json (t : list Z) : list Z := quoted (hex_encode t).
(** HexBytes.UnmarshalJSON, /repo/types.go:83-92.  On a DecodeString error the
    bytes before it are stored as well: JsonDest.v. *)
Definition hexbytes_unmarshal_json (data : list Z) : outcome (list Z) :=
  match json_string [] data with
  | Some s => of_option (hex_decode s)
  | None => Err EMsg
  end.

(** Int64.MarshalJSON, /repo/types.go:225-236. *)
Definition int64_marshal_json (i : Z) : list Z :=
  if (0xffffffff <? i) || (i <? -0xffffffff) then quoted (itoa i) else itoa i.
(** Int64.UnmarshalJSON, /repo/types.go:238-267. *)
Definition int64_unmarshal_json (data : list Z) : outcome Z :=
  match data with
  | [] => Err EMsg
  | 34 :: _ => match json_string [] data with
               | Some s => of_option (parse_int s)
               | None => Err EMsg
               end
  | _ => of_option (json_int64 0 data)
  end.

(** Uint64.MarshalJSON, /repo/types.go:285-296. *)
Definition uint64_marshal_json (i : Z) : list Z :=
  if 0xffffffff <? i then quoted (itoa i) else itoa i.
(** Uint64.UnmarshalJSON, /repo/types.go:298-327. *)
Definition uint64_unmarshal_json (data : list Z) : outcome Z :=
  match data with
  | [] => Err EMsg
  | 34 :: _ => match json_string [] data with
               | Some s => of_option (parse_uint s)
               | None => Err EMsg
               end
  | _ => of_option (json_uint64 0 data)
  end.

(** Uint128.MarshalJSON, /repo/u128.go:96-98; Int128.MarshalJSON (218-220) and
    Float128.MarshalJSON (262-264) are the same text. *)
Definition u128_marshal_json (lo hi : Z) (o : order) : list Z := quoted (u128_string lo hi o).

(** unmarshalJSON_decimal, /repo/u128.go:123-141. *)
Definition u128_json_decimal (o : order) (s : list Z) : outcome (Z * Z) :=
  match big_set_string s with
  | None => Err EMsg
  | Some n =>
      match fill_bytes16 n with
      | None => Panic
      | Some oo => fst (read_uint128 o (new_decoder Bin (reverse_bytes oo)))
      end
  end.
(** unmarshalJSON_hex, /repo/u128.go:143-164: 16 characters are 8 bytes, so
    Uint64(data[8:]) is called with an empty slice and panics. *)
Definition uint64_at (o : order) (b : list Z) : outcome Z :=
  if zlen b <? 8 then Panic else Ok (get_uint o (firstn 8 b)).
Definition u128_json_hex (o : order) (s : list Z) : outcome (Z * Z) :=
  let v := skipn 2 s in
  if negb (zlen v =? 16) then Err EMsg
  else match hex_decode v with
       | None => Err EMsg
       | Some data =>
           match uint64_at o (firstn 8 data), uint64_at o (skipn 8 data) with
           | Ok a, Ok b => match o with LE => Ok (a, b) | BE => Ok (b, a) end
           | Ok _, r => omap (fun x => (x, x)) r
           | r, _ => omap (fun x => (x, x)) r
           end
       end.
(** Uint128.UnmarshalJSON, /repo/u128.go:106-121; [lo], [hi]: the number before,
    [o]: its byte order. *)
Definition u128_unmarshal_json (lo hi : Z) (o : order) (data : list Z) : outcome (Z * Z) :=
  if is_null data then Ok (lo, hi)
  else match json_string [] data with
       | None => Err EMsg
       | Some s =>
           match s with
           | 48 :: 120 :: _ | 48 :: 88 :: _ => u128_json_hex o s
           | _ => u128_json_decimal o s
           end
       end.
(** Int128.UnmarshalJSON (u128.go:222-232) and Float128.UnmarshalJSON (266-276):
    json.Unmarshal into a new Uint128, which replaces the old one.  The
    literal is passed on without the white space around it; other JSON values
    are errors either way. *)
Definition i128_unmarshal_json (data : list Z) : outcome (Z * Z) :=
  u128_unmarshal_json 0 0 LE (json_trim data).

(** * Samples *)
Example json_sample_1 : int64_unmarshal_json (str "-5") = Ok (-5). Proof. reflexivity. Qed.
Example json_sample_2 : int64_unmarshal_json (quoted (str "+0012")) = Ok 12. Proof. reflexivity. Qed.
Example json_sample_3 : int64_unmarshal_json (str "012") = Err EMsg. Proof. reflexivity. Qed.
Example json_sample_4 : int64_unmarshal_json (str "1.0") = Err EMsg. Proof. reflexivity. Qed.
Example json_sample_5 : int64_unmarshal_json (str "null") = Ok 0. Proof. reflexivity. Qed.
Example json_sample_6 : uint64_unmarshal_json (str "-0") = Err EMsg. Proof. reflexivity. Qed.
Example json_sample_7 : uint64_unmarshal_json (str "18446744073709551616") = Err EMsg. Proof. reflexivity. Qed.
Example json_sample_8 : u128_unmarshal_json 0 0 LE (quoted (str "0b1_01")) = Ok (5, 0). Proof. reflexivity. Qed.
Example json_sample_9 : u128_unmarshal_json 0 0 LE (quoted (str "010")) = Ok (8, 0). Proof. reflexivity. Qed.
Example json_sample_10 : u128_unmarshal_json 0 0 LE (quoted (str "1__0")) = Err EMsg. Proof. reflexivity. Qed.
Example json_sample_11 : u128_unmarshal_json 0 0 LE (quoted (str "-0x10")) = Ok (16, 0). Proof. reflexivity. Qed.
Example json_sample_12 : u128_unmarshal_json 7 8 LE (str "null") = Ok (7, 8). Proof. reflexivity. Qed.
Example json_sample_13 : i128_unmarshal_json (str " null") = Ok (0, 0). Proof. reflexivity. Qed.
Example json_sample_14 :
  json_string [] ([34] ++ str "1" ++ [195; 169] ++ str "\ud83d\ude00\u0041\ud800x" ++ [34; 32]) =
  Some [49; 195; 169; 240; 159; 152; 128; 65; 239; 191; 189; 120]. Proof. reflexivity. Qed.
Example json_sample_15 : hexbytes_unmarshal_json (quoted (str "0aFf")) = Ok [10; 255]. Proof. reflexivity. Qed.
Example json_sample_16 : bool_unmarshal_json (str " 2 ") = Ok true. Proof. reflexivity. Qed.
