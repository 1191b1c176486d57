(** Numeric methods of Uint128 and Int128, /repo/u128.go. *)
From Verif Require Import Types Text Tools.

(** ReverseBytes, /repo/u128.go:100-104: swaps s[i] and s[j] in place while
    i < j.  [fuel] bounds the iterations; the slice length is enough. *)
Definition set_nth (s : list Z) (i : nat) (b : Z) : list Z :=
  firstn i s ++ match skipn i s with [] => [] | _ :: r => b :: r end.
Fixpoint reverse_loop (fuel : nat) (i j : Z) (s : list Z) : list Z :=
  match fuel with
  | O => s
  | S f =>
      if i <? j then
        let a := nth (Z.to_nat i) s 0 in
        let b := nth (Z.to_nat j) s 0 in
        reverse_loop f (i + 1) (j - 1) (set_nth (set_nth s (Z.to_nat i) b) (Z.to_nat j) a)
      else s
  end.
Definition reverse_bytes (s : list Z) : list Z := reverse_loop (length s) 0 (zlen s - 1) s.

(** Uint128.Bytes, /repo/u128.go:62-74; [o] is getByteOrder(). *)
Definition u128_bytes (lo hi : Z) (o : order) : list Z :=
  match o with
  | LE => reverse_bytes (put_uint LE 8 lo ++ put_uint LE 8 hi)
  | BE => put_uint BE 8 hi ++ put_uint BE 8 lo
  end.

(** Uint128.BigInt, /repo/u128.go:76-80. *)
Definition u128_bigint (lo hi : Z) (o : order) : Z := be_num (u128_bytes lo hi o).

(** Uint128.String / DecimalString, /repo/u128.go:82-89; the same for
    Int128.String, u128.go:210-212. *)
Definition u128_string (lo hi : Z) (o : order) : list Z := itoa (u128_bigint lo hi o).

(** Uint128.HexString, /repo/u128.go:91-94. *)
Definition u128_hex_string (lo hi : Z) (o : order) : list Z :=
  str "0x" ++ hex_encode (u128_bytes lo hi o).

(** Int128.BigInt, /repo/u128.go:195-208. *)
Definition i128_bigint (lo hi : Z) (o : order) : Z :=
  let buf := u128_bytes lo hi o in
  if Z.land (hd 0 buf) 128 =? 128 then - be_num (twos_complement buf)
  else be_num buf.

(** Int128.DecimalString, /repo/u128.go:214-216. *)
Definition i128_decimal_string (lo hi : Z) (o : order) : list Z := itoa (i128_bigint lo hi o).
