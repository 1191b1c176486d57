(** Model of the parts of Go's [encoding/binary] used by the library:
    fixed width integers in both byte orders and varints. *)
From Verif Require Import Base.

(** binary.ByteOrder: LE / BE, /repo/tags-options.go:29-32. *)
Inductive order : Type := LE | BE.

(** Widths of the sized integer kinds. *)
Inductive width : Type := W8 | W16 | W32 | W64.
Definition wbytes (w : width) : nat :=
  match w with W8 => 1 | W16 => 2 | W32 => 4 | W64 => 8 end%nat.
Definition wbits (w : width) : Z :=
  match w with W8 => 8 | W16 => 16 | W32 => 32 | W64 => 64 end.

(** The [n] low-order bytes, least significant first. *)
Fixpoint le_bytes (n : nat) (z : Z) : list Z :=
  match n with
  | O => []
  | S n' => z mod 256 :: le_bytes n' (z / 256)
  end.

Fixpoint le_val (bs : list Z) : Z :=
  match bs with
  | [] => 0
  | b :: r => b + 256 * le_val r
  end.

(** order.PutUintN on a buffer of [n] bytes. *)
Definition put_uint (o : order) (n : nat) (z : Z) : list Z :=
  match o with LE => le_bytes n z | BE => rev (le_bytes n z) end.

(** order.UintN of the given bytes. *)
Definition get_uint (o : order) (bs : list Z) : Z :=
  match o with LE => le_val bs | BE => le_val (rev bs) end.

(** binary.PutUvarint: 7 bits per byte, low group first, bit 7 = continue.
    A uint64 needs at most 10 groups ([uvarint_bytes] is called with fuel 10;
    Facts show that the fuel is never exhausted). *)
Fixpoint uvarint_loop (fuel : nat) (x : Z) : list Z :=
  match fuel with
  | O => []
  | S f => if x <? 128 then [x]
           else Z.lor (x mod 256) 128 :: uvarint_loop f (Z.shiftr x 7)
  end.
Definition uvarint_bytes (x : Z) : list Z := uvarint_loop 10 x.

(** binary.PutUvarint(buf, x) with len(buf) = [cap]; [None] is the index
    panic when the buffer is too small. *)
Definition put_uvarint (cap x : Z) : option (list Z) :=
  let bs := uvarint_bytes x in
  if zlen bs <=? cap then Some bs else None.

(** binary.PutVarint: zig-zag, then PutUvarint.  [x] is an int64. *)
Definition zigzag (x : Z) : Z :=
  let ux := uwrap 64 (2 * x) in
  if x <? 0 then Z.lxor ux (2 ^ 64 - 1) else ux.
Definition put_varint (cap x : Z) : option (list Z) :=
  put_uvarint cap (zigzag x).

(** binary.Uvarint: (value, n); n = 0: buffer too small; n < 0: overflow. *)
Fixpoint uvarint_get (buf : list Z) (i x s : Z) : Z * Z :=
  match buf with
  | [] => (0, 0)
  | b :: r =>
      if i =? 10 then (0, - (i + 1))
      else if b <? 128 then
        if (i =? 9) && (1 <? b) then (0, - (i + 1))
        else (uwrap 64 (Z.lor x (Z.shiftl b s)), i + 1)
      else uvarint_get r (i + 1)
             (uwrap 64 (Z.lor x (Z.shiftl (Z.land b 127) s))) (s + 7)
  end.
Definition uvarint (buf : list Z) : Z * Z := uvarint_get buf 0 0 0.

Example uvarint_sample : map uvarint [[]; [5; 6]; [128; 1]; [128]; repeat 255 9 ++ [1]; repeat 255 9 ++ [2]; repeat 128 10 ++ [0]] =
  [(0, 0); (5, 1); (128, 2); (0, 0); (2 ^ 64 - 1, 10); (0, -10); (0, -11)].
Proof. vm_compute. reflexivity. Qed.

(** binary.Varint. *)
Definition varint (buf : list Z) : Z * Z :=
  let '(ux, n) := uvarint buf in
  let x := Z.shiftr ux 1 in
  (if Z.odd ux then - x - 1 else x, n).

(** IEEE 754 bit patterns: floats are represented by their bits
    (math.Float32bits / math.Float64bits). *)
Inductive fwidth : Type := F32 | F64.
Definition fbytes (f : fwidth) : nat := match f with F32 => 4 | F64 => 8 end%nat.
Definition fbits (f : fwidth) : Z := match f with F32 => 32 | F64 => 64 end.
(** Magnitude (all bits but the sign), and the magnitude of infinity. *)
Definition fmag (f : fwidth) (b : Z) : Z := b mod 2 ^ (fbits f - 1).
Definition finf (f : fwidth) : Z :=
  match f with F32 => 2139095040 (* 0x7F800000 *)
             | F64 => 9218868437227405312 (* 0x7FF0000000000000 *) end.
Definition f_isnan (f : fwidth) (b : Z) : bool := finf f <? fmag f b.
(** Numeric order key of a non-NaN float: sign and magnitude; -0 = +0. *)
Definition f_key (f : fwidth) (b : Z) : Z :=
  if b <? 2 ^ (fbits f - 1) then fmag f b else - fmag f b.

(** float32(float64(x)): identity, except that a signalling NaN is made quiet
    (bit 22).  reflect's Value.Float / SetFloat go through float64. *)
Definition f32_through64 (f : fwidth) (b : Z) : Z :=
  match f with
  | F32 => if f_isnan F32 b then Z.lor b (2 ^ 22) else b
  | F64 => b
  end.
