(** /repo/tools.go and /repo/utils.go. *)
From Verif Require Import Types Text.

(** FormatByteSlice, /repo/tools.go:24-31. *)
Definition format_byte_slice (buf : list Z) : list Z :=
  str "{" ++ join (str ", ") (map itoa buf) ++ str "}" ++
  str "(len=" ++ itoa (zlen buf) ++ str ")".

(** FormatDiscriminator, /repo/tools.go:33-39. *)
Definition format_discriminator (disc : list Z) : list Z :=
  str "{" ++ join (str ", ") (map itoa disc) ++ str "}".

(** WriteByWrite, /repo/tools.go:41-44.  (Write keeps the slices it is given,
    not copies; the model has values only.) *)
Record write_by_write : Type := mkWBW { wbw_writes : list (list Z); wbw_name : list Z }.

(** NewWriteByWrite, /repo/tools.go:46-50. *)
Definition new_write_by_write (name : list Z) : write_by_write := mkWBW [] name.

(** Write, /repo/tools.go:52-55. *)
Definition wbw_write (rec : write_by_write) (b : list Z) : write_by_write :=
  mkWBW (wbw_writes rec ++ [b]) (wbw_name rec).

(** Bytes, /repo/tools.go:57-63. *)
Definition wbw_bytes (rec : write_by_write) : list Z :=
  fold_left (fun out v => out ++ v) (wbw_writes rec) [].

(** String, /repo/tools.go:65-74. *)
Fixpoint wbw_lines (i : Z) (l : list (list Z)) : list Z :=
  match l with
  | [] => []
  | v :: r => str "- " ++ itoa i ++ str ": " ++ format_byte_slice v ++ [10] ++ wbw_lines (i + 1) r
  end.
Definition wbw_string (rec : write_by_write) : list Z :=
  (match wbw_name rec with [] => [] | n => n ++ str ":" ++ [10] end) ++
  wbw_lines 0 (wbw_writes rec).

(** An Encoder writing to a WriteByWrite: it accepts everything; its state is
    the record after Write has been called with each chunk, in order. *)
Definition recorded (name : list Z) (s : est) : write_by_write :=
  fold_left wbw_write (e_hist s) (new_write_by_write name).

(** IsByteSlice, /repo/tools.go:76-80: is the dynamic type exactly []byte?
    (A defined type, here a [TCodec], is not.) *)
Definition is_byte_slice (t : ty) : bool :=
  match t with TSlice (TUint UPlain W8) => true | _ => false end.

(** twosComplement, /repo/utils.go:26-34: big.Int.Bytes is minimal. *)
Definition be_num (bs : list Z) : Z := fold_left (fun a b => a * 256 + b) bs 0.
Fixpoint be_digits (fuel : nat) (n : Z) (acc : list Z) : list Z :=
  match fuel with
  | O => acc
  | S f => if n <=? 0 then acc else be_digits f (n / 256) (n mod 256 :: acc)
  end.
Definition big_bytes (n : Z) : list Z := be_digits (S (Z.to_nat (Z.log2 n))) n [].
Definition twos_complement (v : list Z) : list Z :=
  big_bytes (be_num (map (fun b => Z.lxor b 255) v) + 1).
