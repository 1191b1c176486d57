(** SHA-256 as FIPS 180-4 describes it, as a relation and without the
    functions of Sha256.v.  Words are integers from 0 to 2^32 - 1. *)
From Verif Require Import Base.
Notation length := Datatypes.length.

(** A word given by its bits. *)
Definition word_bits (x : Z) (f : Z -> bool) : Prop :=
  0 <= x < 2 ^ 32 /\ forall i, 0 <= i < 32 -> Z.testbit x i = f i.

(** Section 3.2: rotation to the right and shift; section 4.1.2. *)
Definition rot (n x i : Z) : bool := Z.testbit x ((i + n) mod 32).
Definition shr (n x i : Z) : bool := if i + n <? 32 then Z.testbit x (i + n) else false.
Definition xor3 (f g h : Z -> bool) (i : Z) : bool := xorb (f i) (xorb (g i) (h i)).
Definition is_Sigma0 (x y : Z) : Prop := word_bits y (xor3 (rot 2 x) (rot 13 x) (rot 22 x)).
Definition is_Sigma1 (x y : Z) : Prop := word_bits y (xor3 (rot 6 x) (rot 11 x) (rot 25 x)).
Definition is_sigma0 (x y : Z) : Prop := word_bits y (xor3 (rot 7 x) (rot 18 x) (shr 3 x)).
Definition is_sigma1 (x y : Z) : Prop := word_bits y (xor3 (rot 17 x) (rot 19 x) (shr 10 x)).
(** The second where the first has a bit, else the third; the majority. *)
Definition is_choice (x y z r : Z) : Prop :=
  word_bits r (fun i => if Z.testbit x i then Z.testbit y i else Z.testbit z i).
Definition is_majority (x y z r : Z) : Prop :=
  word_bits r (fun i => let x := Z.testbit x i in let y := Z.testbit y i in let z := Z.testbit z i in
                        (x && y) || (x && z) || (y && z)).

(** Section 4.2.2, 5.3.3: 32 bits of the fractional part of the [d]-th root of
    the primes. *)
Definition first_primes : list Z :=
  [2; 3; 5; 7; 11; 13; 17; 19; 23; 29; 31; 37; 41; 43; 47; 53; 59; 61; 67; 71; 73; 79; 83; 89; 97; 101; 103;
   107; 109; 113; 127; 131; 137; 139; 149; 151; 157; 163; 167; 173; 179; 181; 191; 193; 197; 199; 211; 223;
   227; 229; 233; 239; 241; 251; 257; 263; 269; 271; 277; 281; 283; 293; 307; 311].
Definition root_fraction (d p k : Z) : Prop :=
  0 <= k < 2 ^ 32 /\
  exists n, 0 <= n /\ (n * 2 ^ 32 + k) ^ d <= p * 2 ^ (32 * d) < (n * 2 ^ 32 + k + 1) ^ d.

(** Section 5.1.1: a bit 1, as few zeros as fill a multiple of 512 bits, and
    64 bits for the length in bits. *)
Definition big_endian (bs : list Z) : Z := fold_left (fun x b => x * 256 + b) bs 0.
Definition is_padded (m p : list Z) : Prop :=
  exists zeros l, p = m ++ 128 :: repeat 0 zeros ++ l /\ (zeros < 64)%nat /\
    length l = 8%nat /\ bytes_ok l /\ big_endian l = (8 * zlen m) mod 2 ^ 64 /\
    (length p mod 64 = 0)%nat.

(** Section 6.2.2.  [W]: the message schedule of the block [b]. *)
Definition is_schedule (b : list Z) (W : nat -> Z) : Prop :=
  (forall t, (t < 16)%nat -> W t = big_endian (firstn 4 (skipn (4 * t) b))) /\
  (forall t, (16 <= t < 64)%nat -> exists s1 s0,
     is_sigma1 (W (t - 2)%nat) s1 /\ is_sigma0 (W (t - 15)%nat) s0 /\
     W t = (s1 + W (t - 7)%nat + s0 + W (t - 16)%nat) mod 2 ^ 32).
(** The working variables a to h. *)
Inductive is_round (k w : Z) : list Z -> list Z -> Prop :=
| is_round_ : forall a b c d e f g h s1 ch s0 maj,
    is_Sigma1 e s1 -> is_choice e f g ch -> is_Sigma0 a s0 -> is_majority a b c maj ->
    is_round k w [a; b; c; d; e; f; g; h]
      [(h + s1 + ch + k + w + (s0 + maj)) mod 2 ^ 32; a; b; c; (d + (h + s1 + ch + k + w)) mod 2 ^ 32; e; f; g].
Definition is_block (b H H' : list Z) : Prop :=
  exists K W v, Forall2 (root_fraction 3) first_primes K /\ is_schedule b W /\
    v O = H /\ (forall t, (t < 64)%nat -> is_round (nth t K 0) (W t) (v t) (v (S t))) /\
    H' = map (fun p => (fst p + snd p) mod 2 ^ 32) (combine H (v 64%nat)).
Inductive is_hashed : list Z -> list Z -> list Z -> Prop :=
| is_hashed_done : forall H, is_hashed [] H H
| is_hashed_block : forall b rest H H1 H2, length b = 64%nat -> is_block b H H1 -> is_hashed rest H1 H2 ->
    is_hashed (b ++ rest) H H2.
Definition is_sha256 (m d : list Z) : Prop :=
  exists p H0 H, is_padded m p /\ Forall2 (root_fraction 2) (firstn 8 first_primes) H0 /\ is_hashed p H0 H /\
    length d = 32%nat /\ bytes_ok d /\
    forall i, (i < 8)%nat -> big_endian (firstn 4 (skipn (4 * i) d)) = nth i H 0.
