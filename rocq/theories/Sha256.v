(** SHA-256 (FIPS 180-4), the function crypto/sha256.Sum256 of the Go standard
    library that /repo/sighash.go:26 calls. *)
From Coq Require Import String.
From Verif Require Import Base Text.
Notation length := Datatypes.length.

(** 32-bit words. *)
Definition w32 (x : Z) : Z := x mod 2 ^ 32.
Definition add32 (a b : Z) : Z := w32 (a + b).
Definition rotr (n x : Z) : Z := Z.lor (Z.shiftr x n) (w32 (Z.shiftl x (32 - n))).
Definition not32 (x : Z) : Z := Z.lxor x 0xffffffff.

(** Section 4.1.2. *)
Definition Ch (x y z : Z) : Z := Z.lxor (Z.land x y) (Z.land (not32 x) z).
Definition Maj (x y z : Z) : Z := Z.lxor (Z.lxor (Z.land x y) (Z.land x z)) (Z.land y z).
Definition Sigma0 (x : Z) : Z := Z.lxor (Z.lxor (rotr 2 x) (rotr 13 x)) (rotr 22 x).
Definition Sigma1 (x : Z) : Z := Z.lxor (Z.lxor (rotr 6 x) (rotr 11 x)) (rotr 25 x).
Definition sigma0 (x : Z) : Z := Z.lxor (Z.lxor (rotr 7 x) (rotr 18 x)) (Z.shiftr x 3).
Definition sigma1 (x : Z) : Z := Z.lxor (Z.lxor (rotr 17 x) (rotr 19 x)) (Z.shiftr x 10).

(** Section 4.2.2: cube roots of the first 64 primes; 5.3.3: square roots of the
    first 8. *)
Definition sha_k : list Z :=
  [0x428a2f98; 0x71374491; 0xb5c0fbcf; 0xe9b5dba5; 0x3956c25b; 0x59f111f1; 0x923f82a4; 0xab1c5ed5;
   0xd807aa98; 0x12835b01; 0x243185be; 0x550c7dc3; 0x72be5d74; 0x80deb1fe; 0x9bdc06a7; 0xc19bf174;
   0xe49b69c1; 0xefbe4786; 0x0fc19dc6; 0x240ca1cc; 0x2de92c6f; 0x4a7484aa; 0x5cb0a9dc; 0x76f988da;
   0x983e5152; 0xa831c66d; 0xb00327c8; 0xbf597fc7; 0xc6e00bf3; 0xd5a79147; 0x06ca6351; 0x14292967;
   0x27b70a85; 0x2e1b2138; 0x4d2c6dfc; 0x53380d13; 0x650a7354; 0x766a0abb; 0x81c2c92e; 0x92722c85;
   0xa2bfe8a1; 0xa81a664b; 0xc24b8b70; 0xc76c51a3; 0xd192e819; 0xd6990624; 0xf40e3585; 0x106aa070;
   0x19a4c116; 0x1e376c08; 0x2748774c; 0x34b0bcb5; 0x391c0cb3; 0x4ed8aa4a; 0x5b9cca4f; 0x682e6ff3;
   0x748f82ee; 0x78a5636f; 0x84c87814; 0x8cc70208; 0x90befffa; 0xa4506ceb; 0xbef9a3f7; 0xc67178f2].
Definition sha_h : list Z :=
  [0x6a09e667; 0xbb67ae85; 0x3c6ef372; 0xa54ff53a; 0x510e527f; 0x9b05688c; 0x1f83d9ab; 0x5be0cd19].

(** Section 5.1.1: a bit 1, zeros up to 56 mod 64 bytes, the bit length. *)
Fixpoint be_bytes (n : nat) (x : Z) : list Z :=
  match n with
  | O => []
  | S k => Z.shiftr x (8 * Z.of_nat k) mod 256 :: be_bytes k x
  end.
Definition sha_pad (m : list Z) : list Z :=
  m ++ [128] ++ repeat 0 (Z.to_nat ((55 - zlen m) mod 64)) ++ be_bytes 8 (8 * zlen m).

(** The words of a block. *)
Fixpoint words_be (bs : list Z) : list Z :=
  match bs with
  | a :: b :: c :: d :: r => (((a * 256 + b) * 256 + c) * 256 + d) :: words_be r
  | _ => []
  end.

(** Section 6.2.2.  The message schedule, most recent word first. *)
Fixpoint schedule (n : nat) (ws : list Z) : list Z :=
  match n with
  | O => ws
  | S k => schedule k
      (add32 (add32 (sigma1 (nth 1 ws 0)) (nth 6 ws 0)) (add32 (sigma0 (nth 14 ws 0)) (nth 15 ws 0)) :: ws)
  end.
Record hash : Type := mkH { h0 : Z; h1 : Z; h2 : Z; h3 : Z; h4 : Z; h5 : Z; h6 : Z; h7 : Z }.
Definition round (s : hash) (kw : Z * Z) : hash :=
  let '(mkH a b c d e f g h) := s in
  let t1 := add32 (add32 (add32 h (Sigma1 e)) (Ch e f g)) (add32 (fst kw) (snd kw)) in
  let t2 := add32 (Sigma0 a) (Maj a b c) in
  mkH (add32 t1 t2) a b c (add32 d t1) e f g.
Definition sha_block (s : hash) (block : list Z) : hash :=
  let ws := rev (schedule 48 (rev (words_be block))) in
  let r := fold_left round (combine sha_k ws) s in
  mkH (add32 (h0 s) (h0 r)) (add32 (h1 s) (h1 r)) (add32 (h2 s) (h2 r)) (add32 (h3 s) (h3 r))
      (add32 (h4 s) (h4 r)) (add32 (h5 s) (h5 r)) (add32 (h6 s) (h6 r)) (add32 (h7 s) (h7 r)).
Fixpoint sha_blocks (n : nat) (s : hash) (m : list Z) : hash :=
  match n with
  | O => s
  | S k => sha_blocks k (sha_block s (firstn 64 m)) (skipn 64 m)
  end.
Definition sha_init : hash :=
  match sha_h with
  | [a; b; c; d; e; f; g; h] => mkH a b c d e f g h
  | _ => mkH 0 0 0 0 0 0 0 0
  end.
Definition sha256 (m : list Z) : list Z :=
  let p := sha_pad m in
  let '(mkH a b c d e f g h) := sha_blocks (length p / 64) sha_init p in
  flat_map (be_bytes 4) [a; b; c; d; e; f; g; h].

(** * Test vectors (FIPS 180-2, appendix B) *)

Example sha256_sample_1 : hex_encode (sha256 (str "abc")) =
  str "ba7816bf8f01cfea414140de5dae2223b00361a396177a9cb410ff61f20015ad".
Proof. vm_compute. reflexivity. Qed.
Example sha256_sample_2 : hex_encode (sha256 (str "")) =
  str "e3b0c44298fc1c149afbf4c8996fb92427ae41e4649b934ca495991b7852b855".
Proof. vm_compute. reflexivity. Qed.
Example sha256_sample_3 : hex_encode (sha256 (str "abcdbcdecdefdefgefghfghighijhijkijkljklmklmnlmnomnopnopq")) =
  str "248d6a61d20638b8e5c026930c3e6039a33ce45964ff2167f6ecedd419db06c1".
Proof. vm_compute. reflexivity. Qed.
Example sha256_sample_4 : hex_encode (sha256 (str "aaaaaaaaaaaaaaaaaaaaaaaaaaaaaaaaaaaaaaaaaaaaaaaaaaaaaaa")) =
  str "9f4390f8d30c2dd92ec9f095b65e2b9ae9b0a925a5258e241c9f1e910f734318".
Proof. vm_compute. reflexivity. Qed.
Example sha256_sample_5 : hex_encode (sha256 (str "aaaaaaaaaaaaaaaaaaaaaaaaaaaaaaaaaaaaaaaaaaaaaaaaaaaaaaaa")) =
  str "b35439a4ac6f0948b6d6f9e3c6af0f5f590ce20f1bde7090ef7970686ec6738a".
Proof. vm_compute. reflexivity. Qed.
Example sha256_sample_6 : hex_encode (sha256 (str "ababababababababababababababababababababababababababababababababababababababababababababababababababababababababababababababababababababababababababab")) =
  str "b3a62d837a8cc286043be27605c603655e0e46cfbec2fcf2869abc259e7333bd".
Proof. vm_compute. reflexivity. Qed.

(** Its shape. *)
Lemma be_bytes_length n x : length (be_bytes n x) = n.
Proof. induction n as [|n IH]; [reflexivity|]. cbn [be_bytes length]. now rewrite IH. Qed.
Lemma be_bytes_ok n x : bytes_ok (be_bytes n x).
Proof.
  induction n as [|n IH]; [constructor|]. cbn [be_bytes]. constructor; [|exact IH]. unfold is_byte.
  apply Z.mod_pos_bound. lia.
Qed.
Lemma sha256_length m : length (sha256 m) = 32%nat.
Proof.
  unfold sha256. cbv zeta. destruct (sha_blocks _ _ _). cbn [flat_map]. now rewrite !app_length, !be_bytes_length.
Qed.
Lemma sha256_ok m : bytes_ok (sha256 m).
Proof.
  unfold sha256. cbv zeta. destruct (sha_blocks _ _ _). cbn [flat_map].
  repeat (apply Forall_app; split); apply be_bytes_ok || constructor.
Qed.
