(** What the ciphers of the compressors should give: RC4 and the chaining of AES blocks, written apart from the model. *)
From Verif Require Import Bytes AesSpec.
Local Open Scope N_scope.

(** RC4: a permutation of the bytes, scheduled by the key and stepped once per byte of the stream. *)
Definition swap (f : N -> N) (i j : N) : N -> N := fun k => if k =? i then f j else if k =? j then f i else f k.
Fixpoint schedule (key : bytes) (n : nat) : (N -> N) * N :=
  match n with
  | O => ((fun k => k), 0)
  | S i =>
      let '(f, j) := schedule key i in
      let j' := (j + f (N.of_nat i) + nth (i mod length key) key 0) mod 256 in
      (swap f (N.of_nat i) j', j')
  end.
Fixpoint stream (f : N -> N) (i j : N) (n : nat) : bytes :=
  match n with
  | O => []
  | S n' =>
      let i' := (i + 1) mod 256 in
      let j' := (j + f i') mod 256 in
      let f' := swap f i' j' in
      f' ((f' i' + f' j') mod 256) :: stream f' i' j' n'
  end.
Definition rc4_stream (key : bytes) (n : nat) : bytes := stream (fst (schedule key 256)) 0 0 n.
Definition rc4 (key l : bytes) : bytes := xor_bytes l (rc4_stream key (length l)).
(** The well known test vectors: "Key"/"Plaintext", "Wiki"/"pedia", "Secret"/"Attack at dawn". *)
Example rc4_vectors :
  rc4 [75; 101; 121] [80; 108; 97; 105; 110; 116; 101; 120; 116] = [0xbb; 0xf3; 0x16; 0xe8; 0xd9; 0x40; 0xaf; 0x0a; 0xd3] /\
  rc4 [87; 105; 107; 105] [112; 101; 100; 105; 97] = [0x10; 0x21; 0xbf; 0x04; 0x20] /\
  rc4 [83; 101; 99; 114; 101; 116] [65; 116; 116; 97; 99; 107; 32; 97; 116; 32; 100; 97; 119; 110] =
    [0x45; 0xa0; 0x1f; 0x64; 0x5f; 0xc3; 0x5b; 0x38; 0x35; 0x52; 0x54; 0x4b; 0x9b; 0xf5].
Proof. vm_compute. auto. Qed.

(** The chaining: a full block is xored with the block of the data before it (the vector at first) and enciphered; the rest of fewer than sixteen bytes
    is xored likewise, filled up with its length and enciphered. *)
Fixpoint chain (E : bytes -> bytes) (n : nat) (prev l : bytes) : bytes :=
  match n with
  | O => E (xor_bytes l prev ++ repeat (N.of_nat (length l)) (16 - length l))
  | S n' => E (xor_bytes (firstn 16 l) prev) ++ chain E n' (firstn 16 l) (skipn 16 l)
  end.
(** The key given to AES: byte [i] is the exclusive or of the bytes of the key at the positions [i], [i + 32], [i + 64] and so on. *)
Definition key_byte (key : bytes) (i : nat) : N :=
  fold_right N.lxor 0 (map (fun j => nth j key 0) (filter (fun j => Nat.eqb (j mod 32) i) (seq 0 (length key)))).
Definition folded (key : bytes) : bytes := map (key_byte key) (seq 0 32).
(** Its words: four for the keys of up to 16 bytes and those of exactly 32, eight for the others. *)
Definition key_nk (key : bytes) : nat := if (Nat.leb (length key) 16 || Nat.eqb (length key) 32)%bool then 4%nat else 8%nat.
