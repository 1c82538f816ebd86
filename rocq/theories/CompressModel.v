(** The compressors that need no library: DummyCompressor, RC4Compressor and AESCompressor, and their use for the values of records.

    Source: /repo/tkrzw_compress.cc:47-93, 445-687, /repo/tkrzw_compress.h, /repo/tkrzw_sys_compress_aes.h:1055-1071,
    /repo/tkrzw_dbm_hash_impl.cc:616-666.
    Simplified: allocation does not fail; the initialization vector, which comes from a random generator, is an argument.  ZLib, ZStd, LZ4 and
    LZMA compressors call external libraries and are not modelled. *)
From Verif Require Import Bytes CodecModel HashUtilModel MapSpec AesModel.
Local Open Scope N_scope.

(** ** DummyCompressor *)
(** HashCRC32, tkrzw_hash_util.h:390-392, with the default seed of tkrzw_hash_util.h:382. *)
Definition hash_crc32 (l : bytes) : N := crc32_continuous l true 0xFFFFFFFF.
(** DummyCompressor::Compress, tkrzw_compress.cc:56-69. *)
Definition dummy_compress (checksum : bool) (l : bytes) : bytes := if checksum then write_fix 4 (hash_crc32 l) ++ l else l.
(** DummyCompressor::Decompress, tkrzw_compress.cc:71-93; nothing for nullptr. *)
Definition dummy_decompress (checksum : bool) (l : bytes) : option bytes :=
  if checksum then
    if blen l <? 4 then None
    else let r := skipn 4 l in if negb (hash_crc32 r =? read_fix_bytes (firstn 4 l)) then None else Some r
  else Some l.

(** ** RC4Compressor *)
(** The key of the constructor, tkrzw_compress.cc:445-449. *)
Definition rc4_key (key : bytes) : bytes := match key with [] => [0] | _ => key end.
Definition rc4_ivsize : nat := 6.
Definition at_ (l : list N) (i : N) : N := nth (N.to_nat i) l 0.
(** sbox and kbox before the mixing, tkrzw_compress.cc:483-491, 527-535.  A byte of the vector is read as a char and so extended by its sign to 32 bits. *)
Definition rc4_kbox (key iv : bytes) (i : nat) : N :=
  let vidx := (i mod (length key + rc4_ivsize))%nat in
  if Nat.ltb vidx (length key) then nth vidx key 0
  else let b := nth (vidx - length key) iv 0 in if b <? 128 then b else 0xffffff00 + b.
(** A pass of the mixing, tkrzw_compress.cc:493-498, 537-542; sums are in 32 bits. *)
Definition rc4_mix (key iv : bytes) (st : list N * N) (i : nat) : list N * N :=
  let '(sbox, sidx) := st in
  let sidx := N.land ((sidx + nth i sbox 0 + rc4_kbox key iv i) mod 0x100000000) 0xff in
  let swap := nth i sbox 0 in
  (set_word (set_word sbox i (at_ sbox sidx)) (N.to_nat sidx) swap, sidx).
Definition rc4_setup (key iv : bytes) : list N := fst (fold_left (rc4_mix key iv) (seq 0 256) (map N.of_nat (seq 0 256), 0)).
(** The loop over the bytes, tkrzw_compress.cc:503-510, 548-555: the result is converted to char, which keeps the low eight bits. *)
Fixpoint rc4_loop (sbox : list N) (x y : N) (l : bytes) : bytes :=
  match l with
  | [] => []
  | c :: r =>
      let x := N.land (x + 1) 0xff in
      let y := N.land (y + at_ sbox x) 0xff in
      let swap := at_ sbox x in
      let sbox := set_word sbox (N.to_nat x) (at_ sbox y) in
      let sbox := set_word sbox (N.to_nat y) swap in
      N.land (N.lxor c (at_ sbox (N.land (at_ sbox x + at_ sbox y) 0xff))) 0xff :: rc4_loop sbox x y r
  end.
(** RC4Compressor::Compress, tkrzw_compress.cc:469-513. *)
Definition rc4_compress (key : bytes) (iv : N) (l : bytes) : bytes :=
  let ivb := write_fix rc4_ivsize iv in ivb ++ rc4_loop (rc4_setup (rc4_key key) ivb) 0 0 l.
(** RC4Compressor::Decompress, tkrzw_compress.cc:515-558. *)
Definition rc4_decompress (key : bytes) (l : bytes) : option bytes :=
  if blen l <? N.of_nat rc4_ivsize then None
  else Some (rc4_loop (rc4_setup (rc4_key key) (firstn rc4_ivsize l)) 0 0 (skipn rc4_ivsize l)).

(** ** AESCompressor *)
(** bin_key and key_size of the constructor, tkrzw_compress.cc:564-584. *)
Definition xor_at (k : bytes) (i : nat) (b : N) : bytes := set_word k i (N.lxor (nth i k 0) b).
Fixpoint fold_key (i : nat) (l : bytes) (k : bytes) : bytes := match l with [] => k | b :: r => fold_key (S i) r (xor_at k (i mod 32) b) end.
Definition aes_key (key : bytes) : bytes * nat :=
  if Nat.leb (length key) 32 then
    let rem := (length key mod 16)%nat in
    let key_size := if Nat.ltb 0 rem then (length key + 16 - rem)%nat else 0%nat in
    (key ++ repeat 0 (32 - length key), if Nat.ltb key_size 16 then 16%nat else key_size)
  else (fold_key 0 key (repeat 0 32), 32%nat).
Definition aes_enc_key (key : bytes) : list N * nat := let '(k, n) := aes_key key in key_setup_enc k (n * 8).
Definition aes_dec_key (key : bytes) : list N * nat := let '(k, n) := aes_key key in key_setup_dec k (n * 8).
(** AESBlockXOR and AESBlockXORSized, tkrzw_sys_compress_aes.h:1055-1071, on the first [size] bytes. *)
Definition block_xor (size : nat) (a b : bytes) : bytes := map (fun p => N.lxor (fst p) (snd p)) (combine (firstn size a) (firstn size b)).
(** What a call gives: undefined behaviour (the int32_t [round] overflows), nullptr, or bytes. *)
Inductive cres := CUndef | CNull | CBytes (l : bytes).
Definition INT32MAX : N := 2147483647.
(** The loop and the last block of AESCompressor::Compress, tkrzw_compress.cc:627-640; [pp] is the block before, [ivbuf] at first.  [fuel] bounds the number
    of passes: the loop ends, so the length of the data is enough. *)
Fixpoint aes_comp_loop (rk : list N) (nr : nat) (fuel : nat) (round : N) (pp l : bytes) : option bytes :=
  if Nat.leb 16 (length l) then
    match fuel with
    | O => None
    | S f =>
        if round =? INT32MAX then None
        else match aes_comp_loop rk nr f (round + 1) (firstn 16 l) (skipn 16 l) with
             | Some r => Some (aes_encrypt rk nr (block_xor 16 l pp) ++ r)
             | None => None
             end
    end
  else Some (aes_encrypt rk nr (block_xor (length l) l pp ++ repeat (N.of_nat (length l)) (16 - length l))).
(** AESCompressor::Compress, tkrzw_compress.cc:610-644. *)
Definition aes_compress (key : bytes) (iv1 iv2 : N) (l : bytes) : cres :=
  let '(rk, nr) := aes_enc_key key in
  let ivbuf := write_fix 8 iv1 ++ write_fix 8 iv2 in
  match aes_comp_loop rk nr (length l) 0 ivbuf l with
  | Some r => CBytes (aes_encrypt rk nr ivbuf ++ r)
  | None => CUndef
  end.
(** The loop of AESCompressor::Decompress, tkrzw_compress.cc:658-673: the bytes written and rem_size.  Line 671 reads chars, extended by their sign; a
    negative one is above 16 as size_t, as is the byte. *)
Fixpoint aes_dec_loop (rk : list N) (nr : nat) (fuel : nat) (round : N) (pp : bytes) (rem : N) (l : bytes) : option (bytes * N) :=
  if Nat.leb 16 (length l) then
    match fuel with
    | O => None
    | S f =>
        if round =? INT32MAX then None
        else
          let w := block_xor 16 (aes_decrypt rk nr (firstn 16 l)) pp in
          match aes_dec_loop rk nr f (round + 1) w (N.lxor (nth 15 w 0) (nth 15 pp 0)) (skipn 16 l) with
          | Some (r, m) => Some (w ++ r, m)
          | None => None
          end
    end
  else Some ([], rem).
(** AESCompressor::Decompress, tkrzw_compress.cc:646-682. *)
Definition aes_decompress (key : bytes) (l : bytes) : cres :=
  let '(rk, nr) := aes_dec_key key in
  if (Nat.ltb (length l) 32 || negb (Nat.eqb (length l mod 16) 0))%bool then CNull
  else
    match aes_dec_loop rk nr (length l) 0 (aes_decrypt rk nr (firstn 16 l)) 0 (skipn 16 l) with
    | None => CUndef
    | Some (w, rem) => if 16 <? rem then CNull else CBytes (firstn (length w - (16 - N.to_nat rem)) w)
    end.

(** ** Records of a hash database with a compressor *)
(** CallRecordProcessFull and CallRecordProcessEmpty, tkrzw_dbm_hash_impl.cc:616-666, as what the database does with the stored value: a processor that sees
    and gives stored values.  [readable] tells whether the stored value was read (data() is not nullptr).  Simplified: where Decompress gives nullptr, the
    call fails with BROKEN_DATA_ERROR; here the record is left as it is. *)
Definition comp_answer (comp : bytes -> bytes) (a : action) : action := match a with ASet v => ASet (comp v) | _ => a end.
Definition comp_proc (comp : bytes -> bytes) (decomp : bytes -> option bytes) (readable : bool) (p : processor) : processor :=
  fun seen =>
    match seen with
    | None => comp_answer comp (p None)
    | Some stored =>
        if readable then match decomp stored with Some v => comp_answer comp (p (Some v)) | None => ANoop end
        else comp_answer comp (p (Some []))
    end.
Definition comp_hop (comp : bytes -> bytes) (decomp : bytes -> option bytes) (o : hop) : hop :=
  mkhop (o_key o) (comp_proc comp decomp (o_readable o) (o_proc o)) (o_readable o) (o_writable o).
