(** Hash functions, checksums and CRCs.
    Source: /repo/tkrzw_hash_util.cc, /repo/tkrzw_hash_util.h and
    /repo/tkrzw_dbm_common_impl.h:36-59.  uint64_t and uint32_t arithmetic is
    reduced modulo 2^64 and 2^32 explicitly. *)
From Verif Require Import Bytes.
Open Scope N_scope.

Definition two32 : N := 4294967296.

(** ** MurMur and FNV *)

Definition mm_mul : N := 0xc6a4a7935bd1e995.

(** Eight bytes as the little-endian number built with shifts and ors,
    tkrzw_hash_util.cc:35-38. *)
Definition mm_num (b0 b1 b2 b3 b4 b5 b6 b7 : N) : N :=
  N.lor (N.shiftl b0 0) (N.lor (N.shiftl b1 8) (N.lor (N.shiftl b2 16) (N.lor (N.shiftl b3 24)
  (N.lor (N.shiftl b4 32) (N.lor (N.shiftl b5 40) (N.lor (N.shiftl b6 48) (N.shiftl b7 56))))))).

(** The fall-through switch for the last 1 to 7 bytes, tkrzw_hash_util.cc:47-55. *)
Fixpoint mm_tail (l : bytes) (shift : N) (hash : N) : N :=
  match l with
  | [] => hash
  | b :: l' => mm_tail l' (shift + 8) (N.lxor hash (N.shiftl b shift))
  end.

(** The loop of HashMurmur, tkrzw_hash_util.cc:34-46, then the tail. *)
Fixpoint mm_loop (l : bytes) (hash : N) : N :=
  match l with
  | b0 :: b1 :: b2 :: b3 :: b4 :: b5 :: b6 :: b7 :: l' =>
      let num := (mm_num b0 b1 b2 b3 b4 b5 b6 b7 * mm_mul) mod two64 in
      let num := N.lxor num (N.shiftr num 47) in
      let num := (num * mm_mul) mod two64 in
      let hash := (hash * mm_mul) mod two64 in
      mm_loop l' (N.lxor hash num)
  | [] => hash
  | _ => (mm_tail l 0 hash * mm_mul) mod two64
  end.

(** HashMurmur, tkrzw_hash_util.cc:27-59. *)
Definition hash_murmur (l : bytes) (seed : N) : N :=
  let hash := N.lxor seed ((blen l * mm_mul) mod two64) in
  let hash := mm_loop l hash in
  let hash := N.lxor hash (N.shiftr hash 47) in
  let hash := (hash * mm_mul) mod two64 in
  N.lxor hash (N.shiftr hash 47).

(** HashFNV, tkrzw_hash_util.cc:61-70. *)
Definition hash_fnv (l : bytes) : N :=
  fold_left (fun hash b => (N.lxor hash b * 109951162811) mod two64) l 14695981039346656037.

(** The 64 to 32 bit folding of PrimaryHash and SecondaryHash,
    tkrzw_dbm_common_impl.h:39-42 and 54-57. *)
Definition fold_hash (hash num : N) : N :=
  if num <=? 4294967295 then
    N.lxor
      (N.lor (N.shiftr (N.land hash 0xffff000000000000) 48)
             (N.shiftr (N.land hash 0x0000ffff00000000) 16))
      (N.lor (N.shiftl (N.land hash 0x000000000000ffff) 16)
             (N.shiftr (N.land hash 0x00000000ffff0000) 16))
  else hash.

(** PrimaryHash, tkrzw_dbm_common_impl.h:36-44. *)
Definition primary_hash (l : bytes) (num_buckets : N) : N :=
  fold_hash (hash_murmur l 19780211) num_buckets mod num_buckets.
(** SecondaryHash, tkrzw_dbm_common_impl.h:52-59. *)
Definition secondary_hash (l : bytes) (num_shards : N) : N :=
  fold_hash (hash_fnv l) num_shards mod num_shards.

(** ** Checksums *)

Definition batch_cap : N := 8388608.

(** HashChecksum6Continuous / HashChecksum8Continuous (modulo 61 / 251),
    tkrzw_hash_util.cc:72-102: bytes are added to a uint32_t and the sum is
    reduced after each batch of 2^23 bytes.  [cnt] is the number of bytes added
    in the current batch. *)
Fixpoint csum_loop (modulo : N) (l : bytes) (seed cnt : N) : N :=
  match l with
  | [] => if cnt =? 0 then seed else seed mod modulo
  | b :: l' =>
      let seed' := (seed + b) mod two32 in
      if cnt + 1 =? batch_cap then csum_loop modulo l' (seed' mod modulo) 0
      else csum_loop modulo l' seed' (cnt + 1)
  end.
Definition csum_continuous (modulo : N) (l : bytes) (seed : N) : N := csum_loop modulo l seed 0.

(** HashChecksum6Pair / HashChecksum8Pair, tkrzw_hash_util.h:93-113 and 148-168. *)
Definition csum_pair (modulo : N) (a b : bytes) (seed : N) : N :=
  if blen a + blen b <? batch_cap then
    fold_left (fun s x => (s + x) mod two32) b (fold_left (fun s x => (s + x) mod two32) a seed) mod modulo
  else csum_continuous modulo b (csum_continuous modulo a seed).

(** MagicChecksum, tkrzw_dbm_hash_impl.h:425-428. *)
Definition magic_checksum (key value : bytes) : N := csum_pair 61 key value 11 + 3.

(** HashAdler*Continuous, tkrzw_hash_util.cc:104-187 (the variant not using
    zlib for 32 bits): a plain sum and a sum of sums, reduced after each batch
    of 4096 bytes. *)
Fixpoint adler_loop (modulo : N) (l : bytes) (seed sum cnt : N) : N * N :=
  match l with
  | [] => if cnt =? 0 then (seed, sum) else (seed mod modulo, sum mod modulo)
  | b :: l' =>
      let seed' := (seed + b) mod two32 in
      let sum' := (sum + seed') mod two32 in
      if cnt + 1 =? 4096 then adler_loop modulo l' (seed' mod modulo) (sum' mod modulo) 0
      else adler_loop modulo l' seed' sum' (cnt + 1)
  end.
Definition adler_continuous (modulo bits : N) (l : bytes) (seed : N) : N :=
  let '(s, t) := adler_loop modulo l (N.land seed (N.ones bits)) (N.shiftr seed bits) 0 in
  N.lor (N.shiftl t bits) s.

(** ** CRCs *)

Fixpoint iter_n (n : nat) (f : N -> N) (x : N) : N :=
  match n with O => x | S n' => iter_n n' f (f x) end.

(** One bit step of the reflected CRCs (CRC-4 with 0x0C, CRC-32 with
    0xEDB88320), tkrzw_hash_util.cc:208-211 and 379-382. *)
Definition crc_rstep (poly c : N) : N :=
  if N.odd c then N.lxor (N.shiftr c 1) poly else N.shiftr c 1.
(** One bit step of CRC-8 in a uint8_t, tkrzw_hash_util.cc:283-285. *)
Definition crc8_step (c : N) : N :=
  N.lxor (N.land (N.shiftl c 1) 255) (if N.testbit c 7 then 7 else 0).
(** One bit step of CRC-16 in a uint16_t, tkrzw_hash_util.cc:346-348. *)
Definition crc16_step (c : N) : N :=
  if N.testbit c 15 then N.lxor 4129 (N.land (N.shiftl c 1) 65535)
  else N.land (N.shiftl c 1) 65535.

(** table0 of each CRC. *)
Definition crc_rtable (poly i : N) : N := iter_n 8 (crc_rstep poly) i.
Definition crc8_table (i : N) : N := iter_n 8 crc8_step i.
Definition crc16_table (i : N) : N := iter_n 8 crc16_step (N.shiftl i 8).

(** table1..table3, tkrzw_hash_util.cc:215-219. *)
Definition crc_t1 (t0 : N -> N) (t : N -> N) (i : N) : N :=
  N.lxor (N.shiftr (t i) 8) (t0 (N.land (t i) 255)).

(** The byte-wise loop body, tkrzw_hash_util.cc:224-226. *)
Definition crc_byte (t0 : N -> N) (crc b : N) : N :=
  N.lxor (N.shiftr crc 8) (t0 (N.lxor (N.land crc 255) b)).
Definition crc_bytes (t0 : N -> N) (l : bytes) (crc : N) : N := fold_left (crc_byte t0) l crc.

(** The four-byte loop and the rest, tkrzw_hash_util.cc:228-239, on a
    little-endian machine. *)
Definition le32 (b0 b1 b2 b3 : N) : N := b0 + 256 * b1 + 65536 * b2 + 16777216 * b3.
Fixpoint crc_words (t0 : N -> N) (l : bytes) (crc : N) : N :=
  match l with
  | b0 :: b1 :: b2 :: b3 :: l' =>
      let c := N.lxor crc (le32 b0 b1 b2 b3) in
      let t1 := crc_t1 t0 t0 in
      let t2 := crc_t1 t0 t1 in
      let t3 := crc_t1 t0 t2 in
      crc_words t0 l'
        (N.lxor (t3 (N.land c 255))
        (N.lxor (t2 (N.land (N.shiftr c 8) 255))
        (N.lxor (t1 (N.land (N.shiftr c 16) 255)) (t0 (N.shiftr c 24)))))
  | _ => crc_bytes t0 l crc
  end.
(** HashCRC4/8/32Continuous before the final inversion: [pre] bytes up to the
    next aligned address one by one, then words. *)
Definition crc_sliced (t0 : N -> N) (pre : nat) (l : bytes) (crc : N) : N :=
  crc_words t0 (skipn pre l) (crc_bytes t0 (firstn pre l) crc).

(** HashCRC4Continuous and HashCRC8Continuous (seed 0),
    tkrzw_hash_util.cc:189-335, byte-wise form. *)
Definition crc4_continuous (l : bytes) (seed : N) : N := crc_bytes (crc_rtable 12) l seed.
Definition crc8_continuous (l : bytes) (seed : N) : N := crc_bytes crc8_table l seed.
(** HashCRC16Continuous, tkrzw_hash_util.cc:337-359; crc is a uint32_t. *)
Definition crc16_byte (crc b : N) : N :=
  N.lxor (crc16_table (N.land (N.lxor (N.shiftr crc 8) b) 255)) (N.land (N.shiftl crc 8) (two32 - 1)).
Definition crc16_continuous (l : bytes) (seed : N) : N :=
  N.land (fold_left crc16_byte l seed) 65535.
(** HashCRC32Continuous, tkrzw_hash_util.cc:361-446, the variants not using
    zlib (the zlib function is assumed to compute the same CRC). *)
Definition crc32_continuous (l : bytes) (finish : bool) (seed : N) : N :=
  let crc := crc_bytes (crc_rtable 0xEDB88320) l seed in
  if finish then N.lxor crc 0xFFFFFFFF else crc.

(** The CRC of a key and a value in HashRecord::SetData and CheckCRC,
    tkrzw_dbm_hash_impl.cc:201-222 and 238-253.  The default seed of the 32 bit
    variant is 0xFFFFFFFF (tkrzw_hash_util.h:381-382). *)
Definition record_crc (width : nat) (key value : bytes) : N :=
  match width with
  | 1%nat => crc8_continuous value (crc8_continuous key 0)
  | 2%nat => crc16_continuous value (crc16_continuous key 0)
  | 4%nat => crc32_continuous value true (crc32_continuous key false 0xFFFFFFFF)
  | _ => 0
  end.
