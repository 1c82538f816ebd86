(** C29: record checksums and CRCs. *)
From Verif Require Import Bytes HashUtilModel HashUtilSpec HashUtilProofs.
Open Scope N_scope.

(** The 6 and 8 bit checksums of a key/value pair are the seed plus the sum of
    all bytes modulo 61 (251): they do not depend on where the key ends nor on
    the batches of 2^23 bytes in which the sum is computed. *)
Theorem C29_checksum_is_sum : forall (modulo seed : N) (key value : bytes),
  modulo = 61 \/ modulo = 251 -> bytes_ok key -> bytes_ok value -> seed < modulo ->
  csum_pair modulo key value seed = (seed + total (key ++ value)) mod modulo.
Proof. intros m s k v [->| ->]; intros; apply csum_total; auto; lia. Qed.
Print Assumptions C29_checksum_is_sum.
Example C29_checksum_is_sum_ex : csum_pair 61 [104; 101] [108; 108; 111] 11 = (11 + 532) mod 61.
Proof. reflexivity. Qed.

(** The checksum in the magic byte of a record detects every change of a single
    byte unless the two byte values are congruent modulo 61. *)
Theorem C29_magic_detects_byte_change : forall k v k' v' a x y b,
  bytes_ok (k ++ v) -> bytes_ok (k' ++ v') ->
  k ++ v = a ++ x :: b -> k' ++ v' = a ++ y :: b -> x mod 61 <> y mod 61 ->
  magic_checksum k v <> magic_checksum k' v'.
Proof. exact magic_detect. Qed.
Print Assumptions C29_magic_detects_byte_change.
Example C29_magic_detects_ex :
  magic_checksum [1; 2] [3] <> magic_checksum [1; 2] [4] /\
  magic_checksum [1; 2] [3] = magic_checksum [1; 2] [64].
Proof. split; [discriminate|reflexivity]. Qed.

(** The table driven, four bytes at a time CRC-32 (and CRC-4) equals the
    bit-by-bit CRC with the given generator, for any data and any alignment of
    the buffer. *)
Theorem C29_crc_sliced_is_bitwise : forall (pre : nat) (l : bytes) (seed : N),
  bytes_ok l -> seed < 2^32 ->
  crc_sliced (crc_rtable 0xEDB88320) pre l seed = bit_crc 0xEDB88320 l seed /\
  crc_sliced (crc_rtable 12) pre l seed = bit_crc 12 l seed /\
  crc_sliced crc8_table pre l seed = crc8_continuous l seed.
Proof.
  intros pre l s H Hs.
  exact (conj (sliced32 pre l s H Hs) (conj (sliced4 pre l s H Hs) (sliced8 pre l s H Hs))).
Qed.
Print Assumptions C29_crc_sliced_is_bitwise.
Example C29_crc_sliced_ex :
  N.lxor (crc_sliced (crc_rtable 0xEDB88320) 3 [49;50;51;52;53;54;55;56;57] 0xFFFFFFFF) 0xFFFFFFFF
  = 0xCBF43926.
Proof. vm_compute. reflexivity. Qed.

(** CRCs computed in pieces equal the CRC of the whole. *)
Theorem C29_crc_continuous : forall (a b : bytes) (seed : N),
  crc8_continuous (a ++ b) seed = crc8_continuous b (crc8_continuous a seed) /\
  crc16_continuous (a ++ b) seed = crc16_continuous b (crc16_continuous a seed) /\
  crc32_continuous (a ++ b) true seed = crc32_continuous b true (crc32_continuous a false seed).
Proof.
  intros a b s. exact (conj (crc_bytes_app crc8_table a b s) (conj (crc16_split a b s)
   (f_equal (fun c => N.lxor c 0xFFFFFFFF) (crc_bytes_app (crc_rtable 0xEDB88320) a b s)))).
Qed.
Print Assumptions C29_crc_continuous.
Example C29_crc_continuous_ex :
  crc16_continuous [104; 101; 108; 108; 111] 0 = 0xC362 /\ crc8_continuous [104; 101; 108; 108; 111] 0 = 0x92.
Proof. vm_compute. split; reflexivity. Qed.

(** Record CRCs detect every change confined to four consecutive bytes
    (CRC-32) or to one byte (CRC-16, CRC-8) of the key and value. *)
Theorem C29_crc32_detects_burst : forall k v k' v' a w w' b,
  bytes_ok (k ++ v) -> bytes_ok (k' ++ v') ->
  k ++ v = a ++ w ++ b -> k' ++ v' = a ++ w' ++ b ->
  length w = length w' -> (length w <= 4)%nat -> w <> w' ->
  record_crc 4 k v <> record_crc 4 k' v'.
Proof. exact crc32_detect. Qed.
Print Assumptions C29_crc32_detects_burst.
Theorem C29_crc_detects_byte_change : forall k v k' v' a x y b,
  bytes_ok (k ++ v) -> bytes_ok (k' ++ v') ->
  k ++ v = a ++ x :: b -> k' ++ v' = a ++ y :: b -> x <> y ->
  record_crc 1 k v <> record_crc 1 k' v' /\ record_crc 2 k v <> record_crc 2 k' v'.
Proof.
  intros k v k' v' a x y b H1 H2 E1 E2 Hne.
  exact (conj (crc8_detect k v k' v' a x y b H1 H2 E1 E2 Hne) (crc16_detect k v k' v' a x y b H1 H2 E1 E2 Hne)).
Qed.
Print Assumptions C29_crc_detects_byte_change.
Example C29_crc_detects_ex :
  record_crc 4 [1; 2] [3] <> record_crc 4 [1; 2] [64] /\ record_crc 1 [1; 2] [3] <> record_crc 1 [1; 2] [64].
Proof. vm_compute. split; discriminate. Qed.

(** Values of the repository's own unit tests (tkrzw_hash_util_test.cc:39, 46). *)
Example hash_conformance :
  let hello_world := [72; 101; 108; 108; 111; 32; 87; 111; 114; 108; 100] in
  hash_murmur hello_world 19780211 = 0x15941D6097FA1378 /\ hash_fnv hello_world = 0x9AA143013F1E405F.
Proof. vm_compute. split; reflexivity. Qed.
