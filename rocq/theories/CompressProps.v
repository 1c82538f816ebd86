(** C50: the compressors that need no library, and a hash database whose values go through a compressor. *)
From Verif Require Import Bytes MapSpec CodecModel CodecProofs FileModel HashUtilModel HashUtilProofs HashRecModel FbpModel HashDbModel HashDbLayout HashDbAppend
  HashDbProofs HashDbProps AesSpec AesModel AesProofs AesRounds AesInverse CompressSpec CompressModel CompressProofs.
Local Open Scope N_scope.

(** ** The block cipher *)
(** For every key of 128, 192 or 256 bits and every block, the table driven functions compute the cipher of FIPS 197 and its inverse, and deciphering undoes
    enciphering. *)
Theorem C50_aes_is_fips197 : forall nk key block,
  (nk = 4 \/ nk = 6 \/ nk = 8)%nat -> (4 * nk <= length key)%nat -> bytes_ok key -> length block = 16%nat -> bytes_ok block ->
  let '(rk, nr) := key_setup_enc key (32 * nk) in
  let '(dk, dr) := key_setup_dec key (32 * nk) in
  aes_encrypt rk nr block = cipher nk key block /\ aes_decrypt dk dr block = inv_cipher nk key block /\
  aes_decrypt dk dr (aes_encrypt rk nr block) = block.
Proof.
  intros nk key b Hnk Hk Bk Lb Bb. assert (E := encrypt_cipher nk key b Hnk Hk Bk (conj Lb Bb)).
  assert (D := decrypt_inv_cipher nk key b Hnk Hk Bk (conj Lb Bb)). assert (DE := decrypt_encrypt nk key b Hnk Hk Bk (conj Lb Bb)).
  destruct (key_setup_enc key (32 * nk)) as [rk nr], (key_setup_dec key (32 * nk)) as [dk dr]. tauto.
Qed.
Print Assumptions C50_aes_is_fips197.
(** Appendix C.2 of FIPS 197 through the tables. *)
Example C50_aes_ex :
  let key := map N.of_nat (seq 0 24) in let pt := map (fun i => N.of_nat (17 * i)) (seq 0 16) in
  let '(rk, nr) := key_setup_enc key 192 in
  aes_encrypt rk nr pt = [0xdd; 0xa9; 0x7c; 0xa4; 0x86; 0x4c; 0xdf; 0xe0; 0x6e; 0xaf; 0x70; 0xa0; 0xec; 0x0d; 0x71; 0x91].
Proof. vm_compute. reflexivity. Qed.

(** ** What was compressed comes back *)
Lemma crc32_bound l : bytes_ok l -> hash_crc32 l < 256 ^ N.of_nat 4.
Proof. intros H. change (hash_crc32 l) with (crc32_continuous ([] ++ l) true 0xFFFFFFFF). rewrite <- record_crc32_split. apply record_crc_lt; [constructor|exact H]. Qed.
Theorem C50_dummy_round_trip : forall checksum data, bytes_ok data ->
  dummy_decompress checksum (dummy_compress checksum data) = Some data /\
  blen (dummy_compress checksum data) = blen data + (if checksum then 4 else 0).
Proof.
  intros [|] l Bl; unfold dummy_compress, dummy_decompress; [|split; [reflexivity|lia]].
  assert (L := write_fix_length 4 (hash_crc32 l)).
  assert (B : blen (write_fix 4 (hash_crc32 l) ++ l) = blen l + 4) by (unfold blen; rewrite app_length, L; lia).
  split; [|exact B]. rewrite B. destruct (N.ltb_spec (blen l + 4) 4); [lia|].
  rewrite firstn_app, skipn_app, L. cbn [Nat.sub]. rewrite <- L at 1 3. rewrite skipn_all, firstn_all. cbn [firstn skipn app]. rewrite app_nil_r.
  rewrite read_write_fix_bytes. rewrite N.mod_small by (apply crc32_bound; exact Bl). now rewrite N.eqb_refl.
Qed.
Print Assumptions C50_dummy_round_trip.

Theorem C50_rc4_round_trip : forall key iv data, bytes_ok data ->
  rc4_decompress key (rc4_compress key iv data) = Some data /\ blen (rc4_compress key iv data) = blen data + 6.
Proof.
  intros key iv l Hl. split; [now apply rc4_round_trip|]. rewrite rc4_compress_rc4 by assumption. unfold blen.
  rewrite app_length, write_fix_length, (proj1 (rc4_ok _ _ Hl)). lia.
Qed.
Print Assumptions C50_rc4_round_trip.

(** For AES the data must be shorter than 2^35 - 16 bytes; the result never exceeds the buffer of the size of the data and 32 bytes. *)
Theorem C50_aes_round_trip : forall key iv1 iv2 data, bytes_ok key -> bytes_ok data -> blen data < 2 ^ 35 - 16 ->
  exists c, aes_compress key iv1 iv2 data = CBytes c /\ aes_decompress key c = CBytes data /\
            blen c = 32 + 16 * (blen data / 16) /\ blen c <= blen data + 32.
Proof.
  intros key iv1 iv2 l Bk Bl Hl. assert (Hd : N.of_nat (length l / 16) = blen l / 16) by (unfold blen; apply Nat2N.inj_div).
  assert (Hq : blen l / 16 < INT32MAX) by (apply N.div_lt_upper_bound; [discriminate|]; unfold INT32MAX; lia).
  destruct (aes_round_trip key iv1 iv2 l Bk Bl ltac:(lia)) as (c & E & L & D).
  exists c. split; [exact E|]. split; [exact D|]. unfold blen at 1 3. rewrite L.
  replace (N.of_nat (16 * (length l / 16) + 32)) with (32 + 16 * (blen l / 16)) by lia. split; [reflexivity|].
  assert (H := N.mul_div_le (blen l) 16 ltac:(discriminate)). lia.
Qed.
Print Assumptions C50_aes_round_trip.
Example C50_round_trip_ex :
  dummy_decompress true (dummy_compress true [1; 2; 3]) = Some [1; 2; 3] /\
  rc4_decompress [7] (rc4_compress [7] 0xabcdef [1; 2; 3]) = Some [1; 2; 3] /\
  match aes_compress [7; 8] 5 6 (repeat 9 20) with
  | CBytes c => blen c = 48 /\ aes_decompress [7; 8] c = CBytes (repeat 9 20)
  | _ => False
  end.
Proof. vm_compute. auto. Qed.

(** ** What is written *)
(** RC4: the vector and the data under RC4 with the key followed by the vector. *)
Theorem C50_rc4_format : forall key iv data, bytes_ok data ->
  rc4_compress key iv data = write_fix 6 iv ++ rc4 ((match key with [] => [0] | _ => key end) ++ write_fix 6 iv) data.
Proof. exact rc4_compress_rc4. Qed.
Print Assumptions C50_rc4_format.
(** AES: the vector enciphered, and the chained blocks, with the folded key. *)
Theorem C50_aes_format : forall key iv1 iv2 data, bytes_ok key -> bytes_ok data -> blen data < 2 ^ 35 ->
  let E := cipher (key_nk key) (folded key) in
  let iv := write_fix 8 iv1 ++ write_fix 8 iv2 in
  aes_compress key iv1 iv2 data = CBytes (E iv ++ chain E (length data / 16) iv data).
Proof.
  intros key iv1 iv2 l Bk Bl Hl. apply aes_compress_chain; [exact Bk|exact Bl|].
  assert (Hd : N.of_nat (length l / 16) = blen l / 16) by (unfold blen; apply Nat2N.inj_div).
  assert (Hq : blen l / 16 < INT32MAX + 1) by (apply N.div_lt_upper_bound; [discriminate|]; unfold INT32MAX; lia). lia.
Qed.
Print Assumptions C50_aes_format.
(** From 2^35 bytes on, below the allowed 2^40, the counter of blocks overflows: undefined behaviour. *)
Theorem C50_aes_counter_refuted : forall key iv1 iv2 data, 2 ^ 35 <= blen data -> aes_compress key iv1 iv2 data = CUndef.
Proof.
  intros key iv1 iv2 l Hl. apply aes_compress_overflow.
  assert (Hd : N.of_nat (length l / 16) = blen l / 16) by (unfold blen; apply Nat2N.inj_div). rewrite Hd.
  assert (2 ^ 35 / 16 <= blen l / 16) by (apply N.div_le_mono; [discriminate|exact Hl]).
  change (2 ^ 35 / 16) with 2147483648 in *. unfold INT32MAX. lia.
Qed.
Print Assumptions C50_aes_counter_refuted.

(** ** What is refused *)
(** With a checksum, a change within four consecutive bytes of the data, or of the stored checksum, is always found; so is a cut below four bytes. *)
Theorem C50_dummy_detects : forall data, bytes_ok data ->
  (forall a w w' b, bytes_ok w' -> data = a ++ w ++ b -> length w = length w' -> (length w <= 4)%nat -> w <> w' ->
    dummy_decompress true (firstn 4 (dummy_compress true data) ++ a ++ w' ++ b) = None) /\
  (forall c, length c = 4%nat -> bytes_ok c -> c <> firstn 4 (dummy_compress true data) -> dummy_decompress true (c ++ data) = None) /\
  (forall n, (n < 4)%nat -> dummy_decompress true (firstn n (dummy_compress true data)) = None).
Proof.
  intros l Bl. assert (L := write_fix_length 4 (hash_crc32 l)).
  assert (F : firstn 4 (dummy_compress true l) = write_fix 4 (hash_crc32 l)).
  { unfold dummy_compress. rewrite firstn_app, L. cbn [Nat.sub]. rewrite <- L at 1. rewrite firstn_all. cbn [firstn]. apply app_nil_r. }
  assert (G : forall c r, length c = 4%nat -> dummy_decompress true (c ++ r) =
    if negb (hash_crc32 r =? read_fix_bytes c) then None else Some r).
  { intros c r Hc. unfold dummy_decompress. destruct (N.ltb_spec (blen (c ++ r)) 4) as [H|H]; [unfold blen in H; rewrite app_length in H; lia|].
    destruct c as [|c0 [|c1 [|c2 [|c3 [|c4 c]]]]]; try discriminate Hc. reflexivity. }
  split; [|split].
  - intros a w w' b Hw' E Hl H4 Hne. rewrite F, G by exact L. rewrite read_write_fix_bytes, N.mod_small by (apply crc32_bound; exact Bl).
    destruct (N.eqb_spec (hash_crc32 (a ++ w' ++ b)) (hash_crc32 l)) as [e|e]; [|reflexivity]. exfalso. revert e. assert (Hok := Bl). rewrite E in Hok. subst l.
    apply bytes_ok_app in Hok as [Ha Hok]. assert (Hok' := Hok). apply bytes_ok_app in Hok as [Hw Hb].
    apply (crc32_detect [] (a ++ w' ++ b) [] (a ++ w ++ b) a w' w b); try reflexivity; try lia; try congruence.
    + cbn [app]. rewrite !bytes_ok_app. auto.
    + cbn [app]. rewrite !bytes_ok_app. auto.
  - intros c Lc Bc Hne. rewrite G by exact Lc. destruct (N.eqb_spec (hash_crc32 l) (read_fix_bytes c)) as [e|e]; [|reflexivity].
    exfalso. apply Hne. rewrite F, e, <- Lc. symmetry. now apply write_read_fix_bytes.
  - intros n Hn. unfold dummy_decompress. replace (_ <? 4) with true; [reflexivity|]. symmetry. apply N.ltb_lt. unfold blen.
    assert (H := firstn_le_length n (dummy_compress true l)). lia.
Qed.
Print Assumptions C50_dummy_detects.
Example C50_dummy_detects_ex :
  dummy_decompress true (firstn 4 (dummy_compress true [1; 2; 3; 4; 5]) ++ [1; 9; 3; 7; 5]) = None /\
  dummy_decompress true ([0; 0; 0; 1] ++ [1; 2; 3; 4; 5]) = None.
Proof. vm_compute. auto. Qed.
(** The ciphers refuse data too short for the vector, and AES data not made of whole blocks. *)
Theorem C50_refuses_short : forall key data,
  (blen data < 6 -> rc4_decompress key data = None) /\
  (blen data < 32 \/ blen data mod 16 <> 0 -> aes_decompress key data = CNull).
Proof.
  intros key l. split; intros H.
  - unfold rc4_decompress, rc4_ivsize. destruct (N.ltb_spec (blen l) (N.of_nat 6)); [reflexivity|lia].
  - unfold aes_decompress. destruct (aes_dec_key key) as [dk dr]. unfold blen in H.
    change 16 with (N.of_nat 16) in H. rewrite <- Nat2N.inj_mod in H.
    destruct (Nat.ltb_spec (length l) 32); [reflexivity|]. destruct (Nat.eqb_spec (length l mod 16) 0); [lia|reflexivity].
Qed.
Print Assumptions C50_refuses_short.
Example C50_refuses_ex : aes_decompress [1] (repeat 0 33) = CNull /\ rc4_decompress [1] [1; 2; 3; 4; 5] = None.
Proof. vm_compute. auto. Qed.

(** ** What the ciphers do not give *)
(** The second half of a key of exactly 32 bytes is ignored: two such keys with the same first half give the same output and read each other's. *)
Theorem C50_aes_key32_refuted : forall k1 k2 k2' iv1 iv2 data,
  length k1 = 16%nat -> length k2 = 16%nat -> length k2' = 16%nat ->
  bytes_ok (k1 ++ k2) -> bytes_ok (k1 ++ k2') -> bytes_ok data -> blen data < 2 ^ 35 - 16 ->
  aes_compress (k1 ++ k2) iv1 iv2 data = aes_compress (k1 ++ k2') iv1 iv2 data /\
  exists c, aes_compress (k1 ++ k2) iv1 iv2 data = CBytes c /\ aes_decompress (k1 ++ k2') c = CBytes data.
Proof.
  intros k1 k2 k2' iv1 iv2 l H1 H2 H2' B1 B2 Bl Hl.
  assert (E : forall k, length k = 16%nat -> aes_enc_key (k1 ++ k) = aes_enc_key k1).
  { intros k Hk. unfold aes_enc_key, aes_key. rewrite app_length, H1, Hk. cbn [Nat.leb Nat.add Nat.sub Nat.ltb repeat]. rewrite app_nil_r.
    replace (16 mod 16)%nat with 0%nat by reflexivity. replace (32 mod 16)%nat with 0%nat by reflexivity. cbn [Nat.ltb Nat.leb Nat.mul Nat.add].
    do 17 (destruct k1 as [|? k1]; try discriminate H1). reflexivity. }
  assert (S : aes_compress (k1 ++ k2) iv1 iv2 l = aes_compress (k1 ++ k2') iv1 iv2 l).
  { unfold aes_compress. now rewrite (E k2 H2), (E k2' H2'). }
  split; [exact S|]. destruct (C50_aes_round_trip (k1 ++ k2') iv1 iv2 l B2 Bl Hl) as (c & C1 & C2 & _).
  exists c. split; [now rewrite S|exact C2].
Qed.
Print Assumptions C50_aes_key32_refuted.
(** With a key of 256 bytes or more, RC4 never uses the vector: any two texts are enciphered with the same stream, so the exclusive or of two outputs is
    that of the texts. *)
Theorem C50_rc4_long_key_refuted : forall key iv iv' x y, (256 <= length key)%nat -> bytes_ok x -> bytes_ok y -> length x = length y ->
  xor_bytes (skipn 6 (rc4_compress key iv x)) (skipn 6 (rc4_compress key iv' y)) = xor_bytes x y.
Proof.
  intros key iv iv' x y Hk Bx By Hl.
  assert (S : forall v n, (n <= 256)%nat -> schedule (key ++ v) n = schedule key n).
  { intros v. induction n as [|n IH]; intros Hn; [reflexivity|]. cbn [schedule]. rewrite IH by lia. destruct (schedule key n) as [f j].
    rewrite app_length, !Nat.mod_small by lia. now rewrite app_nth1 by lia. }
  assert (R : forall v z, bytes_ok z -> skipn 6 (rc4_compress key v z) = xor_bytes z (rc4_stream key (length z))).
  { intros v z Hz. rewrite rc4_compress_rc4 by exact Hz. rewrite skipn_app, write_fix_length, skipn_all2 by (rewrite write_fix_length; lia).
    cbn [app Nat.sub skipn]. unfold rc4, rc4_stream. replace (rc4_key key) with key by (destruct key; [cbn in Hk; lia|reflexivity]).
    now rewrite (S _ 256%nat) by lia. }
  rewrite !R by assumption. rewrite <- Hl. destruct (rc4_stream_ok key (length x)) as [L _].
  generalize dependent (rc4_stream key (length x)). clear - Hl. revert y Hl.
  induction x as [|a x IH]; intros [|b y] Hl [|c s] L; cbn [length] in *; try discriminate; [reflexivity|].
  unfold xor_bytes in *. cbn [combine map fst snd]. f_equal; [|apply IH; lia].
  apply N.bits_inj. intros i. rewrite !N.lxor_spec. destruct (N.testbit a i), (N.testbit b i), (N.testbit c i); reflexivity.
Qed.
Print Assumptions C50_rc4_long_key_refuted.
(** Two equal blocks of data in a row show: the second is always written as the cipher of sixteen zeros, whatever the vector and the data. *)
Theorem C50_aes_repeat_refuted : forall key iv1 iv2 b rest, bytes_ok key -> length b = 16%nat -> bytes_ok b -> bytes_ok rest ->
  blen (b ++ b ++ rest) < 2 ^ 35 ->
  exists c, aes_compress key iv1 iv2 (b ++ b ++ rest) = CBytes c /\
            firstn 16 (skipn 32 c) = cipher (key_nk key) (folded key) (repeat 0 16).
Proof.
  intros key iv1 iv2 b rest Bk Lb Bb Br Hl. eexists. split.
  { apply C50_aes_format; [exact Bk| |exact Hl]. apply bytes_ok_app. split; [exact Bb|]. apply bytes_ok_app. auto. }
  set (E := cipher _ _). set (v := write_fix 8 iv1 ++ write_fix 8 iv2). rewrite !app_length, Lb.
  replace ((16 + (16 + length rest)) / 16)%nat with (S (S (length rest / 16))).
  2:{ replace (16 + (16 + length rest))%nat with (length rest + 2 * 16)%nat by lia. rewrite Nat.div_add by lia. lia. }
  cbn [chain]. destruct (app_firstn16 b (b ++ rest) Lb) as [-> ->]. destruct (app_firstn16 b rest Lb) as [-> ->].
  assert (Bv : CompressProofs.block v) by apply (vector_ok iv1 iv2).
  assert (L1 : length (E v) = 16%nat) by (apply cipher_block; auto).
  assert (L2 : length (E (xor_bytes b v)) = 16%nat).
  { apply cipher_block; [exact Bk|]. destruct Bv. split; [rewrite xor_bytes_length; lia|]. now apply xor_bytes_ok. }
  assert (X : forall a : list N, xor_bytes a a = repeat 0 (length a)).
  { clear. unfold xor_bytes. induction a as [|x a IH]; [reflexivity|]. cbn. now rewrite N.lxor_nilpotent, IH. }
  rewrite X, Lb. assert (L3 : length (E (repeat 0 16)) = 16%nat).
  { apply cipher_block; [exact Bk|]. split; [reflexivity|]. unfold bytes_ok. cbn [repeat]. repeat constructor. }
  assert (K : forall z : list N, skipn 32 z = skipn 16 (skipn 16 z)).
  { intros z. do 16 (destruct z as [|? z]; [reflexivity|]). reflexivity. }
  rewrite K. rewrite (proj2 (app_firstn16 (E v) _ L1)).
  rewrite (proj2 (app_firstn16 _ _ L2)). apply (app_firstn16 _ _ L3).
Qed.
Print Assumptions C50_aes_repeat_refuted.

(** ** A database with a compressor *)
(** A history: operations, each with the compression in force (a new vector each time).  What a user's processor sees of a stored value. *)
Definition chist := list ((bytes -> bytes) * hop).
Definition plain (h : chist) : list hop := map snd h.
Definition stored (decomp : bytes -> option bytes) (h : chist) : list hop := map (fun p => comp_hop (fst p) decomp (snd p)) h.
Definition decode (decomp : bytes -> option bytes) (readable : bool) (seen : option bytes) : option bytes :=
  match seen with None => None | Some v => if readable then decomp v else Some [] end.
(** Every key of the history and every value stored, when run on the map, are within the limits. *)
Fixpoint within (P : bytes -> Prop) (m : amap) (ops : list hop) : Prop :=
  match ops with
  | [] => True
  | o :: ops' =>
      let a := o_proc o (map_seen m (o_key o) (o_readable o)) in
      key_ok (o_key o) /\ match a with ASet v => P v | _ => True end /\ within P (map_apply m (o_key o) a (o_writable o)) ops'
  end.
(** [comp] is undone by [decomp] on the values allowed, and gives values a record can hold. *)
Definition codec (P : bytes -> Prop) (decomp : bytes -> option bytes) (comp : bytes -> bytes) : Prop :=
  forall v, P v -> decomp (comp v) = Some v /\ value_ok (comp v).
Definition coded (decomp : bytes -> option bytes) (v s : option bytes) : Prop :=
  match v, s with None, None => True | Some v, Some s => decomp s = Some v | _, _ => False end.
Lemma stored_run P decomp h : (forall p, In p h -> codec P decomp (fst p)) ->
  forall m M, (forall k, coded decomp (m k) (M k)) -> within P m (plain h) ->
  (forall k, coded decomp (fst (map_run m (plain h)) k) (fst (map_run M (stored decomp h)) k)) /\
  snd (map_run m (plain h)) = map (fun p => decode decomp (o_readable (fst p)) (snd p)) (combine (plain h) (snd (map_run M (stored decomp h)))) /\
  length (snd (map_run M (stored decomp h))) = length h /\
  ops_ok M (stored decomp h).
Proof.
  induction h as [|[comp o] h IH]; intros Hc m M HM Hw; [repeat split; assumption|].
  cbn [plain stored map snd fst within map_run ops_ok comp_hop o_key o_proc o_readable o_writable] in *.
  fold (plain h) in *. fold (stored decomp h) in *. destruct Hw as (Hk & Ha & Hw).
  set (a := o_proc o (map_seen m (o_key o) (o_readable o))) in *.
  assert (A : comp_proc comp decomp (o_readable o) (o_proc o) (map_seen M (o_key o) (o_readable o)) = comp_answer comp a).
  { assert (HMk := HM (o_key o)). unfold a, map_seen, comp_proc, coded in *.
    destruct (m (o_key o)) as [v|], (M (o_key o)) as [s|]; try contradiction; [|reflexivity]. destruct (o_readable o); [now rewrite HMk|reflexivity]. }
  rewrite A. assert (Cc := Hc (comp, o) (or_introl eq_refl)). cbn [fst] in Cc.
  assert (HM' : forall k, coded decomp (map_apply m (o_key o) a (o_writable o) k) (map_apply M (o_key o) (comp_answer comp a) (o_writable o) k)).
  { intros k. unfold map_apply. destruct (o_writable o); [|apply HM]. destruct a as [| |v]; cbn [comp_answer]; [apply HM| |].
    - unfold adel. destruct (beqb (o_key o) k); [exact I|apply HM].
    - unfold aset. destruct (beqb (o_key o) k); [apply (Cc v Ha)|apply HM]. }
  destruct (IH (fun p Hp => Hc p (or_intror Hp)) _ _ HM' Hw) as (I1 & I2 & I3 & I4).
  destruct (map_run (map_apply m _ a _) (plain h)) as [m' out]. destruct (map_run (map_apply M _ _ _) (stored decomp h)) as [M' Out].
  cbn [fst snd combine map length] in *. split; [exact I1|]. split; [|split; [now rewrite I3|]].
  - f_equal; [|exact I2]. assert (HMk := HM (o_key o)). unfold map_seen, decode, coded in *.
    destruct (m (o_key o)) as [v|], (M (o_key o)) as [s|]; try contradiction; [|reflexivity]. destruct (o_readable o); [now rewrite HMk|reflexivity].
  - split; [exact Hk|]. split; [|exact I4]. unfold action_ok. destruct a; cbn [comp_answer]; auto. apply (Cc v Ha).
Qed.
Lemma coded_size decomp m M n e : (forall k, coded decomp (m k) (M k)) -> msize M n e -> exists e', msize m n e'.
Proof.
  intros H (ks & H1 & H2 & H3 & _). exists (dsum m ks), ks. split; [exact H1|]. split; [|auto].
  intros k. rewrite H2. specialize (H k). unfold coded in H. destruct (m k), (M k); try contradiction; split; congruence.
Qed.
(** The database with a compressor cannot be told from the map of the plain values: every operation succeeds, every processor of a user sees what the map
    holds, the count is that of the map and every lookup, decompressed, gives the value of the map. *)
Theorem C50_hash_transparent : forall P decomp d cap h,
  hdb_ok d -> 1 <= cap -> (forall p, In p h -> codec P decomp (fst p)) -> within P aempty (plain h) ->
  let '(s, out) := h_run d (h_init d cap) (stored decomp h) in
  let m := fst (map_run aempty (plain h)) in
  fsize (s_file s) <= capacity d ->
  map (fun p => (fst (snd p), option_map (decode decomp (o_readable (fst p))) (snd (snd p)))) (combine (plain h) out) =
    map (fun x => (HOk, Some x)) (snd (map_run aempty (plain h))) /\
  (exists e, msize m (s_num s) e) /\
  (forall key, key_ok key -> exists v, h_get d s key = mkhres s HOk (Some v) /\ decode decomp true v = m key).
Proof.
  intros P decomp d cap h Hd Hc Hcod Hw.
  destruct (stored_run P decomp h Hcod aempty aempty (fun _ => I) Hw) as (R1 & R2 & R3 & R4).
  assert (H := history_agrees d cap (stored decomp h) Hd Hc R4). destruct (h_run d (h_init d cap) (stored decomp h)) as [s out].
  cbv zeta. intros Hf. destruct (H Hf) as (A1 & A2 & A3). split; [|split].
  - rewrite R2, A1. clear - R3. revert R3. generalize (snd (map_run aempty (stored decomp h))) as Out. intros Out HL.
    assert (HL' : length (plain h) = length Out) by (unfold plain; rewrite map_length; congruence). clear HL. revert Out HL'.
    induction (plain h) as [|o ops IH]; intros [|x Out] HL; cbn [length] in HL; try discriminate; [reflexivity|].
    cbn [map combine fst snd option_map]. f_equal. apply IH. lia.
  - exact (coded_size decomp _ _ _ _ R1 A2).
  - intros key Hk. eexists. split; [apply A3; exact Hk|]. specialize (R1 key). unfold coded in R1. unfold decode.
    destruct (fst (map_run aempty (plain h)) key), (fst (map_run aempty (stored decomp h)) key); try contradiction; auto.
Qed.
Print Assumptions C50_hash_transparent.

(** The three compressors meet its premise for all values with room for what they add. *)
Definition room (n : N) (v : bytes) : Prop := bytes_ok v /\ blen v + n <= VALUE_LIMIT.
Definition cbytes (r : cres) : option bytes := match r with CBytes l => Some l | _ => None end.
Theorem C50_codecs : forall key iv1 iv2, bytes_ok key ->
  (forall checksum, codec (room 4) (dummy_decompress checksum) (dummy_compress checksum)) /\
  codec (room 6) (rc4_decompress key) (rc4_compress key iv1) /\
  codec (room 32) (fun l => cbytes (aes_decompress key l))
    (fun l => match aes_compress key iv1 iv2 l with CBytes c => c | _ => [] end).
Proof.
  intros key iv1 iv2 Bk. split; [|split].
  - intros cs v [Bv Hv]. destruct (C50_dummy_round_trip cs v Bv) as [R L]. split; [exact R|]. split.
    + destruct cs; cbn [dummy_compress]; [|exact Bv]. apply bytes_ok_app. split; [apply write_fix_ok|exact Bv].
    + rewrite L. destruct cs; lia.
  - intros v [Bv Hv]. destruct (C50_rc4_round_trip key iv1 v Bv) as [R L]. split; [exact R|]. split; [|rewrite L; lia].
    rewrite rc4_compress_rc4 by exact Bv. apply bytes_ok_app. split; [apply write_fix_ok|now apply rc4_ok].
  - intros v [Bv Hv]. assert (Hl : blen v < 2 ^ 35 - 16) by (unfold VALUE_LIMIT in Hv; lia).
    destruct (C50_aes_round_trip key iv1 iv2 v Bk Bv Hl) as (c & C1 & C2 & _ & C4). rewrite C1, C2. split; [reflexivity|]. split; [|lia].
    assert (F := C50_aes_format key iv1 iv2 v Bk Bv ltac:(lia)). cbv zeta in F. rewrite C1 in F.
    assert (I : forall a b, CBytes a = CBytes b -> a = b) by congruence. apply I in F. subst c.
    apply bytes_ok_app. assert (Bi := vector_ok iv1 iv2). split; [apply cipher_block; auto|].
    clear - Bk Bv Bi. revert Bi. fold (vector iv1 iv2). generalize (vector iv1 iv2) as p. remember (length v / 16)%nat as n eqn:Hn.
    revert v Bv Hn. induction n as [|n IH]; intros v Bv Hn p Bp; cbn [chain].
    + refine (proj2 (cipher_block key _ Bk _)). apply last_block_ok; auto. symmetry in Hn. apply Nat.div_small_iff in Hn; lia.
    + assert (H : (16 <= length v)%nat).
      { destruct (Nat.le_gt_cases 16 (length v)) as [H|H]; [exact H|]. rewrite (Nat.div_small (length v)) in Hn by lia. discriminate. }
      apply bytes_ok_app. split; [refine (proj2 (cipher_block key _ Bk _)); now apply full_block_ok|].
      apply IH; [now apply skipn_ok| |now apply first_block]. rewrite skipn_length. rewrite (div16 _ H) in Hn. lia.
Qed.
Print Assumptions C50_codecs.
(** A database with RC4: two values set, one replaced, one read and removed. *)
Example C50_hash_ex :
  let set k v := mkhop k (fun _ => ASet v) false true in
  let h := [(rc4_compress [1] 11, set [65] [1; 2; 3]); (rc4_compress [1] 12, set [66] []); (rc4_compress [1] 13, set [65] [9]);
            (rc4_compress [1] 14, mkhop [65] (fun _ => ARemove) true true); (rc4_compress [1] 15, mkhop [66] (fun _ => ANoop) true false)] in
  within (room 6) aempty (plain h) /\ snd (map_run aempty (plain h)) = [None; None; Some []; Some [9]; Some []].
Proof.
  cbv zeta. split; [|vm_compute; reflexivity].
  cbn [plain map snd within o_key o_proc o_readable o_writable map_apply].
  repeat match goal with |- _ /\ _ => split | |- key_ok _ => split | |- room _ _ => split | |- bytes_ok _ => repeat constructor | |- True => exact I end;
    vm_compute; congruence.
Qed.
