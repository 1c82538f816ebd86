(** C26: serialized pairs, lists, maps and integer vectors round-trip. *)
From Coq Require Import Sorted.
From Verif Require Import Bytes BytesOrder CodecModel CodecProofs StrSerialModel StrSerialProofs.
Open Scope N_scope.

(** A pair of any two strings (sizes are size_t) comes back, and so does its
    first element alone. *)
Theorem C26_pair : forall a b : bytes,
  blen a < two64 -> blen b < two64 ->
  deserialize_pair (serialize_pair a b) = Some (a, b) /\ first_of_pair (serialize_pair a b) = Some a.
Proof. intros a b Ha Hb. split; [apply pair_round|apply pair_first]; assumption. Qed.

(** Different pairs have different serializations. *)
Theorem C26_pair_injective : forall a b a' b' : bytes,
  blen a < two64 -> blen b < two64 -> blen a' < two64 -> blen b' < two64 ->
  serialize_pair a b = serialize_pair a' b' -> a = a' /\ b = b'.
Proof.
  intros a b a' b' H1 H2 H3 H4 E.
  pose proof (pair_round a b H1 H2) as R. rewrite E, (pair_round a' b' H3 H4) in R.
  injection R as -> ->. split; reflexivity.
Qed.

(** A vector of strings comes back, within one more loop iteration than it has
    elements, when its serialization is below 2^31 bytes. *)
Theorem C26_vector : forall (l : list bytes) (fuel : nat),
  blen (serialize_vec l) < 2 ^ 31 -> (length l < fuel)%nat ->
  deserialize_vec fuel (serialize_vec l) = DDone l.
Proof. intros l fuel H Hf. apply vec_round; assumption. Qed.

(** A map (given as its records in ascending order of keys) comes back. *)
Theorem C26_map : forall (l : list (bytes * bytes)) (fuel : nat),
  StronglySorted blt (map fst l) ->
  blen (serialize_map l) < 2 ^ 31 -> (length l < fuel)%nat ->
  deserialize_map fuel (serialize_map l) = DDone l.
Proof. intros l fuel Hs H Hf. apply map_round; assumption. Qed.
(** Of records in any order, with keys that occur more than once, the first of each key comes back, in ascending order of keys. *)
Theorem C26_map_any : forall (l : list (bytes * bytes)) (fuel : nat),
  blen (serialize_map l) < 2 ^ 31 -> (length l < fuel)%nat ->
  exists m, deserialize_map fuel (serialize_map l) = DDone m /\ StronglySorted blt (map fst m) /\
    forall k, first_value k m = first_value k l.
Proof.
  intros l fuel H Hf. exists (emplace_all l []). split; [now apply map_any|].
  split; [apply (emplace_all_value l [] []); constructor|]. intros k. apply (emplace_all_value l [] k). constructor.
Qed.
Example C26_map_any_case :
  deserialize_map 4 (serialize_map [([2], [10]); ([1], [11]); ([2], [12])]) = DDone [([1], [11]); ([2], [10])].
Proof. reflexivity. Qed.

(** Vectors of 8, 16, 32 or 64 bit integers, signed or not, in fixed width. *)
Theorem C26_basic_vector : forall (bits : Z) (signed : bool) (l : list Z),
  In bits [8; 16; 32; 64]%Z ->
  (forall v, In v l -> if signed then (- 2 ^ (bits - 1) <= v < 2 ^ (bits - 1))%Z
                       else (0 <= v < 2 ^ bits)%Z) ->
  deserialize_basic (mkity bits signed) (serialize_basic (mkity bits signed) l) = l.
Proof.
  intros bits signed l Hb Hv. apply basic_round; [exact Hb|]. intros v Hi. specialize (Hv v Hi).
  unfold in_ity, t_min, t_max. cbn [t_signed t_bits]. destruct signed; lia.
Qed.

(** The same in byte delta encoding without zigzag: every value. *)
Theorem C26_delta_vector : forall (bits : Z) (signed : bool) (l : list Z),
  In bits [8; 16; 32; 64]%Z ->
  (forall v, In v l -> if signed then (- 2 ^ (bits - 1) <= v < 2 ^ (bits - 1))%Z
                       else (0 <= v < 2 ^ bits)%Z) ->
  exists s, serialize_delta (mkity bits signed) false l = Some s /\
            deserialize_delta (mkity bits signed) false s = Some l.
Proof.
  intros bits signed l Hb Hv. apply delta_round; [exact Hb|]. intros v Hi. specialize (Hv v Hi).
  split; [|discriminate]. unfold in_ity, t_min, t_max. cbn [t_signed t_bits]. destruct signed; lia.
Qed.

(** With zigzag: every value of the 8 and 16 bit types and of uint64_t; for
    int32_t and int64_t the values of half the range, for uint32_t those below 2^31. *)
Theorem C26_delta_zigzag_vector : forall (bits : Z) (signed : bool) (l : list Z),
  In bits [8; 16; 32; 64]%Z ->
  (forall v, In v l ->
     if signed
     then if (bits <? 32)%Z then (- 2 ^ (bits - 1) <= v < 2 ^ (bits - 1))%Z
          else (- 2 ^ (bits - 2) <= v < 2 ^ (bits - 2))%Z
     else if (bits =? 32)%Z then (0 <= v < 2 ^ 31)%Z else (0 <= v < 2 ^ bits)%Z) ->
  exists s, serialize_delta (mkity bits signed) true l = Some s /\
            deserialize_delta (mkity bits signed) true s = Some l.
Proof.
  intros bits signed l Hb Hv. apply delta_round; [exact Hb|]. intros v Hi. specialize (Hv v Hi).
  unfold in_ity, zz_ok, t_min, t_max. cbn [t_signed t_bits].
  destruct signed; (repeat (destruct Hb as [<-|Hb]; [|]); [..|destruct Hb]); cbn in Hv |- *; try lia.
Qed.

(** Outside of these ranges the claim fails: signed overflow (undefined) ... *)
Theorem C26_zigzag_int32_overflow_refuted : forall v : Z,
  (- 2 ^ 31 <= v < 2 ^ 31)%Z -> ~ (- 2 ^ 30 <= v < 2 ^ 30)%Z ->
  serialize_delta (mkity 32 true) true [v] = None.
Proof.
  intros v H1 H2. cbn [serialize_delta]. unfold delta_num. change (2 ^ 63 - 1)%N with 9223372036854775807%N.
  zpow. destruct (Z.ltb_spec v 0) as [Hn|Hp].
  - rewrite (tou64_neg v) by lia. destruct (N.ltb_spec 9223372036854775807 (Z.to_N (v + 18446744073709551616))); [|lia].
    unfold arith, prom, t_min, t_max. cbn [t_bits t_signed]. change (32 <? 32)%Z with false. cbn [t_bits t_signed].
    zpow. repeat (match goal with |- context [(?a <=? ?b)%Z] => destruct (Z.leb_spec a b) end; cbn [andb]); try lia; reflexivity.
  - rewrite (tou64_pos v) by lia. destruct (N.ltb_spec 9223372036854775807 (Z.to_N v)); [lia|].
    unfold arith, prom, t_min, t_max. cbn [t_bits t_signed]. change (32 <? 32)%Z with false. cbn [t_bits t_signed].
    zpow. repeat (match goal with |- context [(?a <=? ?b)%Z] => destruct (Z.leb_spec a b) end; cbn [andb]); try lia; reflexivity.
Qed.
(** ... and a different value read back for large uint32_t values. *)
Theorem C26_zigzag_uint32_refuted : forall v : Z,
  (2 ^ 31 <= v < 2 ^ 32)%Z ->
  exists s, serialize_delta (mkity 32 false) true [v] = Some s /\
            deserialize_delta (mkity 32 false) true s = Some [v - 2 ^ 31]%Z.
Proof.
  intros v H. zpow.
  destruct (delta_round (mkity 32 false) true [v - 2147483648]%Z) as (s & H1 & H2).
  { right; right; left; reflexivity. }
  { intros w [<-|[]]. unfold in_ity, zz_ok, t_min, t_max. cbn. split; [lia|intros _; lia]. }
  exists s. split; [|exact H2]. rewrite <- H1. cbn [serialize_delta]. f_equal.
  unfold delta_num. change (2 ^ 63 - 1)%N with 9223372036854775807%N.
  rewrite !tou64_pos by lia.
  destruct (N.ltb_spec 9223372036854775807 (Z.to_N v)); [lia|].
  destruct (N.ltb_spec 9223372036854775807 (Z.to_N (v - 2147483648))); [lia|].
  unfold arith, prom, wrap. cbn [t_bits t_signed]. change (32 <? 32)%Z with false. cbn [t_bits t_signed]. zpow.
  do 2 f_equal. replace (v * 2)%Z with ((v - 2147483648) * 2 + 1 * 4294967296)%Z by lia.
  rewrite Z.mod_add by lia. reflexivity.
Qed.

(** Single integers: variable width (zigzag or not) and big-endian. *)
Theorem C26_int_delta : forall (n : N) (zigzag : bool),
  n < 2 ^ 64 -> delta_to_int (int_to_delta n zigzag) zigzag = n.
Proof. intros n z H. apply int_delta_round. exact H. Qed.
Theorem C26_int_big_endian : forall (n : N) (size : nat),
  (1 <= size <= 8)%nat -> n < 256 ^ N.of_nat size -> be_to_int (int_to_be n size) = n.
Proof. exact int_be_round. Qed.

(** Inputs which are not serializations: a list or a map whose last number
    lacks its last byte is read forever, whatever the number of iterations;
    a pair can make a view reaching outside of the input. *)
Theorem C26_malformed_never_returns_refuted : forall fuel : nat,
  deserialize_vec fuel [128] = DRunning /\ deserialize_map fuel [128] = DRunning.
Proof. intros fuel. split; [apply vec_loop_spin|apply map_loop_spin]. Qed.
Theorem C26_malformed_pair_refuted : forall n : N,
  0 < n < 128 -> deserialize_pair [n] = None.
Proof.
  intros n H. unfold deserialize_pair, rv, read_var, read_var_loop.
  destruct (N.leb_spec 128 n); [lia|].
  assert (E : (N.shiftl 0 7 + N.land n 127) mod two64 = n).
  { rewrite land_127, N.shiftl_0_l, N.add_0_l. rewrite (N.mod_small n 128) by lia. apply N.mod_small.
    change two64 with 18446744073709551616. lia. }
  rewrite E. change (N.to_nat (0 + 1)) with 1%nat. cbn [skipn]. rewrite blen_nil.
  destruct (N.ltb_spec 0 n); [reflexivity|lia].
Qed.
(** A serialization of 2^31 bytes or more (below 2^32) is read as nothing. *)
Theorem C26_large_vector_refuted : forall (l : list bytes) (fuel : nat),
  2 ^ 31 <= blen (serialize_vec l) < 2 ^ 32 -> (0 < fuel)%nat ->
  deserialize_vec fuel (serialize_vec l) = DDone [].
Proof.
  intros l fuel H Hf. unfold deserialize_vec. rewrite i32_large by exact H.
  destruct fuel; [lia|reflexivity].
Qed.
(** Such vectors exist: n empty strings take n bytes. *)
Theorem C26_large_vector_exists : forall n : nat, blen (serialize_vec (repeat [] n)) = N.of_nat n.
Proof.
  induction n as [|n IH]; [reflexivity|].
  cbn [repeat serialize_vec flat_map]. change (flat_map _ ?x) with (serialize_vec x). rewrite !blen_app, IH, blen_nil.
  change (blen (write_var 0)) with 1. lia.
Qed.

(** Cases meeting the hypotheses. *)
Example C26_pair_case : serialize_pair [1; 2] [] = [2; 1; 2; 0] /\ deserialize_pair [2; 1; 2; 0] = Some ([1; 2], []).
Proof. split; reflexivity. Qed.
Example C26_vector_case : deserialize_vec 3 (serialize_vec [[]; [255; 0]]) = DDone [[]; [255; 0]].
Proof. reflexivity. Qed.
Example C26_map_case :
  StronglySorted blt (map fst [([], [7]); ([1], []); ([1; 0], [2])]) /\
  deserialize_map 4 (serialize_map [([], [7]); ([1], []); ([1; 0], [2])]) = DDone [([], [7]); ([1], []); ([1; 0], [2])].
Proof. split; [repeat constructor|reflexivity]. Qed.
Example C26_delta_case :
  serialize_delta (mkity 64 true) true [-1; 64; -4611686018427387904]%Z
    = Some [1; 129; 0; 255; 255; 255; 255; 255; 255; 255; 255; 127] /\
  deserialize_delta (mkity 64 true) true [1; 129; 0; 255; 255; 255; 255; 255; 255; 255; 255; 127]
    = Some [-1; 64; -4611686018427387904]%Z.
Proof. split; vm_compute; reflexivity. Qed.
Example C26_basic_case : serialize_basic (mkity 16 true) [-2; 258]%Z = [255; 254; 1; 2].
Proof. reflexivity. Qed.

Print Assumptions C26_pair.
Print Assumptions C26_pair_injective.
Print Assumptions C26_vector.
Print Assumptions C26_map.
Print Assumptions C26_map_any.
Print Assumptions C26_basic_vector.
Print Assumptions C26_delta_vector.
Print Assumptions C26_delta_zigzag_vector.
Print Assumptions C26_zigzag_int32_overflow_refuted.
Print Assumptions C26_zigzag_uint32_refuted.
Print Assumptions C26_int_delta.
Print Assumptions C26_int_big_endian.
Print Assumptions C26_malformed_never_returns_refuted.
Print Assumptions C26_malformed_pair_refuted.
Print Assumptions C26_large_vector_refuted.
