(** C02: the record format of the hash database. *)
From Verif Require Import Bytes CodecModel FileModel HashUtilModel HashRecModel HashRecProofs.
Open Scope N_scope.

(** A record written at any place of any file is read back exactly, from every
    file that agrees on the region of the record: the key, the value, the type,
    the child offset and the whole size are the written ones and the checksums
    verify.  [mrs] is the minimum read size of the reader. *)
Theorem C02_record_roundtrip : forall c t ideal key value child f off g mrs,
  hcfg_ok c -> bytes_ok key -> bytes_ok value -> blen key <= MAX_KEY_SIZE ->
  child mod 2 ^ apow c = 0 -> child < 256 ^ N.of_nat (ow c) * 2 ^ apow c ->
  let r := set_data c t ideal key value child in
  r_whole r <= MAX_VALUE_SIZE ->
  let f' := file_write f off (rec_bytes c r) in
  (forall i, off <= i -> i < off + r_whole r -> fdata g i = fdata f' i) ->
  off + r_whole r <= fsize g -> META_MIN_READ_SIZE <= mrs ->
  exists m, read_meta c g off mrs = Some m /\
    m_type m = t /\ m_child m = child /\ m_key m = key /\ meta_value g off m = Some value /\
    m_whole m = r_whole r /\ check_crc c g off m = true.
Proof.
  intros c t ideal key value child f off g mrs Hc Hk Hv Hks Hch1 Hch2 r Hw f' Hg Hgs Hm.
  assert (Hr : rec_ok c r) by exact (set_data_ok c t ideal key value child Hk Hv Hks Hw (conj Hch1 Hch2)).
  assert (Hb : base_size c (r_key r) (r_val r) <= r_whole r) by apply Hr.
  destruct (read_meta_ok c g off r mrs Hc Hr
    (read_meta_ext_region c f' g off r (rec_at_write c f off r Hb) Hg Hgs) Hm)
    as (m & H1 & H2 & H3 & H4 & H5 & _ & _ & H6 & H7).
  exists m. repeat split; assumption.
Qed.
Print Assumptions C02_record_roundtrip.

(** The whole size: a multiple of the alignment, not below the request nor the
    size of the content, less than one alignment unit above the larger of
    both, and exactly the number of bytes written. *)
Theorem C02_record_size : forall c t ideal key value child,
  let r := set_data c t ideal key value child in
  r_whole r mod 2 ^ apow c = 0 /\ ideal <= r_whole r /\
  1 + N.of_nat (ow c) + N.of_nat (crcw c) + blen key + blen value < r_whole r /\
  r_whole r < N.max (base_size c key value) ideal + 2 ^ apow c /\
  blen (rec_bytes c r) = r_whole r.
Proof.
  intros c t ideal key value child r.
  assert (G := align_num_ge (N.max (base_size c key value) ideal) (halign c) (halign_nz c)).
  split; [exact (align_num_mod _ _ (halign_nz c))|].
  split; [unfold r; cbn [set_data r_whole]; lia|].
  split; [unfold r; cbn [set_data r_whole]; unfold base_size in *; lia|].
  split; [exact (align_num_lt _ _ (halign_nz c))|].
  apply rec_bytes_blen. unfold r; cbn [set_data r_whole r_key r_val]; lia.
Qed.
Print Assumptions C02_record_size.

(** Rewriting the child offset in place changes nothing else of the record. *)
Theorem C02_child_rewrite : forall c f off r child,
  base_size c (r_key r) (r_val r) <= r_whole r -> rec_at c f off r ->
  rec_at c (write_child c f off child) off (mkhrec (r_type r) child (r_key r) (r_val r) (r_whole r)).
Proof. exact write_child_at. Qed.
Print Assumptions C02_child_rewrite.

(** The limit on the key size is only enforced by the reader: a record with a
    longer key is written by the same code and can never be read back. *)
Theorem C02_long_key_refuted : forall c t ideal key value child f off mrs,
  (ow c <= 6)%nat -> MAX_KEY_SIZE < blen key -> blen key < two64 -> META_MIN_READ_SIZE <= mrs ->
  read_meta c (file_write f off (rec_bytes c (set_data c t ideal key value child))) off mrs = None.
Proof.
  intros c t ideal key value child f off mrs How Hk Hk2 Hm.
  assert (G := align_num_ge (N.max (base_size c key value) ideal) (halign c) (halign_nz c)).
  assert (Hb : base_size c key value <= r_whole (set_data c t ideal key value child))
    by (cbn [set_data r_whole]; lia).
  exact (long_key_unreadable c _ off (set_data c t ideal key value child) mrs How Hb Hk Hk2 Hm
    (rec_at_write c f off (set_data c t ideal key value child) Hb)).
Qed.
Print Assumptions C02_long_key_refuted.

Definition c02_cfg : hcfg := mkhcfg 4 3 2.
Example C02_ex :
  let r := set_data c02_cfg OpSet 40 [97; 98; 99] [49; 50] 4096 in
  hcfg_ok c02_cfg /\ r_whole r = 40 /\
  option_map (fun m => (m_type m, m_child m, m_key m, m_val m))
    (read_meta c02_cfg (file_write file_empty 8 (rec_bytes c02_cfg r)) 8 48)
  = Some (OpSet, 4096, [97; 98; 99], Some [49; 50]).
Proof. repeat split; try (vm_compute; reflexivity); try (cbn; lia). Qed.
Example C02_long_key_ex : MAX_KEY_SIZE < 8388608 /\ 8388608 < two64.
Proof. split; reflexivity. Qed.
