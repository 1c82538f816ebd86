(** Lemmas about the record format of the hash database. *)
From Verif Require Import Bytes CodecModel CodecProofs FileModel HashUtilModel HashUtilProofs HashRecModel.
Open Scope N_scope.

(** What a record must satisfy to be representable. *)
Definition child_ok (c : hcfg) (child : N) : Prop :=
  child mod halign c = 0 /\ child < 256 ^ N.of_nat (ow c) * halign c.
Definition rec_ok (c : hcfg) (r : hrec) : Prop :=
  bytes_ok (r_key r) /\ bytes_ok (r_val r) /\ blen (r_key r) <= MAX_KEY_SIZE /\
  base_size c (r_key r) (r_val r) <= r_whole r /\ r_whole r <= MAX_VALUE_SIZE /\
  r_whole r mod halign c = 0 /\ child_ok c (r_child r).

(** [rec_at c f off r]: the record [r] is stored at [off]. *)
Definition rec_at (c : hcfg) (f : file) (off : N) (r : hrec) : Prop :=
  dread (fdata f) off (N.to_nat (r_whole r)) = rec_bytes c r /\ off + r_whole r <= fsize f.

Lemma halign_nz c : halign c <> 0.
Proof. apply N.pow_nonzero. discriminate. Qed.

Lemma two64_val : two64 = 18446744073709551616. Proof. reflexivity. Qed.

Lemma size_var_le a b : a <= b -> size_var a <= size_var b.
Proof.
  intros H. unfold size_var.
  repeat match goal with |- context [a <? ?x] => destruct (N.ltb_spec a x) end;
  repeat match goal with |- context [b <? ?x] => destruct (N.ltb_spec b x) end; lia.
Qed.

Lemma size_var_small n : 0 < n -> size_var n <= n.
Proof.
  intros H. unfold size_var.
  repeat match goal with |- context [n <? ?x] =>
    let y := eval vm_compute in x in change x with y; destruct (N.ltb_spec n y) end; lia.
Qed.

Lemma pad_bytes_blen n : blen (pad_bytes n) + size_var n = n + 1.
Proof.
  unfold pad_bytes. destruct (N.ltb_spec 0 n) as [H|H].
  - assert (S := size_var_small n H). rewrite blen_cons. unfold blen. rewrite repeat_length. lia.
  - replace n with 0 by lia. reflexivity.
Qed.

Lemma rec_head_blen c r :
  blen (rec_head c r) = 1 + N.of_nat (ow c) + size_var (blen (r_key r)) + size_var (blen (r_val r))
    + size_var (rec_pad c r) + N.of_nat (crcw c).
Proof.
  unfold rec_head. rewrite !blen_app, !write_var_length. unfold blen at 1 2 5.
  rewrite !write_fix_length. cbn [length]. lia.
Qed.

Lemma rec_bytes_blen c r : base_size c (r_key r) (r_val r) <= r_whole r ->
  blen (rec_bytes c r) = r_whole r.
Proof.
  intros H. unfold rec_bytes. rewrite !blen_app, rec_head_blen.
  assert (P := pad_bytes_blen (rec_pad c r)). unfold rec_pad, base_size in *. lia.
Qed.

Lemma set_data_ok c t ideal key value child :
  bytes_ok key -> bytes_ok value -> blen key <= MAX_KEY_SIZE ->
  r_whole (set_data c t ideal key value child) <= MAX_VALUE_SIZE -> child_ok c child ->
  rec_ok c (set_data c t ideal key value child).
Proof.
  intros Hk Hv Hks Hw Hc. unfold rec_ok. cbn [set_data r_key r_val r_whole r_child] in *.
  assert (A := align_num_ge (N.max (base_size c key value) ideal) (halign c) (halign_nz c)).
  assert (M := align_num_mod (N.max (base_size c key value) ideal) (halign c) (halign_nz c)).
  repeat split; auto; try lia; apply Hc.
Qed.

Lemma magic_lor_cks cks t : 3 <= cks < 64 ->
  N.land (N.lor cks (op_magic t)) 63 = cks /\ magic_op (N.lor cks (op_magic t)) = t
  /\ byte_ok (N.lor cks (op_magic t)).
Proof.
  intros H.
  assert (E : N.lor cks (op_magic t) = cks + op_magic t).
  { rewrite N.add_nocarry_lxor, N.lxor_lor; try reflexivity.
    - apply N.bits_inj_0. intros i. rewrite N.land_spec. destruct (N.ltb_spec i 6) as [L|L].
      + replace (N.testbit (op_magic t) i) with false; [apply andb_false_r|].
        destruct t; cbn [op_magic]; symmetry.
        * change 192 with (N.shiftl 3 6). apply N.shiftl_spec_low; exact L.
        * change 128 with (N.shiftl 2 6). apply N.shiftl_spec_low; exact L.
        * change 64 with (N.shiftl 1 6). apply N.shiftl_spec_low; exact L.
        * apply N.bits_0.
      + rewrite (testbit_small cks 6); [reflexivity|cbn; lia|exact L].
    - apply N.bits_inj_0. intros i. rewrite N.land_spec. destruct (N.ltb_spec i 6) as [L|L].
      + replace (N.testbit (op_magic t) i) with false; [apply andb_false_r|].
        destruct t; cbn [op_magic]; symmetry.
        * change 192 with (N.shiftl 3 6). apply N.shiftl_spec_low; exact L.
        * change 128 with (N.shiftl 2 6). apply N.shiftl_spec_low; exact L.
        * change 64 with (N.shiftl 1 6). apply N.shiftl_spec_low; exact L.
        * apply N.bits_0.
      + rewrite (testbit_small cks 6); [reflexivity|cbn; lia|exact L]. }
  assert (L63 : forall x, N.land x 63 = x mod 64) by (intros x; change 63 with (N.ones 6); apply N.land_ones).
  assert (L192 : N.land (N.lor cks (op_magic t)) 192 = op_magic t).
  { rewrite N.land_lor_distr_l. replace (N.land cks 192) with 0.
    - rewrite N.lor_0_l. destruct t; reflexivity.
    - symmetry. apply N.bits_inj_0. intros i. rewrite N.land_spec. destruct (N.ltb_spec i 6) as [L|L].
      + change 192 with (N.shiftl 3 6). rewrite N.shiftl_spec_low by exact L. apply andb_false_r.
      + rewrite (testbit_small cks 6); [reflexivity|cbn; lia|exact L]. }
  split; [|split].
  - rewrite L63, E. destruct t; cbn [op_magic]; lia.
  - unfold magic_op. rewrite L192. destruct t; reflexivity.
  - unfold byte_ok. rewrite E. destruct t; cbn [op_magic]; lia.
Qed.

Lemma child_roundtrip c child : child_ok c child ->
  N.shiftr child (apow c) < 256 ^ N.of_nat (ow c) /\
  N.shiftl (N.shiftr child (apow c)) (apow c) = child.
Proof.
  intros [Hm Hl]. rewrite N.shiftr_div_pow2, N.shiftl_mul_pow2. fold (halign c).
  assert (Hz := halign_nz c). split.
  - apply N.div_lt_upper_bound; [exact Hz|]. lia.
  - assert (E := N.div_mod child (halign c) Hz). rewrite Hm in E. lia.
Qed.

Lemma rec_bytes_ok c r : rec_ok c r -> bytes_ok (rec_bytes c r).
Proof.
  intros (Hk & Hv & Hks & Hb & Hw & _ & _). unfold MAX_KEY_SIZE, MAX_VALUE_SIZE in *.
  unfold rec_bytes, rec_head. repeat (apply bytes_ok_app; split); auto.
  - constructor; [|constructor]. apply magic_lor_cks, magic_checksum_range.
  - apply write_fix_ok.
  - apply write_var_ok. unfold two64; lia.
  - apply write_var_ok. unfold base_size, two64 in *; lia.
  - apply write_var_ok. unfold rec_pad, two64; lia.
  - apply write_fix_ok.
  - unfold pad_bytes. destruct (0 <? rec_pad c r); [|constructor].
    constructor; [unfold byte_ok; lia|]. apply Forall_forall. intros x Hx. apply repeat_spec in Hx. subst. unfold byte_ok; lia.
Qed.

(** The header is parsed from any string starting with it. *)
Lemma parse_head_ok c r maxr rest : rec_ok c r -> r_whole r <= maxr ->
  parse_head c maxr (rec_head c r ++ rest)
  = Some (magic_checksum (r_key r) (r_val r), r_type r, r_child r, blen (r_key r), blen (r_val r),
          rec_pad c r, record_crc (crcw c) (r_key r) (r_val r), size_var (rec_pad c r), rest).
Proof.
  intros (Hk & Hv & Hks & Hb & Hw & Hm & Hc) Hmax.
  assert (Bs : base_size c (r_key r) (r_val r) = 1 + N.of_nat (ow c) + size_var (blen (r_key r))
     + size_var (blen (r_val r)) + 1 + N.of_nat (crcw c) + blen (r_key r) + blen (r_val r)) by reflexivity.
  assert (Pd : rec_pad c r = r_whole r - base_size c (r_key r) (r_val r)) by reflexivity.
  unfold rec_head. rewrite <- !app_assoc. cbn [app]. unfold parse_head.
  destruct (magic_lor_cks _ (r_type r) (magic_checksum_range (r_key r) (r_val r))) as (E1 & E2 & _).
  rewrite E1, E2. assert (R := magic_checksum_range (r_key r) (r_val r)).
  destruct (N.ltb_spec (magic_checksum (r_key r) (r_val r)) 3); [lia|].
  rewrite (take_exact_app_n (ow c)) by (symmetry; apply write_fix_length).
  unfold MAX_KEY_SIZE, MAX_VALUE_SIZE in *.
  rewrite get_write_var by (unfold two64; lia).
  destruct (N.ltb_spec 8388607 (blen (r_key r))); [lia|].
  destruct (N.ltb_spec maxr (blen (r_key r))); [lia|]. cbn [orb].
  rewrite get_write_var by (unfold two64; lia).
  destruct (N.ltb_spec 2147483647 (blen (r_val r))); [lia|].
  destruct (N.ltb_spec maxr (blen (r_val r))); [lia|]. cbn [orb].
  rewrite get_write_var by (unfold two64; lia).
  destruct (N.ltb_spec 2147483647 (rec_pad c r)); [lia|].
  destruct (N.ltb_spec maxr (rec_pad c r)); [lia|]. cbn [orb].
  rewrite (take_exact_app_n (crcw c)) by (symmetry; apply write_fix_length).
  destruct (child_roundtrip c _ Hc) as [Hc1 Hc2].
  rewrite !read_write_fix_bytes, !N.mod_small; [|apply record_crc_lt; assumption|assumption].
  rewrite Hc2. repeat f_equal. rewrite !blen_app, write_var_length. lia.
Qed.

(** The header never exceeds the minimum read size. *)
Lemma rec_head_short c r : hcfg_ok c -> rec_ok c r -> blen (rec_head c r) <= META_MIN_READ_SIZE.
Proof.
  intros (How & _ & Hcrc) (Hk & Hv & Hks & Hb & Hw & _). rewrite rec_head_blen.
  unfold MAX_KEY_SIZE, MAX_VALUE_SIZE, META_MIN_READ_SIZE in *.
  assert (S1 := size_var_le (blen (r_key r)) 2147483647).
  assert (S2 := size_var_le (blen (r_val r)) 2147483647).
  assert (S3 := size_var_le (rec_pad c r) 2147483647).
  change (size_var 2147483647) with 5 in *. unfold rec_pad, base_size in *.
  assert (N.of_nat (crcw c) <= 4) by (cbn [In] in Hcrc; lia). lia.
Qed.

Lemma firstn_le_app {A} (a b : list A) n : (length a <= n)%nat -> firstn n (a ++ b) = a ++ firstn (n - length a) b.
Proof. intros H. rewrite firstn_app, firstn_all2 by exact H. reflexivity. Qed.

Lemma firstn_len_app {A} (a b : list A) : firstn (length a) (a ++ b) = a.
Proof. rewrite firstn_app, Nat.sub_diag, firstn_O, app_nil_r. apply firstn_all. Qed.

Lemma skipn_len_app {A} (a b : list A) : skipn (length a) (a ++ b) = b.
Proof. rewrite skipn_app, Nat.sub_diag, skipn_all. reflexivity. Qed.

Lemma skipn_firstn_comm' {A} (l : list A) m n : skipn m (firstn n l) = firstn (n - m) (skipn m l).
Proof. apply skipn_firstn_comm. Qed.

Lemma pad_check_ok n tl k : n <= MAX_VALUE_SIZE -> pad_check n (firstn k (pad_bytes n ++ tl)) = true.
Proof.
  intros Hn. unfold pad_bytes. destruct (N.ltb_spec 0 n) as [H|H].
  - destruct k as [|k]; [reflexivity|]. cbn [app firstn pad_check].
    destruct (N.ltb_spec 0 n); [|lia]. change (221 =? 221) with true. cbn [andb].
    destruct k as [|k]; [reflexivity|].
    destruct (N.ltb_spec 1 n) as [H1|H1].
    + assert (S : size_var n < n).
      { unfold size_var. repeat match goal with |- context [n <? ?x] =>
          let y := eval vm_compute in x in change x with y; destruct (N.ltb_spec n y) end; lia. }
      destruct (N.to_nat (n - size_var n)) as [|m] eqn:E; [lia|]. cbn [repeat app firstn]. reflexivity.
    + destruct (firstn _ _); reflexivity.
  - replace n with 0 by lia. unfold pad_check. change (0 <? 0) with false. destruct (firstn _ _); reflexivity.
Qed.

Lemma rec_at_body c f off r : rec_at c f off r -> base_size c (r_key r) (r_val r) <= r_whole r ->
  read_body f off (blen (rec_head c r)) (blen (r_key r)) (blen (r_val r)) = Some (r_key r, r_val r).
Proof.
  intros [Hd Hs] Hb. unfold read_body.
  assert (L := rec_bytes_blen c r Hb). unfold rec_bytes in L. rewrite !blen_app in L.
  rewrite file_read_ok by lia.
  assert (E : dread (fdata f) (off + blen (rec_head c r)) (N.to_nat (blen (r_key r) + blen (r_val r))) = r_key r ++ r_val r).
  { unfold rec_bytes in Hd.
    replace (N.to_nat (r_whole r)) with (length (rec_head c r) + (length (r_key r ++ r_val r) + length (pad_bytes (rec_pad c r))))%nat in Hd
      by (rewrite app_length; unfold blen in L; lia).
    rewrite !dread_app in Hd.
    apply (f_equal (skipn (length (rec_head c r)))) in Hd.
    rewrite skipn_app, dread_length, Nat.sub_diag, skipn_O, skipn_all2 in Hd by (rewrite dread_length; lia).
    rewrite skipn_app, Nat.sub_diag, skipn_O, skipn_all in Hd. cbn [app] in Hd.
    rewrite app_assoc in Hd.
    apply (f_equal (firstn (length (r_key r ++ r_val r)))) in Hd.
    rewrite firstn_app, dread_length, Nat.sub_diag, firstn_O, app_nil_r, firstn_all2 in Hd by (rewrite dread_length; lia).
    rewrite firstn_app, Nat.sub_diag, firstn_O, app_nil_r, firstn_all in Hd.
    rewrite app_length in Hd at 1.
    replace (N.to_nat (blen (r_key r) + blen (r_val r))) with (length (r_key r) + length (r_val r))%nat by (unfold blen; lia).
    exact Hd. }
  rewrite E, to_nat_blen.
  rewrite firstn_app, Nat.sub_diag, firstn_O, app_nil_r, firstn_all.
  rewrite skipn_app, Nat.sub_diag, skipn_O, skipn_all. reflexivity.
Qed.

(** Reading back a stored record with any minimum read size of at least 48. *)
Lemma read_meta_ok c f off r mrs :
  hcfg_ok c -> rec_ok c r -> rec_at c f off r -> META_MIN_READ_SIZE <= mrs ->
  exists m, read_meta c f off mrs = Some m /\ m_type m = r_type r /\ m_child m = r_child r /\
    m_key m = r_key r /\ m_whole m = r_whole r /\ m_ksz m = blen (r_key r) /\ m_vsz m = blen (r_val r) /\
    meta_value f off m = Some (r_val r) /\ check_crc c f off m = true.
Proof.
  intros Hc Hr Hat Hmrs. assert (Hr' := Hr). destruct Hr' as (Hk & Hv & Hks & Hb & Hw & Hm & Hch).
  assert (Hat' := Hat). destruct Hat' as [Hd Hs].
  assert (Hshort := rec_head_short c r Hc Hr).
  assert (L := rec_bytes_blen c r Hb).
  assert (Lh := rec_head_blen c r).
  assert (Body := rec_at_body c f off r Hat Hb).
  unfold read_meta.
  assert (Bmin : min_record_size c <= base_size c (r_key r) (r_val r)).
  { unfold min_record_size, base_size.
    assert (S1 := size_var_pos (blen (r_key r))). assert (S2 := size_var_pos (blen (r_val r))). lia. }
  destruct (N.ltb_spec (fsize f) (off + min_record_size c)); [lia|].
  set (maxr := fsize f - off) in *.
  assert (Hmaxr : r_whole r <= maxr) by (unfold maxr; lia).
  set (rs := N.min maxr mrs).
  rewrite file_read_ok by (unfold rs, maxr; lia).
  assert (Hh : blen (rec_head c r) <= rs).
  { unfold rs. assert (blen (rec_head c r) <= r_whole r) by (rewrite <- L; unfold rec_bytes; rewrite !blen_app; lia). lia. }
  (* the bytes read *)
  assert (Ebuf : exists tl n, dread (fdata f) off (N.to_nat rs)
      = rec_head c r ++ firstn n (r_key r ++ r_val r ++ pad_bytes (rec_pad c r) ++ tl)).
  { exists (dread (fdata f) (off + r_whole r) (N.to_nat (maxr - r_whole r))), (N.to_nat rs - length (rec_head c r))%nat.
    replace (dread (fdata f) off (N.to_nat rs)) with (firstn (N.to_nat rs) (dread (fdata f) off (N.to_nat maxr))).
    - replace (N.to_nat maxr) with (N.to_nat (r_whole r) + N.to_nat (maxr - r_whole r))%nat by lia.
      rewrite dread_app, Hd. rewrite N2Nat.id. unfold rec_bytes. rewrite <- !app_assoc.
      apply firstn_le_app. unfold blen in Hh. lia.
    - replace (N.to_nat maxr) with (N.to_nat rs + N.to_nat (maxr - rs))%nat by (unfold rs; lia).
      rewrite dread_app. rewrite firstn_app, dread_length, Nat.sub_diag, firstn_O, app_nil_r.
      apply firstn_all2. rewrite dread_length. lia. }
  destruct Ebuf as (tl & n & Ebuf). rewrite Ebuf.
  rewrite parse_head_ok by assumption.
  set (rest := firstn n _).
  assert (Ehdr : blen (rec_head c r ++ rest) - blen rest = blen (rec_head c r)) by (rewrite blen_app; lia).
  rewrite Ehdr.
  assert (Ewhole : blen (rec_head c r) + blen (r_key r) + blen (r_val r) + rec_pad c r - (size_var (rec_pad c r) - 1) = r_whole r).
  { rewrite Lh. assert (P := size_var_pos (rec_pad c r)). unfold rec_pad, base_size in *. lia. }
  rewrite Ewhole.
  assert (Crc : forall v hdr, meta_value f off (mkhmeta (magic_checksum (r_key r) (r_val r)) (r_type r) (r_child r)
      (blen (r_key r)) (blen (r_val r)) (rec_pad c r) (record_crc (crcw c) (r_key r) (r_val r)) hdr (r_whole r) (r_key r) v) = Some (r_val r) ->
     check_crc c f off (mkhmeta (magic_checksum (r_key r) (r_val r)) (r_type r) (r_child r)
      (blen (r_key r)) (blen (r_val r)) (rec_pad c r) (record_crc (crcw c) (r_key r) (r_val r)) hdr (r_whole r) (r_key r) v) = true).
  { intros v hdr E. unfold check_crc. rewrite E. cbn [m_cks m_key m_crc].
    rewrite !N.eqb_refl. cbn [andb]. destruct (0 <? crcw c)%nat; reflexivity. }
  destruct (N.leb_spec (blen (r_key r)) (blen rest)) as [Lk|Lk].
  - assert (Hn : (length (r_key r) <= n)%nat).
    { unfold rest, blen in Lk. rewrite firstn_length in Lk. lia. }
    rewrite !to_nat_blen.
    assert (Erest : rest = r_key r ++ firstn (n - length (r_key r)) (r_val r ++ pad_bytes (rec_pad c r) ++ tl)).
    { unfold rest. apply firstn_le_app. exact Hn. }
    rewrite Erest. rewrite firstn_len_app, !skipn_len_app.
    set (n2 := (n - length (r_key r))%nat).
    assert (Epc : pad_check (rec_pad c r) (skipn (length (r_val r)) (firstn n2 (r_val r ++ pad_bytes (rec_pad c r) ++ tl))) = true).
    { rewrite skipn_firstn_comm', skipn_len_app.
      apply pad_check_ok. unfold rec_pad, base_size in *. lia. }
    rewrite Epc. eexists. split; [reflexivity|].
    cbn [m_type m_child m_key m_whole m_ksz m_vsz]. do 6 (split; [reflexivity|]).
    match goal with |- ?A /\ _ => assert (Ev : A) end; [|split; [exact Ev|apply Crc; exact Ev]].
    unfold meta_value. cbn [m_val m_hdr m_ksz m_vsz].
    destruct (N.leb_spec (blen (r_val r)) (blen (firstn n2 (r_val r ++ pad_bytes (rec_pad c r) ++ tl)))) as [Lv|Lv].
    + f_equal. assert (Hn2 : (length (r_val r) <= n2)%nat) by (unfold blen in Lv; rewrite firstn_length in Lv; lia).
      rewrite firstn_le_app by exact Hn2. apply firstn_len_app.
    + rewrite Body. reflexivity.
  - destruct (N.ltb_spec (fsize f) (off + r_whole r)); [lia|].
    rewrite Body. eexists. split; [reflexivity|].
    cbn [m_type m_child m_key m_whole m_ksz m_vsz]. do 6 (split; [reflexivity|]).
    split; [reflexivity|]. apply Crc. reflexivity.
Qed.

(** Replacing the child offset in place gives the record with the new child. *)
Definition with_child (r : hrec) (child : N) : hrec :=
  mkhrec (r_type r) child (r_key r) (r_val r) (r_whole r).

Lemma write_child_at c f off r child :
  base_size c (r_key r) (r_val r) <= r_whole r ->
  rec_at c f off r -> rec_at c (write_child c f off child) off (with_child r child).
Proof.
  intros Hb [Hd Hs]. unfold rec_at, write_child, file_write, with_child. cbn [fdata fsize r_whole].
  split; [|lia].
  assert (L := rec_bytes_blen c r Hb). assert (L' := rec_bytes_blen c (with_child r child) Hb).
  cbn [with_child r_whole] in L'.
  set (a := [N.lor (magic_checksum (r_key r) (r_val r)) (op_magic (r_type r))]).
  set (rest := write_var (blen (r_key r)) ++ write_var (blen (r_val r)) ++ write_var (rec_pad c r)
      ++ write_fix (crcw c) (record_crc (crcw c) (r_key r) (r_val r)) ++ r_key r ++ r_val r ++ pad_bytes (rec_pad c r)).
  assert (E1 : rec_bytes c r = a ++ write_fix (ow c) (N.shiftr (r_child r) (apow c)) ++ rest).
  { unfold rec_bytes, rec_head, a, rest. rewrite <- !app_assoc. reflexivity. }
  assert (E2 : rec_bytes c (mkhrec (r_type r) child (r_key r) (r_val r) (r_whole r))
     = a ++ write_fix (ow c) (N.shiftr child (apow c)) ++ rest).
  { unfold rec_bytes, rec_head, a, rest. rewrite <- !app_assoc. reflexivity. }
  rewrite E1 in Hd, L. rewrite E2.
  replace (N.to_nat (r_whole r)) with (length (a ++ write_fix (ow c) (N.shiftr (r_child r) (apow c)) ++ rest)) in Hd
    by (unfold blen in L; lia).
  assert (R := dread_dwrite_inside (fdata f) off a (write_fix (ow c) (N.shiftr (r_child r) (apow c))) rest
    (write_fix (ow c) (N.shiftr child (apow c)))).
  rewrite !write_fix_length in R. specialize (R eq_refl Hd).
  replace (length (a ++ write_fix (ow c) (N.shiftr child (apow c)) ++ rest)) with (N.to_nat (r_whole r)) in R.
  - exact R.
  - unfold blen in L. rewrite !app_length, !write_fix_length in *. lia.
Qed.

(** A record survives writes outside its region. *)
Lemma rec_at_write_disjoint c f off r off' b :
  rec_at c f off r -> off' + blen b <= off \/ off + r_whole r <= off' -> rec_at c (file_write f off' b) off r.
Proof.
  intros [Hd Hs] H. unfold rec_at, file_write. cbn [fdata fsize]. split; [|lia].
  rewrite dread_dwrite_disjoint; [exact Hd|]. lia.
Qed.

(** Writing a record makes it present. *)
Lemma rec_at_write c f off r : base_size c (r_key r) (r_val r) <= r_whole r ->
  rec_at c (file_write f off (rec_bytes c r)) off r.
Proof.
  intros Hb. assert (L := rec_bytes_blen c r Hb). unfold rec_at, file_write. cbn [fdata fsize].
  split; [|lia]. replace (N.to_nat (r_whole r)) with (length (rec_bytes c r)) by (unfold blen in L; lia).
  apply dread_dwrite_same.
Qed.

Lemma read_meta_ext_region c f g off r : rec_at c f off r ->
  (forall i, off <= i -> i < off + r_whole r -> fdata g i = fdata f i) -> off + r_whole r <= fsize g ->
  rec_at c g off r.
Proof.
  intros [Hd Hs] He Hg. split; [|exact Hg]. rewrite <- Hd. apply dread_ext. intros i H1 H2. apply He; lia.
Qed.

(** A key beyond the limit of the parser is written but can not be read. *)
Lemma long_key_unreadable c f off r mrs :
  (ow c <= 6)%nat -> base_size c (r_key r) (r_val r) <= r_whole r -> MAX_KEY_SIZE < blen (r_key r) ->
  blen (r_key r) < two64 -> META_MIN_READ_SIZE <= mrs ->
  rec_at c f off r -> read_meta c f off mrs = None.
Proof.
  intros How Hb Hk Hk2 Hmrs [Hd Hs]. unfold read_meta.
  destruct (fsize f <? off + min_record_size c); [reflexivity|].
  unfold META_MIN_READ_SIZE, MAX_KEY_SIZE in *.
  assert (Hbig : 8388607 < r_whole r) by (unfold base_size in Hb; lia).
  set (rs := N.min (fsize f - off) mrs).
  rewrite file_read_ok by (unfold rs; lia).
  set (h := [N.lor (magic_checksum (r_key r) (r_val r)) (op_magic (r_type r))]
     ++ write_fix (ow c) (N.shiftr (r_child r) (apow c)) ++ write_var (blen (r_key r))).
  assert (Lh : (length h <= 17)%nat).
  { assert (S := size_var_pos (blen (r_key r))). assert (W := write_var_length (blen (r_key r))).
    unfold h. rewrite !app_length, write_fix_length. cbn [length]. unfold blen at 1 in W. lia. }
  assert (Ebuf : exists tl, dread (fdata f) off (N.to_nat rs) = h ++ tl).
  { assert (E : exists rest, rec_bytes c r = h ++ rest).
    { eexists. unfold rec_bytes, rec_head, h. rewrite <- !app_assoc. reflexivity. }
    destruct E as [rest E]. rewrite E in Hd.
    replace (N.to_nat (r_whole r)) with (length h + (N.to_nat (r_whole r) - length h))%nat in Hd by lia.
    rewrite dread_app in Hd. apply (f_equal (firstn (length h))) in Hd. rewrite firstn_len_app in Hd.
    rewrite <- (dread_length (fdata f) off (length h)) in Hd at 1. rewrite firstn_len_app in Hd.
    replace (N.to_nat rs) with (length h + (N.to_nat rs - length h))%nat by (unfold rs; lia).
    rewrite dread_app, Hd. eexists. reflexivity. }
  destruct Ebuf as [tl ->].
  enough (Hp : parse_head c (fsize f - off) (h ++ tl) = None) by (rewrite Hp; reflexivity).
  unfold h. rewrite <- !app_assoc. cbn [app]. unfold parse_head.
  destruct (N.land _ 63 <? 3); [reflexivity|].
  rewrite (take_exact_app_n (ow c)) by (symmetry; apply write_fix_length).
  rewrite get_write_var by assumption. unfold MAX_KEY_SIZE.
  destruct (N.ltb_spec 8388607 (blen (r_key r))); [reflexivity|lia].
Qed.
