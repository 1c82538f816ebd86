(** Lemmas about the header of the hash database. *)
From Verif Require Import Bytes MapSpec CodecModel CodecProofs FileModel HashUtilModel HashRecModel HashRecProofs FbpModel FbpProofs
  HashDbModel HashDbLayout HashDbAppend HashDbInPlace HashDbProofs HashMetaModel.
Open Scope N_scope.

(** * The bytes of a header *)
Lemma len1 {A} (l : list A) : length l = 1%nat -> exists a, l = [a].
Proof. destruct l as [|a [|? ?]]; try discriminate. eauto. Qed.
Lemma len4 {A} (l : list A) : length l = 4%nat -> exists a b c d, l = [a; b; c; d].
Proof. do 5 (destruct l as [|? l]; try discriminate). eauto. Qed.
Lemma len8 {A} (l : list A) : length l = 8%nat -> exists a b c d e f g h, l = [a; b; c; d; e; f; g; h].
Proof. do 9 (destruct l as [|? l]; try discriminate). eauto 9. Qed.

Definition pad_opaque (o : bytes) : bytes := firstn OPAQUE_SIZE o ++ repeat 0 (OPAQUE_SIZE - length (firstn OPAQUE_SIZE o)).
Lemma pad_opaque_length o : length (pad_opaque o) = 64%nat.
Proof. unfold pad_opaque. rewrite app_length, repeat_length, firstn_length. unfold OPAQUE_SIZE. lia. Qed.

Definition hdr_block (cyc ma mi fl w ap cl nb nu ef fs ti ty op : bytes) : bytes :=
  META_MAGIC ++ cyc ++ ma ++ mi ++ fl ++ w ++ ap ++ cl ++ nb ++ nu ++ ef ++ fs ++ ti ++ ty ++ [0; 0] ++ op ++ [0] ++ cyc.

Definition closure_out (h : hhdr) (finish : bool) : N :=
  if negb (N.land (hd_closure h) 1 =? 0) && finish then 1 else 0.

Lemma hdr_bytes_block h finish : hdr_bytes h finish =
  hdr_block (write_fix 1 (u64 (hd_cyc h))) (write_fix 1 (hd_major h)) (write_fix 1 (hd_minor h))
    (write_fix 1 (hd_flags h)) (write_fix 1 (hd_ow h)) (write_fix 1 (hd_apow h)) (write_fix 1 (closure_out h finish))
    (write_fix 8 (u64 (hd_nb h))) (write_fix 8 (u64 (Z.max 0 (hd_num h))))
    (write_fix 8 (u64 (Z.max 0 (hd_eff h)))) (write_fix 8 (u64 (hd_fsize h)))
    (write_fix 8 (u64 (hd_time h))) (write_fix 4 (hd_type h)) (pad_opaque (hd_opaque h)).
Proof. reflexivity. Qed.

Lemma hdr_block_parse cyc ma mi fl w ap cl nb nu ef fs ti ty op :
  length cyc = 1%nat -> length ma = 1%nat -> length mi = 1%nat -> length fl = 1%nat -> length w = 1%nat ->
  length ap = 1%nat -> length cl = 1%nat -> length nb = 8%nat -> length nu = 8%nat -> length ef = 8%nat ->
  length fs = 8%nat -> length ti = 8%nat -> length ty = 4%nat -> length op = 64%nat ->
  length (hdr_block cyc ma mi fl w ap cl nb nu ef fs ti ty op) = 128%nat /\
  nth 9 (hdr_block cyc ma mi fl w ap cl nb nu ef fs ti ty op) 0 = read_fix_bytes cyc /\
  nth 127 (hdr_block cyc ma mi fl w ap cl nb nu ef fs ti ty op) 0 = read_fix_bytes cyc /\
  firstn 9 (hdr_block cyc ma mi fl w ap cl nb nu ef fs ti ty op) = META_MAGIC /\
  parse_hdr (hdr_block cyc ma mi fl w ap cl nb nu ef fs ti ty op) =
  Some (mkhdr (Z.of_N (read_fix_bytes cyc)) (read_fix_bytes ma) (read_fix_bytes mi) (read_fix_bytes fl) (read_fix_bytes w)
    (read_fix_bytes ap) (read_fix_bytes cl) (i64 (read_fix_bytes nb)) (i64 (read_fix_bytes nu)) (i64 (read_fix_bytes ef))
    (i64 (read_fix_bytes fs)) (i64 (read_fix_bytes ti)) (read_fix_bytes ty) op).
Proof.
  intros H1 H2 H3 H4 H5 H6 H7 H8 H9 H10 H11 H12 H13 H14.
  apply len1 in H1. destruct H1 as (c & ->). apply len1 in H2. destruct H2 as (? & ->).
  apply len1 in H3. destruct H3 as (? & ->). apply len1 in H4. destruct H4 as (? & ->).
  apply len1 in H5. destruct H5 as (? & ->). apply len1 in H6. destruct H6 as (? & ->).
  apply len1 in H7. destruct H7 as (? & ->).
  apply len8 in H8. destruct H8 as (? & ? & ? & ? & ? & ? & ? & ? & ->).
  apply len8 in H9. destruct H9 as (? & ? & ? & ? & ? & ? & ? & ? & ->).
  apply len8 in H10. destruct H10 as (? & ? & ? & ? & ? & ? & ? & ? & ->).
  apply len8 in H11. destruct H11 as (? & ? & ? & ? & ? & ? & ? & ? & ->).
  apply len8 in H12. destruct H12 as (? & ? & ? & ? & ? & ? & ? & ? & ->).
  apply len4 in H13. destruct H13 as (? & ? & ? & ? & ->).
  assert (E65 : forall a : bytes, length a = 62%nat -> skipn 127 (a ++ op ++ [0; c]) = [c]).
  { intros a Ha. rewrite app_assoc, skipn_app, app_length, Ha, H14.
    rewrite skipn_all2 by (rewrite app_length; lia). reflexivity. }
  assert (E64 : forall a : bytes, length a = 62%nat -> firstn 64 (skipn 62 (a ++ op ++ [0; c])) = op).
  { intros a Ha. rewrite skipn_app, Ha, (skipn_all2 a) by lia. cbn [Nat.sub skipn app].
    rewrite firstn_app, H14. rewrite firstn_all2 by lia. apply app_nil_r. }
  assert (EN : nth 65 (op ++ [0; c]) 0 = c).
  { rewrite app_nth2 by lia. rewrite H14. reflexivity. }
  assert (EL : length (op ++ [0; c]) = 66%nat) by (rewrite app_length, H14; reflexivity).
  assert (C : read_fix_bytes [c] = c) by (unfold read_fix_bytes; cbn [fold_left]; lia).
  unfold hdr_block, META_MAGIC. cbn [app].
  split; [cbn [length]; rewrite EL; reflexivity|].
  split; [cbn [nth]; rewrite C; reflexivity|].
  split; [change 127%nat with (62 + 65)%nat; cbn [nth Nat.add]; rewrite C; exact EN|].
  split; [reflexivity|].
  unfold parse_hdr, fld, META_MAGIC, OPAQUE_SIZE.
  match goal with |- context [skipn 127 ?l] =>
    match l with context C [op ++ [0; c]] => let a := context C [@nil N] in
      assert (S1 := E65 a eq_refl); assert (S2 := E64 a eq_refl) end end.
  cbn [app] in S1, S2. rewrite S1, S2. clear S1 S2 E65 E64 EN EL.
  generalize (op ++ [0; c]). intros X. cbn [firstn beqb skipn].
  rewrite !N.eqb_refl. cbn [andb]. reflexivity.
Qed.

Lemma u64_lt z : u64 z < 18446744073709551616.
Proof. unfold u64. lia. Qed.
Lemma i64_u64 z : (-9223372036854775808 <= z < 9223372036854775808)%Z -> i64 (u64 z) = z.
Proof. intros H. unfold i64, u64. destruct (N.ltb_spec (Z.to_N (z mod 18446744073709551616)) 9223372036854775808); lia. Qed.

(** The header which comes back after saving and loading. *)
Definition hdr_read (h : hhdr) (finish : bool) : hhdr :=
  mkhdr (hd_cyc h) (hd_major h) (hd_minor h) (hd_flags h) (hd_ow h) (hd_apow h) (closure_out h finish)
    (hd_nb h) (Z.max 0 (hd_num h)) (Z.max 0 (hd_eff h)) (hd_fsize h) (hd_time h) (hd_type h) (pad_opaque (hd_opaque h)).

(** The ranges of the fields. *)
Definition int64 (z : Z) : Prop := (-9223372036854775808 <= z < 9223372036854775808)%Z.
Definition hdr_range (h : hhdr) : Prop :=
  (0 <= hd_cyc h < 256)%Z /\ hd_major h < 256 /\ hd_minor h < 256 /\ hd_flags h < 256 /\ hd_ow h < 256 /\ hd_apow h < 256 /\
  int64 (hd_nb h) /\ int64 (hd_num h) /\ int64 (hd_eff h) /\ int64 (hd_fsize h) /\ int64 (hd_time h) /\
  hd_type h < 2 ^ 32.

Lemma rwf1 n : n < 256 -> read_fix_bytes (write_fix 1 n) = n.
Proof. intros H. rewrite read_write_fix_bytes. apply N.mod_small. exact H. Qed.
Lemma rwf4 n : n < 2 ^ 32 -> read_fix_bytes (write_fix 4 n) = n.
Proof. intros H. rewrite read_write_fix_bytes. apply N.mod_small. exact H. Qed.
Lemma rwf8 z : int64 z -> i64 (read_fix_bytes (write_fix 8 (u64 z))) = z.
Proof.
  intros H. rewrite read_write_fix_bytes.
  rewrite N.mod_small; [apply i64_u64; exact H|]. exact (u64_lt z).
Qed.
Lemma int64_max z : int64 z -> int64 (Z.max 0 z).
Proof. unfold int64. lia. Qed.

Lemma hdr_save_load h finish : hdr_range h ->
  length (hdr_bytes h finish) = 128%nat /\ parse_hdr (hdr_bytes h finish) = Some (hdr_read h finish).
Proof.
  intros (H1 & H2 & H3 & H4 & H5 & H6 & H7 & H8 & H9 & H10 & H11 & H12). rewrite hdr_bytes_block.
  match goal with |- context [hdr_block ?a ?b ?c ?d ?e ?f ?g ?h ?i ?j ?k ?l ?m ?n] =>
    destruct (hdr_block_parse a b c d e f g h i j k l m n) as (L & _ & _ & _ & P); rewrite ?write_fix_length; try reflexivity end.
  { apply pad_opaque_length. }
  split; [exact L|]. rewrite P. unfold hdr_read.
  rewrite !rwf8, rwf4, !rwf1 by (auto using int64_max; try lia; unfold closure_out, u64; try (destruct (negb _ && finish); lia); lia).
  replace (Z.of_N (u64 (hd_cyc h))) with (hd_cyc h) by (unfold u64; lia). reflexivity.
Qed.

Lemma hdr_bytes_length h finish : length (hdr_bytes h finish) = 128%nat.
Proof.
  rewrite hdr_bytes_block.
  match goal with |- context [hdr_block ?a ?b ?c ?d ?e ?f ?g ?h ?i ?j ?k ?l ?m ?n] =>
    destruct (hdr_block_parse a b c d e f g h i j k l m n) as (L & _); rewrite ?write_fix_length; try reflexivity end.
  { apply pad_opaque_length. }
  exact L.
Qed.
Lemma hdr_bytes_blen h finish : blen (hdr_bytes h finish) = 128.
Proof. unfold blen. rewrite hdr_bytes_length. reflexivity. Qed.

Lemma hdr_bytes_cyc h finish : (0 <= hd_cyc h < 256)%Z ->
  nth 9 (hdr_bytes h finish) 0 = Z.to_N (hd_cyc h) /\ nth 127 (hdr_bytes h finish) 0 = Z.to_N (hd_cyc h) /\
  firstn 9 (hdr_bytes h finish) = META_MAGIC.
Proof.
  intros H. rewrite hdr_bytes_block.
  match goal with |- context [hdr_block ?a ?b ?c ?d ?e ?f ?g ?h ?i ?j ?k ?l ?m ?n] =>
    destruct (hdr_block_parse a b c d e f g h i j k l m n) as (_ & N9 & N127 & F & _); rewrite ?write_fix_length; try reflexivity end.
  { apply pad_opaque_length. }
  rewrite N9, N127. rewrite rwf1 by (unfold u64; lia). split; [unfold u64; lia|]. split; [unfold u64; lia|exact F].
Qed.

(** * Torn headers *)
Definition torn (k : nat) (new old : bytes) : bytes := firstn k new ++ skipn k old.

Lemma torn_nth_lo k new old i d : length new = 128%nat -> (i < k)%nat -> (k <= 128)%nat -> nth i (torn k new old) d = nth i new d.
Proof.
  intros Hn Hi Hk. unfold torn. rewrite app_nth1 by (rewrite firstn_length; lia).
  rewrite <- (firstn_skipn k new) at 2. rewrite app_nth1 by (rewrite firstn_length; lia). reflexivity.
Qed.
Lemma torn_nth_hi k new old i d : length new = 128%nat -> length old = 128%nat -> (k <= i)%nat -> (k <= 128)%nat ->
  nth i (torn k new old) d = nth i old d.
Proof.
  intros Hn Ho Hi Hk. unfold torn. rewrite app_nth2 by (rewrite firstn_length; lia).
  rewrite firstn_length. rewrite <- (firstn_skipn k old) at 2.
  rewrite (app_nth2 (firstn k old)) by (rewrite firstn_length; lia). rewrite firstn_length. f_equal. lia.
Qed.
Lemma torn_length k new old : length new = 128%nat -> length old = 128%nat -> length (torn k new old) = 128%nat.
Proof. intros Hn Ho. unfold torn. rewrite app_length, firstn_length, skipn_length. lia. Qed.

Lemma fld_nth b i : (i < length b)%nat -> fld b i 1 = nth i b 0.
Proof.
  intros H. unfold fld. revert b H; induction i as [|i IH]; intros [|x b] H; try (cbn [length] in H; lia).
  - cbn [skipn firstn nth]. unfold read_fix_bytes; cbn [fold_left]. lia.
  - cbn [skipn nth]. apply IH. cbn [length] in H. lia.
Qed.

Lemma parse_hdr_cyc b : length b = 128%nat -> nth 9 b 0 <> nth 127 b 0 ->
  forall h, parse_hdr b = Some h -> hd_cyc h = (-1)%Z.
Proof.
  intros L H h E. unfold parse_hdr in E. destruct (beqb _ _); [|discriminate]. injection E as <-. cbn [hd_cyc].
  rewrite !fld_nth by lia. destruct (N.eqb_spec (nth 9 b 0) (nth 127 b 0)); congruence.
Qed.

Lemma torn_parse k hn ho fn fo : (10 <= k <= 127)%nat -> (0 <= hd_cyc hn < 256)%Z -> (0 <= hd_cyc ho < 256)%Z ->
  hd_cyc hn <> hd_cyc ho ->
  exists h, parse_hdr (torn k (hdr_bytes hn fn) (hdr_bytes ho fo)) = Some h /\ hd_cyc h = (-1)%Z.
Proof.
  intros Hk Hn Ho Hne.
  destruct (hdr_bytes_cyc hn fn Hn) as (N1 & N2 & N3). destruct (hdr_bytes_cyc ho fo Ho) as (O1 & O2 & O3).
  assert (Ln := hdr_bytes_length hn fn). assert (Lo := hdr_bytes_length ho fo).
  assert (Lt := torn_length k _ _ Ln Lo).
  destruct (parse_hdr (torn k (hdr_bytes hn fn) (hdr_bytes ho fo))) as [h|] eqn:E.
  - exists h. split; [reflexivity|]. apply (parse_hdr_cyc _ Lt); [|exact E].
    rewrite torn_nth_lo, torn_nth_hi by (auto; lia). rewrite N1, O2. lia.
  - exfalso. unfold parse_hdr in E.
    assert (EM : firstn 9 (torn k (hdr_bytes hn fn) (hdr_bytes ho fo)) = META_MAGIC).
    { unfold torn. rewrite firstn_app, firstn_firstn, firstn_length.
      replace (Nat.min 9 k) with 9%nat by lia. replace (9 - _)%nat with 0%nat by lia.
      rewrite firstn_O, app_nil_r. exact N3. }
    rewrite EM, beqb_refl in E. discriminate.
Qed.

Lemma torn_small k hn ho fn fo : (k <= 9)%nat -> (0 <= hd_cyc hn < 256)%Z -> (0 <= hd_cyc ho < 256)%Z ->
  torn k (hdr_bytes hn fn) (hdr_bytes ho fo) = hdr_bytes ho fo.
Proof.
  intros Hk Hn Ho.
  destruct (hdr_bytes_cyc hn fn Hn) as (_ & _ & N3). destruct (hdr_bytes_cyc ho fo Ho) as (_ & _ & O3).
  unfold torn. rewrite <- (firstn_skipn k (hdr_bytes ho fo)) at 2. f_equal.
  replace k with (Nat.min k 9) by lia. rewrite <- !firstn_firstn, N3, O3. reflexivity.
Qed.
Lemma torn_large k new old : length new = 128%nat -> length old = 128%nat -> (128 <= k)%nat -> torn k new old = new.
Proof. intros Hn Ho Hk. unfold torn. rewrite firstn_all2, skipn_all2 by lia. apply app_nil_r. Qed.

Lemma next_cyc_ne c : (0 <= c < 256)%Z -> next_cyc c <> c /\ (1 <= next_cyc c < 256)%Z.
Proof.
  intros H. unfold next_cyc. assert (E := Z.rem_mod_nonneg c 255). rewrite E by lia. lia.
Qed.

(** * The header and the free block section are apart from buckets and records *)
Definition data_area (d : hdb) (i : N) : Prop :=
  (METADATA_SIZE <= i /\ i < METADATA_SIZE + d_nb d * N.of_nat (ow (d_c d))) \/ record_base d <= i.
Definition same_data (d : hdb) (f f' : file) : Prop :=
  fsize f' = fsize f /\ forall i, data_area d i -> i < fsize f -> fdata f' i = fdata f i.

Lemma same_data_refl d f : same_data d f f.
Proof. split; auto. Qed.
Lemma same_data_trans d f g h : same_data d f g -> same_data d g h -> same_data d f h.
Proof. intros [A1 A2] [B1 B2]. split; [congruence|]. intros i Hi Hs. rewrite B2 by (auto; lia). auto. Qed.

Lemma same_data_recs d f f' L : same_data d f f' -> recs d f L -> recs d f' L.
Proof.
  intros [E Hd] (H1 & H2 & H3). unfold recs. rewrite E. split; [exact H1|]. split; [exact H2|].
  intros o r Hg. destruct (H3 o r Hg) as ((Ha & Hb) & Hok & Hm). split; [|auto]. split; [|lia].
  rewrite <- Ha. apply dread_ext. intros i Hi1 Hi2. destruct (contig_range _ _ _ _ _ H1 Hg) as (C1 & C2 & _).
  apply Hd; [right; lia|lia].
Qed.
Lemma bucket_range d b : b < d_nb d ->
  METADATA_SIZE + b * N.of_nat (ow (d_c d)) + N.of_nat (ow (d_c d)) <= METADATA_SIZE + d_nb d * N.of_nat (ow (d_c d)).
Proof. intros H. nia. Qed.

Lemma same_data_buckets d f f' V : record_base d <= fsize f -> same_data d f f' -> buckets d f V -> buckets d f' V.
Proof.
  intros Hs [E Hd] H b Hb. rewrite <- (H b Hb). unfold get_bucket, file_read. rewrite E.
  assert (R := bucket_range d b Hb). assert (G := record_base_ge d).
  destruct (N.leb_spec (METADATA_SIZE + b * N.of_nat (ow (d_c d)) + N.of_nat (ow (d_c d))) (fsize f)) as [Hle|Hgt]; [|reflexivity].
  do 2 f_equal. f_equal. apply dread_ext. intros i Hi1 Hi2. rewrite N2Nat.id in Hi2. apply Hd; [left; nia|lia].
Qed.

Lemma h_inv_frame d s m f' p' log' :
  h_inv d s m -> same_data d (s_file s) f' ->
  (d_inplace d = true -> fbp_ok p' /\ 1 <= fp_cap p' /\ forall b, In b (fp_data p') -> In b (fp_data (s_fbp s))) ->
  h_inv d (mkhst f' p' (s_num s) (s_eff s) log') m.
Proof.
  intros Hi Hd Hp. unfold h_inv in *. destruct (d_inplace d).
  - destruct Hi as (L & B & [I1 I2 I3 I4 I5 I6 I7 I8 I9 I10]). exists L, B. destruct (Hp eq_refl) as (P1 & P2 & P3).
    assert (Hs := recs_size _ _ _ I1).
    constructor; cbn [s_file s_fbp s_num s_eff]; auto.
    + exact (same_data_recs _ _ _ _ Hd I1).
    + exact (same_data_buckets _ _ _ _ Hs Hd I2).
    + intros fb Hfb. apply I9, P3, Hfb.
  - destruct Hi as (L & B & [I1 I2 I3 I4 I5 I6]). exists L, B. assert (Hs := recs_size _ _ _ I1).
    constructor; cbn [s_file s_fbp s_num s_eff]; auto.
    + exact (same_data_recs _ _ _ _ Hd I1).
    + exact (same_data_buckets _ _ _ _ Hs Hd I2).
Qed.

Lemma same_data_write d f off b : off + blen b <= fsize f ->
  (off + blen b <= METADATA_SIZE \/
   (METADATA_SIZE + d_nb d * N.of_nat (ow (d_c d)) <= off /\ off + blen b <= record_base d)) ->
  same_data d f (file_write f off b).
Proof.
  intros Hs Ho. split; [unfold file_write; cbn [fsize]; lia|]. intros i Hi Hlt. unfold file_write; cbn [fdata]. unfold dwrite.
  assert (G := record_base_ge d). unfold data_area in Hi.
  destruct (N.leb_spec off i); cbn [andb]; [|reflexivity].
  destruct (N.ltb_spec i (off + blen b)); [|reflexivity]. lia.
Qed.

Lemma h_inv_rb d s m : h_inv d s m -> record_base d <= fsize (s_file s).
Proof.
  unfold h_inv. destruct (d_inplace d); intros (L & B & I); [exact (recs_size _ _ _ (ip_recs _ _ _ _ _ I))|exact (recs_size _ _ _ (ap_recs _ _ _ _ _ I))].
Qed.

Lemma save_meta_same d x s size time fin : record_base d <= fsize (s_file s) ->
  same_data d (s_file s) (save_meta d x s size time fin).
Proof.
  intros H. assert (G := record_base_ge d). unfold save_meta. apply same_data_write; rewrite hdr_bytes_blen; unfold METADATA_SIZE in *; lia.
Qed.

Lemma fbp_serialize_blen p w ap size : blen (fbp_serialize p w ap size) = size \/ size < N.of_nat w + 4 /\ blen (fbp_serialize p w ap size) = size.
Proof.
  left. unfold fbp_serialize. rewrite blen_app. unfold blen at 2. rewrite repeat_length.
  set (c := flat_map _ _). assert (blen c <= size).
  { subst c. unfold blen. rewrite flat_fb_length, firstn_length.
    assert (D := N.mul_div_le size (N.of_nat w + 4)). nia. }
  lia.
Qed.

Lemma save_fbp_same d f p : record_base d <= fsize f -> same_data d f (save_fbp d f p).
Proof.
  intros H. assert (G := record_base_ge d). unfold save_fbp.
  destruct (fbp_serialize_blen p (ow (d_c d)) (apow (d_c d)) FBP_SECTION_SIZE) as [E|[_ E]];
  (apply same_data_write; rewrite E; unfold fbp_pos, METADATA_SIZE, FBP_SECTION_SIZE, RECORD_BASE_HEADER_SIZE in *; lia).
Qed.

(** * Reading back the header and the free blocks of a closed file *)
Lemma read_hdr_write f b : blen b = 128 -> read_hdr (file_write f 0 b) = parse_hdr b.
Proof.
  intros H. unfold read_hdr. rewrite file_read_ok by (unfold file_write; cbn [fsize]; unfold METADATA_SIZE; lia).
  unfold file_write; cbn [fdata]. replace (N.to_nat METADATA_SIZE) with (length b) by (unfold blen, METADATA_SIZE in *; lia).
  rewrite dread_dwrite_same. reflexivity.
Qed.
Lemma read_hdr_frame f f' : (forall i, i < METADATA_SIZE -> fdata f' i = fdata f i) ->
  METADATA_SIZE <= fsize f -> METADATA_SIZE <= fsize f' -> read_hdr f' = read_hdr f.
Proof.
  intros H H1 H2. unfold read_hdr. rewrite !file_read_ok by lia. f_equal. apply dread_ext. intros i _ Hi. apply H. lia.
Qed.

Lemma fbp_load_in width apow l : Forall (fb_ok width apow) l ->
  forall n z acc x, In x (fbp_load n width apow (flat_map (fb_bytes width apow) l ++ repeat 0 z) acc) -> In x l \/ In x acc.
Proof.
  induction l as [|b l IH]; intros Hf n z acc x Hx.
  - cbn [flat_map app] in Hx. destruct n as [|n]; [auto|]. cbn [fbp_load] in Hx.
    rewrite repeat_skipn, !repeat_firstn, !read_fix_zero in Hx. auto.
  - destruct n as [|n]; [auto|]. inversion Hf as [|? ? Hb Hf']; subst.
    assert (Eb : flat_map (fb_bytes width apow) (b :: l) ++ repeat 0 z
      = write_fix width (N.shiftr (fb_off b) apow) ++ write_fix 4 (fb_size b)
        ++ (flat_map (fb_bytes width apow) l ++ repeat 0 z))
      by (cbn [flat_map]; unfold fb_bytes at 1; rewrite <- !app_assoc; reflexivity).
    rewrite Eb in Hx. cbn [fbp_load] in Hx.
    rewrite (firstn_len_app' width) in Hx by (rewrite write_fix_length; reflexivity).
    rewrite (skipn_len_app' width) in Hx by (rewrite write_fix_length; reflexivity).
    rewrite (firstn_len_app' 4) in Hx by (rewrite write_fix_length; reflexivity).
    rewrite (skipn_len_app' 4) in Hx by (rewrite write_fix_length; reflexivity).
    rewrite !read_write_fix_bytes in Hx. destruct Hb as (Hb1 & Hb2 & Hb3 & Hb4).
    change (256 ^ N.of_nat 4) with (2 ^ 32) in Hx. rewrite (N.mod_small (fb_size b)) in Hx by assumption.
    destruct (N.ltb_spec (fb_size b) 1); [lia|].
    assert (Ho : N.shiftl (N.shiftr (fb_off b) apow mod 256 ^ N.of_nat width) apow = fb_off b).
    { rewrite N.shiftr_div_pow2, N.shiftl_mul_pow2.
      assert (Hz : 2 ^ apow <> 0) by (apply N.pow_nonzero; discriminate).
      rewrite N.mod_small by (apply N.div_lt_upper_bound; [exact Hz|lia]).
      assert (E := N.div_mod (fb_off b) (2 ^ apow) Hz). rewrite Hb3 in E. lia. }
    rewrite Ho in Hx. replace (mkfb (fb_size b) (fb_off b)) with b in Hx by (destruct b; reflexivity).
    apply IH in Hx; [|assumption]. destruct Hx as [Hx|Hx]; [left; right; exact Hx|].
    apply set_insert_in in Hx. destruct Hx as [->|Hx]; [left; left; reflexivity|auto].
Qed.

Lemma fbp_load_ok n width apow : forall str acc, fbsorted acc ->
  fbsorted (fbp_load n width apow str acc) /\ (length (fbp_load n width apow str acc) <= n + length acc)%nat.
Proof.
  induction n as [|n IH]; intros str acc H; cbn [fbp_load]; [split; [exact H|lia]|].
  destruct (_ <? 1); [split; [exact H|lia]|].
  match goal with |- context [set_insert ?b acc] => destruct (IH (skipn 4 (skipn width str)) (set_insert b acc) (set_insert_sorted b acc H)) as [A B];
    assert (L := set_insert_length b acc) end.
  split; [exact A|lia].
Qed.

Lemma fbp_deserialize_ok q width apow str : fbp_ok (fbp_deserialize q width apow str) /\ fp_cap (fbp_deserialize q width apow str) = fp_cap q.
Proof.
  split; [|reflexivity]. unfold fbp_deserialize, fbp_ok. cbn [fp_data fp_cap].
  match goal with |- context [fbp_load ?n _ _ _ _] => destruct (fbp_load_ok n width apow str [] ltac:(constructor)) as [A B]; set (k := n) in * end.
  split; [exact A|]. cbn [length] in B. lia.
Qed.

Lemma fbp_reload_in p q width apow size x : Forall (fb_ok width apow) (fp_data p) ->
  In x (fp_data (fbp_deserialize q width apow (fbp_serialize p width apow size))) -> In x (fp_data p).
Proof.
  intros Hf Hx. unfold fbp_deserialize, fbp_serialize in Hx. cbn [fp_data] in Hx.
  apply fbp_load_in in Hx.
  - destruct Hx as [Hx|[]]. apply in_rev. rewrite <- (firstn_skipn (N.to_nat (size / (N.of_nat width + 4))) (rev (fp_data p))).
    apply in_or_app; left; exact Hx.
  - apply Forall_forall. intros y Hy. rewrite Forall_forall in Hf. apply Hf, in_rev.
    rewrite <- (firstn_skipn (N.to_nat (size / (N.of_nat width + 4))) (rev (fp_data p))). apply in_or_app; left; exact Hy.
Qed.

(** * Opening a closed file *)
Definition misc_ok (x : hmisc) : Prop :=
  (-1 <= x_cyc x < 256)%Z /\ x_major x < 256 /\ x_minor x < 256 /\ (1 <= x_major x \/ 1 <= x_minor x) /\
  N.land (x_closure x) 1 <> 0 /\ x_type x < 2 ^ 32.

(** [f'] has the contents of [f], possibly followed by zero bytes. *)
Definition padded (f f' : file) : Prop :=
  fsize f <= fsize f' /\ (forall i, i < fsize f -> fdata f' i = fdata f i) /\
  (forall i, fsize f <= i -> i < fsize f' -> fdata f' i = 0).

Definition with_mrs (d : hdb) (mrs : N) : hdb := mkhdb (d_c d) (d_nb d) (d_inplace d) mrs.

Lemma h_inv_mrs d mrs s m : h_inv d s m -> h_inv (with_mrs d mrs) s m.
Proof.
  unfold h_inv. cbn [d_inplace with_mrs]. destruct (d_inplace d); intros (L & B & I); exists L, B; destruct I; constructor; assumption.
Qed.

Lemma next_cyc_range c : (-1 <= c < 256)%Z -> (0 <= next_cyc c < 256)%Z.
Proof.
  intros H. unfold next_cyc. destruct (Z.eq_dec c (-1)) as [->|]; [cbn; lia|].
  assert (E := Z.rem_mod_nonneg c 255). rewrite E by lia. lia.
Qed.

Lemma flags_facts d : hcfg_ok (d_c d) ->
  flags_of d < 256 /\ crc_of (flags_of d) = crcw (d_c d) /\ negb (N.land (flags_of d) 1 =? 0) = d_inplace d /\
  negb ((N.land (flags_of d) 1 =? 0) && (N.land (flags_of d) 2 =? 0)) = true /\ N.land (flags_of d) 112 =? 0 = true.
Proof.
  intros (_ & _ & Hc). unfold flags_of. destruct d as [[w a c] nb ip mrs]. cbn [d_c crcw d_inplace] in *.
  cbn [In] in Hc. destruct Hc as [<-|[<-|[<-|[<-|[]]]]]; destruct ip; vm_compute; repeat split.
Qed.

Lemma db_eta d mrs : mkhdb (mkhcfg (N.to_nat (N.of_nat (ow (d_c d)))) (apow (d_c d)) (crcw (d_c d)))
  (Z.to_N (Z.of_N (d_nb d))) (d_inplace d) mrs = with_mrs d mrs.
Proof. rewrite Nat2N.id, N2Z.id. destruct d as [[w a c] nb ip m]. reflexivity. Qed.

Lemma dsum_nonneg m ks : (0 <= dsum m ks)%Z.
Proof. induction ks as [|k ks IH]; cbn [dsum]; [lia|]. destruct (m k); lia. Qed.
Lemma msize_nonneg m n e : msize m n e -> (0 <= n)%Z /\ (0 <= e)%Z.
Proof. intros (ks & _ & _ & -> & ->). split; [lia|apply dsum_nonneg]. Qed.

Lemma fbp_blocks_ok d s m : hdb_ok d -> d_inplace d = true -> h_inv d s m -> fsize (s_file s) <= capacity d ->
  Forall (fb_ok (ow (d_c d)) (apow (d_c d))) (fp_data (s_fbp s)).
Proof.
  intros Hd Hip Hi Hcap. unfold h_inv in Hi. rewrite Hip in Hi. destruct Hi as (L & B & [I1 I2 I3 I4 I5 I6 I7 I8 I9 I10]).
  apply Forall_forall. intros b Hb. destruct (I9 b Hb) as (r & Hg & Ht & Hw). destruct I1 as (C & _ & H).
  destruct (H _ _ Hg) as (_ & (_ & _ & _ & _ & Hmax & _) & Hm). destruct (contig_range _ _ _ _ _ C Hg) as (C1 & C2 & C3).
  unfold fb_ok. rewrite <- Hw. split; [lia|]. split; [unfold MAX_VALUE_SIZE in Hmax; lia|].
  split; [exact Hm|]. unfold capacity, halign in Hcap. lia.
Qed.

Lemma closure_one h : N.land (hd_closure h) 1 <> 0 -> closure_out h true = 1.
Proof. intros H. unfold closure_out. destruct (N.eqb_spec (N.land (hd_closure h) 1) 0); [congruence|reflexivity]. Qed.

Lemma fix_off_disjoint f off b i : i < off \/ off + blen b <= i -> fdata (file_write f off b) i = fdata f i.
Proof.
  intros H. unfold file_write; cbn [fdata]; unfold dwrite. destruct (N.leb_spec off i); cbn [andb]; [|reflexivity].
  destruct (N.ltb_spec i (off + blen b)); [lia|reflexivity].
Qed.

Lemma close_facts d x s time : record_base d <= fsize (s_file s) ->
  fsize (h_close d x s time) = fsize (s_file s) /\ same_data d (s_file s) (h_close d x s time) /\
  (forall i, i < METADATA_SIZE -> fdata (h_close d x s time) i = fdata (save_meta d x s (Z.of_N (fsize (s_file s))) time true) i) /\
  dread (fdata (h_close d x s time)) (fbp_pos d) (N.to_nat FBP_SECTION_SIZE)
  = fbp_serialize (s_fbp s) (ow (d_c d)) (apow (d_c d)) FBP_SECTION_SIZE.
Proof.
  intros H. assert (S1 := save_meta_same d x s (Z.of_N (fsize (s_file s))) time true H).
  assert (S2 := save_fbp_same d (save_meta d x s (Z.of_N (fsize (s_file s))) time true) (s_fbp s)).
  rewrite (proj1 S1) in S2. specialize (S2 H). unfold h_close.
  assert (S3 := same_data_trans _ _ _ _ S1 S2). split; [exact (proj1 S3)|]. split; [exact S3|].
  assert (G := record_base_ge d). split.
  - intros i Hi. unfold save_fbp. apply fix_off_disjoint. left. unfold fbp_pos, METADATA_SIZE, FBP_SECTION_SIZE, RECORD_BASE_HEADER_SIZE in *. lia.
  - unfold save_fbp, file_write; cbn [fdata].
    destruct (fbp_serialize_blen (s_fbp s) (ow (d_c d)) (apow (d_c d)) FBP_SECTION_SIZE) as [E|[_ E]];
    (replace (N.to_nat FBP_SECTION_SIZE) with (length (fbp_serialize (s_fbp s) (ow (d_c d)) (apow (d_c d)) FBP_SECTION_SIZE)) at 1
       by (unfold blen in E; lia); apply dread_dwrite_same).
Qed.

Definition close_ok (d : hdb) (x : hmisc) (s : hst) (time : Z) : Prop :=
  (Z.of_N (d_nb d) <= MAX_NUM_BUCKETS)%Z /\ misc_ok x /\ fsize (s_file s) <= capacity d /\
  int64 (Z.of_N (fsize (s_file s))) /\ int64 time /\ int64 (s_num s) /\ int64 (s_eff s).

Lemma close_read d x s time : hdb_ok d -> close_ok d x s time -> record_base d <= fsize (s_file s) ->
  parse_hdr (hdr_bytes (hdr_of d x (s_num s) (s_eff s) (Z.of_N (fsize (s_file s))) time) true)
  = Some (hdr_read (hdr_of d x (s_num s) (s_eff s) (Z.of_N (fsize (s_file s))) time) true).
Proof.
  intros Hd (C1 & (M1 & M2 & M3 & M4 & M5 & M6) & C3 & C4 & C5 & C6 & C7) Hrb.
  destruct (flags_facts d (proj1 Hd)) as (F1 & F2 & F3 & F4 & F5).
  assert (Hd' := Hd). destruct Hd' as ((Hw & Hap & _) & Hnb & _).
  apply hdr_save_load. unfold hdr_range, hdr_of. cbn.
  split; [apply next_cyc_range; exact M1|]. unfold int64 in *. unfold MAX_NUM_BUCKETS in C1.
  repeat split; try assumption; try lia.
Qed.

Lemma reopen d x s m time cap mrs f' :
  hdb_ok d -> h_inv d s m -> close_ok d x s time -> 1 <= cap -> padded (h_close d x s time) f' ->
  exists x' s', h_open cap mrs f' = Some (mkopened true (with_mrs d mrs) x' s') /\
    misc_ok x' /\ h_inv (with_mrs d mrs) s' m /\ s_num s' = s_num s /\ s_eff s' = s_eff s /\
    x_major x' = x_major x /\ x_minor x' = x_minor x /\ x_type x' = x_type x /\ x_opaque x' = pad_opaque (x_opaque x) /\
    fsize (s_file s') = fsize (s_file s).
Proof.
  intros Hd Hi Hc Hcap (P1 & P2 & P3). assert (Hrb := h_inv_rb d s m Hi).
  assert (Hparse := close_read d x s time Hd Hc Hrb).
  destruct Hc as (C1 & Hx & C3 & C4 & C5 & C6 & C7).
  destruct (close_facts d x s time Hrb) as (K1 & K2 & K3 & K4).
  set (f := h_close d x s time) in *. assert (G := record_base_ge d).
  assert (Hh : read_hdr f' = Some (hdr_read (hdr_of d x (s_num s) (s_eff s) (Z.of_N (fsize (s_file s))) time) true)).
  { rewrite <- Hparse. rewrite <- (read_hdr_write (s_file s)) by apply hdr_bytes_blen.
    apply read_hdr_frame.
    - intros i Hi'. unfold METADATA_SIZE in *. rewrite P2 by lia. rewrite K3 by exact Hi'. reflexivity.
    - unfold file_write; cbn [fsize]. unfold METADATA_SIZE in *. lia.
    - unfold METADATA_SIZE in *. lia. }
  destruct (flags_facts d (proj1 Hd)) as (F1 & F2 & F3 & F4 & F5).
  assert (Hx' := Hx). destruct Hx' as (M1 & M2 & M3 & M4 & M5 & M6).
  assert (Hnn := msize_nonneg _ _ _ (h_inv_size d s m Hi)). destruct Hnn as [Hnn Hne].
  assert (Hd' := Hd). destruct Hd' as ((Hw & Hap & _) & Hnb & _).
  assert (Hr : hdr_read (hdr_of d x (s_num s) (s_eff s) (Z.of_N (fsize (s_file s))) time) true =
    mkhdr (next_cyc (x_cyc x)) (x_major x) (x_minor x) (flags_of d) (N.of_nat (ow (d_c d))) (apow (d_c d)) 1
      (Z.of_N (d_nb d)) (s_num s) (s_eff s) (Z.of_N (fsize (s_file s))) time (x_type x) (pad_opaque (x_opaque x))).
  { unfold hdr_read. rewrite closure_one by exact M5. unfold hdr_of.
    cbn [hd_cyc hd_major hd_minor hd_flags hd_ow hd_apow hd_closure hd_nb hd_num hd_eff hd_fsize hd_time hd_type hd_opaque].
    rewrite !Z.max_r by lia. reflexivity. }
  rewrite Hr in Hh. unfold h_open. rewrite Hh.
  match goal with |- context [hdr_valid ?h] => assert (Hv : hdr_valid h = true) end.
  { unfold hdr_valid. 
    cbn [hd_cyc hd_major hd_minor hd_flags hd_ow hd_apow hd_closure hd_nb hd_num hd_eff hd_fsize hd_time hd_type hd_opaque].
    rewrite F4, F5. unfold MAX_NUM_BUCKETS, METADATA_SIZE in *.
    repeat (apply andb_true_iff; split); try reflexivity; try (apply Z.leb_le; lia); try (apply N.leb_le; lia).
    apply negb_true_iff, andb_false_iff. destruct M4; [left|right]; apply N.ltb_ge; lia. }
  rewrite Hv.
  cbn [hd_cyc hd_major hd_minor hd_flags hd_ow hd_apow hd_closure hd_nb hd_num hd_eff hd_fsize hd_time hd_type hd_opaque].
  assert (Hcyc := next_cyc_range _ M1).
  destruct (Z.ltb_spec (next_cyc (x_cyc x)) 0); [lia|].
  rewrite F2, F3, db_eta, !N2Z.id. change (negb (N.land 1 1 =? 0)) with true.
  (* the file after the possible truncation *)
  assert (HF : exists f1, (if (Z.of_N (fsize (s_file s)) =? Z.of_N (fsize f'))%Z then (true, f')
      else if (Z.of_N (fsize f') <? Z.of_N (fsize (s_file s)))%Z then (false, f')
      else if zero_region f' (fsize (s_file s)) (fsize f') then (true, file_truncate f' (fsize (s_file s)))
      else (false, f')) = (true, f1) /\ fsize f1 = fsize f /\ forall i, i < fsize f -> fdata f1 i = fdata f i).
  { rewrite K1 in *. destruct (Z.eqb_spec (Z.of_N (fsize (s_file s))) (Z.of_N (fsize f'))) as [En|En].
    - exists f'. split; [reflexivity|]. split; [lia|exact P2].
    - destruct (Z.ltb_spec (Z.of_N (fsize f')) (Z.of_N (fsize (s_file s)))); [lia|].
      assert (Ez : zero_region f' (fsize (s_file s)) (fsize f') = true).
      { unfold zero_region. apply forallb_forall. intros b Hb. apply N.eqb_eq.
        assert (Z : forall k off, fsize (s_file s) <= off -> off + N.of_nat k <= fsize f' -> In b (dread (fdata f') off k) -> b = 0).
        { clear -P3. intros k; induction k as [|k IH]; intros off Ho Hk; cbn [dread In]; [tauto|].
          intros [<-|Hin]; [|apply (IH (off + 1)); [lia|lia|exact Hin]]. apply P3; lia. }
        apply (Z _ _ (N.le_refl _)) in Hb; [exact Hb|lia]. }
      rewrite Ez. exists (file_truncate f' (fsize (s_file s))). split; [reflexivity|].
      unfold file_truncate; cbn [fsize fdata]. split; [reflexivity|].
      intros i Hi'. destruct (N.ltb_spec i (fsize f')); [|lia]. apply P2, Hi'. }
  destruct HF as (f1 & E1 & E2 & E3). rewrite E1. cbv zeta iota beta.
  set (x1 := mkmisc (next_cyc (x_cyc x)) (x_major x) (x_minor x) 1 (x_type x) (pad_opaque (x_opaque x))).
  set (s1 := mkhst f1 (mkfbp cap []) (s_num s) (s_eff s) []).
  assert (Q1 : same_data d (s_file s) f1).
  { split; [congruence|]. intros i Hi1 Hi2. rewrite E3 by lia. apply K2; assumption. }
  assert (Q2 := save_meta_same (with_mrs d mrs) x1 s1 (Z.of_N (fsize (s_file s))) time false).
  set (f2 := save_meta (with_mrs d mrs) x1 s1 (Z.of_N (fsize (s_file s))) time false) in *.
  assert (Q3 : same_data d f1 f2) by (apply Q2; cbn [s_file s1]; rewrite E2, K1; exact Hrb). clear Q2.
  assert (Q := same_data_trans _ _ _ _ Q1 Q3).
  assert (Hx1 : misc_ok (next_misc x1)).
  { unfold misc_ok, next_misc, x1. cbn [x_cyc x_major x_minor x_closure x_type].
    assert (R : (0 <= next_cyc (next_cyc (x_cyc x)) < 256)%Z) by (apply next_cyc_range; clear -Hcyc; lia).
    split; [clear -R; lia|]. split; [exact M2|]. split; [exact M3|]. split; [exact M4|]. split; [discriminate|exact M6]. }
  cbn [d_inplace with_mrs]. destruct (d_inplace d) eqn:Hip.
  - assert (EL : load_fbp (with_mrs d mrs) (s_file (with_file s1 f2)) cap
        = Some (fbp_deserialize (mkfbp cap []) (ow (d_c d)) (apow (d_c d))
            (fbp_serialize (s_fbp s) (ow (d_c d)) (apow (d_c d)) FBP_SECTION_SIZE))).
    { unfold load_fbp. change (fbp_pos (with_mrs d mrs)) with (fbp_pos d). cbn [with_file s_file].
      assert (Hpos : fbp_pos d + FBP_SECTION_SIZE <= record_base d /\ METADATA_SIZE <= fbp_pos d)
        by (unfold fbp_pos, METADATA_SIZE, FBP_SECTION_SIZE, RECORD_BASE_HEADER_SIZE in *; lia).
      rewrite file_read_ok by (rewrite (proj1 Q); lia). do 2 f_equal. rewrite <- K4.
      apply dread_ext. intros i Hi1 Hi2. unfold FBP_SECTION_SIZE in *. rewrite <- E3 by lia.
      unfold f2, save_meta. apply fix_off_disjoint. right. rewrite hdr_bytes_blen. unfold METADATA_SIZE in *. lia. }
    rewrite EL. do 2 eexists. split; [reflexivity|]. split; [exact Hx1|].
    cbn [s_num s_eff with_file s_file x_major x_minor x_type x_opaque next_misc x1].
    split; [|repeat split; apply Q].
    apply h_inv_mrs, (h_inv_frame d s m); [exact Hi|exact Q|]. intros _.
    destruct (fbp_deserialize_ok (mkfbp cap []) (ow (d_c d)) (apow (d_c d))
            (fbp_serialize (s_fbp s) (ow (d_c d)) (apow (d_c d)) FBP_SECTION_SIZE)) as [Pa Pb].
    split; [exact Pa|]. split; [rewrite Pb; exact Hcap|]. intros b Hb.
    exact (fbp_reload_in _ _ _ _ _ _ (fbp_blocks_ok d s m Hd Hip Hi C3) Hb).
  - do 2 eexists. split; [reflexivity|]. split; [exact Hx1|].
    cbn [s_num s_eff with_file s_file x_major x_minor x_type x_opaque next_misc x1 s1 s_fbp s_log].
    split; [|repeat split; apply Q].
    apply h_inv_mrs, (h_inv_frame d s m); [exact Hi|exact Q|]. congruence.
Qed.

(** * Creating a file *)
Lemma create_facts d x time : let f := h_create d x time in
  fsize f = record_base d /\ same_data d (mkfile (fun _ => 0) (record_base d)) f.
Proof.
  cbv zeta. assert (G := record_base_ge d). unfold h_create.
  set (f0 := mkfile (fun _ => 0) (record_base d)). set (f1 := file_write f0 _ (rechead d)).
  assert (S1 : same_data d f0 f1).
  { apply same_data_write; change (blen (rechead d)) with 16; unfold f0; cbn [fsize]; unfold RECORD_BASE_HEADER_SIZE, METADATA_SIZE in *; lia. }
  assert (S2 := save_meta_same d x (mkhst f1 (mkfbp 1 []) 0 0 []) (Z.of_N (record_base d)) time true).
  cbn [s_file] in S2. rewrite (proj1 S1) in S2. unfold f0 in S2 at 1. cbn [fsize] in S2. specialize (S2 ltac:(lia)).
  assert (S := same_data_trans _ _ _ _ S1 S2). split; [apply S|exact S].
Qed.

(** It is the file of a closed empty database. *)
Lemma create_closed d x time : exists s, padded (h_close d x s time) (h_create d x time) /\
  s_file s = file_write (mkfile (fun _ => 0) (record_base d)) (record_base d - RECORD_BASE_HEADER_SIZE) (rechead d) /\
  s_fbp s = mkfbp 1 [] /\ s_num s = 0%Z /\ s_eff s = 0%Z.
Proof.
  set (f1 := file_write (mkfile (fun _ => 0) (record_base d)) (record_base d - RECORD_BASE_HEADER_SIZE) (rechead d)).
  assert (G := record_base_ge d). assert (Es : fsize f1 = record_base d).
  { unfold f1, file_write; cbn [fsize]. change (blen (rechead d)) with 16. unfold RECORD_BASE_HEADER_SIZE, METADATA_SIZE in *. lia. }
  exists (mkhst f1 (mkfbp 1 []) 0 0 []). split; [|repeat split].
  set (s := mkhst f1 (mkfbp 1 []) 0 0 []).
  destruct (close_facts d x s time) as (K1 & K2 & K3 & K4); [cbn [s s_file]; lia|].
  destruct (create_facts d x time) as (C1 & C2).
  unfold padded. rewrite K1, C1. cbn [s s_file]. rewrite Es. split; [lia|]. split; [|lia].
  intros i Hi. unfold h_close, h_create. fold f1. fold s. cbn [s s_file]. rewrite Es. fold s.
  unfold save_fbp. cbn [s s_fbp].
  assert (Ez : fbp_serialize (mkfbp 1 []) (ow (d_c d)) (apow (d_c d)) FBP_SECTION_SIZE = repeat 0 (N.to_nat FBP_SECTION_SIZE)).
  { unfold fbp_serialize. cbn [fp_data rev]. rewrite firstn_nil. cbn [flat_map app]. rewrite blen_nil, N.sub_0_r. reflexivity. }
  rewrite Ez. set (g := save_meta d x _ _ _ _). unfold file_write at 1; cbn [fdata]. unfold dwrite.
  destruct (N.leb_spec (fbp_pos d) i); cbn [andb]; [|reflexivity].
  match goal with |- context [i <? ?e] => destruct (N.ltb_spec i e) as [Hl|]; [|reflexivity] end.
  unfold blen in Hl. rewrite repeat_length, N2Nat.id in Hl. rewrite nth_repeat.
  unfold g, save_meta. unfold fbp_pos, METADATA_SIZE, FBP_SECTION_SIZE, RECORD_BASE_HEADER_SIZE in *.
  rewrite fix_off_disjoint by (rewrite hdr_bytes_blen; lia). cbn [s s_file]. unfold f1.
  rewrite fix_off_disjoint by (unfold RECORD_BASE_HEADER_SIZE; lia). reflexivity.
Qed.

(** * The counters are bounded by the file size *)
Fixpoint lsum (m : amap) (ks : list bytes) : Z :=
  match ks with
  | [] => 0
  | k :: ks' => match m k with Some v => 1 + Z.of_N (blen k) + Z.of_N (blen v) | None => 0 end + lsum m ks'
  end%Z.
Lemma lsum_nonneg m ks : (0 <= lsum m ks)%Z.
Proof. induction ks as [|k ks IH]; cbn [lsum]; [lia|]. destruct (m k); lia. Qed.
Lemma lsum_ext m m' ks : (forall k, In k ks -> m k = m' k) -> lsum m ks = lsum m' ks.
Proof. induction ks as [|k ks IH]; intros H; cbn [lsum]; [reflexivity|]. rewrite H by (left; reflexivity). rewrite IH; [reflexivity|]. intros; apply H; right; assumption. Qed.
Lemma lsum_upd m m' k0 W ks : NoDup ks -> (forall k, k <> k0 -> m k = m' k) ->
  (forall v, m k0 = Some v -> (1 + Z.of_N (blen k0) + Z.of_N (blen v) <= W)%Z) -> (0 <= W)%Z -> (lsum m ks <= W + lsum m' ks)%Z.
Proof.
  intros Hn Hm HW H0. induction ks as [|k ks IH]; cbn [lsum]; [lia|]. inversion Hn as [|? ? Hk Hn']; subst.
  destruct (bytes_eq_dec k k0) as [->|Hne].
  - rewrite (lsum_ext m m' ks) by (intros k Hk'; apply Hm; congruence).
    destruct (m k0) as [v|] eqn:E; [specialize (HW v eq_refl)|]; destruct (m' k0); lia.
  - rewrite (Hm k Hne). specialize (IH Hn'). lia.
Qed.
Lemma lsum_layout c L : forall base stop ks, contig base L stop -> (forall o r, In (o, r) L -> rec_ok c r) -> NoDup ks ->
  (lsum (layout_map L) ks <= Z.of_N stop - Z.of_N base)%Z.
Proof.
  induction L as [|[o r] L IH]; intros base stop ks Hc Hok Hn; cbn [contig] in Hc.
  - subst. assert (E : lsum (layout_map []) ks = 0%Z); [|lia]. clear. induction ks as [|k ks IH]; [reflexivity|]. cbn [lsum]. rewrite IH. reflexivity.
  - destruct Hc as (-> & Hw & Hc). specialize (IH _ _ ks Hc (fun o' r' H => Hok o' r' (or_intror H)) Hn).
    assert (U := lsum_upd (layout_map ((base, r) :: L)) (layout_map L) (r_key r) (Z.of_N (r_whole r)) ks Hn).
    assert (Hr := Hok base r (or_introl eq_refl)). destruct Hr as (_ & _ & _ & Hb & _).
    destruct (last_in (r_key r) L) as [x|] eqn:El.
    + rewrite (lsum_ext _ (layout_map L)); [lia|]. intros k _. unfold layout_map. cbn [last_in].
      destruct (last_in k L) eqn:Ek; [reflexivity|]. destruct (nonvoid r); cbn [andb]; [|reflexivity].
      destruct (beqb_spec k (r_key r)); [congruence|reflexivity].
    + assert (G : (lsum (layout_map ((base, r) :: L)) ks <= Z.of_N (r_whole r) + lsum (layout_map L) ks)%Z); [|lia].
      apply U; [| |lia].
      * intros k Hne. unfold layout_map. cbn [last_in]. destruct (last_in k L); [reflexivity|].
        destruct (nonvoid r); cbn [andb]; [|reflexivity]. destruct (beqb_spec k (r_key r)); [congruence|reflexivity].
      * intros v Hv. unfold layout_map in Hv. cbn [last_in] in Hv. rewrite El, beqb_refl in Hv.
        destruct (nonvoid r); cbn [andb] in Hv; [|discriminate]. unfold rec_value in Hv.
        destruct (is_set_type (r_type r)); [|discriminate]. injection Hv as <-.
        unfold base_size in Hb. lia.
Qed.
Lemma lsum_live m ks : (forall k, In k ks -> m k <> None) -> lsum m ks = (Z.of_nat (length ks) + dsum m ks)%Z.
Proof.
  induction ks as [|k ks IH]; intros H; cbn [lsum dsum length]; [reflexivity|].
  rewrite IH by (intros; apply H; right; assumption). destruct (m k) eqn:E; [lia|]. exfalso. apply (H k); [left; reflexivity|exact E].
Qed.
Lemma h_inv_bounds d s m : hdb_ok d -> h_inv d s m ->
  (0 <= s_num s)%Z /\ (0 <= s_eff s)%Z /\ (s_num s + s_eff s <= Z.of_N (fsize (s_file s)))%Z.
Proof.
  intros Hd Hi. destruct (msize_nonneg _ _ _ (h_inv_size d s m Hi)) as [A B]. split; [exact A|]. split; [exact B|].
  apply h_inv_switch in Hi; [|exact Hd]. unfold h_inv in Hi. cbn [d_inplace to_appending] in Hi.
  destruct Hi as (L & Bk & [I1 _ _ _ I5 (ks & N1 & N2 & N3 & N4)]). destruct I1 as (C & _ & H).
  rewrite N3, N4, <- lsum_live by (intros k; apply N2).
  rewrite (lsum_ext m (layout_map L)) by (intros k _; apply I5).
  assert (U := lsum_layout (d_c (to_appending d)) L _ _ ks C). 
  assert (Q : forall o r, In (o, r) L -> rec_ok (d_c (to_appending d)) r).
  { intros o r Hin. apply (H o r). exact (in_lget _ _ _ _ _ C Hin). }
  specialize (U Q N1). lia.
Qed.

(** * Operations leave the header and the free block section alone *)
Definition meta_area (d : hdb) (i : N) : Prop :=
  i < METADATA_SIZE \/ (METADATA_SIZE + d_nb d * N.of_nat (ow (d_c d)) <= i /\ i < record_base d).
Definition keeps (d : hdb) (f f' : file) : Prop := forall i, meta_area d i -> fdata f' i = fdata f i.

Lemma keeps_trans d f g h : keeps d f g -> keeps d g h -> keeps d f h.
Proof. intros A B i Hi. rewrite B, A; auto. Qed.
Lemma keeps_write d f off b : record_base d <= off -> keeps d f (file_write f off b).
Proof.
  intros H i Hi. apply fix_off_disjoint. left. assert (G := record_base_ge d). unfold meta_area, METADATA_SIZE in *. lia.
Qed.
Lemma keeps_bucket d f b v : b < d_nb d -> keeps d f (set_bucket d f b v).
Proof.
  intros H i Hi. unfold set_bucket. apply fix_off_disjoint. unfold blen. rewrite write_fix_length.
  assert (R := bucket_range d b H). unfold meta_area in Hi. lia.
Qed.
Lemma keeps_relink d f b p v : b < d_nb d -> p = 0 \/ record_base d <= p -> keeps d f (relink d f b p v).
Proof.
  intros Hb Hp. unfold relink. destruct (N.ltb_spec 0 p) as [Hl|Hl]; [|apply keeps_bucket; exact Hb].
  unfold write_child. apply keeps_write. lia.
Qed.
Lemma keeps_place d f p t t' key v child : record_base d <= fsize f ->
  (d_inplace d = true -> forall b, In b (fp_data p) -> record_base d <= fb_off b) ->
  keeps d f (fst (fst (place d f p t t' key v child))) /\ record_base d <= fsize (fst (fst (place d f p t t' key v child))).
Proof.
  intros Hs Hp. split; [|assert (G := place_grows d f p t t' key v child); lia].
  unfold place. destruct (d_inplace d).
  - specialize (Hp eq_refl). destruct (fbp_fetch p (r_whole (set_data (d_c d) t 0 key v child))) as [[fb p']|] eqn:E.
    + unfold fbp_fetch in E. destruct (lower_take _ _) as [[b0 rest]|] eqn:El; [|discriminate]. injection E as -> <-.
      assert (Hin : In fb (fp_data p)).
      { clear -El. revert El. generalize (fp_data p). intros l. revert fb rest. induction l as [|a l IH]; intros fb rest; cbn [lower_take]; [discriminate|].
        destruct (fb_lt a _); [|intros E; injection E as -> <-; left; reflexivity].
        destruct (lower_take _ l) as [[b r]|] eqn:E; [|discriminate]. intros E'; injection E' as -> <-. right. exact (IH _ _ eq_refl). }
      specialize (Hp fb Hin). destruct (N.eqb_spec (fb_off fb) 0); cbn [fst]; [|apply keeps_write; exact Hp].
      unfold file_append. cbn [fst]. apply keeps_write; exact Hs.
    + cbn [fst]. change (0 =? 0) with true. cbn iota. unfold file_append. cbn [fst]. apply keeps_write; exact Hs.
  - change (0 =? 0) with true. cbn iota. unfold file_append. cbn [fst]. apply keeps_write; exact Hs.
Qed.

Lemma h_inv_shape d s m : h_inv d s m -> exists L B, recs d (s_file s) L /\ buckets d (s_file s) (bhd B) /\ chains d (lget L) B /\
  (d_inplace d = true -> forall b, In b (fp_data (s_fbp s)) -> record_base d <= fb_off b).
Proof.
  unfold h_inv. destruct (d_inplace d) eqn:Hip; intros (L & B & I); exists L, B.
  - destruct I as [I1 I2 I3 _ _ _ _ _ I9 _]. split; [assumption|]. split; [assumption|]. split; [assumption|].
    intros _ b Hb. destruct (I9 b Hb) as (r & E & _).
    destruct I1 as (C & _). destruct (contig_range _ _ _ _ _ C E). assumption.
  - destruct I as [I1 I2 I3 _ _ _]. split; [assumption|]. split; [assumption|]. split; [assumption|]. congruence.
Qed.

Lemma h_process_keeps d s m key proc readable writable : hdb_ok d -> h_inv d s m ->
  keeps d (s_file s) (s_file (h_st (h_process d s key proc readable writable))).
Proof.
  intros Hd Hi. assert (Hrb := h_inv_rb d s m Hi). destruct (h_inv_shape d s m Hi) as (L & B & HR & HB & HC & HP).
  assert (Hd' := Hd). destruct Hd' as (Hcfg & Hnb & Hmrs).
  set (b := primary_hash key (d_nb d)). assert (Hb : b < d_nb d) by (apply primary_hash_lt; exact Hnb).
  destruct (HC b Hb) as (HL & HN & HH).
  assert (Hlen := chain_length d (s_file s) L B b HR HC Hb).
  unfold h_process. fold b. rewrite (HB b Hb). change (bhd B b) with (hd 0 (B b)).
  assert (Hm' : META_MIN_READ_SIZE <= (if readable then META_MIN_READ_SIZE else d_mrs d)) by (destruct readable; [lia|exact Hmrs]).
  assert (K0 : keeps d (s_file s) (s_file s)) by (intros i _; reflexivity).
  destruct (walk_spec d (s_file s) L key _ (B b) _ 0 Hcfg HR HL Hm' Hlen)
    as [[Hno Hw]|(pre & o & post & r & mt & EB & Hno & Eo & Hkey & Hw & _)]; rewrite Hw; clear Hw.
  - destruct (proc None) as [| |v]; destruct writable; cbn [h_st]; try exact K0.
    destruct (keeps_place d (s_file s) (s_fbp s) OpAdd OpAdd key v (hd 0 (B b)) Hrb HP) as [K1 _].
    destruct (place _ _ _ _ _ _ _ _) as [[f1 p1] noff]. cbn [fst] in K1. destruct (count_update _ _ _ _ _ _) as [n' e']. cbn [h_st s_file].
    eapply keeps_trans; [exact K1|]. apply keeps_bucket; exact Hb.
  - assert (Hin : forall x, In x (B b) -> record_base d <= x).
    { intros x Hx. destruct (linked_in _ _ _ HL Hx) as (rx & Ex & _). destruct HR as (C & _). destruct (contig_range _ _ _ _ _ C Ex). assumption. }
    assert (Ho : record_base d <= o) by (apply Hin; rewrite EB; apply in_or_app; right; left; reflexivity).
    assert (Hpar : last pre 0 = 0 \/ record_base d <= last pre 0).
    { destruct (list_snoc pre) as [->|(l0 & x & ->)]; [left; reflexivity|right]. rewrite last_app_one. apply Hin. rewrite EB.
      apply in_or_app; left. apply in_or_app; right; left; reflexivity. }
    set (par := last pre 0) in *. clearbody par.
    match goal with |- context [match ?e with Some seen => _ | None => _ end] => destruct e as [seen|]; [|exact K0] end.
    assert (KU : forall a f' p', update_found d s b (hd 0 (B b)) o par mt key a = Some (f', p') -> keeps d (s_file s) f').
    { intros a f' p' E. unfold update_found in E.
      match type of E with (if ?c then _ else _) = _ => destruct c eqn:Ec end.
      - destruct a as [| |v].
        + injection E as <- _. apply keeps_write; exact Ho.
        + match type of E with match ?x with _ => _ end = _ => destruct x; [|discriminate] end. injection E as <- _.
          eapply keeps_trans; [apply keeps_relink; [exact Hb|exact Hpar]|]. apply keeps_write; exact Ho.
        + injection E as <- _. apply keeps_write; exact Ho.
      - match type of E with (let '(_, _) := ?pl in _) = _ => assert (KP : keeps d (s_file s) (fst (fst pl))) by (destruct a; apply keeps_place; assumption); destruct pl as [[f1 p1] noff] end.
        cbn [fst] in KP. destruct (d_inplace d).
        + match type of E with match ?x with _ => _ end = _ => destruct x; [|discriminate] end. injection E as <- _.
          eapply keeps_trans; [exact KP|]. eapply keeps_trans; [apply keeps_relink; [exact Hb|exact Hpar]|]. apply keeps_write; exact Ho.
        + injection E as <- _. eapply keeps_trans; [exact KP|]. apply keeps_bucket; exact Hb. }
    destruct (proc seen) as [| |v] eqn:Ea; destruct writable; try exact K0;
      (destruct (update_found _ _ _ _ _ _ _ _ _) as [[f' p']|] eqn:E; [|exact K0]);
      (destruct (count_update _ _ _ _ _ _) as [n' e']; cbn [h_st s_file]; exact (KU _ _ _ E)).
Qed.

Lemma h_run_keeps d ops : forall s m, hdb_ok d -> h_inv d s m -> ops_ok m ops ->
  fsize (s_file (fst (h_run d s ops))) <= capacity d -> keeps d (s_file s) (s_file (fst (h_run d s ops))).
Proof.
  induction ops as [|o ops IH]; intros s m Hd Hi Hok Hc; cbn [h_run]; [intros i _; reflexivity|].
  cbn [ops_ok] in Hok. destruct Hok as (Ho1 & Ho2 & Hops). cbn [h_run] in Hc.
  set (res := h_process d s (o_key o) (o_proc o) (o_readable o) (o_writable o)) in *.
  assert (G := h_run_grows d ops (h_st res)).
  assert (Hc1 : fsize (s_file (h_st res)) <= capacity d).
  { destruct (h_run d (h_st res) ops) as [s' out]. cbn [fst] in *. lia. }
  destruct (h_step d s m _ _ _ _ Hd Hi Ho1 Ho2 Hc1) as (H1 & H2 & _ & H4). fold res in H1, H2, H4.
  assert (K := h_process_keeps d s m (o_key o) (o_proc o) (o_readable o) (o_writable o) Hd Hi). fold res in K.
  specialize (IH (h_st res) _ Hd H4 Hops). destruct (h_run d (h_st res) ops) as [s' out]. cbn [fst] in *.
  eapply keeps_trans; [exact K|]. apply IH; exact Hc.
Qed.

(** * Files which were not closed *)
Lemma h_open_unclosed cap mrs f h o : read_hdr f = Some h -> N.land (hd_closure h) 1 = 0 \/
  (hd_cyc h < 0 /\ Z.of_N (fsize f) < 9223372036854775807)%Z -> h_open cap mrs f = Some o -> op_healthy o = false.
Proof.
  intros Eh Hc E. unfold h_open in E. rewrite Eh in E. destruct (hdr_valid h); [|discriminate]. cbv zeta in E.
  match type of E with match ?pr with _ => _ end = _ => assert (Hp : fst pr = false) end.
  { destruct Hc as [Hc|[Hc Hs]].
    - rewrite Hc. change (negb (0 =? 0)) with false.
      destruct (_ =? Z.of_N (fsize f))%Z; [reflexivity|]. destruct (Z.of_N (fsize f) <? _)%Z; [reflexivity|].
      destruct (zero_region _ _ _); reflexivity.
    - destruct (Z.ltb_spec (hd_cyc h) 0); [|lia]. destruct (Z.eqb_spec 9223372036854775807 (Z.of_N (fsize f))); [lia|].
      destruct (Z.ltb_spec (Z.of_N (fsize f)) 9223372036854775807); [reflexivity|lia]. }
  match type of E with match ?pr with _ => _ end = _ => destruct pr as [b f1] end. cbn [fst] in Hp. subst b.
  injection E as <-. reflexivity.
Qed.

Lemma save_meta_closure d x s size time : exists h,
  read_hdr (save_meta d x s size time false) = Some h /\ hd_closure h = 0.
Proof.
  unfold save_meta. rewrite read_hdr_write by apply hdr_bytes_blen. rewrite hdr_bytes_block.
  match goal with |- context [hdr_block ?a ?b ?c ?d ?e ?f ?g ?h ?i ?j ?k ?l ?m ?n] =>
    destruct (hdr_block_parse a b c d e f g h i j k l m n) as (_ & _ & _ & _ & P); rewrite ?write_fix_length; try reflexivity end.
  { apply pad_opaque_length. }
  rewrite P. eexists. split; [reflexivity|]. cbn [hd_closure].
  unfold closure_out. rewrite andb_false_r. reflexivity.
Qed.

Lemma open_header cap mrs f o : h_open cap mrs f = Some o -> op_healthy o = true ->
  exists h, read_hdr (s_file (op_st o)) = Some h /\ hd_closure h = 0.
Proof.
  intros E Ho. unfold h_open in E. destruct (read_hdr f) as [h|]; [|discriminate]. destruct (hdr_valid h); [|discriminate]. cbv zeta in E.
  match type of E with match ?pr with _ => _ end = _ => destruct pr as [b f1] end.
  destruct b; [|injection E as <-; discriminate].
  match type of E with (if ?c then _ else _) = _ => destruct c end.
  - match type of E with match ?c with _ => _ end = _ => destruct c; [|discriminate] end. injection E as <-. cbn [op_st s_file with_file].
    apply save_meta_closure.
  - injection E as <-. cbn [op_st s_file with_file]. apply save_meta_closure.
Qed.
