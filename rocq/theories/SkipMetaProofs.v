(** Lemmas for the metadata of the skip database. *)
From Coq Require Import List NArith ZArith Bool Lia Arith.
Import ListNotations.
From Verif Require Import Bytes BytesOrder CodecModel CodecProofs StatusModel FlatModel MqProofs FlatProofs DbmModel SkipModel SkipLayout SkipWrite SkipSearch SkipIter SkipMerge SkipSync SkipDb SkipProps SkipMetaModel SkipMetaSpec.
From Verif Require HashMetaModel HashMetaProofs.
Open Scope N_scope.

(** * The bytes of the metadata *)
Lemma pad64_length o : length (pad64 o) = 64%nat.
Proof. unfold pad64. rewrite firstn_length, app_length, repeat_length. lia. Qed.
Lemma pad64_eq o : (let x := firstn 64 o in x ++ repeat 0 (64 - length x)) = pad64 o.
Proof.
  cbv zeta. unfold pad64. rewrite firstn_app, firstn_length. f_equal. destruct (le_lt_dec 64 (length o)) as [L|L].
  - rewrite Nat.min_l by lia. replace (64 - length o)%nat with 0%nat by lia. reflexivity.
  - rewrite Nat.min_r by lia. replace 64%nat with ((64 - length o) + length o)%nat at 3 by lia. rewrite repeat_app, firstn_app, repeat_length, Nat.sub_diag. cbn [firstn]. rewrite app_nil_r.
    rewrite firstn_all2 by (rewrite repeat_length; lia). reflexivity.
Qed.
Lemma pad64_id o : length o = 64%nat -> pad64 o = o.
Proof. intros H. unfold pad64. rewrite <- H at 1. rewrite firstn_app, Nat.sub_diag, firstn_all. cbn [firstn]. apply app_nil_r. Qed.

Definition block (cyc ma mi w st ml cl nu ef fs ti ty op : bytes) : bytes :=
  META_MAGIC ++ cyc ++ ma ++ mi ++ w ++ st ++ ml ++ cl ++ repeat 0 8 ++ nu ++ ef ++ fs ++ ti ++ ty ++ [0; 0] ++ op ++ [0] ++ cyc.
Lemma meta_block p num eff h fin : meta_bytes p num eff h fin =
  block (write_fix 1 (u64 (sh_cyc h))) (write_fix 1 (sh_major h)) (write_fix 1 (sh_minor h)) (write_fix 1 (N.of_nat (ow p))) (write_fix 1 (N.of_nat (step p))) (write_fix 1 (N.of_nat (maxl p)))
    (write_fix 1 (if negb (N.land (sh_closure h) 1 =? 0) && fin then 1 else 0)) (write_fix 8 (N.of_nat num)) (write_fix 8 eff) (write_fix 8 (u64 (sh_fsize h))) (write_fix 8 (u64 (sh_time h))) (write_fix 4 (sh_type h)) (pad64 (sh_opaque h)).
Proof. rewrite <- pad64_eq. reflexivity. Qed.
Lemma block_read cyc ma mi w st ml cl nu ef fs ti ty op rest :
  length cyc = 1%nat -> length ma = 1%nat -> length mi = 1%nat -> length w = 1%nat -> length st = 1%nat -> length ml = 1%nat -> length cl = 1%nat -> length nu = 8%nat -> length ef = 8%nat ->
  length fs = 8%nat -> length ti = 8%nat -> length ty = 4%nat -> length op = 64%nat ->
  let f := block cyc ma mi w st ml cl nu ef fs ti ty op ++ rest in
  length (block cyc ma mi w st ml cl nu ef fs ti ty op) = 128%nat /\ firstn 9 f = META_MAGIC /\ fld f 9 1 = read_fix_bytes cyc /\ fld f 127 1 = read_fix_bytes cyc /\
  fld f 10 1 = read_fix_bytes ma /\ fld f 11 1 = read_fix_bytes mi /\ fld f 12 1 = read_fix_bytes w /\ fld f 13 1 = read_fix_bytes st /\ fld f 14 1 = read_fix_bytes ml /\ fld f 15 1 = read_fix_bytes cl /\
  fld f 24 8 = read_fix_bytes nu /\ fld f 32 8 = read_fix_bytes ef /\ fld f 40 8 = read_fix_bytes fs /\ fld f 48 8 = read_fix_bytes ti /\ fld f 56 4 = read_fix_bytes ty /\ firstn 64 (skipn 62 f) = op.
Proof.
  intros H1 H2 H3 H5 H6 H7 H8 H9 H10 H11 H12 H13 H14 f. subst f.
  apply HashMetaProofs.len1 in H1. destruct H1 as (c & ->). apply HashMetaProofs.len1 in H2. destruct H2 as (? & ->).
  apply HashMetaProofs.len1 in H3. destruct H3 as (? & ->). apply HashMetaProofs.len1 in H5. destruct H5 as (? & ->).
  apply HashMetaProofs.len1 in H6. destruct H6 as (? & ->). apply HashMetaProofs.len1 in H7. destruct H7 as (? & ->). apply HashMetaProofs.len1 in H8. destruct H8 as (? & ->).
  apply HashMetaProofs.len8 in H9. destruct H9 as (? & ? & ? & ? & ? & ? & ? & ? & ->).
  apply HashMetaProofs.len8 in H10. destruct H10 as (? & ? & ? & ? & ? & ? & ? & ? & ->).
  apply HashMetaProofs.len8 in H11. destruct H11 as (? & ? & ? & ? & ? & ? & ? & ? & ->).
  apply HashMetaProofs.len8 in H12. destruct H12 as (? & ? & ? & ? & ? & ? & ? & ? & ->).
  apply HashMetaProofs.len4 in H13. destruct H13 as (? & ? & ? & ? & ->).
  assert (E65 : forall a : bytes, length a = 62%nat -> firstn 1 (skipn 127 (a ++ op ++ [0; c] ++ rest)) = [c]).
  { intros a Ha. rewrite app_assoc, skipn_app, app_length, Ha, H14. rewrite skipn_all2 by (rewrite app_length; lia). reflexivity. }
  assert (E64 : forall a : bytes, length a = 62%nat -> firstn 64 (skipn 62 (a ++ op ++ [0; c] ++ rest)) = op).
  { intros a Ha. rewrite skipn_app, Ha, (skipn_all2 a) by lia. cbn [Nat.sub skipn app]. rewrite firstn_app, H14. rewrite firstn_all2 by lia. apply app_nil_r. }
  assert (EL : length (op ++ [0; c]) = 66%nat) by (rewrite app_length, H14; reflexivity).
  unfold block, META_MAGIC. cbn [app repeat]. split; [cbn [length]; rewrite EL; reflexivity|]. rewrite <- app_assoc.
  unfold fld, HashMetaModel.fld.
  match goal with |- context [skipn 127 ?l] => match l with context C [op ++ ?r] => let a := context C [@nil N] in assert (S1 := E65 a eq_refl); assert (S2 := E64 a eq_refl) end end.
  cbn [app] in S1, S2. cbn [app]. rewrite S1, S2. clear S1 S2 E65 E64 EL. generalize (op ++ 0 :: c :: rest). intros X. cbn [firstn skipn]. repeat split; reflexivity.
Qed.
Definition sp_rng (p : sp) : Prop := (3 <= ow p <= 6)%nat /\ (2 <= step p <= 64)%nat /\ (1 <= maxl p <= 32)%nat.
Lemma rng_ok p : sp_rng p -> sp_ok p.
Proof. intros (A & B & C). repeat split; lia. Qed.
Lemma rng_128 p : sp_rng p -> 128 <= 256 ^ N.of_nat (ow p).
Proof. intros (A & _). transitivity (256 ^ 1); [cbn; lia|]. apply N.pow_le_mono_r; lia. Qed.
(** The header that comes back. *)
Definition back (h : shdr) (fin : bool) : shdr :=
  mkSH (Z.of_N (read_fix_bytes (write_fix 1 (u64 (sh_cyc h))))) (sh_major h) (sh_minor h) (if negb (N.land (sh_closure h) 1 =? 0) && fin then 1 else 0) (sh_fsize h)
       (i64 (read_fix_bytes (write_fix 8 (u64 (sh_time h))))) (sh_type h) (pad64 (sh_opaque h)).
Definition ver_ok (a b : N) : Prop := a < 256 /\ b < 256 /\ (1 <= a \/ 1 <= b).
Lemma i64_small n : n < 2^63 -> i64 n = Z.of_N n.
Proof. intros H. unfold i64, HashMetaModel.i64. change 9223372036854775808 with (2^63). destruct (N.ltb_spec n (2^63)); [reflexivity|lia]. Qed.
Lemma load_save p num eff h fin rest : sp_rng p -> ver_ok (sh_major h) (sh_minor h) -> N.of_nat num < 2^63 -> eff < 2^63 -> (128 <= sh_fsize h < 2^63)%Z -> sh_type h < 2^32 ->
  length (meta_bytes p num eff h fin) = 128%nat /\ load (meta_bytes p num eff h fin ++ rest) = SOk (mkSM p (Z.of_nat num) (Z.of_N eff) (back h fin)).
Proof.
  intros PR VO NM EF FS TY. assert (PR' := PR). destruct PR' as (A & B & C). destruct VO as (V1 & V2 & V3). rewrite meta_block.
  destruct (block_read (write_fix 1 (u64 (sh_cyc h))) (write_fix 1 (sh_major h)) (write_fix 1 (sh_minor h)) (write_fix 1 (N.of_nat (ow p))) (write_fix 1 (N.of_nat (step p))) (write_fix 1 (N.of_nat (maxl p)))
    (write_fix 1 (if negb (N.land (sh_closure h) 1 =? 0) && fin then 1 else 0)) (write_fix 8 (N.of_nat num)) (write_fix 8 eff) (write_fix 8 (u64 (sh_fsize h))) (write_fix 8 (u64 (sh_time h))) (write_fix 4 (sh_type h)) (pad64 (sh_opaque h)) rest)
    as (L & E1 & E2 & E3 & E4 & E5 & E6 & E7 & E8 & E9 & E10 & E11 & E12 & E13 & E14 & E15); try (apply write_fix_length); try (apply pad64_length).
  split; [exact L|]. set (f := _ ++ rest) in *.
  unfold load, read_meta. destruct (N.ltb_spec (blen f) 128) as [X|_]; [unfold f, blen in X; rewrite app_length, L in X; lia|].
  rewrite E1, beqb_refl. cbn [negb]. rewrite E2, E3, N.eqb_refl, E4, E5, E6, E7, E8, E9, E10, E11, E12, E13, E14, E15. cbn [sm_p sm_num sm_eff sm_h ow step maxl sh_major sh_minor sh_fsize].
  rewrite !(HashMetaProofs.rwf1 (sh_major h)), !(HashMetaProofs.rwf1 (sh_minor h)), !(HashMetaProofs.rwf1 (N.of_nat (ow p))), !(HashMetaProofs.rwf1 (N.of_nat (step p))), !(HashMetaProofs.rwf1 (N.of_nat (maxl p))) by lia.
  rewrite !(HashMetaProofs.rwf1 (if negb (N.land (sh_closure h) 1 =? 0) && fin then 1 else 0)) by (destruct (negb (N.land (sh_closure h) 1 =? 0) && fin); lia). rewrite (HashMetaProofs.rwf4 (sh_type h)) by exact TY.
  rewrite (read_write_fix_bytes 8 (N.of_nat num)), (read_write_fix_bytes 8 eff). rewrite !N.mod_small by (change (256 ^ N.of_nat 8) with (2^64); lia).
  rewrite !i64_small by lia. rewrite !Nat2N.id.
  replace (i64 (read_fix_bytes (write_fix 8 (u64 (sh_fsize h))))) with (sh_fsize h) by (symmetry; apply HashMetaProofs.rwf8; unfold HashMetaProofs.int64; lia).
  replace (Nat.ltb (ow p) 3) with false by (symmetry; apply Nat.ltb_ge; lia). replace (Nat.ltb 6 (ow p)) with false by (symmetry; apply Nat.ltb_ge; lia).
  replace (Nat.ltb (step p) 2) with false by (symmetry; apply Nat.ltb_ge; lia). replace (Nat.ltb 64 (step p)) with false by (symmetry; apply Nat.ltb_ge; lia).
  replace (Nat.ltb (maxl p) 1) with false by (symmetry; apply Nat.ltb_ge; lia). replace (Nat.ltb 32 (maxl p)) with false by (symmetry; apply Nat.ltb_ge; lia).
  replace (Z.of_N (N.of_nat num) <? 0)%Z with false by (symmetry; apply Z.ltb_ge; lia). replace (Z.of_N eff <? 0)%Z with false by (symmetry; apply Z.ltb_ge; lia).
  replace (sh_fsize h <? 128)%Z with false by (symmetry; apply Z.ltb_ge; lia).
  replace ((sh_major h <? 1) && (sh_minor h <? 1)) with false by (symmetry; apply andb_false_iff; destruct V3; [left|right]; apply N.ltb_ge; lia).
  cbn [orb]. f_equal. unfold back. rewrite nat_N_Z. destruct p. reflexivity.
Qed.

(** * What is on the disk *)
(** A file as Close, Synchronize, Open, Clear or Rebuild leaves it. *)
Record file_ok (f : bytes) (k : disk) : Prop := mkFO {
  fo_rng : sp_rng (k_p k); fo_stored : stored (k_p k) f (k_recs k); fo_fits : fits (k_p k) (k_recs k); fo_ord : ordered (k_recs k); fo_plain : Forall plain (kept (k_recs k));
  fo_type : k_type k < 2^32; fo_opq : length (k_opaque k) = 64%nat;
  fo_load : exists h, load f = SOk (mkSM (k_p k) (Z.of_nat (length (k_recs k))) (Z.of_N (data_size (k_recs k))) h) /\ (0 <= sh_cyc h)%Z /\ sh_fsize h = Z.of_N (blen f) /\
    negb (N.land (sh_closure h) 1 =? 0) = k_flag k /\ sh_type h = k_type k /\ sh_opaque h = k_opaque k /\ ver_ok (sh_major h) (sh_minor h) }.
(** It may have got zeros at the end. *)
Definition disk_ok (f : bytes) (k : disk) : Prop := exists f0 n, f = f0 ++ repeat 0 n /\ file_ok f0 k.
Lemma total_data p l : forall j, data_size l + N.of_nat (length l) <= total p j l.
Proof.
  induction l as [|r l IH]; intros j; [cbn; lia|]. cbn [total length data_size fold_right]. specialize (IH (S j)). unfold data_size in IH. assert (P := rsize_pos p j r). unfold rsize, head_size in *.
  assert (A := size_var_pos (blen (fst r))). lia.
Qed.
Lemma fits_small p l : sp_rng p -> fits p l -> off_of p l (length l) < 2^63 /\ N.of_nat (length l) < 2^63 /\ data_size l < 2^63.
Proof.
  intros (A & _) [F _]. assert (X : 256 ^ N.of_nat (ow p) <= 256 ^ 6) by (apply N.pow_le_mono_r; lia). change (256 ^ 6) with (2 ^ 48) in X.
  assert (T := total_data p l 0). unfold off_of in *. rewrite firstn_all in *. assert (2^48 < 2^63) by reflexivity. lia.
Qed.
Lemma stored_head p f l b : stored p f l -> length b = 128%nat -> stored p (pwrite f 0 b) l /\ blen (pwrite f 0 b) = blen f /\ exists rest, pwrite f 0 b = b ++ rest.
Proof.
  intros (pre & P & ->) L. assert (L' : length pre = 128%nat) by (unfold blen in P; lia).
  assert (E : pwrite (pre ++ image p l) 0 b = b ++ image p l).
  { unfold pwrite. change (N.to_nat 0) with 0%nat. rewrite Nat.add_0_l, firstn_O, app_nil_l, L. f_equal. rewrite skipn_app, L', skipn_all2, Nat.sub_diag by lia. reflexivity. }
  rewrite E. split; [|split].
  - exists b. split; [unfold blen; rewrite L; reflexivity|reflexivity].
  - rewrite !blen_app. unfold blen. rewrite L, L'. reflexivity.
  - eauto.
Qed.
Lemma save_ok fin m l : let p := g_sp (m_g m) in let d := m_d m in sp_rng p -> stored p (d_file d) l -> fits p l -> ordered l -> Forall plain (kept l) -> d_num d = length l -> d_eff d = data_size l ->
  sh_fsize (m_h m) = Z.of_N (blen (d_file d)) -> sh_type (m_h m) < 2^32 -> ver_ok (sh_major (m_h m)) (sh_minor (m_h m)) ->
  file_ok (d_file (m_d (save fin m))) (mkK p l (negb (N.land (sh_closure (m_h m)) 1 =? 0) && fin) (sh_type (m_h m)) (pad64 (sh_opaque (m_h m)))).
Proof.
  intros p d PR ST FT OR PL NM EF FS TY VO. unfold save. cbn [m_d with_d with_h with_file d_file]. fold d p. set (h := next_cyc (m_h m)).
  destruct (fits_small p l PR FT) as (B1 & B2 & B3). rewrite <- (stored_len p _ l ST) in B1.
  assert (BL : 128 <= blen (d_file d)) by (rewrite (stored_len p _ l ST); apply off_base).
  destruct (load_save p (d_num d) (d_eff d) h fin [] PR VO) as (L & _); [rewrite NM; exact B2|rewrite EF; exact B3|cbn [h next_cyc sh_fsize]; rewrite FS; lia|exact TY|].
  destruct (stored_head p (d_file d) l _ ST L) as (ST' & BL' & rest & E).
  destruct (load_save p (d_num d) (d_eff d) h fin rest PR VO) as (_ & LD); [rewrite NM; exact B2|rewrite EF; exact B3|cbn [h next_cyc sh_fsize]; rewrite FS; lia|exact TY|].
  constructor; cbn [k_p k_recs k_flag k_type k_opaque]; auto; [apply pad64_length|].
  exists (back h fin). split; [rewrite E, LD, NM, EF; reflexivity|]. cbn [back sh_cyc sh_fsize sh_closure sh_type sh_opaque sh_major sh_minor]. split; [lia|]. split; [rewrite BL'; exact FS|]. split; [|split; [reflexivity|split; [reflexivity|exact VO]]].
  cbn [h next_cyc sh_closure]. destruct (negb (N.land (sh_closure (m_h m)) 1 =? 0) && fin); reflexivity.
Qed.

(** * What calls leave alone *)
Definition same_but_cache (d d' : sdb) : Prop := forall c, set_cache d' c = set_cache d c.
Lemma sbc_refl d : same_but_cache d d. Proof. intros c. reflexivity. Qed.
Lemma sbc_set d c : same_but_cache d (set_cache d c). Proof. intros c'. reflexivity. Qed.
Lemma sbc_trans a b c : same_but_cache a b -> same_but_cache b c -> same_but_cache a c.
Proof. intros H1 H2 x. rewrite H2. apply H1. Qed.
Lemma sbc_file d d' : same_but_cache d d' -> d_file d' = d_file d /\ d_updated d' = d_updated d.
Proof. intros H. specialize (H (d_cache d)). split; [apply (f_equal d_file) in H|apply (f_equal d_updated) in H]; exact H. Qed.
Lemma it_result_keep t d m r x d' m' : it_result t d m r = SOk (x, (d', m')) -> same_but_cache d d'.
Proof. unfold it_result. destruct r as [[[s c] it]| | |]; cbn; intros H; inversion H; subst. apply sbc_set. Qed.
Lemma lookup_keep g k d d' r : lookup g k d = SOk (d', r) -> same_but_cache d d'.
Proof.
  unfold lookup. destruct (search _ _ _ _ _) as [[c o]| | |]; cbn; try discriminate. destruct o as [r0|]; [|intros H; inversion H; apply sbc_set].
  destruct (get_value _ _ _); cbn; try discriminate. intros H; inversion H; apply sbc_set.
Qed.
Lemma call_keep g c d m x d' m' : do_call g c d m = SOk (x, (d', m')) -> same_but_cache d d'.
Proof.
  destruct c; cbn [do_call]; try (apply it_result_keep).
  - destruct (lookup g k d) as [[d1 v]| | |] eqn:E; cbn; try discriminate. intros H; inversion H; subst. exact (lookup_keep _ _ _ _ _ E).
  - unfold get_by_index. destruct (search_index _ _ _ _) as [[c o]| | |]; cbn; try discriminate. destruct o as [r|]; [|intros H; inversion H; apply sbc_set].
    destruct (get_value _ _ _); cbn; try discriminate. intros H; inversion H; apply sbc_set.
  - intros H; inversion H; apply sbc_refl.
  - destruct (it_get _ _ _) as [[[s r] it]| | |]; cbn; try discriminate. intros H; inversion H; apply sbc_refl.
Qed.
Lemma calls_keep g cs : forall d m os d', do_calls g cs d m = SOk (os, d') -> same_but_cache d d'.
Proof.
  induction cs as [|c cs IH]; intros d m os d' H; cbn [do_calls] in H; [inversion H; apply sbc_refl|].
  destruct (do_call g c d m) as [[o [d1 m1]]| | |] eqn:E; cbn [sbind] in H; try discriminate. destruct (do_calls g cs d1 m1) as [[os' d2]| | |] eqn:E2; cbn [sbind] in H; try discriminate.
  inversion H; subst. exact (sbc_trans _ _ _ (call_keep _ _ _ _ _ _ _ E) (IH _ _ _ _ E2)).
Qed.
Lemma update_keep g k a d d' : update_record g k a d = SOk d' -> d_file d' = d_file d /\ (d' = d /\ a = ANoop \/ d_updated d' = true).
Proof.
  unfold update_record. destruct a; [intros H; inversion H; subst; auto| |];
  (destruct (d_sorted d) as [sf|]; [|intros H; inversion H; subst; cbn; auto]; destruct (write_record _ _ _ _) as [w| | |]; cbn; try discriminate; intros H; inversion H; subst; cbn; auto).
Qed.
Lemma op_keep g (PO : sp_ok (g_sp g)) o d x r d' : holds g d (x_old x) (x_pend x) (x_srcs x) -> do_op g o d = SOk (r, d') -> (forall red, o <> OSync red) ->
  d_file d' = d_file d /\ ((d_updated d = false -> x_pend x = [] /\ x_srcs x = []) -> d_updated d' = false -> let x' := snd (spec_op (g_inorder g) o x) in x_pend x' = [] /\ x_srcs x' = []).
Proof.
  intros H E NS. destruct o as [k a|k h w|red| |s|cs|]; cbn [do_op spec_op snd] in *.
  - unfold insert in E. destruct (update_record g k a d) as [d1| | |] eqn:U; cbn in E; try discriminate. inversion E; subst. destruct (update_keep _ _ _ _ _ U) as (F & [[-> ->]|T]); split; auto.
    + intros A B. cbn [add_event x_pend x_srcs event_of]. rewrite app_nil_r. auto.
    + rewrite T. discriminate.
  - unfold sdb_process in E. destruct (lookup_ok g PO d _ _ _ k H) as (c & L & _). rewrite L in E. cbn [sbind] in E.
    destruct w.
    + assert (E' : exists s1, (let* d2 := update_record g k (h (first_val k (x_old x))) (set_cache d c) in SOk (d2, s1)) = SOk (d', match r with HSeen s => s | _ => None end)).
      { destruct (first_val k (x_old x)); cbn [watcher on_full on_empty] in E; destruct (update_record g k _ (set_cache d c)); cbn [sbind] in *; try discriminate; inversion E; subst; eauto. }
      destruct E' as (s1 & E'). destruct (update_record g k _ (set_cache d c)) as [d2| | |] eqn:U; cbn [sbind] in E'; try discriminate. inversion E'; subst. destruct (update_keep _ _ _ _ _ U) as (F & [[-> A]|T]); split; auto.
      * intros B C. rewrite A. cbn [add_event x_pend x_srcs event_of]. rewrite app_nil_r. auto.
      * rewrite T. discriminate.
    + destruct (first_val k (x_old x)); cbn in E; inversion E; subst; auto.
  - exfalso. exact (NS red eq_refl).
  - inversion E; subst. unfold revert, prepare. destruct (g_inorder g); cbn; auto.
  - inversion E; subst. cbn. split; [reflexivity|]. discriminate.
  - destruct (do_calls g cs d _) as [[os d1]| | |] eqn:C; cbn in E; try discriminate. inversion E; subst. destruct (sbc_file _ _ (calls_keep _ _ _ _ _ _ C)) as [A B]. split; [exact A|]. rewrite B. auto.
  - inversion E; subst. auto.
Qed.

(** * Finishing *)
Lemma finish_ok g (PO : sp_ok (g_sp g)) red d x : holds g d (x_old x) (x_pend x) (x_srcs x) -> op_ok g (OSync red) x -> let R := merged red (all_events x) in
  exists d1, finish g red d = SOk d1 /\ stored (g_sp g) (d_file d1) R /\ fits (g_sp g) R /\ ordered R /\ Forall plain (kept R) /\ d_num d1 = length R /\ d_eff d1 = data_size R /\ d_sorted d1 = None /\ d_updated d1 = false.
Proof.
  intros H (F & P & I) R. destruct (sync_ok g PO red d _ _ _ H I F P) as (d' & E & H'). change (merged red (events (x_old x) (x_pend x) (x_srcs x))) with R in H'.
  unfold synchronize in E. destruct (finish g red d) as [d1| | |] eqn:FE; cbn [sbind] in E; try discriminate. inversion E as [E']. clear E.
  exists d1. split; [reflexivity|]. assert (Q : d_file d' = d_file d1 /\ d_num d' = d_num d1 /\ d_eff d' = d_eff d1) by (subst d'; unfold prepare; destruct (g_inorder g); cbn; auto). destruct Q as (Q1 & Q2 & Q3).
  split; [rewrite <- Q1; apply (h_file _ _ _ _ _ H')|]. split; [exact F|]. split; [apply (h_ord _ _ _ _ _ H')|]. split; [exact P|].
  split; [rewrite <- Q2, (h_num _ _ _ _ _ H'); destruct (g_inorder g); cbn [length]; lia|]. split; [rewrite <- Q3, (h_eff _ _ _ _ _ H'); destruct (g_inorder g); cbn [map data_size fold_right]; lia|].
  clear - FE. unfold finish in FE. destruct red as [h|].
  - destruct (so_finish _) as [sl| | |]; cbn [sbind] in FE; try discriminate. destruct (merge_loop _ _ _ _ _ _ _) as [w| | |]; cbn [sbind] in FE; try discriminate. inversion FE; subst. auto.
  - destruct (d_sorted d) as [sf|].
    + destruct ((blen (d_file d) =? 128) && negb (so_updated (d_sorter d))); [inversion FE; subst; auto|].
      destruct (so_finish _) as [sl| | |]; cbn [sbind] in FE; try discriminate. destruct (merge_loop _ _ _ _ _ _ _) as [w| | |]; cbn [sbind] in FE; try discriminate. inversion FE; subst. auto.
    + destruct (so_finish _) as [sl| | |]; cbn [sbind] in FE; try discriminate. destruct (merge_loop _ _ _ _ _ _ _) as [w| | |]; cbn [sbind] in FE; try discriminate. inversion FE; subst. auto.
Qed.
Lemma fresh_ok m l : let g := m_g m in let d := m_d m in sp_ok (g_sp g) -> stored (g_sp g) (d_file d) l -> fits (g_sp g) l -> ordered l -> Forall plain (kept l) -> d_num d = length l -> d_eff d = data_size l ->
  (g_inorder g = false -> d_sorted d = None) -> holds g (m_d (fresh m)) l [] [] /\ d_file (m_d (fresh m)) = d_file d /\ d_updated (m_d (fresh m)) = d_updated d.
Proof.
  intros g d PO ST FT OR PL NM EF SN. unfold fresh. cbn [m_d with_d]. fold g d.
  assert (Q : prepare g d = prepare g (mkDB (d_file d) (d_num d) (d_eff d) (d_old_num d) (d_old_eff d) (d_removed d) (d_updated d) None (d_idx d) (d_past d) (d_sorter d) (d_cache d))).
  { unfold prepare. cbn. destruct (g_inorder g) eqn:E; [reflexivity|]. rewrite (SN eq_refl). reflexivity. }
  assert (N : d_num (prepare g d) = length l) by (unfold prepare; destruct (g_inorder g); cbn; exact NM). rewrite N.
  split; [|split; unfold prepare; destruct (g_inorder g); reflexivity].
  rewrite Q. apply (prepare_ok g); auto. apply cache_new_ok. apply PO.
Qed.
(** Without events the records stay. *)
Lemma merged_same l : ordered l -> merged None (kept l) = l.
Proof. intros O. apply ordered_ext; [apply merged_ordered|exact O|]. intros k. exact (C18_merged_all l k). Qed.

(** * The relation of the model and the specification *)
(** A database that is only read. *)
Record quiet (p : sp) (d : sdb) (l : list krec) : Prop := mkQ {
  q_file : stored p (d_file d) l; q_fits : fits p l; q_ord : ordered l; q_plain : Forall plain (kept l); q_num : d_num d = length l; q_eff : d_eff d = data_size l; q_cache : cache_ok p l (d_cache d); q_upd : d_updated d = false }.
Record rel (m : mdb) (s : sess) : Prop := mkRel {
  r_g : m_g m = s_g s; r_w : m_writable m = s_w s; r_h : m_healthy m = s_h s; r_a : m_auto m = s_a s; r_flag : negb (N.land (sh_closure (m_h m)) 1 =? 0) = s_flag s;
  r_type : sh_type (m_h m) = s_type s; r_tlt : s_type s < 2^32; r_opq : sh_opaque (m_h m) = s_opaque s; r_ver : ver_ok (sh_major (m_h m)) (sh_minor (m_h m)); r_rng : sp_rng (g_sp (s_g s));
  r_disk : disk_ok (on_disk m) (s_disk s);
  r_state : let x := s_x s in
    if s_w s && s_h s then holds (s_g s) (m_d m) (x_old x) (x_pend x) (x_srcs x) /\ (d_updated (m_d m) = false -> x_pend x = [] /\ x_srcs x = [])
    else quiet (g_sp (s_g s)) (m_d m) (x_old x) /\ x_pend x = [] /\ x_srcs x = [] }.

Lemma zeros_region f n : zero_region (f ++ repeat 0 n) (blen f) = true.
Proof.
  unfold zero_region. apply forallb_forall. intros b Hb. apply N.eqb_eq. rewrite to_nat_blen, skipn_exact in Hb by reflexivity.
  assert (I : In b (repeat 0 n)). { rewrite <- (firstn_skipn (N.to_nat 131072) (repeat 0 n)). apply in_or_app. left. exact Hb. }
  apply repeat_spec in I. exact I.
Qed.
Lemma lor_flag c : negb (N.land (N.lor c 1) 1 =? 0) = true.
Proof. rewrite N.land_lor_distr_l. change (N.land 1 1) with 1. destruct (N.eqb_spec (N.lor (N.land c 1) 1) 0) as [E|]; [|reflexivity]. apply N.lor_eq_0_iff in E. lia. Qed.
Lemma load_app f g s : load f = SOk s -> load (f ++ g) = SOk s.
Proof.
  unfold load, read_meta. destruct (N.ltb_spec (blen f) 128) as [X|X]; [discriminate|]. destruct (N.ltb_spec (blen (f ++ g)) 128) as [Y|_]; [rewrite blen_app in Y; lia|].
  assert (P : forall i n, (i + n <= 128)%nat -> firstn n (skipn i (f ++ g)) = firstn n (skipn i f)).
  { intros i n H. unfold blen in X. rewrite skipn_app, firstn_app. replace (n - length (skipn i f))%nat with 0%nat by (rewrite skipn_length; lia). cbn [firstn]. apply app_nil_r. }
  assert (P0 := P 0%nat 9%nat ltac:(lia)). cbn [skipn] in P0. rewrite P0. unfold fld, HashMetaModel.fld. rewrite !P by lia. auto.
Qed.
(** Opening a file that is as it was left, for any way of opening it. *)
Lemma open_ok rst ver t w tn f n k : file_ok f k ->
  exists m, m_open_with rst ver t w tn (f ++ repeat 0 n) = SOk m /\ rel m (spec_open w tn k).
Proof.
  intros [RNG ST FT OR PL TY OQ (h & LD & CY & FS & CL & HT & HO & VO)].
  assert (BL : 128 <= blen f) by (rewrite (stored_len _ _ _ ST); apply off_base). assert (PO := rng_ok _ RNG).
  unfold m_open_with. destruct (N.ltb_spec (blen (f ++ repeat 0 n)) 1) as [X|_]; [rewrite blen_app in X; lia|]. rewrite andb_false_r.
  rewrite (load_app f (repeat 0 n) _ LD). cbn [sbind sm_h sm_p sm_num sm_eff]. destruct (Z.ltb_spec (sh_cyc h) 0) as [X|_]; [lia|]. cbv zeta. rewrite FS, CL.
  assert (E : (if Z.eqb (Z.of_N (blen f)) (Z.of_N (blen (f ++ repeat 0 n))) then (k_flag k, false, f ++ repeat 0 n) else if Z.ltb (Z.of_N (blen (f ++ repeat 0 n))) (Z.of_N (blen f)) then (false, true, f ++ repeat 0 n)
      else if zero_region (f ++ repeat 0 n) (Z.to_N (Z.of_N (blen f))) then (k_flag k, false, firstn (Z.to_nat (Z.of_N (blen f))) (f ++ repeat 0 n)) else (false, true, f ++ repeat 0 n)) = (k_flag k, false, f)).
  { destruct (Z.eqb_spec (Z.of_N (blen f)) (Z.of_N (blen (f ++ repeat 0 n)))) as [E|NE].
    - rewrite blen_app in E. assert (n = O) by (unfold blen in E; rewrite repeat_length in E; lia). subst n. cbn [repeat]. rewrite app_nil_r. reflexivity.
    - destruct (Z.ltb_spec (Z.of_N (blen (f ++ repeat 0 n))) (Z.of_N (blen f))) as [X|_]; [rewrite blen_app in X; lia|]. rewrite N2Z.id, zeros_region. f_equal.
      replace (Z.to_nat (Z.of_N (blen f))) with (length f) by (unfold blen; lia). apply firstn_exact. reflexivity. }
  unfold bytes in *. rewrite E. clear E. cbn [andb].
  assert (LO : forall h' w' h0 a, let m := loaded tn (mkSM (k_p k) (Z.of_nat (length (k_recs k))) (Z.of_N (data_size (k_recs k))) h') f w' h0 a (f ++ repeat 0 n) in
    m_g m = tuned_cfg tn (k_p k) /\ d_file (m_d m) = f /\ d_num (m_d m) = length (k_recs k) /\ d_eff (m_d m) = data_size (k_recs k) /\ d_sorted (m_d m) = None /\ d_updated (m_d m) = false).
  { intros. cbn. rewrite ?Nat2Z.id, ?N2Z.id. auto 8. }
  assert (AL : forall h' a b, sh_fsize h' = sh_fsize h -> sh_type h' = sh_type h -> sh_opaque h' = sh_opaque h -> ver_ok (sh_major h') (sh_minor h') -> negb (N.land (sh_closure h') 1 =? 0) = true ->
    spec_open true tn k = mkS (tuned_cfg tn (k_p k)) (mkH (k_recs k) [] []) true true b true (k_type k) (k_opaque k) (mkK (k_p k) (k_recs k) false (k_type k) (k_opaque k)) -> a = b ->
    rel (fresh (save false (loaded tn (mkSM (k_p k) (Z.of_nat (length (k_recs k))) (Z.of_N (data_size (k_recs k))) h') f true true a (f ++ repeat 0 n)))) (spec_open true tn k)).
  { intros h' a b F1 F2 F3 F4 F5 SP ->. rewrite SP. destruct (LO h' true true b) as (L1 & L2 & L3 & L4 & L5 & L6). set (m := loaded _ _ _ _ _ _ _) in *.
    assert (SV : file_ok (d_file (m_d (save false m))) (mkK (k_p k) (k_recs k) (negb (N.land (sh_closure (m_h m)) 1 =? 0) && false) (sh_type (m_h m)) (pad64 (sh_opaque (m_h m))))).
    { change (k_p k) with (g_sp (m_g m)) at 1. apply save_ok; auto; rewrite ?L1, ?L2; auto; cbn [m loaded m_h sm_h]; [rewrite F1; exact FS|rewrite F2, HT; exact TY]. }
    rewrite andb_false_r in SV.
    destruct (fresh_ok (save false m) (k_recs k)) as (H1 & H2 & H3); [exact PO|exact (fo_stored _ _ SV)|exact FT|exact OR|exact PL|exact L3|exact L4|intros _; exact L5|].
    constructor; cbn [s_g s_w s_h s_a s_flag s_type s_opaque s_disk s_x k_flag k_type k_opaque x_old x_pend x_srcs]; auto.
    - cbn. rewrite F2. exact HT.
    - cbn. rewrite F3. exact HO.
    - unfold on_disk. replace (m_writable (fresh (save false m))) with true by reflexivity. rewrite H2. exists (d_file (m_d (save false m))), 0%nat. cbn [repeat]. rewrite app_nil_r. split; [reflexivity|].
      cbn [m loaded m_h sm_h] in SV. rewrite F2, F3, HT, HO, pad64_id in SV by exact OQ. exact SV.
    - cbn [andb]. split; [exact H1|auto]. }
  assert (QU : forall w' fl, fl = k_flag k -> w' && fl = false ->
    spec_open w tn k = mkS (tuned_cfg tn (k_p k)) (mkH (k_recs k) [] []) w' fl false fl (k_type k) (k_opaque k) k ->
    rel (loaded tn (mkSM (k_p k) (Z.of_nat (length (k_recs k))) (Z.of_N (data_size (k_recs k))) h) f w' fl false (f ++ repeat 0 n)) (spec_open w tn k)).
  { intros w' fl EF NF SP. rewrite SP. destruct (LO h w' fl false) as (L1 & L2 & L3 & L4 & L5 & L6). set (m := loaded _ _ _ _ _ _ _) in *.
    constructor; cbn [s_g s_w s_h s_a s_flag s_type s_opaque s_disk s_x k_flag k_type k_opaque x_old x_pend x_srcs]; auto.
    - cbn. rewrite CL. auto.
    - unfold on_disk. cbn [m loaded m_writable m_d m_orig d_file]. destruct w'; [exists f, 0%nat; cbn [repeat]; rewrite app_nil_r|exists f, n]; (split; [reflexivity|]); constructor; eauto 12.
    - rewrite NF. split; [|auto]. constructor; auto; cbn; rewrite ?Nat2Z.id; auto. apply cache_new_ok. apply PO. }
  destruct (k_flag k) eqn:FL.
  - cbn [negb]. rewrite andb_false_r. cbn [andb sbind]. eexists. split; [reflexivity|]. cbn [loaded m_writable m_healthy]. rewrite andb_true_r. destruct w.
    + apply (AL h false false); auto. unfold spec_open. rewrite FL. reflexivity.
    + apply QU; auto. unfold spec_open. rewrite FL. reflexivity.
  - cbn [negb]. rewrite andb_true_r. destruct w; cbn [andb].
    + destruct (t_mode tn) eqn:MO; cbn [sbind]; (eexists; split; [reflexivity|]); cbn [loaded m_writable m_healthy andb].
      1, 2, 4: apply (AL (with_closure h (N.lor (sh_closure h) 1)) true true); auto; [apply lor_flag|unfold spec_open, restoring; rewrite FL, MO; reflexivity].
      apply QU; auto. unfold spec_open, restoring. rewrite FL, MO. reflexivity.
    + cbn [sbind]. eexists. split; [reflexivity|]. cbn [loaded m_writable m_healthy andb]. apply QU; auto. unfold spec_open. rewrite FL. reflexivity.
Qed.
