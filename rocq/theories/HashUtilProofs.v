(** Lemmas about checksums and CRCs. *)
From Verif Require Import Bytes CodecModel CodecProofs HashUtilModel HashUtilSpec.
Open Scope N_scope.

(** Sum of the bytes of a string. *)
Fixpoint bsum (l : bytes) : N := match l with [] => 0 | b :: l' => b + bsum l' end.

Lemma bsum_app a b : bsum (a ++ b) = bsum a + bsum b.
Proof. induction a as [|x a IH]; cbn [bsum app]; [lia|]. lia. Qed.
Lemma bsum_bound l : bytes_ok l -> bsum l <= 255 * blen l.
Proof.
  induction l as [|x l IH]; intros H; [cbn; lia|]. inversion H as [|? ? H1 H2]; subst.
  rewrite blen_cons. cbn [bsum]. specialize (IH H2). unfold byte_ok in H1. lia.
Qed.

Lemma csum_loop_spec m l : 0 < m -> m <= 16777216 -> bytes_ok l ->
  forall seed cnt, seed <= 16777216 + 255 * cnt -> cnt < batch_cap ->
  (l <> [] \/ cnt <> 0) -> csum_loop m l seed cnt = (seed + bsum l) mod m.
Proof.
  intros Hm Hm2. induction l as [|b l IH]; intros Hok seed cnt Hs Hc Hne; cbn [csum_loop].
  - destruct (N.eqb_spec cnt 0); [destruct Hne; congruence|]. cbn [bsum]. rewrite N.add_0_r. reflexivity.
  - inversion Hok as [|? ? H1 H2]; subst. unfold byte_ok in H1. unfold batch_cap in *.
    assert (E : (seed + b) mod two32 = seed + b) by (apply N.mod_small; unfold two32; lia).
    rewrite E. cbn [bsum].
    destruct (N.eqb_spec (cnt + 1) 8388608).
    + destruct l as [|b' l'].
      * cbn [csum_loop]. change (0 =? 0) with true. cbn [bsum]. f_equal. lia.
      * rewrite IH; [|exact H2| | lia | left; discriminate].
        -- rewrite N.add_mod_idemp_l by lia. f_equal. lia.
        -- assert (Hb := N.mod_lt (seed + b) m). lia.
    + rewrite IH; [f_equal; lia|exact H2|lia|lia|right; lia].
Qed.

Lemma csum_continuous_spec m l seed : 0 < m -> m <= 16777216 -> bytes_ok l -> seed < m ->
  csum_continuous m l seed = (seed + bsum l) mod m.
Proof.
  intros. unfold csum_continuous. destruct l as [|b l].
  - cbn [csum_loop]. change (0 =? 0) with true. cbn [bsum]. cbn iota.
    rewrite N.add_0_r. symmetry; apply N.mod_small; lia.
  - apply csum_loop_spec; auto; try lia; unfold batch_cap; try lia. left; discriminate.
Qed.

Lemma fold_sum_spec l seed : seed + 255 * blen l < two32 -> bytes_ok l ->
  fold_left (fun s x => (s + x) mod two32) l seed = seed + bsum l.
Proof.
  revert seed; induction l as [|b l IH]; intros seed H Hok; cbn [fold_left bsum]; [lia|].
  inversion Hok as [|? ? H1 H2]; subst. unfold byte_ok in H1. rewrite blen_cons in H.
  rewrite N.mod_small by lia. rewrite IH; [lia|lia|exact H2].
Qed.

Lemma csum_pair_spec m a b seed : 0 < m -> m <= 16777216 -> bytes_ok a -> bytes_ok b -> seed < m ->
  csum_pair m a b seed = (seed + bsum (a ++ b)) mod m.
Proof.
  intros Hm Hm2 Ha Hb Hs. unfold csum_pair. rewrite bsum_app.
  destruct (N.ltb_spec (blen a + blen b) batch_cap) as [L|L].
  - unfold batch_cap in L. assert (Hba := bsum_bound a Ha).
    rewrite (fold_sum_spec a) by (auto; unfold two32; lia).
    rewrite (fold_sum_spec b) by (auto; unfold two32; lia). f_equal; lia.
  - rewrite (csum_continuous_spec m a) by auto.
    rewrite csum_continuous_spec; auto; [|apply N.mod_lt; lia].
    rewrite N.add_mod_idemp_l by lia. f_equal; lia.
Qed.

Lemma csum_pair_lt m a b seed : 0 < m -> m <= 16777216 -> seed < m -> csum_pair m a b seed < m.
Proof.
  intros Hm Hm2 Hs. unfold csum_pair.
  destruct (blen a + blen b <? batch_cap); [apply N.mod_lt; lia|].
  assert (G : forall l s c, (c = 0 -> s < m) -> csum_loop m l s c < m).
  { induction l as [|x l IH]; intros s c H; cbn [csum_loop].
    - destruct (N.eqb_spec c 0); [auto|apply N.mod_lt; lia].
    - destruct (c + 1 =? batch_cap); apply IH; intros; [apply N.mod_lt; lia|lia]. }
  unfold csum_continuous. apply G. intros _. apply G. auto.
Qed.

Lemma magic_checksum_range k v : 3 <= magic_checksum k v < 64.
Proof. unfold magic_checksum. assert (H := csum_pair_lt 61 k v 11). lia. Qed.

(** ** CRC: linearity *)

Lemma odd_lxor a b : N.odd (N.lxor a b) = xorb (N.odd a) (N.odd b).
Proof. rewrite <- !N.bit0_odd. apply N.lxor_spec. Qed.

Lemma lxor_4 a b c d : N.lxor (N.lxor a b) (N.lxor c d) = N.lxor (N.lxor a c) (N.lxor b d).
Proof. rewrite !N.lxor_assoc. f_equal. rewrite <- !N.lxor_assoc. f_equal. apply N.lxor_comm. Qed.

Definition linear (f : N -> N) : Prop := forall a b, f (N.lxor a b) = N.lxor (f a) (f b).

Lemma rstep_linear p : linear (crc_rstep p).
Proof.
  intros a b. unfold crc_rstep. rewrite odd_lxor, N.shiftr_lxor.
  destruct (N.odd a), (N.odd b); cbn [xorb].
  - rewrite lxor_4, N.lxor_nilpotent, N.lxor_0_r. reflexivity.
  - rewrite !N.lxor_assoc. f_equal. apply N.lxor_comm.
  - rewrite !N.lxor_assoc. reflexivity.
  - reflexivity.
Qed.

Lemma land_lxor_distr a b c : N.land (N.lxor a b) c = N.lxor (N.land a c) (N.land b c).
Proof.
  apply N.bits_inj. intros i. rewrite N.lxor_spec, !N.land_spec, N.lxor_spec.
  destruct (N.testbit a i), (N.testbit b i), (N.testbit c i); reflexivity.
Qed.

Lemma crc8_step_linear : linear crc8_step.
Proof.
  intros a b. unfold crc8_step. rewrite N.shiftl_lxor, land_lxor_distr, N.lxor_spec.
  rewrite lxor_4. f_equal. destruct (N.testbit a 7), (N.testbit b 7); reflexivity.
Qed.

Lemma crc16_step_alt c :
  crc16_step c = N.lxor (N.land (N.shiftl c 1) 65535) (if N.testbit c 15 then 4129 else 0).
Proof. unfold crc16_step. destruct (N.testbit c 15); [apply N.lxor_comm|rewrite N.lxor_0_r; reflexivity]. Qed.

Lemma crc16_step_linear : linear crc16_step.
Proof.
  intros a b. rewrite !crc16_step_alt. rewrite N.shiftl_lxor, land_lxor_distr, N.lxor_spec.
  rewrite lxor_4. f_equal. destruct (N.testbit a 15), (N.testbit b 15); reflexivity.
Qed.

Lemma iter_linear n f : linear f -> linear (iter_n n f).
Proof.
  intros H. induction n as [|n IH]; intros a b; cbn [iter_n]; [reflexivity|].
  rewrite H. apply IH.
Qed.

Lemma linear_0 f : linear f -> f 0 = 0.
Proof.
  intros H. assert (E := H 0 0). rewrite N.lxor_nilpotent in E. rewrite N.lxor_nilpotent in E. exact E.
Qed.

Lemma iter_n_add n m f x : iter_n (n + m) f x = iter_n m f (iter_n n f x).
Proof. revert x; induction n as [|n IH]; intros x; cbn [iter_n Nat.add]; [reflexivity|apply IH]. Qed.

Lemma shiftr_lor_pieces c : c = N.lxor (N.land c 255) (N.shiftl (N.shiftr c 8) 8).
Proof.
  apply N.bits_inj. intros i. rewrite N.lxor_spec, N.land_spec.
  change 255 with (N.ones 8).
  destruct (N.ltb_spec i 8) as [H|H].
  - rewrite N.ones_spec_low by exact H. rewrite N.shiftl_spec_low by exact H.
    rewrite andb_true_r, xorb_false_r. reflexivity.
  - rewrite N.ones_spec_high by exact H. rewrite N.shiftl_spec_high' by exact H.
    rewrite N.shiftr_spec', andb_false_r, xorb_false_l. f_equal. lia.
Qed.

(** Eight bit steps of a reflected CRC on a multiple of 256 are a byte shift. *)
Lemma rstep_shiftl p x n : crc_rstep p (N.shiftl x (N.succ n)) = N.shiftl x n.
Proof.
  unfold crc_rstep. rewrite <- N.bit0_odd, N.shiftl_spec_low by lia.
  rewrite N.shiftr_shiftl_l by lia. f_equal. lia.
Qed.

Lemma iter8_shiftl p x : iter_n 8 (crc_rstep p) (N.shiftl x 8) = x.
Proof.
  cbn [iter_n]. change 8 with (N.succ 7). rewrite rstep_shiftl.
  change 7 with (N.succ 6). rewrite rstep_shiftl. change 6 with (N.succ 5). rewrite rstep_shiftl.
  change 5 with (N.succ 4). rewrite rstep_shiftl. change 4 with (N.succ 3). rewrite rstep_shiftl.
  change 3 with (N.succ 2). rewrite rstep_shiftl. change 2 with (N.succ 1). rewrite rstep_shiftl.
  change 1 with (N.succ 0). rewrite rstep_shiftl. apply N.shiftl_0_r.
Qed.

(** The byte-wise table step is eight bit steps. *)
Lemma crc_byte_bitwise p crc b : b < 256 ->
  crc_byte (crc_rtable p) crc b = iter_n 8 (crc_rstep p) (N.lxor crc b).
Proof.
  intros Hb. unfold crc_byte, crc_rtable.
  rewrite (shiftr_lor_pieces crc) at 3.
  rewrite (N.lxor_comm (N.land crc 255) (N.shiftl _ _)), N.lxor_assoc.
  rewrite (iter_linear 8 _ (rstep_linear p) (N.shiftl _ _)). rewrite iter8_shiftl. reflexivity.
Qed.

(** Little-endian number of a string. *)
Fixpoint lew (l : bytes) : N :=
  match l with [] => 0 | b :: l' => N.lxor b (N.shiftl (lew l') 8) end.

Lemma iter8_shiftl_n p n x : iter_n (8 * n) (crc_rstep p) (N.shiftl x (8 * N.of_nat n)) = x.
Proof.
  revert x; induction n as [|n IH]; intros x; [apply N.shiftl_0_r|].
  replace (8 * S n)%nat with (8 + 8 * n)%nat by lia. rewrite iter_n_add.
  replace (8 * N.of_nat (S n)) with (8 * N.of_nat n + 8) by lia.
  rewrite <- N.shiftl_shiftl, iter8_shiftl. apply IH.
Qed.

(** Any number of bytes at once. *)
Lemma crc_bytes_bitwise p l crc : bytes_ok l ->
  crc_bytes (crc_rtable p) l crc = iter_n (8 * length l) (crc_rstep p) (N.lxor crc (lew l)).
Proof.
  revert crc; induction l as [|b l IH]; intros crc Hok.
  - cbn [lew length iter_n crc_bytes fold_left]. rewrite N.lxor_0_r. reflexivity.
  - inversion Hok as [|? ? H1 H2]; subst. unfold crc_bytes in *. cbn [fold_left lew].
    rewrite IH by exact H2. rewrite crc_byte_bitwise by exact H1.
    replace (8 * length (b :: l))%nat with (8 + 8 * length l)%nat by (cbn [length]; lia).
    rewrite iter_n_add. f_equal. rewrite <- N.lxor_assoc.
    rewrite (iter_linear 8 _ (rstep_linear p) (N.lxor crc b)). rewrite iter8_shiftl. reflexivity.
Qed.

(** ** Slicing by four, for any table derived from a linear function *)

Lemma shiftr_land_255 c k : N.land (N.shiftr c k) 255 = N.shiftr c k mod 256.
Proof. apply land_255. Qed.

Section Sliced.
Variable t0 : N -> N.
Hypothesis t0_lin : linear t0.

(** One byte step on a linear table is linear in (crc, byte) jointly. *)
Lemma crc_byte_lin c1 c2 b1 b2 :
  crc_byte t0 (N.lxor c1 c2) (N.lxor b1 b2) = N.lxor (crc_byte t0 c1 b1) (crc_byte t0 c2 b2).
Proof.
  unfold crc_byte. rewrite N.shiftr_lxor, land_lxor_distr.
  rewrite (lxor_4 (N.land c1 255)). rewrite t0_lin.
  rewrite !N.lxor_assoc. f_equal. rewrite <- !N.lxor_assoc. f_equal. apply N.lxor_comm.
Qed.

Let adv (c : N) := crc_byte t0 c 0.

Lemma adv_lin : linear adv.
Proof. intros a b. unfold adv. rewrite <- crc_byte_lin. rewrite N.lxor_nilpotent. reflexivity. Qed.

Lemma crc_byte_adv c b : b < 256 -> crc_byte t0 c b = adv (N.lxor c b).
Proof.
  intros Hb. unfold adv, crc_byte. rewrite N.shiftr_lxor, land_lxor_distr, N.lxor_0_r.
  rewrite (land_255 b), (N.mod_small b) by exact Hb.
  replace (N.shiftr b 8) with 0; [rewrite N.lxor_0_r; reflexivity|].
  rewrite shiftr_div. symmetry; apply N.div_small; exact Hb.
Qed.

Lemma adv_shiftl x : adv (N.shiftl x 8) = x.
Proof.
  unfold adv, crc_byte. rewrite N.lxor_0_r.
  rewrite N.shiftr_shiftl_l by lia. rewrite N.sub_diag, N.shiftl_0_r.
  replace (N.land (N.shiftl x 8) 255) with 0.
  - rewrite (linear_0 _ t0_lin), N.lxor_0_r. reflexivity.
  - symmetry. rewrite land_255, N.shiftl_mul_pow2. apply N.mod_mul. discriminate.
Qed.

Lemma adv_small i : i < 256 -> adv i = t0 i.
Proof.
  intros H. unfold adv, crc_byte. rewrite N.lxor_0_r, land_255, N.mod_small by exact H.
  rewrite shiftr_div, N.div_small by exact H. apply N.lxor_0_l.
Qed.

Lemma crc_t1_adv t i : crc_t1 t0 t i = adv (t i).
Proof. unfold crc_t1, adv, crc_byte. rewrite N.lxor_0_r. reflexivity. Qed.

Lemma lew4 b0 b1 b2 b3 : b0 < 256 -> b1 < 256 -> b2 < 256 -> b3 < 256 ->
  le32 b0 b1 b2 b3 = lew [b0; b1; b2; b3].
Proof.
  intros H0 H1 H2 H3. cbn [lew]. rewrite N.shiftl_0_l, N.lxor_0_r.
  assert (G : forall x y, x < 256 -> N.lxor x (N.shiftl y 8) = x + 256 * y).
  { intros x y Hx. rewrite N.add_nocarry_lxor.
    - rewrite N.shiftl_mul_pow2. f_equal. change (2^8) with 256. lia.
    - apply N.bits_inj_0. intros i. rewrite N.land_spec.
      destruct (N.ltb_spec i 8) as [L|L].
      + replace (256 * y) with (N.shiftl y 8) by (rewrite N.shiftl_mul_pow2; change (2^8) with 256; lia).
        rewrite N.shiftl_spec_low by exact L. apply andb_false_r.
      + replace (N.testbit x i) with false; [reflexivity|].
        symmetry. destruct (N.eq_dec x 0) as [->|Hx0]; [apply N.bits_0|].
        apply N.bits_above_log2. apply N.lt_le_trans with 8; [|exact L].
        apply N.log2_lt_pow2; [lia|exact Hx]. }
  rewrite (G b2 b3) by exact H2. rewrite (G b1) by exact H1. rewrite (G b0) by exact H0.
  unfold le32. lia.
Qed.

Lemma four_bytes c b0 b1 b2 b3 : b0 < 256 -> b1 < 256 -> b2 < 256 -> b3 < 256 ->
  crc_bytes t0 [b0; b1; b2; b3] c = adv (adv (adv (adv (N.lxor c (lew [b0; b1; b2; b3]))))).
Proof.
  intros H0 H1 H2 H3. unfold crc_bytes. cbn [fold_left lew].
  rewrite !crc_byte_adv by assumption.
  rewrite N.shiftl_0_l, N.lxor_0_r.
  rewrite <- (N.lxor_assoc c b0), (adv_lin (N.lxor c b0)), adv_shiftl.
  rewrite <- (N.lxor_assoc _ b1), (adv_lin _ (N.shiftl _ 8)), adv_shiftl.
  rewrite <- (N.lxor_assoc _ b2), (adv_lin _ (N.shiftl _ 8)), adv_shiftl. reflexivity.
Qed.

Lemma bytes_of_word c : c < two32 ->
  c = N.lxor (N.land c 255) (N.shiftl (N.lxor (N.land (N.shiftr c 8) 255)
      (N.shiftl (N.lxor (N.land (N.shiftr c 16) 255) (N.shiftl (N.shiftr c 24) 8)) 8)) 8).
Proof.
  intros _. rewrite (shiftr_lor_pieces c) at 1. f_equal. f_equal.
  rewrite (shiftr_lor_pieces (N.shiftr c 8)) at 1. f_equal. f_equal.
  rewrite N.shiftr_shiftr. change (8 + 8) with 16.
  rewrite (shiftr_lor_pieces (N.shiftr c 16)) at 1. f_equal.
Qed.

Lemma land255_lt x : N.land x 255 < 256.
Proof. rewrite land_255. apply N.mod_lt. discriminate. Qed.

Lemma sliced_word c b0 b1 b2 b3 : b0 < 256 -> b1 < 256 -> b2 < 256 -> b3 < 256 -> c < two32 ->
  let w := N.lxor c (le32 b0 b1 b2 b3) in
  let t1 := crc_t1 t0 t0 in
  let t2 := crc_t1 t0 t1 in
  let t3 := crc_t1 t0 t2 in
  N.lxor (t3 (N.land w 255))
    (N.lxor (t2 (N.land (N.shiftr w 8) 255))
    (N.lxor (t1 (N.land (N.shiftr w 16) 255)) (t0 (N.shiftr w 24))))
  = crc_bytes t0 [b0; b1; b2; b3] c.
Proof.
  intros H0 H1 H2 H3 Hc w t1 t2 t3.
  rewrite four_bytes by assumption. rewrite <- lew4 by assumption. fold w.
  assert (Hw : w < two32).
  { unfold w. rewrite <- (N.mod_small (le32 b0 b1 b2 b3) two32) by (unfold le32, two32; lia).
    rewrite <- (N.mod_small c two32) by exact Hc.
    unfold two32. change 4294967296 with (2^32). rewrite <- !N.land_ones, <- land_lxor_distr, N.land_ones.
    apply N.mod_lt. discriminate. }
  assert (Hw3 : N.shiftr w 24 < 256).
  { rewrite shiftr_div. apply N.div_lt_upper_bound; [discriminate|]. unfold two32 in Hw. exact Hw. }
  rewrite (bytes_of_word w Hw) at 5.
  rewrite (adv_lin (N.land w 255)), adv_shiftl.
  rewrite (adv_lin _ (N.lxor _ _)), (adv_lin _ (N.shiftl _ 8)), adv_shiftl.
  rewrite (adv_lin _ (N.lxor (adv _) _)), (adv_lin (adv (N.land (N.shiftr w 8) 255))),
    (adv_lin (N.land (N.shiftr w 16) 255)), adv_shiftl.
  rewrite (adv_lin _ (N.lxor (adv (adv _)) _)), (adv_lin _ (N.lxor (adv _) _)),
    (adv_lin _ (N.shiftr w 24)).
  rewrite (adv_small (N.shiftr w 24) Hw3).
  unfold t3, t2, t1. rewrite !crc_t1_adv.
  rewrite !(adv_small (N.land _ 255)) by apply land255_lt. reflexivity.
Qed.

Hypothesis t0_bound : forall i, i < 256 -> t0 i < two32.

Lemma lxor_lt_pow2 a b n : a < 2^n -> b < 2^n -> N.lxor a b < 2^n.
Proof.
  intros Ha Hb. rewrite <- (N.mod_small a (2^n)) by exact Ha. rewrite <- (N.mod_small b (2^n)) by exact Hb.
  rewrite <- !N.land_ones, <- land_lxor_distr, N.land_ones. apply N.mod_lt, N.pow_nonzero. discriminate.
Qed.

Lemma crc_byte_bound c b : c < two32 -> b < 256 -> crc_byte t0 c b < two32.
Proof.
  intros Hc Hb. unfold crc_byte. change two32 with (2^32). apply lxor_lt_pow2.
  - rewrite shiftr_div. apply N.div_lt_upper_bound; [discriminate|].
    apply N.lt_le_trans with two32; [exact Hc|]. unfold two32. cbn. discriminate.
  - apply t0_bound. change 256 with (2^8). apply lxor_lt_pow2; [apply land255_lt|exact Hb].
Qed.

Lemma crc_bytes_bound l c : bytes_ok l -> c < two32 -> crc_bytes t0 l c < two32.
Proof.
  revert c; induction l as [|b l IH]; intros c Hok Hc; [exact Hc|].
  inversion Hok as [|? ? H1 H2]; subst. unfold crc_bytes in *. cbn [fold_left]. apply IH; auto.
  apply crc_byte_bound; auto.
Qed.

Lemma crc_bytes_app a b c : crc_bytes t0 (a ++ b) c = crc_bytes t0 b (crc_bytes t0 a c).
Proof. unfold crc_bytes. apply fold_left_app. Qed.

Lemma crc_words_spec l c : bytes_ok l -> c < two32 -> crc_words t0 l c = crc_bytes t0 l c.
Proof.
  remember (length l) as n eqn:En. revert l c En.
  induction n as [n IH] using lt_wf_ind; intros l c En Hok Hc.
  destruct l as [|b0 [|b1 [|b2 [|b3 l]]]]; try reflexivity.
  change (b0 :: b1 :: b2 :: b3 :: l) with ([b0; b1; b2; b3] ++ l).
  rewrite crc_bytes_app. cbn [app crc_words].
  inversion Hok as [|? ? H0 Hok1]; subst. inversion Hok1 as [|? ? H1 Hok2]; subst.
  inversion Hok2 as [|? ? H2 Hok3]; subst. inversion Hok3 as [|? ? H3 Hok4]; subst.
  unfold byte_ok in *.
  rewrite (sliced_word c b0 b1 b2 b3) by assumption.
  eapply IH; [|reflexivity|exact Hok4|].
  - cbn [length]. lia.
  - apply crc_bytes_bound; [|exact Hc]. repeat constructor; assumption.
Qed.

Lemma crc_sliced_spec pre l c : bytes_ok l -> c < two32 -> crc_sliced t0 pre l c = crc_bytes t0 l c.
Proof.
  intros Hok Hc. unfold crc_sliced.
  rewrite <- (firstn_skipn pre l) in Hok. apply bytes_ok_app in Hok. destruct Hok as [Ha Hb].
  rewrite crc_words_spec; [|exact Hb|apply crc_bytes_bound; assumption].
  rewrite <- crc_bytes_app, firstn_skipn. reflexivity.
Qed.
End Sliced.

(** ** Injectivity of the bit steps, hence detection of changes *)

Lemma rstep_lt p c n : p < 2^n -> c < 2^n -> crc_rstep p c < 2^n.
Proof.
  intros Hp Hc. assert (Hs : N.shiftr c 1 < 2^n).
  { rewrite shiftr_div. change (2^1) with 2. apply N.le_lt_trans with c; [|exact Hc].
    apply N.div_le_upper_bound; lia. }
  unfold crc_rstep. destruct (N.odd c); [apply lxor_lt_pow2; assumption|assumption].
Qed.

Lemma testbit_small c n i : c < 2^n -> n <= i -> N.testbit c i = false.
Proof.
  intros H Hi. destruct (N.eq_dec c 0) as [->|Hc]; [apply N.bits_0|].
  apply N.bits_above_log2. apply N.lt_le_trans with n; [|exact Hi]. apply N.log2_lt_pow2; [lia|exact H].
Qed.

Lemma rstep_inj p n c d : N.testbit p n = true -> c < 2^(n+1) -> d < 2^(n+1) ->
  crc_rstep p c = crc_rstep p d -> c = d.
Proof.
  intros Hp Hc Hd E.
  assert (T : forall x, x < 2^(n+1) -> N.testbit (crc_rstep p x) n = N.odd x).
  { intros x Hx. unfold crc_rstep. destruct (N.odd x) eqn:O.
    - rewrite N.lxor_spec, N.shiftr_spec', Hp. rewrite (testbit_small x (n+1)) by (auto; lia). reflexivity.
    - rewrite N.shiftr_spec'. apply (testbit_small x (n+1)); auto; lia. }
  assert (O : N.odd c = N.odd d) by (rewrite <- (T c Hc), <- (T d Hd), E; reflexivity).
  assert (S : N.shiftr c 1 = N.shiftr d 1).
  { unfold crc_rstep in E. rewrite O in E. destruct (N.odd d); [|exact E].
    apply (f_equal (fun x => N.lxor x p)) in E. rewrite !N.lxor_assoc, N.lxor_nilpotent, !N.lxor_0_r in E.
    exact E. }
  
  rewrite (N.div2_odd c), (N.div2_odd d). rewrite !N.div2_spec, S, O. reflexivity.
Qed.

Lemma iter_inj (f : N -> N) (P : N -> Prop) n :
  (forall x, P x -> P (f x)) -> (forall x y, P x -> P y -> f x = f y -> x = y) ->
  forall x y, P x -> P y -> iter_n n f x = iter_n n f y -> x = y.
Proof.
  intros HP Hinj. induction n as [|n IH]; intros x y Hx Hy E; cbn [iter_n] in E; [exact E|].
  apply Hinj; auto.
Qed.

Lemma iter_P (f : N -> N) (P : N -> Prop) n : (forall x, P x -> P (f x)) -> forall x, P x -> P (iter_n n f x).
Proof. intros HP. induction n as [|n IH]; intros x Hx; cbn [iter_n]; auto. Qed.

Lemma lxor_cancel_l a b c : N.lxor a b = N.lxor a c -> b = c.
Proof.
  intros E. apply (f_equal (N.lxor a)) in E. rewrite <- !N.lxor_assoc, N.lxor_nilpotent, !N.lxor_0_l in E. exact E.
Qed.
Lemma lxor_cancel_r a b c : N.lxor b a = N.lxor c a -> b = c.
Proof. rewrite !(N.lxor_comm _ a). apply lxor_cancel_l. Qed.

Lemma lew_bound l : bytes_ok l -> lew l < 2 ^ (8 * blen l).
Proof.
  induction l as [|b l IH]; intros H; cbn [lew]; [cbn; lia|].
  inversion H as [|? ? H1 H2]; subst. unfold byte_ok in H1. rewrite blen_cons.
  apply lxor_lt_pow2.
  - apply N.lt_le_trans with (2^8); [exact H1|]. apply N.pow_le_mono_r; lia.
  - rewrite N.shiftl_mul_pow2. replace (8 * (1 + blen l)) with (8 * blen l + 8) by lia.
    rewrite N.pow_add_r. specialize (IH H2). nia.
Qed.

Lemma lew_inj a : bytes_ok a -> forall b, bytes_ok b -> length a = length b -> lew a = lew b -> a = b.
Proof.
  induction a as [|x a IH]; intros Ha [|y b] Hb Hl E; try discriminate; [reflexivity|].
  inversion Ha as [|? ? Hx Ha']; subst. inversion Hb as [|? ? Hy Hb']; subst. unfold byte_ok in *.
  cbn [lew] in E. injection Hl as Hl.
  assert (G : forall x y, x < 256 -> N.land (N.lxor x (N.shiftl y 8)) 255 = x
                      /\ N.shiftr (N.lxor x (N.shiftl y 8)) 8 = y).
  { intros u v Hu. split.
    - rewrite land_lxor_distr, !land_255, N.mod_small by exact Hu.
      rewrite N.shiftl_mul_pow2, N.mod_mul by discriminate. apply N.lxor_0_r.
    - rewrite N.shiftr_lxor, N.shiftr_shiftl_l, N.sub_diag, N.shiftl_0_r by lia.
      rewrite shiftr_div, N.div_small by exact Hu. apply N.lxor_0_l. }
  destruct (G x (lew a) Hx) as [E1 E2]. destruct (G y (lew b) Hy) as [E3 E4].
  rewrite E in E1, E2. f_equal; [congruence|]. apply IH; auto. congruence.
Qed.

(** A table CRC of width n+1 (reflected, generator with the top bit) never
    maps two strings to the same value that differ only inside a window not
    wider than the CRC. *)
Section Reflected.
Variables (p n : N).
Hypothesis p_top : N.testbit p n = true.
Hypothesis p_lt : p < 2^(n+1).
Let st := crc_rstep p.
Let P (x : N) := x < 2^(n+1).

Lemma st_P x : P x -> P (st x).
Proof. apply rstep_lt. exact p_lt. Qed.
Lemma st_inj x y : P x -> P y -> st x = st y -> x = y.
Proof. apply rstep_inj. exact p_top. Qed.

Lemma refl_bytes_P l c : 8 <= n + 1 -> bytes_ok l -> P c -> P (crc_bytes (crc_rtable p) l c).
Proof.
  intros Hn. revert c; induction l as [|b l IH]; intros c Hok Hc; [exact Hc|].
  inversion Hok as [|? ? H1 H2]; subst. unfold crc_bytes in *. cbn [fold_left]. apply IH; auto.
  rewrite crc_byte_bitwise by exact H1. apply iter_P; [apply st_P|].
  apply lxor_lt_pow2; [exact Hc|]. apply N.lt_le_trans with (2^8); [exact H1|]. apply N.pow_le_mono_r; lia.
Qed.

Lemma refl_bytes_inj_state l c d : 8 <= n + 1 -> bytes_ok l -> P c -> P d ->
  crc_bytes (crc_rtable p) l c = crc_bytes (crc_rtable p) l d -> c = d.
Proof.
  intros Hn. revert c d; induction l as [|b l IH]; intros c d Hok Hc Hd E; [exact E|].
  inversion Hok as [|? ? H1 H2]; subst. unfold byte_ok in H1. unfold crc_bytes in *. cbn [fold_left] in E.
  assert (Hb : P b) by (unfold P; apply N.lt_le_trans with (2^8); [exact H1|apply N.pow_le_mono_r; lia]).
  apply IH in E; auto.
  - rewrite !crc_byte_bitwise in E by exact H1.
    apply (iter_inj st P 8 st_P st_inj) in E; try (apply lxor_lt_pow2; assumption).
    apply lxor_cancel_r in E. exact E.
  - rewrite crc_byte_bitwise by exact H1. apply iter_P; [apply st_P|]. apply lxor_lt_pow2; assumption.
  - rewrite crc_byte_bitwise by exact H1. apply iter_P; [apply st_P|]. apply lxor_lt_pow2; assumption.
Qed.

Lemma refl_burst a w w' b c : 8 <= n + 1 -> 8 * blen w <= n + 1 -> length w = length w' ->
  bytes_ok a -> bytes_ok w -> bytes_ok w' -> bytes_ok b -> P c ->
  crc_bytes (crc_rtable p) (a ++ w ++ b) c = crc_bytes (crc_rtable p) (a ++ w' ++ b) c -> w = w'.
Proof.
  intros Hn Hw Hl Ha Hwo Hwo' Hb Hc E.
  unfold crc_bytes in E. rewrite !fold_left_app in E. fold (crc_bytes (crc_rtable p) a c) in E.
  set (s := crc_bytes (crc_rtable p) a c) in *.
  assert (Hs : P s) by (apply refl_bytes_P; auto).
  change (crc_bytes (crc_rtable p) b (crc_bytes (crc_rtable p) w s)
        = crc_bytes (crc_rtable p) b (crc_bytes (crc_rtable p) w' s)) in E.
  apply refl_bytes_inj_state in E; auto; try (apply refl_bytes_P; auto).
  rewrite !crc_bytes_bitwise in E by assumption. rewrite <- Hl in E.
  assert (B : forall u, bytes_ok u -> length u = length w -> P (lew u)).
  { intros u Hu Hul. unfold P. eapply N.lt_le_trans; [apply lew_bound; exact Hu|].
    apply N.pow_le_mono_r; [lia|]. unfold blen in *. lia. }
  apply (iter_inj st P _ st_P st_inj) in E; try (apply lxor_lt_pow2; [assumption|apply B; auto]).
  apply lxor_cancel_l in E. apply lew_inj; auto.
Qed.
End Reflected.

(** CRC-8. *)
Lemma crc8_step_lt c : crc8_step c < 256.
Proof.
  unfold crc8_step. change 256 with (2^8). apply lxor_lt_pow2.
  - apply land255_lt.
  - destruct (N.testbit c 7); reflexivity.
Qed.

Lemma crc8_step_inj c d : c < 256 -> d < 256 -> crc8_step c = crc8_step d -> c = d.
Proof.
  intros Hc Hd E.
  assert (T : forall x, N.testbit (crc8_step x) 0 = N.testbit x 7).
  { intros x. unfold crc8_step. rewrite N.lxor_spec, N.land_spec, N.shiftl_spec_low by lia.
    rewrite andb_false_l, xorb_false_l. destruct (N.testbit x 7); reflexivity. }
  assert (O : N.testbit c 7 = N.testbit d 7) by (rewrite <- (T c), <- (T d), E; reflexivity).
  unfold crc8_step in E. rewrite O in E. apply lxor_cancel_r in E.
  apply N.bits_inj. intros i. destruct (N.ltb_spec i 7) as [L|L].
  - apply (f_equal (fun x => N.testbit x (i + 1))) in E. rewrite !N.land_spec in E.
    change 255 with (N.ones 8) in E. rewrite N.ones_spec_low in E by lia.
    rewrite !andb_true_r, !N.shiftl_spec_high' in E by lia.
    replace (i + 1 - 1) with i in E by lia. exact E.
  - destruct (N.eq_dec i 7) as [->|Hi]; [exact O|].
    rewrite !(testbit_small _ 8) by (auto; lia). reflexivity.
Qed.

Lemma crc8_table_linear : linear crc8_table.
Proof. apply iter_linear, crc8_step_linear. Qed.
Lemma crc_rtable_linear p : linear (crc_rtable p).
Proof. apply iter_linear, rstep_linear. Qed.

Lemma crc8_table_lt i : crc8_table i < 256.
Proof. unfold crc8_table. cbn [iter_n]. apply crc8_step_lt. Qed.

Lemma crc8_byte_small c b : c < 256 -> crc_byte crc8_table c b = crc8_table (N.lxor c b).
Proof.
  intros Hc. unfold crc_byte. rewrite shiftr_div, N.div_small, N.lxor_0_l by exact Hc.
  rewrite land_255, N.mod_small by exact Hc. reflexivity.
Qed.

Lemma crc8_bytes_lt l c : bytes_ok l -> c < 256 -> crc_bytes crc8_table l c < 256.
Proof.
  revert c; induction l as [|b l IH]; intros c Hok Hc; [exact Hc|].
  inversion Hok as [|? ? H1 H2]; subst. unfold crc_bytes in *. cbn [fold_left]. apply IH; auto.
  rewrite crc8_byte_small by exact Hc. apply crc8_table_lt.
Qed.

Lemma crc8_table_inj c d : c < 256 -> d < 256 -> crc8_table c = crc8_table d -> c = d.
Proof.
  apply (iter_inj crc8_step (fun x => x < 256) 8); [intros; apply crc8_step_lt|apply crc8_step_inj].
Qed.

Lemma crc8_state_inj l c d : bytes_ok l -> c < 256 -> d < 256 ->
  crc_bytes crc8_table l c = crc_bytes crc8_table l d -> c = d.
Proof.
  revert c d; induction l as [|b l IH]; intros c d Hok Hc Hd E; [exact E|].
  inversion Hok as [|? ? H1 H2]; subst. unfold byte_ok in H1. unfold crc_bytes in *. cbn [fold_left] in E.
  rewrite !crc8_byte_small in E by assumption.
  apply IH in E; auto using crc8_table_lt.
  apply crc8_table_inj in E; try (change 256 with (2^8); apply lxor_lt_pow2; assumption).
  apply lxor_cancel_r in E. exact E.
Qed.

Lemma crc8_burst a x y b c : bytes_ok a -> x < 256 -> y < 256 -> bytes_ok b -> c < 256 ->
  crc8_continuous (a ++ x :: b) c = crc8_continuous (a ++ y :: b) c -> x = y.
Proof.
  intros Ha Hx Hy Hb Hc E. unfold crc8_continuous, crc_bytes in E. rewrite !fold_left_app in E.
  cbn [fold_left] in E. fold (crc_bytes crc8_table a c) in E.
  set (s := crc_bytes crc8_table a c) in *.
  assert (Hs : s < 256) by (apply crc8_bytes_lt; auto).
  rewrite !crc8_byte_small in E by assumption.
  apply (crc8_state_inj b) in E; auto using crc8_table_lt.
  apply crc8_table_inj in E; try (change 256 with (2^8); apply lxor_lt_pow2; assumption).
  apply lxor_cancel_l in E. exact E.
Qed.

(** CRC-16: the loop on a uint32_t is the loop on its low 16 bits. *)
Definition crc16_low (crc b : N) : N :=
  N.lxor (crc16_table (N.land (N.lxor (N.shiftr crc 8) b) 255)) (N.land (N.shiftl crc 8) 65535).

Lemma crc16_step_lt c : crc16_step c < 65536.
Proof.
  rewrite crc16_step_alt. change 65536 with (2^16). apply lxor_lt_pow2.
  - change 65535 with (N.ones 16). rewrite N.land_ones. apply N.mod_lt. discriminate.
  - destruct (N.testbit c 15); reflexivity.
Qed.
Lemma crc16_table_lt i : crc16_table i < 65536.
Proof. unfold crc16_table. cbn [iter_n]. apply crc16_step_lt. Qed.

Lemma land_shiftl_low c : N.land (N.land (N.shiftl c 8) (two32 - 1)) 65535
  = N.land (N.shiftl (N.land c 65535) 8) 65535.
Proof.
  apply N.bits_inj. intros i. change (two32 - 1) with (N.ones 32). change 65535 with (N.ones 16).
  rewrite !N.land_spec. destruct (N.ltb_spec i 16) as [L|L].
  - rewrite (N.ones_spec_low 16), (N.ones_spec_low 32), !andb_true_r by lia.
    destruct (N.ltb_spec i 8) as [L8|L8].
    + rewrite !N.shiftl_spec_low by exact L8. reflexivity.
    + rewrite !N.shiftl_spec_high' by exact L8. rewrite N.land_spec, N.ones_spec_low, andb_true_r by lia. reflexivity.
  - rewrite (N.ones_spec_high 16), !andb_false_r by lia. reflexivity.
Qed.

Lemma land_shiftr_low c b : N.land (N.lxor (N.shiftr (N.land c 65535) 8) b) 255
  = N.land (N.lxor (N.shiftr c 8) b) 255.
Proof.
  apply N.bits_inj. intros i. change 255 with (N.ones 8). change 65535 with (N.ones 16).
  rewrite !N.land_spec, !N.lxor_spec, !N.shiftr_spec', N.land_spec.
  destruct (N.ltb_spec i 8) as [L|L].
  - rewrite (N.ones_spec_low 16), andb_true_r by lia. reflexivity.
  - rewrite (N.ones_spec_high 8), !andb_false_r by lia. reflexivity.
Qed.

Lemma crc16_byte_low c b : N.land (crc16_byte c b) 65535 = crc16_low (N.land c 65535) b.
Proof.
  unfold crc16_byte, crc16_low. rewrite land_lxor_distr, land_shiftl_low, land_shiftr_low. f_equal.
  change 65535 with (N.ones 16). rewrite N.land_ones. apply N.mod_small, crc16_table_lt.
Qed.

Lemma land_idem16 c : N.land (N.land c 65535) 65535 = N.land c 65535.
Proof. rewrite <- N.land_assoc. reflexivity. Qed.

Lemma crc16_fold_low l c : N.land (fold_left crc16_byte l c) 65535 = fold_left crc16_low l (N.land c 65535).
Proof.
  revert c; induction l as [|b l IH]; intros c; cbn [fold_left]; [reflexivity|].
  rewrite IH, crc16_byte_low. reflexivity.
Qed.

Lemma crc16_split a b c : crc16_continuous (a ++ b) c = crc16_continuous b (crc16_continuous a c).
Proof.
  unfold crc16_continuous. rewrite fold_left_app, !crc16_fold_low.
  rewrite <- crc16_fold_low. rewrite land_idem16. reflexivity.
Qed.

Lemma crc16_step_inj c d : c < 65536 -> d < 65536 -> crc16_step c = crc16_step d -> c = d.
Proof.
  intros Hc Hd E. rewrite !crc16_step_alt in E.
  assert (T : forall x, N.testbit (N.lxor (N.land (N.shiftl x 1) 65535) (if N.testbit x 15 then 4129 else 0)) 0
                 = N.testbit x 15).
  { intros x. rewrite N.lxor_spec, N.land_spec, N.shiftl_spec_low by lia.
    rewrite andb_false_l, xorb_false_l. destruct (N.testbit x 15); reflexivity. }
  assert (O : N.testbit c 15 = N.testbit d 15) by (rewrite <- (T c), <- (T d), E; reflexivity).
  rewrite O in E. apply lxor_cancel_r in E.
  apply N.bits_inj. intros i. destruct (N.ltb_spec i 15) as [L|L].
  - apply (f_equal (fun x => N.testbit x (i + 1))) in E. rewrite !N.land_spec in E.
    change 65535 with (N.ones 16) in E. rewrite N.ones_spec_low in E by lia.
    rewrite !andb_true_r, !N.shiftl_spec_high' in E by lia.
    replace (i + 1 - 1) with i in E by lia. exact E.
  - destruct (N.eq_dec i 15) as [->|Hi]; [exact O|].
    rewrite !(testbit_small _ 16) by (auto; lia). reflexivity.
Qed.

(** The table step of CRC-16 is eight bit steps of the state with the byte
    added to its high half. *)
Lemma crc16_low_bitwise c b : c < 65536 -> b < 256 ->
  crc16_low c b = iter_n 8 crc16_step (N.lxor c (N.shiftl b 8)).
Proof.
  intros Hc Hb. unfold crc16_low, crc16_table.
  assert (E : N.lxor c (N.shiftl b 8)
    = N.lxor (N.shiftl (N.land (N.lxor (N.shiftr c 8) b) 255) 8) (N.land c 255)).
  { apply N.bits_inj. intros i. rewrite !N.lxor_spec. change 255 with (N.ones 8). rewrite N.land_spec.
    destruct (N.ltb_spec i 8) as [L|L].
    - rewrite !N.shiftl_spec_low by exact L. rewrite N.ones_spec_low, andb_true_r, xorb_false_r, xorb_false_l by exact L.
      reflexivity.
    - rewrite !N.shiftl_spec_high' by exact L. rewrite N.land_spec, N.lxor_spec, N.shiftr_spec'.
      replace (i - 8 + 8) with i by lia. rewrite (N.ones_spec_high 8 i), andb_false_r, xorb_false_r by exact L.
      destruct (N.ltb_spec i 16) as [L2|L2].
      + rewrite N.ones_spec_low, andb_true_r by lia. reflexivity.
      + rewrite N.ones_spec_high, andb_false_r by lia.
        rewrite (testbit_small c 16) by (auto; lia). rewrite (testbit_small b 8) by (auto; lia). reflexivity. }
  rewrite E. rewrite (iter_linear 8 _ crc16_step_linear). f_equal.
  assert (S : forall x k, x < 2 ^ (15 - k) -> k < 8 -> crc16_step (N.shiftl x k) = N.shiftl x (k + 1)).
  { intros x k Hx Hk. rewrite crc16_step_alt. rewrite N.shiftl_spec_high' by lia.
    rewrite (testbit_small x (15 - k)) by (auto; lia). rewrite N.lxor_0_r, N.shiftl_shiftl.
    change 65535 with (N.ones 16). rewrite N.land_ones. apply N.mod_small.
    rewrite N.shiftl_mul_pow2. replace 16 with (15 - k + (k + 1)) by lia. rewrite (N.pow_add_r 2 (15 - k) (k + 1)).
    apply N.mul_lt_mono_pos_r; [|exact Hx]. assert (2 ^ (k + 1) <> 0) by (apply N.pow_nonzero; discriminate). lia. }
  assert (Hl : N.land c 255 < 256) by apply land255_lt.
  assert (B : forall k, k < 8 -> N.land c 255 < 2 ^ (15 - k)).
  { intros k Hk. apply N.lt_le_trans with (2^8); [exact Hl|]. apply N.pow_le_mono_r; lia. }
  cbn [iter_n]. rewrite <- (N.shiftl_0_r (N.land c 255)).
  rewrite S by (auto; try apply B; lia). rewrite S by (auto; try apply B; lia).
  rewrite S by (auto; try apply B; lia). rewrite S by (auto; try apply B; lia).
  rewrite S by (auto; try apply B; lia). rewrite S by (auto; try apply B; lia).
  rewrite S by (auto; try apply B; lia). rewrite S by (auto; try apply B; lia).
  change (0 + 1 + 1 + 1 + 1 + 1 + 1 + 1 + 1) with 8.
  apply N.bits_inj. intros i. change 255 with (N.ones 8). change 65535 with (N.ones 16).
  rewrite N.land_spec. destruct (N.ltb_spec i 8) as [L|L].
  - rewrite !N.shiftl_spec_low by exact L. reflexivity.
  - rewrite !N.shiftl_spec_high' by exact L. rewrite N.land_spec.
    destruct (N.ltb_spec i 16) as [L2|L2].
    + rewrite !N.ones_spec_low by lia. rewrite !andb_true_r. reflexivity.
    + rewrite !N.ones_spec_high by lia. rewrite !andb_false_r. reflexivity.
Qed.

Lemma crc16_low_lt c b : c < 65536 -> b < 256 -> crc16_low c b < 65536.
Proof.
  intros Hc Hb. rewrite crc16_low_bitwise by assumption. cbn [iter_n]. apply crc16_step_lt.
Qed.

Lemma crc16_fold_lt l c : bytes_ok l -> c < 65536 -> fold_left crc16_low l c < 65536.
Proof.
  revert c; induction l as [|b l IH]; intros c Hok Hc; [exact Hc|].
  inversion Hok as [|? ? H1 H2]; subst. cbn [fold_left]. apply IH; auto. apply crc16_low_lt; auto.
Qed.

Lemma shiftl8_lt b : b < 256 -> N.shiftl b 8 < 2^16.
Proof. intros H. rewrite N.shiftl_mul_pow2. change (2^16) with (256 * 2^8). apply N.mul_lt_mono_pos_r; [reflexivity|exact H]. Qed.

Lemma crc16_iter_inj c d : c < 65536 -> d < 65536 -> iter_n 8 crc16_step c = iter_n 8 crc16_step d -> c = d.
Proof.
  apply (iter_inj crc16_step (fun x => x < 65536) 8); [intros; apply crc16_step_lt|apply crc16_step_inj].
Qed.

Lemma crc16_state_inj l c d : bytes_ok l -> c < 65536 -> d < 65536 ->
  fold_left crc16_low l c = fold_left crc16_low l d -> c = d.
Proof.
  revert c d; induction l as [|b l IH]; intros c d Hok Hc Hd E; [exact E|].
  inversion Hok as [|? ? H1 H2]; subst. unfold byte_ok in H1. cbn [fold_left] in E.
  apply IH in E; auto using crc16_low_lt.
  rewrite !crc16_low_bitwise in E by assumption.
  apply crc16_iter_inj in E; try (change 65536 with (2^16); apply lxor_lt_pow2; [assumption|apply shiftl8_lt; assumption]).
  apply lxor_cancel_r in E. exact E.
Qed.

Lemma crc16_burst a x y b c : bytes_ok a -> x < 256 -> y < 256 -> bytes_ok b -> c < 65536 ->
  crc16_continuous (a ++ x :: b) c = crc16_continuous (a ++ y :: b) c -> x = y.
Proof.
  intros Ha Hx Hy Hb Hc E. unfold crc16_continuous in E. rewrite !crc16_fold_low in E.
  assert (Ec : N.land c 65535 = c) by (change 65535 with (N.ones 16); rewrite N.land_ones; apply N.mod_small; exact Hc).
  rewrite Ec in E. rewrite !fold_left_app in E. cbn [fold_left] in E.
  set (s := fold_left crc16_low a c) in *.
  assert (Hs : s < 65536) by (apply crc16_fold_lt; auto).
  apply (crc16_state_inj b) in E; auto using crc16_low_lt.
  rewrite !crc16_low_bitwise in E by assumption.
  apply crc16_iter_inj in E; try (change 65536 with (2^16); apply lxor_lt_pow2; [assumption|apply shiftl8_lt; assumption]).
  apply lxor_cancel_l in E. rewrite !N.shiftl_mul_pow2 in E. apply N.mul_cancel_r in E; [exact E|discriminate].
Qed.

(** Bounds used by the record format. *)
Lemma crc32_poly_lt : 0xEDB88320 < 2^(31+1).
Proof. reflexivity. Qed.

Lemma record_crc_lt w k v : bytes_ok k -> bytes_ok v -> record_crc w k v < 256 ^ N.of_nat w.
Proof.
  intros Hk Hv. unfold record_crc.
  destruct w as [|[|[|[|[|w]]]]]; try (apply N.neq_0_lt_0, N.pow_nonzero; discriminate).
  - change (256 ^ N.of_nat 1) with 256. apply crc8_bytes_lt; auto. apply crc8_bytes_lt; auto. reflexivity.
  - change (256 ^ N.of_nat 2) with 65536. unfold crc16_continuous. change 65535 with (N.ones 16).
    rewrite N.land_ones. apply N.mod_lt. discriminate.
  - change (256 ^ N.of_nat 4) with (2^(31+1)). unfold crc32_continuous.
    apply lxor_lt_pow2; [|reflexivity].
    apply (refl_bytes_P _ 31 crc32_poly_lt); [lia|exact Hv|].
    apply (refl_bytes_P _ 31 crc32_poly_lt); [lia|exact Hk|reflexivity].
Qed.

(** ** Links to the specification *)

Lemma total_bsum l : total l = bsum l.
Proof. induction l as [|b l IH]; cbn [bsum]; [reflexivity|]. rewrite <- IH. reflexivity. Qed.

Lemma reg_shift_rstep g c : reg_shift g c = crc_rstep g c.
Proof.
  unfold reg_shift, crc_rstep. rewrite N.bit0_odd, !shiftr_div. change (2^1) with 2.
  destruct (N.odd c); [apply N.lxor_comm|reflexivity].
Qed.

Lemma shifts_iter n g c : shifts n g c = iter_n n (crc_rstep g) c.
Proof. revert c; induction n as [|n IH]; intros c; cbn [shifts iter_n]; [reflexivity|]. rewrite reg_shift_rstep. apply IH. Qed.

Lemma bit_crc_spec g l c : bytes_ok l -> crc_bytes (crc_rtable g) l c = bit_crc g l c.
Proof.
  revert c; induction l as [|b l IH]; intros c H; [reflexivity|]. inversion H as [|? ? H1 H2]; subst.
  cbn [bit_crc]. rewrite shifts_iter, <- crc_byte_bitwise by exact H1. rewrite <- IH by exact H2. reflexivity.
Qed.

Lemma csum_total m k v seed : 0 < m -> m <= 16777216 -> bytes_ok k -> bytes_ok v -> seed < m ->
  csum_pair m k v seed = (seed + total (k ++ v)) mod m.
Proof. intros. rewrite total_bsum. apply csum_pair_spec; assumption. Qed.

Lemma csum_detect m a x y b s : 0 < m -> m <= 16777216 -> s < m ->
  x mod m <> y mod m -> (s + total (a ++ x :: b)) mod m <> (s + total (a ++ y :: b)) mod m.
Proof.
  intros Hm Hm2 Hs Hd E. rewrite !total_bsum, !bsum_app in E. cbn [bsum] in E. apply Hd.
  set (r := s + bsum a + bsum b) in *.
  replace (s + (bsum a + (x + bsum b))) with (x + r) in E by (unfold r; lia).
  replace (s + (bsum a + (y + bsum b))) with (y + r) in E by (unfold r; lia).
  assert (G : forall u, (u + r + (m - r mod m)) mod m = u mod m).
  { intros u. assert (Hr := N.mod_lt r m ltac:(lia)). assert (Er := N.div_mod r m ltac:(lia)).
    replace (u + r + (m - r mod m)) with (u + (r / m + 1) * m) by nia. apply N.mod_add. lia. }
  rewrite <- (G x), <- (G y). rewrite (N.add_mod (x + r)), (N.add_mod (y + r)), E by lia. reflexivity.
Qed.

Lemma magic_detect k v k' v' a x y b :
  bytes_ok (k ++ v) -> bytes_ok (k' ++ v') ->
  k ++ v = a ++ x :: b -> k' ++ v' = a ++ y :: b -> x mod 61 <> y mod 61 ->
  magic_checksum k v <> magic_checksum k' v'.
Proof.
  intros H1 H2 E1 E2 Hd E. unfold magic_checksum in E.
  apply bytes_ok_app in H1. apply bytes_ok_app in H2. destruct H1, H2.
  rewrite !csum_total in E by (auto; lia). rewrite E1, E2 in E.
  apply (csum_detect 61 a x y b 11); auto; lia.
Qed.

Lemma crc_rtable_lt32 g i : g < two32 -> i < two32 -> crc_rtable g i < two32.
Proof. intros Hg Hi. unfold crc_rtable. change two32 with (2^32) in *. apply (iter_P _ (fun x => x < 2^32)); [intros; apply rstep_lt; assumption|exact Hi]. Qed.

Lemma sliced32 pre l c : bytes_ok l -> c < two32 ->
  crc_sliced (crc_rtable 0xEDB88320) pre l c = bit_crc 0xEDB88320 l c.
Proof.
  intros H Hc. rewrite crc_sliced_spec; auto; [apply bit_crc_spec; exact H|apply crc_rtable_linear|].
  intros i Hi. apply crc_rtable_lt32; [reflexivity|unfold two32; lia].
Qed.
Lemma sliced4 pre l c : bytes_ok l -> c < two32 ->
  crc_sliced (crc_rtable 12) pre l c = bit_crc 12 l c.
Proof.
  intros H Hc. rewrite crc_sliced_spec; auto; [apply bit_crc_spec; exact H|apply crc_rtable_linear|].
  intros i Hi. apply crc_rtable_lt32; [reflexivity|unfold two32; lia].
Qed.
Lemma sliced8 pre l c : bytes_ok l -> c < two32 -> crc_sliced crc8_table pre l c = crc8_continuous l c.
Proof.
  intros H Hc. rewrite crc_sliced_spec; auto; [apply crc8_table_linear|].
  intros i Hi. apply N.lt_trans with 256; [apply crc8_table_lt|reflexivity].
Qed.

(** A change confined to four consecutive bytes of key and value is detected
    by the 32 bit CRC. *)
Lemma record_crc32_split k v : record_crc 4 k v = crc32_continuous (k ++ v) true 0xFFFFFFFF.
Proof. unfold record_crc, crc32_continuous. rewrite crc_bytes_app. reflexivity. Qed.
Lemma record_crc16_split k v : record_crc 2 k v = crc16_continuous (k ++ v) 0.
Proof. unfold record_crc. rewrite crc16_split. reflexivity. Qed.
Lemma record_crc8_split k v : record_crc 1 k v = crc8_continuous (k ++ v) 0.
Proof. unfold record_crc, crc8_continuous. rewrite crc_bytes_app. reflexivity. Qed.

Lemma crc32_detect k v k' v' a w w' b :
  bytes_ok (k ++ v) -> bytes_ok (k' ++ v') ->
  k ++ v = a ++ w ++ b -> k' ++ v' = a ++ w' ++ b -> length w = length w' -> (length w <= 4)%nat -> w <> w' ->
  record_crc 4 k v <> record_crc 4 k' v'.
Proof.
  intros H1 H2 E1 E2 Hl Hw Hne E. rewrite !record_crc32_split in E. rewrite E1 in *. rewrite E2 in *.
  apply bytes_ok_app in H1. destruct H1 as [Ha H1]. apply bytes_ok_app in H1. destruct H1 as [Hw1 Hb].
  apply bytes_ok_app in H2. destruct H2 as [_ H2]. apply bytes_ok_app in H2. destruct H2 as [Hw2 _].
  unfold crc32_continuous in E. apply lxor_cancel_r in E. apply Hne.
  apply (refl_burst 0xEDB88320 31 eq_refl crc32_poly_lt a w w' b 0xFFFFFFFF); auto; unfold blen; try lia; try reflexivity.
Qed.

Lemma crc16_detect k v k' v' a x y b :
  bytes_ok (k ++ v) -> bytes_ok (k' ++ v') ->
  k ++ v = a ++ x :: b -> k' ++ v' = a ++ y :: b -> x <> y -> record_crc 2 k v <> record_crc 2 k' v'.
Proof.
  intros H1 H2 E1 E2 Hne E. rewrite !record_crc16_split in E. rewrite E1 in *. rewrite E2 in *.
  apply bytes_ok_app in H1. destruct H1 as [Ha H1]. apply bytes_ok_app in H2. destruct H2 as [_ H2].
  inversion H1; subst. inversion H2; subst. apply Hne. apply (crc16_burst a x y b 0); auto. reflexivity.
Qed.

Lemma crc8_detect k v k' v' a x y b :
  bytes_ok (k ++ v) -> bytes_ok (k' ++ v') ->
  k ++ v = a ++ x :: b -> k' ++ v' = a ++ y :: b -> x <> y -> record_crc 1 k v <> record_crc 1 k' v'.
Proof.
  intros H1 H2 E1 E2 Hne E. rewrite !record_crc8_split in E. rewrite E1 in *. rewrite E2 in *.
  apply bytes_ok_app in H1. destruct H1 as [Ha H1]. apply bytes_ok_app in H2. destruct H2 as [_ H2].
  inversion H1; subst. inversion H2; subst. apply Hne. apply (crc8_burst a x y b 0); auto. reflexivity.
Qed.
