(** Words and bytes, the tables, the key expansion, and the rounds of tkrzw_sys_compress_aes.h against FIPS 197. *)
From Verif Require Import Bytes AesTables AesModel AesSpec.
From Coq Require Import Btauto.
Local Open Scope N_scope.

(** ** Words *)
Definition cat8 (x d : N) : N := N.lxor (N.shiftl x 8) d.
Definition pk (a b c d : N) : N := cat8 (cat8 (cat8 a b) c) d.
Lemma cat8_lxor x d x' d' : N.lxor (cat8 x d) (cat8 x' d') = cat8 (N.lxor x x') (N.lxor d d').
Proof.
  unfold cat8. rewrite N.shiftl_lxor. apply N.bits_inj; intros n. rewrite !N.lxor_spec.
  destruct (N.testbit (N.shiftl x 8) n), (N.testbit (N.shiftl x' 8) n), (N.testbit d n), (N.testbit d' n); reflexivity.
Qed.
Lemma pk_lxor a b c d a' b' c' d' : N.lxor (pk a b c d) (pk a' b' c' d') = pk (N.lxor a a') (N.lxor b b') (N.lxor c c') (N.lxor d d').
Proof. unfold pk. now rewrite !cat8_lxor. Qed.
Lemma byte_shiftr d : d < 256 -> N.shiftr d 8 = 0.
Proof. intros H. rewrite N.shiftr_div_pow2. now apply N.div_small. Qed.
Lemma byte_land d : d < 256 -> N.land d 255 = d.
Proof. intros H. change 255 with (N.ones 8). rewrite N.land_ones. now apply N.mod_small. Qed.
Lemma cat8_shiftr x d : d < 256 -> N.shiftr (cat8 x d) 8 = x.
Proof.
  intros H. unfold cat8. rewrite N.shiftr_lxor, (byte_shiftr d) by assumption. rewrite N.lxor_0_r, N.shiftr_shiftl_l by lia. apply N.shiftl_0_r.
Qed.
Lemma cat8_land x d : d < 256 -> N.land (cat8 x d) 255 = d.
Proof.
  intros H. change 255 with (N.ones 8). unfold cat8. apply N.bits_inj; intros n. rewrite N.land_spec, N.lxor_spec.
  destruct (N.ltb_spec n 8).
  - rewrite N.shiftl_spec_low, N.ones_spec_low by assumption. now destruct (N.testbit d n).
  - rewrite N.ones_spec_high, andb_false_r by assumption.
    assert (E : N.land d (N.ones 8) = d) by (apply byte_land; exact H). rewrite <- E, N.land_spec, N.ones_spec_high by assumption.
    now rewrite andb_false_r.
Qed.
Lemma b3_pk a b c d : b < 256 -> c < 256 -> d < 256 -> b3 (pk a b c d) = a.
Proof.
  intros. unfold b3, pk. change 24 with (8 + 8 + 8). rewrite <- !N.shiftr_shiftr. now rewrite !cat8_shiftr.
Qed.
Lemma b2_pk a b c d : b < 256 -> c < 256 -> d < 256 -> b2 (pk a b c d) = b.
Proof.
  intros. unfold b2, pk. change 16 with (8 + 8). rewrite <- !N.shiftr_shiftr. rewrite !cat8_shiftr by assumption. now apply cat8_land.
Qed.
Lemma b1_pk a b c d : c < 256 -> d < 256 -> b1 (pk a b c d) = c.
Proof. intros. unfold b1, pk. rewrite !cat8_shiftr by assumption. now apply cat8_land. Qed.
Lemma b0_pk a b c d : d < 256 -> b0 (pk a b c d) = d.
Proof. intros. unfold b0, pk. now apply cat8_land. Qed.
Lemma putu32_pk a b c d : a < 256 -> b < 256 -> c < 256 -> d < 256 -> putu32 (pk a b c d) = [a; b; c; d].
Proof.
  intros. unfold putu32. fold (b2 (pk a b c d)) (b1 (pk a b c d)) (b0 (pk a b c d)) (b3 (pk a b c d)).
  rewrite b3_pk, b2_pk, b1_pk, b0_pk, byte_land by assumption. reflexivity.
Qed.
Lemma getu32_pk p o : getu32 p o = pk (nth o p 0) (nth (o + 1) p 0) (nth (o + 2) p 0) (nth (o + 3) p 0).
Proof. unfold getu32, pk, cat8. rewrite !N.shiftl_lxor, !N.shiftl_shiftl. reflexivity. Qed.
(** A word from a list of four bytes. *)
Definition pkl (w : list N) : N := pk (nth 0 w 0) (nth 1 w 0) (nth 2 w 0) (nth 3 w 0).

(** ** Bytes *)
Notation byt l := (Forall (fun b => b < 256) l).
Lemma all_bytes (P : N -> bool) : forallb P (map N.of_nat (seq 0 256)) = true -> forall b, b < 256 -> P b = true.
Proof.
  intros H b Hb. rewrite forallb_forall in H. apply H. apply in_map_iff. exists (N.to_nat b).
  split; [apply N2Nat.id|]. apply in_seq. lia.
Qed.
Ltac bytewise0 := let b := fresh in let H := fresh in intros b H;
  match goal with |- ?L = ?R => apply N.eqb_eq; pattern b; revert b H; apply all_bytes; vm_compute; reflexivity
                | |- ?L < ?R => apply N.ltb_lt; pattern b; revert b H; apply all_bytes; vm_compute; reflexivity end.
(** The values of the substitutions, for speed. *)
Definition sbox_l : list N := Eval vm_compute in map (fun i => sbox (N.of_nat i)) (seq 0 256).
Definition inv_sbox_l : list N := Eval vm_compute in map (fun i => inv_sbox (N.of_nat i)) (seq 0 256).
Lemma sbox_l_ok : forall b, b < 256 -> sbox b = nth (N.to_nat b) sbox_l 0.
Proof. bytewise0. Qed.
Lemma inv_sbox_l_ok : forall b, b < 256 -> inv_sbox b = nth (N.to_nat b) inv_sbox_l 0.
Proof. bytewise0. Qed.
Ltac bytewise := let b := fresh in let H := fresh in intros b H; rewrite ?(sbox_l_ok b H), ?(inv_sbox_l_ok b H); revert b H; bytewise0.
Lemma lxor_byte a b : a < 256 -> b < 256 -> N.lxor a b < 256.
Proof.
  intros Ha Hb. rewrite <- (byte_land a Ha), <- (byte_land b Hb). change 255 with (N.ones 8).
  replace (N.lxor (N.land a (N.ones 8)) (N.land b (N.ones 8))) with (N.land (N.lxor a b) (N.ones 8)).
  - rewrite N.land_ones. apply N.mod_lt. discriminate.
  - apply N.bits_inj; intros n. rewrite !N.land_spec, !N.lxor_spec, !N.land_spec. btauto.
Qed.
Lemma sbox_byte : forall b, b < 256 -> sbox b < 256.
Proof. bytewise. Qed.
Lemma inv_sbox_byte : forall b, b < 256 -> inv_sbox b < 256.
Proof. bytewise. Qed.
Lemma inv_sbox_sbox : forall b, b < 256 -> inv_sbox (sbox b) = b.
Proof. bytewise. Qed.
Lemma xtime_byte : forall b, b < 256 -> xtime b < 256.
Proof. bytewise. Qed.
Lemma gmul_loop_byte n : forall a b, a < 256 -> gmul_loop n a b < 256.
Proof.
  induction n as [|n IH]; intros a b Ha; [reflexivity|]. cbn [gmul_loop]. apply lxor_byte.
  - destruct (N.odd b); [assumption|reflexivity].
  - apply IH, xtime_byte, Ha.
Qed.
Lemma gmul_byte a b : a < 256 -> gmul a b < 256.
Proof. apply gmul_loop_byte. Qed.
Lemma gmul_loop_lxor n : forall a b b', gmul_loop n a (N.lxor b b') = N.lxor (gmul_loop n a b) (gmul_loop n a b').
Proof.
  induction n as [|n IH]; intros a b b'; [reflexivity|]. cbn [gmul_loop].
  assert (E : N.lxor b b' / 2 = N.lxor (b / 2) (b' / 2)).
  { change 2 with (2 ^ 1). rewrite <- !N.shiftr_div_pow2. apply N.shiftr_lxor. }
  rewrite E, IH. rewrite <- !N.bit0_odd, N.lxor_spec.
  generalize (gmul_loop n (xtime a) (b / 2)) (gmul_loop n (xtime a) (b' / 2)). intros u v.
  apply N.bits_inj; intros k. destruct (N.testbit b 0), (N.testbit b' 0); cbn [xorb]; rewrite !N.lxor_spec, ?N.bits_0; btauto.
Qed.
Lemma gmul_lxor a b b' : gmul a (N.lxor b b') = N.lxor (gmul a b) (gmul a b').
Proof. apply gmul_loop_lxor. Qed.
Lemma gmul_0 a : gmul a 0 = 0.
Proof.
  unfold gmul. generalize 8%nat. intros n. revert a; induction n as [|n IH]; intros a; [reflexivity|]. cbn [gmul_loop].
  change (0 / 2) with 0. rewrite IH. reflexivity.
Qed.

(** ** The tables *)
Lemma te0_ok : forall b, b < 256 -> tab aes_te0 b = pk (gmul 2 (sbox b)) (gmul 1 (sbox b)) (gmul 1 (sbox b)) (gmul 3 (sbox b)).
Proof. bytewise. Qed.
Lemma te1_ok : forall b, b < 256 -> tab aes_te1 b = pk (gmul 3 (sbox b)) (gmul 2 (sbox b)) (gmul 1 (sbox b)) (gmul 1 (sbox b)).
Proof. bytewise. Qed.
Lemma te2_ok : forall b, b < 256 -> tab aes_te2 b = pk (gmul 1 (sbox b)) (gmul 3 (sbox b)) (gmul 2 (sbox b)) (gmul 1 (sbox b)).
Proof. bytewise. Qed.
Lemma te3_ok : forall b, b < 256 -> tab aes_te3 b = pk (gmul 1 (sbox b)) (gmul 1 (sbox b)) (gmul 3 (sbox b)) (gmul 2 (sbox b)).
Proof. bytewise. Qed.
Lemma te4_3 : forall b, b < 256 -> N.land (tab aes_te4 b) 0xff000000 = pk (sbox b) 0 0 0.
Proof. bytewise. Qed.
Lemma te4_2 : forall b, b < 256 -> N.land (tab aes_te4 b) 0x00ff0000 = pk 0 (sbox b) 0 0.
Proof. bytewise. Qed.
Lemma te4_1 : forall b, b < 256 -> N.land (tab aes_te4 b) 0x0000ff00 = pk 0 0 (sbox b) 0.
Proof. bytewise. Qed.
Lemma te4_0 : forall b, b < 256 -> N.land (tab aes_te4 b) 0x000000ff = pk 0 0 0 (sbox b).
Proof. bytewise. Qed.
Lemma te4_s : forall b, b < 256 -> N.land (tab aes_te4 b) 0xff = sbox b.
Proof. bytewise. Qed.
Lemma td0_ok : forall b, b < 256 -> tab aes_td0 b = pk (gmul 14 (inv_sbox b)) (gmul 9 (inv_sbox b)) (gmul 13 (inv_sbox b)) (gmul 11 (inv_sbox b)).
Proof. bytewise. Qed.
Lemma td1_ok : forall b, b < 256 -> tab aes_td1 b = pk (gmul 11 (inv_sbox b)) (gmul 14 (inv_sbox b)) (gmul 9 (inv_sbox b)) (gmul 13 (inv_sbox b)).
Proof. bytewise. Qed.
Lemma td2_ok : forall b, b < 256 -> tab aes_td2 b = pk (gmul 13 (inv_sbox b)) (gmul 11 (inv_sbox b)) (gmul 14 (inv_sbox b)) (gmul 9 (inv_sbox b)).
Proof. bytewise. Qed.
Lemma td3_ok : forall b, b < 256 -> tab aes_td3 b = pk (gmul 9 (inv_sbox b)) (gmul 13 (inv_sbox b)) (gmul 11 (inv_sbox b)) (gmul 14 (inv_sbox b)).
Proof. bytewise. Qed.
Lemma td4_3 : forall b, b < 256 -> N.land (tab aes_td4 b) 0xff000000 = pk (inv_sbox b) 0 0 0.
Proof. bytewise. Qed.
Lemma td4_2 : forall b, b < 256 -> N.land (tab aes_td4 b) 0x00ff0000 = pk 0 (inv_sbox b) 0 0.
Proof. bytewise. Qed.
Lemma td4_1 : forall b, b < 256 -> N.land (tab aes_td4 b) 0x0000ff00 = pk 0 0 (inv_sbox b) 0.
Proof. bytewise. Qed.
Lemma td4_0 : forall b, b < 256 -> N.land (tab aes_td4 b) 0x000000ff = pk 0 0 0 (inv_sbox b).
Proof. bytewise. Qed.
