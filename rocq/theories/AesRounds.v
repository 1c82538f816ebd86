(** The key expansion and the rounds against FIPS 197. *)
From Verif Require Import Bytes AesTables AesModel AesSpec AesProofs.
From Coq Require Import Btauto.
Local Open Scope N_scope.

Lemma lxor4 a b c d : N.lxor a (N.lxor b (N.lxor c (N.lxor d 0))) = N.lxor (N.lxor (N.lxor a b) c) d.
Proof. now rewrite N.lxor_0_r, !N.lxor_assoc. Qed.

Local Opaque sbox inv_sbox gmul pk N.lxor.
Ltac bnd := repeat (apply lxor_byte || apply gmul_byte || apply sbox_byte || apply inv_sbox_byte); first [assumption | reflexivity].

Lemma enc_word_ok a a1 a2 a3 b0' b b2' b3' c0 c1 c c3 d0 d1 d2 d k0 k1 k2 k3 :
  byt [a; a1; a2; a3] -> byt [b0'; b; b2'; b3'] -> byt [c0; c1; c; c3] -> byt [d0; d1; d2; d] ->
  enc_word (pk a a1 a2 a3) (pk b0' b b2' b3') (pk c0 c1 c c3) (pk d0 d1 d2 d) (pk k0 k1 k2 k3) =
  pkl (xor_bytes (mix_column [sbox a; sbox b; sbox c; sbox d]) [k0; k1; k2; k3]).
Proof.
  intros Ha Hb Hc Hd. repeat match goal with H : Forall _ (_ :: _) |- _ => inversion_clear H end.
  unfold enc_word. rewrite b3_pk, b2_pk, b1_pk, b0_pk, te0_ok, te1_ok, te2_ok, te3_ok by assumption. rewrite !pk_lxor.
  unfold pkl, xor_bytes, mix_column, mul_row. cbn [map combine nth fst snd fold_right]. now rewrite !lxor4.
Qed.
Lemma enc_last_ok a a1 a2 a3 b0' b b2' b3' c0 c1 c c3 d0 d1 d2 d k0 k1 k2 k3 :
  byt [a; a1; a2; a3] -> byt [b0'; b; b2'; b3'] -> byt [c0; c1; c; c3] -> byt [d0; d1; d2; d] ->
  enc_last (pk a a1 a2 a3) (pk b0' b b2' b3') (pk c0 c1 c c3) (pk d0 d1 d2 d) (pk k0 k1 k2 k3) =
  pkl (xor_bytes [sbox a; sbox b; sbox c; sbox d] [k0; k1; k2; k3]).
Proof.
  intros Ha Hb Hc Hd. repeat match goal with H : Forall _ (_ :: _) |- _ => inversion_clear H end.
  unfold enc_last. rewrite b3_pk, b2_pk, b1_pk, b0_pk, te4_3, te4_2, te4_1, te4_0 by assumption. rewrite !pk_lxor.
  unfold pkl, xor_bytes. cbn [map combine nth fst snd]. now rewrite !N.lxor_0_r, !N.lxor_0_l.
Qed.
Lemma dec_word_ok a a1 a2 a3 b0' b b2' b3' c0 c1 c c3 d0 d1 d2 d k0 k1 k2 k3 :
  byt [a; a1; a2; a3] -> byt [b0'; b; b2'; b3'] -> byt [c0; c1; c; c3] -> byt [d0; d1; d2; d] ->
  dec_word (pk a a1 a2 a3) (pk b0' b b2' b3') (pk c0 c1 c c3) (pk d0 d1 d2 d) (pk k0 k1 k2 k3) =
  pkl (xor_bytes (inv_mix_column [inv_sbox a; inv_sbox b; inv_sbox c; inv_sbox d]) [k0; k1; k2; k3]).
Proof.
  intros Ha Hb Hc Hd. repeat match goal with H : Forall _ (_ :: _) |- _ => inversion_clear H end.
  unfold dec_word. rewrite b3_pk, b2_pk, b1_pk, b0_pk, td0_ok, td1_ok, td2_ok, td3_ok by assumption. rewrite !pk_lxor.
  unfold pkl, xor_bytes, inv_mix_column, mul_row. cbn [map combine nth fst snd fold_right]. now rewrite !lxor4.
Qed.
Lemma dec_last_ok a a1 a2 a3 b0' b b2' b3' c0 c1 c c3 d0 d1 d2 d k0 k1 k2 k3 :
  byt [a; a1; a2; a3] -> byt [b0'; b; b2'; b3'] -> byt [c0; c1; c; c3] -> byt [d0; d1; d2; d] ->
  dec_last (pk a a1 a2 a3) (pk b0' b b2' b3') (pk c0 c1 c c3) (pk d0 d1 d2 d) (pk k0 k1 k2 k3) =
  pkl (xor_bytes [inv_sbox a; inv_sbox b; inv_sbox c; inv_sbox d] [k0; k1; k2; k3]).
Proof.
  intros Ha Hb Hc Hd. repeat match goal with H : Forall _ (_ :: _) |- _ => inversion_clear H end.
  unfold dec_last. rewrite b3_pk, b2_pk, b1_pk, b0_pk, td4_3, td4_2, td4_1, td4_0 by assumption. rewrite !pk_lxor.
  unfold pkl, xor_bytes. cbn [map combine nth fst snd]. now rewrite !N.lxor_0_r, !N.lxor_0_l.
Qed.
(** A word of the decryption keys. *)
Lemma dec_key_word_ok a b c d : byt [a; b; c; d] -> dec_key_word (pk a b c d) = pkl (inv_mix_column [a; b; c; d]).
Proof.
  intros H. repeat match goal with H : Forall _ (_ :: _) |- _ => inversion_clear H end.
  unfold dec_key_word. rewrite b3_pk, b2_pk, b1_pk, b0_pk, !te4_s by assumption.
  rewrite td0_ok, td1_ok, td2_ok, td3_ok by (apply sbox_byte; assumption). rewrite !inv_sbox_sbox by assumption. rewrite !pk_lxor.
  unfold pkl, inv_mix_column, mul_row. cbn [map combine nth fst snd fold_right]. now rewrite !lxor4.
Qed.

(** ** States *)
Definition state_ok (s : list N) : Prop := length s = 16%nat /\ byt s.
Definition qd (s : list N) : quad :=
  (pk (nth 0 s 0) (nth 1 s 0) (nth 2 s 0) (nth 3 s 0), pk (nth 4 s 0) (nth 5 s 0) (nth 6 s 0) (nth 7 s 0),
   pk (nth 8 s 0) (nth 9 s 0) (nth 10 s 0) (nth 11 s 0), pk (nth 12 s 0) (nth 13 s 0) (nth 14 s 0) (nth 15 s 0)).
Ltac list16 s := let H := fresh in
  do 16 (destruct s as [|? s]; [discriminate|]); destruct s; [|discriminate].
Ltac exp16 := repeat match goal with
  | H : state_ok ?s |- _ => let L := fresh in let F := fresh in destruct H as [L F]; list16 s; clear L;
      repeat match type of F with Forall _ (_ :: _) => let F1 := fresh "B" in apply Forall_cons_iff in F as [F1 F] end; clear F end.
Lemma state_byte s i : byt s -> nth i s 0 < 256.
Proof.
  intros H. destruct (Nat.ltb_spec i (length s)) as [L|L]; [|rewrite nth_overflow by lia; reflexivity].
  rewrite Forall_forall in H. apply H, nth_In, L.
Qed.
Ltac okstate := split; [reflexivity|]; cbn; repeat constructor; bnd.
Lemma xor_ok s k : state_ok s -> state_ok k -> state_ok (xor_bytes s k).
Proof. intros Hs Hk. exp16. okstate. Qed.
Lemma sub_ok s : state_ok s -> state_ok (sub_bytes s).
Proof.
  intros [L F]. split; [unfold sub_bytes; rewrite map_length; exact L|]. unfold sub_bytes.
  apply Forall_map. eapply Forall_impl; [|exact F]. intros b Hb. now apply sbox_byte.
Qed.
Lemma inv_sub_ok s : state_ok s -> state_ok (inv_sub_bytes s).
Proof.
  intros [L F]. split; [unfold inv_sub_bytes; rewrite map_length; exact L|]. unfold inv_sub_bytes.
  apply Forall_map. eapply Forall_impl; [|exact F]. intros b Hb. now apply inv_sbox_byte.
Qed.
Lemma shift_ok s : state_ok s -> state_ok (shift_rows s).
Proof. intros [L F]. split; [reflexivity|]. unfold shift_rows. apply Forall_map, Forall_forall. intros i _. apply state_byte, F. Qed.
Lemma inv_shift_ok s : state_ok s -> state_ok (inv_shift_rows s).
Proof. intros [L F]. split; [reflexivity|]. unfold inv_shift_rows. apply Forall_map, Forall_forall. intros i _. apply state_byte, F. Qed.
Lemma mul_row_byte m c : byt m -> mul_row m c < 256.
Proof.
  intros H. unfold mul_row. revert c; induction H as [|x m Hx Hm IH]; intros [|y c]; try reflexivity.
  cbn [combine map fst snd fold_right]. apply lxor_byte; [now apply gmul_byte|apply IH].
Qed.
Lemma mix_col_ok c : byt (mix_column c).
Proof. repeat constructor; apply mul_row_byte; repeat constructor. Qed.
Lemma inv_mix_col_ok c : byt (inv_mix_column c).
Proof. repeat constructor; apply mul_row_byte; repeat constructor. Qed.
Lemma mix_ok s : state_ok (mix_columns s).
Proof.
  split; [reflexivity|]. unfold mix_columns. rewrite flat_map_concat_map. apply Forall_concat. apply Forall_map, Forall_forall. intros; apply mix_col_ok.
Qed.
Lemma inv_mix_ok s : state_ok (inv_mix_columns s).
Proof.
  split; [reflexivity|]. unfold inv_mix_columns. rewrite flat_map_concat_map. apply Forall_concat. apply Forall_map, Forall_forall. intros; apply inv_mix_col_ok.
Qed.

(** ** Rounds *)
Definition key_at (rk : list N) (r : nat) (k : list N) : Prop :=
  (rk_at rk (4 * r), rk_at rk (4 * r + 1), rk_at rk (4 * r + 2), rk_at rk (4 * r + 3)) = qd k.
Ltac byt4 := repeat constructor; assumption.
Lemma enc_round_ok rk r s k : state_ok s -> state_ok k -> key_at rk r k ->
  enc_round rk (qd s) r = qd (xor_bytes (mix_columns (shift_rows (sub_bytes s))) k).
Proof.
  intros Hs Hk E. exp16. unfold key_at, qd in E. cbn [nth] in E. apply pair_equal_spec in E as [E E3]; apply pair_equal_spec in E as [E E2]; apply pair_equal_spec in E as [E0 E1].
  unfold enc_round, qd. cbn [nth]. rewrite E0, E1, E2, E3. rewrite !enc_word_ok by byt4. cbn. reflexivity.
Qed.
Lemma dec_round_ok rk r s k : state_ok s -> state_ok k -> key_at rk r k ->
  dec_round rk (qd s) r = qd (xor_bytes (inv_mix_columns (inv_sub_bytes (inv_shift_rows s))) k).
Proof.
  intros Hs Hk E. exp16. unfold key_at, qd in E. cbn [nth] in E. apply pair_equal_spec in E as [E E3]; apply pair_equal_spec in E as [E E2]; apply pair_equal_spec in E as [E0 E1].
  unfold dec_round, qd. cbn [nth]. rewrite E0, E1, E2, E3. rewrite !dec_word_ok by byt4. cbn. reflexivity.
Qed.
Definition put_quad (q : quad) : bytes := let '(a, b, c, d) := q in putu32 a ++ putu32 b ++ putu32 c ++ putu32 d.
Lemma put_qd s : state_ok s -> put_quad (qd s) = s.
Proof. intros H. exp16. unfold put_quad, qd. cbn [nth]. rewrite !putu32_pk by assumption. reflexivity. Qed.
Lemma start_ok rk r s k : state_ok s -> state_ok k -> key_at rk r k ->
  (N.lxor (getu32 s 0) (rk_at rk (4 * r)), N.lxor (getu32 s 4) (rk_at rk (4 * r + 1)),
   N.lxor (getu32 s 8) (rk_at rk (4 * r + 2)), N.lxor (getu32 s 12) (rk_at rk (4 * r + 3))) = qd (xor_bytes s k).
Proof.
  intros Hs Hk E. exp16. unfold key_at, qd in E. cbn [nth] in E. apply pair_equal_spec in E as [E E3]; apply pair_equal_spec in E as [E E2]; apply pair_equal_spec in E as [E0 E1].
  rewrite E0, E1, E2, E3, !getu32_pk, !pk_lxor. reflexivity.
Qed.
Lemma enc_end_ok rk r s k : state_ok s -> state_ok k -> key_at rk r k ->
  (let '(t0, t1, t2, t3) := qd s in
   putu32 (enc_last t0 t1 t2 t3 (rk_at rk (4 * r))) ++ putu32 (enc_last t1 t2 t3 t0 (rk_at rk (4 * r + 1))) ++
   putu32 (enc_last t2 t3 t0 t1 (rk_at rk (4 * r + 2))) ++ putu32 (enc_last t3 t0 t1 t2 (rk_at rk (4 * r + 3)))) =
  xor_bytes (shift_rows (sub_bytes s)) k.
Proof.
  intros Hs Hk E. rewrite <- (put_qd (xor_bytes (shift_rows (sub_bytes s)) k)) by (apply xor_ok; [apply shift_ok, sub_ok|]; assumption).
  exp16. unfold key_at, qd in E. cbn [nth] in E. apply pair_equal_spec in E as [E E3]; apply pair_equal_spec in E as [E E2]; apply pair_equal_spec in E as [E0 E1].
  unfold qd at 1. cbn [nth]. rewrite E0, E1, E2, E3. rewrite !enc_last_ok by byt4. cbn. reflexivity.
Qed.
Lemma dec_end_ok rk r s k : state_ok s -> state_ok k -> key_at rk r k ->
  (let '(t0, t1, t2, t3) := qd s in
   putu32 (dec_last t0 t3 t2 t1 (rk_at rk (4 * r))) ++ putu32 (dec_last t1 t0 t3 t2 (rk_at rk (4 * r + 1))) ++
   putu32 (dec_last t2 t1 t0 t3 (rk_at rk (4 * r + 2))) ++ putu32 (dec_last t3 t2 t1 t0 (rk_at rk (4 * r + 3)))) =
  xor_bytes (inv_sub_bytes (inv_shift_rows s)) k.
Proof.
  intros Hs Hk E. rewrite <- (put_qd (xor_bytes (inv_sub_bytes (inv_shift_rows s)) k)) by (apply xor_ok; [apply inv_sub_ok, inv_shift_ok|]; assumption).
  exp16. unfold key_at, qd in E. cbn [nth] in E. apply pair_equal_spec in E as [E E3]; apply pair_equal_spec in E as [E E2]; apply pair_equal_spec in E as [E0 E1].
  unfold qd at 1. cbn [nth]. rewrite E0, E1, E2, E3. rewrite !dec_last_ok by byt4. cbn. reflexivity.
Qed.

(** The whole encryption, for round keys [rk] that stand for [k]. *)
Lemma fold_enc rk k l s : (forall r, In r l -> state_ok (k r) /\ key_at rk r (k r)) -> state_ok s ->
  fold_left (enc_round rk) l (qd s) = qd (fold_left (fun s r => xor_bytes (mix_columns (shift_rows (sub_bytes s))) (k r)) l s) /\
  state_ok (fold_left (fun s r => xor_bytes (mix_columns (shift_rows (sub_bytes s))) (k r)) l s).
Proof.
  revert s; induction l as [|r l IH]; intros s H Hs; [now split|]. cbn [fold_left].
  destruct (H r (or_introl eq_refl)) as [K1 K2].
  rewrite (enc_round_ok rk r s (k r)) by assumption. apply IH; [intros r' Hr; apply H; now right|]. apply xor_ok; [apply mix_ok|assumption].
Qed.
Lemma encrypt_ok rk nr k pt : (forall r, (r <= nr)%nat -> state_ok (k r) /\ key_at rk r (k r)) -> state_ok pt -> (1 <= nr)%nat ->
  aes_encrypt rk nr pt =
  xor_bytes (shift_rows (sub_bytes (fold_left (fun s r => xor_bytes (mix_columns (shift_rows (sub_bytes s))) (k r)) (seq 1 (nr - 1)) (xor_bytes pt (k 0%nat))))) (k nr).
Proof.
  intros H Hp Hn. unfold aes_encrypt. cbv zeta. destruct (H 0%nat ltac:(lia)) as [K1 K2].
  pose proof (start_ok rk 0 pt (k 0%nat) Hp K1 K2) as E. change (rk_at rk (4 * 0)) with (rk_at rk 0) in E.
  change (rk_at rk (4 * 0 + 1)) with (rk_at rk 1) in E. change (rk_at rk (4 * 0 + 2)) with (rk_at rk 2) in E.
  change (rk_at rk (4 * 0 + 3)) with (rk_at rk 3) in E. rewrite E.
  destruct (fold_enc rk k (seq 1 (nr - 1)) (xor_bytes pt (k 0%nat))) as [F1 F2].
  - intros r Hr. apply in_seq in Hr. apply H. lia.
  - now apply xor_ok.
  - rewrite F1. destruct (H nr (le_n _)) as [L1 L2]. apply enc_end_ok; assumption.
Qed.
(** Decryption with rounds as the code has them. *)
Lemma fold_dec rk k l s : (forall r, In r l -> state_ok (k r) /\ key_at rk r (k r)) -> state_ok s ->
  fold_left (dec_round rk) l (qd s) = qd (fold_left (fun s r => xor_bytes (inv_mix_columns (inv_sub_bytes (inv_shift_rows s))) (k r)) l s) /\
  state_ok (fold_left (fun s r => xor_bytes (inv_mix_columns (inv_sub_bytes (inv_shift_rows s))) (k r)) l s).
Proof.
  revert s; induction l as [|r l IH]; intros s H Hs; [now split|]. cbn [fold_left].
  destruct (H r (or_introl eq_refl)) as [K1 K2].
  rewrite (dec_round_ok rk r s (k r)) by assumption. apply IH; [intros r' Hr; apply H; now right|]. apply xor_ok; [apply inv_mix_ok|assumption].
Qed.
Lemma decrypt_ok rk nr k pt : (forall r, (r <= nr)%nat -> state_ok (k r) /\ key_at rk r (k r)) -> state_ok pt -> (1 <= nr)%nat ->
  aes_decrypt rk nr pt =
  xor_bytes (inv_sub_bytes (inv_shift_rows (fold_left (fun s r => xor_bytes (inv_mix_columns (inv_sub_bytes (inv_shift_rows s))) (k r)) (seq 1 (nr - 1)) (xor_bytes pt (k 0%nat))))) (k nr).
Proof.
  intros H Hp Hn. unfold aes_decrypt. cbv zeta. destruct (H 0%nat ltac:(lia)) as [K1 K2].
  pose proof (start_ok rk 0 pt (k 0%nat) Hp K1 K2) as E. change (rk_at rk (4 * 0)) with (rk_at rk 0) in E.
  change (rk_at rk (4 * 0 + 1)) with (rk_at rk 1) in E. change (rk_at rk (4 * 0 + 2)) with (rk_at rk 2) in E.
  change (rk_at rk (4 * 0 + 3)) with (rk_at rk 3) in E. rewrite E.
  destruct (fold_dec rk k (seq 1 (nr - 1)) (xor_bytes pt (k 0%nat))) as [F1 F2].
  - intros r Hr. apply in_seq in Hr. apply H. lia.
  - now apply xor_ok.
  - rewrite F1. destruct (H nr (le_n _)) as [L1 L2]. apply dec_end_ok; assumption.
Qed.
