(** AESEncrypt and AESDecrypt are the cipher and the inverse cipher of FIPS 197, and these are inverse to each other. *)
From Verif Require Import Bytes AesTables AesModel AesSpec AesProofs AesRounds AesKeys.
From Coq Require Import Btauto.
Local Open Scope N_scope.
Local Opaque sbox inv_sbox gmul pk N.lxor.

Lemma nth_part {A} (d : A) (l : list A) o i n : (i < n)%nat -> nth i (firstn n (skipn o l)) d = nth (o + i) l d.
Proof.
  intros H. revert o. assert (F : forall m i, (i < n)%nat -> nth i (firstn n m) d = nth i m d).
  { clear. induction n as [|n IH]; intros m i H; [lia|]. destruct m as [|x m]; [destruct i; reflexivity|]. destruct i; [reflexivity|]. cbn. apply IH. lia. }
  intros o. rewrite F by assumption. revert l. induction o as [|o IH]; intros l; [reflexivity|]. destruct l; [destruct i; reflexivity|]. cbn. apply IH.
Qed.
Lemma pkl_part key o : pkl (firstn 4 (skipn o key)) = getu32 key o.
Proof. rewrite getu32_pk. unfold pkl. rewrite !nth_part by lia. rewrite Nat.add_0_r. reflexivity. Qed.
Lemma part_ok key o : byt key -> (o + 4 <= length key)%nat -> word_ok (firstn 4 (skipn o key)).
Proof.
  intros H L. split; [rewrite firstn_length, skipn_length; lia|]. rewrite Forall_forall in *. intros b Hb. apply H.
  rewrite <- (firstn_skipn o key). apply in_or_app. right. rewrite <- (firstn_skipn 4 (skipn o key)). apply in_or_app. now left.
Qed.
Definition nk_ok (nk : nat) : Prop := nk = 4%nat \/ nk = 6%nat \/ nk = 8%nat.
Lemma expand_length nk n ws : length (expand nk n ws) = (n + length ws)%nat.
Proof. revert ws; induction n as [|n IH]; intros ws; [reflexivity|]. cbn [expand]. rewrite IH, app_length. cbn. lia. Qed.
(** AESKeySetupEnc. *)
Lemma key_setup_ok nk key : nk_ok nk -> (4 * nk <= length key)%nat -> byt key ->
  key_setup_enc key (32 * nk) = (map pkl (key_expansion nk key), rounds nk) /\
  Forall word_ok (key_expansion nk key) /\ length (key_expansion nk key) = (4 * (rounds nk + 1))%nat.
Proof.
  intros Hnk HL Hb. assert (LEN : length (key_expansion nk key) = (4 * (rounds nk + 1))%nat).
  { unfold key_expansion. rewrite expand_length. unfold key_words. rewrite map_length, seq_length. unfold rounds. destruct Hnk as [->|[->| ->]]; reflexivity. }
  split; [|split; [|exact LEN]]; destruct Hnk as [->|[->| ->]]; clear LEN.
  - destruct (setup128_ok 10 0 [] (firstn 4 (skipn 0 key)) (firstn 4 (skipn 4 key)) (firstn 4 (skipn 8 key)) (firstn 4 (skipn 12 key))) as [E1 E2];
      try (apply part_ok; [assumption|lia]); [reflexivity|lia|constructor|].
    change (key_expansion 4 key) with (expand 4 (4 * 10) ([] ++ [firstn 4 (skipn 0 key); firstn 4 (skipn 4 key); firstn 4 (skipn 8 key); firstn 4 (skipn 12 key)])).
    rewrite E1. rewrite !pkl_part. unfold key_setup_enc. cbn [Nat.mul Nat.add Nat.eqb]. cbn [map app]. rewrite !pkl_part. reflexivity.
  - destruct (setup192_ok 7 0 [] (firstn 4 (skipn 0 key)) (firstn 4 (skipn 4 key)) (firstn 4 (skipn 8 key)) (firstn 4 (skipn 12 key)) (firstn 4 (skipn 16 key)) (firstn 4 (skipn 20 key))) as [E1 E2];
      try (apply part_ok; [assumption|lia]); [reflexivity|lia|constructor|].
    change (key_expansion 6 key) with (expand 6 (6 * 7 + 4) ([] ++ [firstn 4 (skipn 0 key); firstn 4 (skipn 4 key); firstn 4 (skipn 8 key); firstn 4 (skipn 12 key); firstn 4 (skipn 16 key); firstn 4 (skipn 20 key)])).
    rewrite E1. rewrite !pkl_part. unfold key_setup_enc. cbn [Nat.mul Nat.add Nat.eqb]. cbn [map app]. rewrite !pkl_part. reflexivity.
  - destruct (setup256_ok 6 0 [] (firstn 4 (skipn 0 key)) (firstn 4 (skipn 4 key)) (firstn 4 (skipn 8 key)) (firstn 4 (skipn 12 key)) (firstn 4 (skipn 16 key)) (firstn 4 (skipn 20 key)) (firstn 4 (skipn 24 key)) (firstn 4 (skipn 28 key))) as [E1 E2];
      try (apply part_ok; [assumption|lia]); [reflexivity|lia|constructor|].
    change (key_expansion 8 key) with (expand 8 (8 * 6 + 4) ([] ++ [firstn 4 (skipn 0 key); firstn 4 (skipn 4 key); firstn 4 (skipn 8 key); firstn 4 (skipn 12 key); firstn 4 (skipn 16 key); firstn 4 (skipn 20 key); firstn 4 (skipn 24 key); firstn 4 (skipn 28 key)])).
    rewrite E1. rewrite !pkl_part. unfold key_setup_enc. cbn [Nat.mul Nat.add Nat.eqb]. cbn [map app]. rewrite !pkl_part. reflexivity.
  - apply (setup128_ok 10 0 [] (firstn 4 (skipn 0 key)) (firstn 4 (skipn 4 key)) (firstn 4 (skipn 8 key)) (firstn 4 (skipn 12 key)));
      try (apply part_ok; [assumption|lia]); [reflexivity|lia|constructor].
  - apply (setup192_ok 7 0 [] (firstn 4 (skipn 0 key)) (firstn 4 (skipn 4 key)) (firstn 4 (skipn 8 key)) (firstn 4 (skipn 12 key)) (firstn 4 (skipn 16 key)) (firstn 4 (skipn 20 key)));
      try (apply part_ok; [assumption|lia]); [reflexivity|lia|constructor].
  - apply (setup256_ok 6 0 [] (firstn 4 (skipn 0 key)) (firstn 4 (skipn 4 key)) (firstn 4 (skipn 8 key)) (firstn 4 (skipn 12 key)) (firstn 4 (skipn 16 key)) (firstn 4 (skipn 20 key)) (firstn 4 (skipn 24 key)) (firstn 4 (skipn 28 key)));
      try (apply part_ok; [assumption|lia]); [reflexivity|lia|constructor].
Qed.

(** The round keys. *)
Definition quad_at (rk : list N) (r : nat) : quad := (rk_at rk (4 * r), rk_at rk (4 * r + 1), rk_at rk (4 * r + 2), rk_at rk (4 * r + 3)).
Lemma round_key_ok nk key r : Forall word_ok (key_expansion nk key) -> (4 * r + 4 <= length (key_expansion nk key))%nat ->
  state_ok (round_key nk key r) /\ key_at (map pkl (key_expansion nk key)) r (round_key nk key r).
Proof.
  unfold round_key. generalize (key_expansion nk key). intros ws F L.
  assert (E : forall j, (j < 4)%nat -> rk_at (map pkl ws) (4 * r + j) = pkl (nth j (firstn 4 (skipn (4 * r) ws)) [])).
  { intros j Hj. unfold rk_at. rewrite nth_part by assumption. change 0 with (pkl []). apply map_nth. }
  assert (W : Forall word_ok (firstn 4 (skipn (4 * r) ws))).
  { rewrite Forall_forall in *. intros w Hw. apply F. rewrite <- (firstn_skipn (4 * r) ws). apply in_or_app. right.
    rewrite <- (firstn_skipn 4 (skipn (4 * r) ws)). apply in_or_app. now left. }
  assert (L4 : length (firstn 4 (skipn (4 * r) ws)) = 4%nat) by (rewrite firstn_length, skipn_length; lia).
  unfold key_at. replace (4 * r)%nat with (4 * r + 0)%nat at 2 by lia. rewrite !E by lia. clear E F.
  destruct (firstn 4 (skipn (4 * r) ws)) as [|a [|b [|c [|d [|]]]]]; try discriminate. clear L L4 ws.
  repeat match goal with H : Forall _ (_ :: _) |- _ => apply Forall_cons_iff in H as [? H] end. clear W. exp4.
  split; [|reflexivity]. split; [reflexivity|]. cbn. repeat constructor; assumption.
Qed.

(** AESEncrypt is the cipher. *)
Lemma encrypt_cipher nk key pt : nk_ok nk -> (4 * nk <= length key)%nat -> byt key -> state_ok pt ->
  let '(rk, nr) := key_setup_enc key (32 * nk) in aes_encrypt rk nr pt = cipher nk key pt.
Proof.
  intros Hnk HL Hb Hp. destruct (key_setup_ok nk key Hnk HL Hb) as (E & F & L). rewrite E.
  rewrite (encrypt_ok _ (rounds nk) (round_key nk key)); [reflexivity| |assumption|unfold rounds; lia].
  intros r Hr. apply round_key_ok; [assumption|]. rewrite L. lia.
Qed.

(** ** The inverse *)
Lemma mul_row_xor m : forall a b, length a = length b -> mul_row m (xor_bytes a b) = N.lxor (mul_row m a) (mul_row m b).
Proof.
  unfold mul_row. induction m as [|x m IH]; intros a b H; [reflexivity|].
  destruct a as [|y a], b as [|z b]; try discriminate; [reflexivity|]. cbn [xor_bytes combine map fst snd fold_right].
  rewrite gmul_lxor. injection H as H. specialize (IH a b H). unfold xor_bytes in IH. rewrite IH.
  apply N.bits_inj; intros n. rewrite !N.lxor_spec. btauto.
Qed.
Lemma inv_mix_col_xor a b : length a = length b ->
  inv_mix_column (xor_bytes a b) = xor_bytes (inv_mix_column a) (inv_mix_column b).
Proof. intros H. unfold inv_mix_column. rewrite !mul_row_xor by assumption. reflexivity. Qed.
Lemma inv_mix_xor a b : state_ok a -> state_ok b -> inv_mix_columns (xor_bytes a b) = xor_bytes (inv_mix_columns a) (inv_mix_columns b).
Proof.
  intros Ha Hb. exp16. unfold inv_mix_columns, columns. cbn [map seq firstn skipn Nat.mul Nat.add flat_map app].
  cbn [xor_bytes combine map fst snd firstn skipn].
  repeat match goal with |- context [inv_mix_column [N.lxor ?a ?a'; N.lxor ?b ?b'; N.lxor ?c ?c'; N.lxor ?d ?d']] =>
    change [N.lxor a a'; N.lxor b b'; N.lxor c c'; N.lxor d d'] with (xor_bytes [a; b; c; d] [a'; b'; c'; d']); rewrite inv_mix_col_xor by reflexivity end.
  reflexivity.
Qed.
Local Transparent gmul pk N.lxor.
Ltac bw := bytewise0.
Definition prod4 (m : list N) (j : nat) (x : N) : N :=
  N.lxor (gmul (nth 0 m 0) (gmul (nth j [2; 3; 1; 1] 0) x)) (N.lxor (gmul (nth 1 m 0) (gmul (nth j [1; 2; 3; 1] 0) x))
    (N.lxor (gmul (nth 2 m 0) (gmul (nth j [1; 1; 2; 3] 0) x)) (gmul (nth 3 m 0) (gmul (nth j [3; 1; 1; 2] 0) x)))).
Lemma prod_rows : forall x, x < 256 ->
  prod4 [14; 11; 13; 9] 0 x = x /\ prod4 [14; 11; 13; 9] 1 x = 0 /\ prod4 [14; 11; 13; 9] 2 x = 0 /\ prod4 [14; 11; 13; 9] 3 x = 0 /\
  prod4 [9; 14; 11; 13] 0 x = 0 /\ prod4 [9; 14; 11; 13] 1 x = x /\ prod4 [9; 14; 11; 13] 2 x = 0 /\ prod4 [9; 14; 11; 13] 3 x = 0 /\
  prod4 [13; 9; 14; 11] 0 x = 0 /\ prod4 [13; 9; 14; 11] 1 x = 0 /\ prod4 [13; 9; 14; 11] 2 x = x /\ prod4 [13; 9; 14; 11] 3 x = 0 /\
  prod4 [11; 13; 9; 14] 0 x = 0 /\ prod4 [11; 13; 9; 14] 1 x = 0 /\ prod4 [11; 13; 9; 14] 2 x = 0 /\ prod4 [11; 13; 9; 14] 3 x = x.
Proof. intros x H. repeat split; revert x H; bw. Qed.
Local Opaque gmul pk N.lxor.
Lemma regroup a0 a1 a2 a3 b0 b1 b2 b3 c0 c1 c2 c3 d0 d1 d2 d3 :
  N.lxor (N.lxor a0 (N.lxor a1 (N.lxor a2 (N.lxor a3 0)))) (N.lxor (N.lxor b0 (N.lxor b1 (N.lxor b2 (N.lxor b3 0))))
    (N.lxor (N.lxor c0 (N.lxor c1 (N.lxor c2 (N.lxor c3 0)))) (N.lxor (N.lxor d0 (N.lxor d1 (N.lxor d2 (N.lxor d3 0)))) 0))) =
  N.lxor (N.lxor a0 (N.lxor b0 (N.lxor c0 d0))) (N.lxor (N.lxor a1 (N.lxor b1 (N.lxor c1 d1)))
    (N.lxor (N.lxor a2 (N.lxor b2 (N.lxor c2 d2))) (N.lxor a3 (N.lxor b3 (N.lxor c3 d3))))).
Proof.
  rewrite !N.lxor_0_r. apply N.bits_inj; intros n. rewrite !N.lxor_spec.
  btauto.
Qed.
Lemma inv_mul_row m0 m1 m2 m3 a b c d :
  mul_row [m0; m1; m2; m3] (mix_column [a; b; c; d]) =
  N.lxor (prod4 [m0; m1; m2; m3] 0 a) (N.lxor (prod4 [m0; m1; m2; m3] 1 b) (N.lxor (prod4 [m0; m1; m2; m3] 2 c) (prod4 [m0; m1; m2; m3] 3 d))).
Proof.
  unfold mul_row, mix_column, prod4. cbn [map combine fst snd fold_right nth]. unfold mul_row. cbn [map combine fst snd fold_right nth].
  rewrite !gmul_lxor, !gmul_0. apply regroup.
Qed.
Lemma inv_mix_col_mix c : word_ok c -> inv_mix_column (mix_column c) = c.
Proof.
  intros H. exp4. unfold inv_mix_column. rewrite !inv_mul_row.
  repeat match goal with |- context [prod4 _ _ ?x] => match goal with H : x < 256 |- _ =>
     let P := fresh in pose proof (prod_rows x H) as P; destruct P as (?P & ?P & ?P & ?P & ?P & ?P & ?P & ?P & ?P & ?P & ?P & ?P & ?P & ?P & ?P & ?P);
     repeat match goal with Q : prod4 _ _ x = _ |- _ => rewrite ?Q; clear Q end end end.
  rewrite !N.lxor_0_r, !N.lxor_0_l. reflexivity.
Qed.
Lemma inv_mix_mix s : state_ok s -> inv_mix_columns (mix_columns s) = s.
Proof.
  intros H. exp16. unfold inv_mix_columns, columns. cbn [map seq firstn skipn Nat.mul Nat.add flat_map app].
  unfold mix_columns, columns. cbn [map seq firstn skipn Nat.mul Nat.add flat_map app].
  assert (SH : forall c, mix_column c = [nth 0 (mix_column c) 0; nth 1 (mix_column c) 0; nth 2 (mix_column c) 0; nth 3 (mix_column c) 0]) by reflexivity.
  generalize SH. intros _.
  repeat match goal with |- context [mix_column [?a; ?b; ?c; ?d] ++ _] => rewrite (SH [a; b; c; d]) end.
  cbn [app firstn skipn]. rewrite <- !SH. rewrite !inv_mix_col_mix by (split; [reflexivity|repeat constructor; assumption]). reflexivity.
Qed.
Lemma inv_shift_shift s : length s = 16%nat -> inv_shift_rows (shift_rows s) = s.
Proof. intros H. list16 s. reflexivity. Qed.
Lemma inv_sub_sub s : byt s -> inv_sub_bytes (sub_bytes s) = s.
Proof.
  unfold inv_sub_bytes, sub_bytes. rewrite map_map. induction 1 as [|x l Hx Hl IH]; [reflexivity|]. cbn [map]. now rewrite inv_sbox_sbox, IH.
Qed.
Lemma xor_xor a k : length a = length k -> xor_bytes (xor_bytes a k) k = a.
Proof.
  unfold xor_bytes. revert k; induction a as [|x a IH]; intros [|y k] H; try discriminate; [reflexivity|]. cbn [combine map fst snd].
  rewrite N.lxor_assoc, N.lxor_nilpotent, N.lxor_0_r. f_equal. apply IH. now injection H.
Qed.
Lemma xor_ok_len a k : state_ok a -> state_ok k -> xor_bytes (xor_bytes a k) k = a.
Proof. intros [H _] [K _]. apply xor_xor. congruence. Qed.
Definition srsb (s : list N) := shift_rows (sub_bytes s).
Lemma unsrsb s : state_ok s -> inv_sub_bytes (inv_shift_rows (srsb s)) = s.
Proof.
  intros H. unfold srsb. rewrite inv_shift_shift by (apply sub_ok in H; apply H). apply inv_sub_sub. apply H.
Qed.
Lemma srsb_ok s : state_ok s -> state_ok (srsb s).
Proof. intros H. now apply shift_ok, sub_ok. Qed.

Lemma undo (k : nat -> list N) l : (forall r, In r l -> state_ok (k r)) -> forall s, state_ok s ->
  fold_left (fun s r => inv_mix_columns (xor_bytes (inv_sub_bytes (inv_shift_rows s)) (k r))) (rev l)
    (srsb (fold_left (fun s r => xor_bytes (mix_columns (shift_rows (sub_bytes s))) (k r)) l s)) = srsb s /\
  state_ok (fold_left (fun s r => xor_bytes (mix_columns (shift_rows (sub_bytes s))) (k r)) l s).
Proof.
  induction l as [|r l IH] using rev_ind; intros H s Hs; [now split|].
  rewrite rev_app_distr, !fold_left_app. cbn [rev app fold_left].
  destruct (IH (fun r' Hr => H r' (in_or_app _ _ _ (or_introl Hr))) s Hs) as [E OK].
  assert (K : state_ok (k r)) by (apply H, in_or_app; right; now left).
  set (u := fold_left _ l s) in *. fold (srsb u).
  rewrite unsrsb by (apply xor_ok; [apply mix_ok|assumption]). rewrite xor_ok_len by (assumption || apply mix_ok).
  rewrite inv_mix_mix by (now apply srsb_ok). split; [exact E|]. apply xor_ok; [apply mix_ok|assumption].
Qed.
Lemma cipher_ok nk key pt : nk_ok nk -> (4 * nk <= length key)%nat -> byt key -> state_ok pt -> state_ok (cipher nk key pt).
Proof.
  intros Hnk HL Hb Hp. destruct (key_setup_ok nk key Hnk HL Hb) as (_ & F & L).
  assert (K : forall r, (r <= rounds nk)%nat -> state_ok (round_key nk key r)) by (intros r Hr; apply round_key_ok; [assumption|lia]).
  unfold cipher. cbv zeta.
  destruct (undo (round_key nk key) (seq 1 (rounds nk - 1))) with (s := xor_bytes pt (round_key nk key 0)) as [_ OK].
  - intros r Hr. apply in_seq in Hr. apply K. lia.
  - apply xor_ok; [assumption|]. apply K. lia.
  - apply xor_ok; [now apply srsb_ok|]. apply K. lia.
Qed.
Lemma inv_cipher_cipher nk key pt : nk_ok nk -> (4 * nk <= length key)%nat -> byt key -> state_ok pt ->
  inv_cipher nk key (cipher nk key pt) = pt.
Proof.
  intros Hnk HL Hb Hp. destruct (key_setup_ok nk key Hnk HL Hb) as (_ & F & L).
  assert (K : forall r, (r <= rounds nk)%nat -> state_ok (round_key nk key r)) by (intros r Hr; apply round_key_ok; [assumption|lia]).
  unfold inv_cipher, cipher. cbv zeta.
  destruct (undo (round_key nk key) (seq 1 (rounds nk - 1))) with (s := xor_bytes pt (round_key nk key 0)) as [E OK].
  - intros r Hr. apply in_seq in Hr. apply K. lia.
  - apply xor_ok; [assumption|]. apply K. lia.
  - set (u := fold_left _ (seq 1 (rounds nk - 1)) _) in *. fold (srsb u).
    rewrite xor_ok_len by ((now apply srsb_ok) || (apply K; lia)). rewrite E.
    rewrite unsrsb by (apply xor_ok; [assumption|apply K; lia]). apply xor_ok_len; [assumption|apply K; lia].
Qed.

(** ** AESKeySetupDec and AESDecrypt *)
Definition map_quad (f : N -> N) (q : quad) : quad := let '(a, b, c, d) := q in (f a, f b, f c, f d).
Definition dec_f (nr r : nat) : N -> N := if Nat.eqb r 0 || Nat.eqb r nr then fun x => x else dec_key_word.
Lemma key_setup_dec_at nk rk r : nk_ok nk -> length rk = (4 * (rounds nk + 1))%nat -> (r <= rounds nk)%nat ->
  quad_at (dec_words (reverse_loop (rounds nk) 0 (4 * rounds nk) rk) (rounds nk - 1)) r = map_quad (dec_f (rounds nk) r) (quad_at rk (rounds nk - r)).
Proof.
  intros [->|[->| ->]] L H; cbn [rounds Nat.add Nat.mul] in *.
  - do 44 (destruct rk as [|? rk]; [discriminate|]). destruct rk; [|discriminate]. clear L. do 11 (destruct r as [|r]; [reflexivity|]). lia.
  - do 52 (destruct rk as [|? rk]; [discriminate|]). destruct rk; [|discriminate]. clear L. do 13 (destruct r as [|r]; [reflexivity|]). lia.
  - do 60 (destruct rk as [|? rk]; [discriminate|]). destruct rk; [|discriminate]. clear L. do 15 (destruct r as [|r]; [reflexivity|]). lia.
Qed.

Definition dec_key (nk : nat) (key : list N) (r : nat) : list N :=
  let k := round_key nk key (rounds nk - r) in if Nat.eqb r 0 || Nat.eqb r (rounds nk) then k else inv_mix_columns k.
Lemma dec_quad s : state_ok s -> map_quad dec_key_word (qd s) = qd (inv_mix_columns s).
Proof.
  intros H. exp16. unfold qd at 1. cbn [nth map_quad].
  rewrite !dec_key_word_ok by (repeat constructor; assumption). reflexivity.
Qed.
Lemma dec_key_ok nk key r : nk_ok nk -> (4 * nk <= length key)%nat -> byt key -> (r <= rounds nk)%nat ->
  state_ok (dec_key nk key r) /\ key_at (fst (key_setup_dec key (32 * nk))) r (dec_key nk key r).
Proof.
  intros Hnk HL Hb Hr. destruct (key_setup_ok nk key Hnk HL Hb) as (E & F & L).
  destruct (round_key_ok nk key (rounds nk - r) F) as [K1 K2]; [lia|].
  assert (S1 : state_ok (dec_key nk key r)) by (unfold dec_key; destruct (_ || _); [assumption|apply inv_mix_ok]).
  split; [exact S1|]. unfold key_setup_dec. rewrite E. cbn [fst]. unfold key_at. fold (quad_at (dec_words (reverse_loop (rounds nk) 0 (4 * rounds nk) (map pkl (key_expansion nk key))) (rounds nk - 1)) r).
  rewrite key_setup_dec_at by (rewrite ?map_length; assumption). unfold key_at in K2. unfold quad_at at 1. rewrite K2.
  unfold dec_f, dec_key. destruct (_ || _); [|apply dec_quad; assumption].
  clear - K1. destruct K1 as [K _]. generalize dependent (round_key nk key (rounds nk - r)). intros k _. reflexivity.
Qed.
Lemma inv_sub_shift s : length s = 16%nat -> inv_sub_bytes (inv_shift_rows s) = inv_shift_rows (inv_sub_bytes s).
Proof. intros H. list16 s. reflexivity. Qed.
Lemma fold_left_map {A B C} (f : A -> B -> A) (g : C -> B) l a : fold_left f (map g l) a = fold_left (fun a c => f a (g c)) l a.
Proof. revert a; induction l as [|c l IH]; intros a; [reflexivity|]. cbn. apply IH. Qed.
(** AESDecrypt is the inverse cipher. *)
Lemma decrypt_inv_cipher nk key ct : nk_ok nk -> (4 * nk <= length key)%nat -> byt key -> state_ok ct ->
  let '(rk, nr) := key_setup_dec key (32 * nk) in aes_decrypt rk nr ct = inv_cipher nk key ct.
Proof.
  intros Hnk HL Hb Hc. destruct (key_setup_ok nk key Hnk HL Hb) as (E & F & L).
  pose proof (fun r => dec_key_ok nk key r Hnk HL Hb) as K.
  destruct (key_setup_dec key (32 * nk)) as [rk nr] eqn:D. assert (NR : nr = rounds nk) by (unfold key_setup_dec in D; rewrite E in D; now injection D).
  subst nr. cbn [fst] in K. rewrite (decrypt_ok rk (rounds nk) (dec_key nk key)); [|assumption|assumption|unfold rounds; lia].
  unfold inv_cipher. cbv zeta.
  assert (RV : rev (seq 1 (rounds nk - 1)) = map (fun r => rounds nk - r)%nat (seq 1 (rounds nk - 1))) by (destruct Hnk as [->|[->| ->]]; reflexivity).
  rewrite RV, fold_left_map.
  assert (K0 : dec_key nk key 0 = round_key nk key (rounds nk)) by (unfold dec_key; rewrite Nat.sub_0_r; reflexivity).
  assert (KN : dec_key nk key (rounds nk) = round_key nk key 0) by (unfold dec_key; rewrite Nat.sub_diag, Nat.eqb_refl, orb_true_r; reflexivity).
  rewrite K0, KN. f_equal. f_equal. f_equal.
  assert (SK : state_ok (xor_bytes ct (round_key nk key (rounds nk)))).
  { apply xor_ok; [assumption|]. rewrite <- K0. apply K. lia. }
  revert SK. generalize (xor_bytes ct (round_key nk key (rounds nk))).
  assert (IN : forall r, In r (seq 1 (rounds nk - 1)) -> (1 <= r < rounds nk)%nat) by (intros r Hr; apply in_seq in Hr; lia).
  revert IN. generalize (seq 1 (rounds nk - 1)). clear RV K0 KN Hc ct D.
  induction l as [|r l IH]; intros IN s Hs; [reflexivity|]. cbn [fold_left].
  destruct (IN r (or_introl eq_refl)) as [R1 R2].
  assert (KR : dec_key nk key r = inv_mix_columns (round_key nk key (rounds nk - r))).
  { unfold dec_key. destruct (Nat.eqb_spec r 0); [lia|]. destruct (Nat.eqb_spec r (rounds nk)); [lia|]. reflexivity. }
  assert (KO : state_ok (round_key nk key (rounds nk - r))) by (apply round_key_ok; [assumption|lia]).
  rewrite KR, <- inv_mix_xor by ((now apply inv_sub_ok, inv_shift_ok) || assumption).
  apply IH; [intros r' Hr'; apply IN; now right|apply inv_mix_ok].
Qed.
Lemma decrypt_encrypt nk key pt : nk_ok nk -> (4 * nk <= length key)%nat -> byt key -> state_ok pt ->
  let '(rk, nr) := key_setup_enc key (32 * nk) in let '(dk, dr) := key_setup_dec key (32 * nk) in
  aes_decrypt dk dr (aes_encrypt rk nr pt) = pt /\ state_ok (aes_encrypt rk nr pt).
Proof.
  intros Hnk HL Hb Hp. pose proof (encrypt_cipher nk key pt Hnk HL Hb Hp) as E.
  pose proof (cipher_ok nk key pt Hnk HL Hb Hp) as C. pose proof (decrypt_inv_cipher nk key (cipher nk key pt) Hnk HL Hb C) as D.
  destruct (key_setup_enc key (32 * nk)) as [rk nr], (key_setup_dec key (32 * nk)) as [dk dr]. rewrite E, D.
  split; [now apply inv_cipher_cipher|assumption].
Qed.
