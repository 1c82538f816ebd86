(** Proofs about the compressors: RC4, the key and the chaining of AES, and the checksum. *)
From Verif Require Import Bytes CodecModel CodecProofs HashUtilModel HashUtilProofs MapSpec AesSpec AesModel AesProofs AesRounds AesInverse
  CompressSpec CompressModel.
Local Open Scope N_scope.

Lemma set_word_length l : forall i x, length (set_word l i x) = length l.
Proof. induction l as [|y l IH]; intros [|i] x; cbn [set_word length]; auto. Qed.
Lemma nth_set_word l : forall i x k, (i < length l)%nat -> nth k (set_word l i x) 0 = if Nat.eqb k i then x else nth k l 0.
Proof.
  induction l as [|y l IH]; intros [|i] x [|k] H; cbn [set_word nth length Nat.eqb] in *; try lia; auto. apply IH. lia.
Qed.
Lemma land_byte a : N.land a 0xff = a mod 256.
Proof. change 0xff with (N.ones 8). now rewrite N.land_ones. Qed.

(** ** RC4 *)
(** The array stands for the permutation. *)
Definition arr (s : list N) (f : N -> N) : Prop := length s = 256%nat /\ forall i, i < 256 -> at_ s i = f i /\ f i < 256.
Lemma arr_swap s f i j : arr s f -> i < 256 -> j < 256 ->
  arr (set_word (set_word s (N.to_nat i) (at_ s j)) (N.to_nat j) (at_ s i)) (swap f i j).
Proof.
  intros [L A] Hi Hj. split; [now rewrite !set_word_length|]. intros k Hk. unfold at_ at 1.
  rewrite nth_set_word by (rewrite set_word_length; lia). rewrite nth_set_word by lia.
  destruct (A i Hi) as [Ei Bi], (A j Hj) as [Ej Bj], (A k Hk) as [Ek Bk]. unfold swap.
  destruct (Nat.eqb_spec (N.to_nat k) (N.to_nat j)) as [e|e], (Nat.eqb_spec (N.to_nat k) (N.to_nat i)) as [e'|e'],
    (N.eqb_spec k i) as [e1|e1], (N.eqb_spec k j) as [e2|e2]; try lia; subst; try (split; congruence || lia); auto.
Qed.
Lemma loop_stream l : forall s f x y, arr s f -> bytes_ok l -> rc4_loop s x y l = xor_bytes l (stream f x y (length l)).
Proof.
  induction l as [|c l IH]; intros s f x y A Hl; [reflexivity|]. inversion Hl as [|? ? Hc Hl']; subst.
  cbn [rc4_loop length stream]. unfold xor_bytes. cbn [combine map fst snd]. rewrite !land_byte.
  assert (Hx : (x + 1) mod 256 < 256) by (apply N.mod_lt; discriminate). set (x' := (x + 1) mod 256) in *.
  rewrite (proj1 (proj2 A x' Hx)). assert (Hy : (y + f x') mod 256 < 256) by (apply N.mod_lt; discriminate).
  set (y' := (y + f x') mod 256) in *. assert (A' := arr_swap s f x' y' A Hx Hy).
  rewrite (proj1 (proj2 A x' Hx)) in A'. set (s' := set_word _ _ (f x')) in *. set (f' := swap f x' y') in *.
  assert (Hz : (f' x' + f' y') mod 256 < 256) by (apply N.mod_lt; discriminate).
  rewrite (proj1 (proj2 A' x' Hx)), (proj1 (proj2 A' y' Hy)), (proj1 (proj2 A' _ Hz)).
  f_equal; [|apply IH; assumption].
  apply N.mod_small. apply lxor_byte; [exact Hc|]. apply (proj2 (proj2 A' _ Hz)).
Qed.
Lemma iota_arr : arr (map N.of_nat (seq 0 256)) (fun k => k).
Proof.
  split; [reflexivity|]. intros i Hi. split; [|exact Hi]. unfold at_. rewrite <- (N2Nat.id 0) at 1.
  rewrite (map_nth N.of_nat), seq_nth by lia. lia.
Qed.
Lemma kbox_key key iv i : length iv = 6%nat ->
  exists e, rc4_kbox key iv i = nth (i mod length (key ++ iv)) (key ++ iv) 0 + 256 * e.
Proof.
  intros Hi. unfold rc4_kbox. rewrite app_length, Hi. unfold rc4_ivsize. set (v := (i mod _)%nat).
  destruct (Nat.ltb_spec v (length key)).
  - rewrite app_nth1 by assumption. exists 0. lia.
  - rewrite app_nth2 by lia. cbv zeta. destruct (_ <? 128); [exists 0; lia|exists 0xffffff; lia].
Qed.
Lemma mix_schedule key iv : length iv = 6%nat -> forall n, (n <= 256)%nat ->
  let '(s, j) := fold_left (rc4_mix key iv) (seq 0 n) (map N.of_nat (seq 0 256), 0) in
  arr s (fst (schedule (key ++ iv) n)) /\ j = snd (schedule (key ++ iv) n).
Proof.
  intros Hi. induction n as [|n IH]; intros Hn; [exact (conj iota_arr eq_refl)|].
  rewrite seq_S, fold_left_app. cbn [plus fold_left]. specialize (IH ltac:(lia)).
  destruct (fold_left _ (seq 0 n) _) as [s j]. destruct IH as [A ->]. cbn [schedule].
  destruct (schedule (key ++ iv) n) as [f j]. cbn [fst snd] in *. unfold rc4_mix.
  assert (Hn' : N.of_nat n < 256) by lia. assert (E := proj1 (proj2 A _ Hn')). unfold at_ in E at 1. rewrite Nat2N.id in E.
  rewrite land_byte, E. destruct (kbox_key key iv n Hi) as [e ->].
  set (b := nth _ (key ++ iv) 0).
  replace (((j + f (N.of_nat n) + (b + 256 * e)) mod 0x100000000) mod 256) with ((j + f (N.of_nat n) + b) mod 256).
  2:{ clear. set (t := j + f (N.of_nat n)). clearbody t b. rewrite N.add_assoc. set (u := t + b). clearbody u.
      assert (H : u + 256 * e = (0x1000000 * ((u + 256 * e) / 0x100000000)) * 256 + (u + 256 * e) mod 0x100000000)
        by (rewrite (N.div_mod (u + 256 * e) 0x100000000) at 1 by discriminate; lia).
      rewrite <- (N.mod_add u e 256) by discriminate. rewrite (N.mul_comm e 256). set (q := u + 256 * e) in *. clearbody q.
      transitivity ((0x1000000 * (q / 0x100000000) * 256 + q mod 0x100000000) mod 256); [now rewrite <- H|].
      now rewrite N.add_comm, N.mod_add by discriminate. }
  set (j' := (j + f (N.of_nat n) + b) mod 256). assert (Hj : j' < 256) by (apply N.mod_lt; discriminate).
  split; [|reflexivity]. assert (A' := arr_swap s f (N.of_nat n) j' A Hn' Hj). rewrite Nat2N.id in A'.
  replace (at_ s (N.of_nat n)) with (f (N.of_nat n)) in A'; [exact A'|]. unfold at_. now rewrite Nat2N.id.
Qed.
Lemma setup_schedule key iv : length iv = 6%nat -> arr (rc4_setup key iv) (fst (schedule (key ++ iv) 256)).
Proof.
  intros Hi. assert (H := mix_schedule key iv Hi 256 (le_n _)). unfold rc4_setup. destruct (fold_left _ _ _) as [s j]. exact (proj1 H).
Qed.
Lemma rc4_compress_rc4 key iv l : bytes_ok l ->
  rc4_compress key iv l = write_fix 6 iv ++ rc4 (rc4_key key ++ write_fix 6 iv) l.
Proof.
  intros Hl. unfold rc4_compress, rc4, rc4_stream, rc4_ivsize. rewrite (loop_stream l _ _ 0 0 (setup_schedule _ _ (write_fix_length 6 iv)) Hl).
  reflexivity.
Qed.
Lemma rc4_decompress_rc4 key iv l : length iv = 6%nat -> bytes_ok l -> rc4_decompress key (iv ++ l) = Some (rc4 (rc4_key key ++ iv) l).
Proof.
  intros Hi Hl. unfold rc4_decompress, rc4_ivsize. replace (_ <? _) with false.
  2:{ symmetry. apply N.ltb_ge. unfold blen. rewrite app_length. lia. }
  rewrite <- Hi at 1 2. rewrite firstn_app, Nat.sub_diag, firstn_all, firstn_O, app_nil_r.
  rewrite skipn_app, Nat.sub_diag, skipn_all, skipn_O. cbn [app].
  unfold rc4, rc4_stream. now rewrite (loop_stream l _ _ 0 0 (setup_schedule _ _ Hi) Hl).
Qed.
Lemma xor_bytes_length a b : length (xor_bytes a b) = Nat.min (length a) (length b).
Proof. unfold xor_bytes. now rewrite map_length, combine_length. Qed.
Lemma stream_ok n : forall f i j, (forall i, i < 256 -> f i < 256) -> length (stream f i j n) = n /\ bytes_ok (stream f i j n).
Proof.
  induction n as [|n IH]; intros f i j H; [split; [reflexivity|constructor]|]. cbn [stream length].
  assert (Hi : (i + 1) mod 256 < 256) by (apply N.mod_lt; discriminate). set (i' := (i + 1) mod 256) in *.
  assert (Hj : (j + f i') mod 256 < 256) by (apply N.mod_lt; discriminate). set (j' := (j + f i') mod 256) in *.
  assert (H' : forall k, k < 256 -> swap f i' j' k < 256).
  { intros k Hk. unfold swap. destruct (k =? i'); [auto|]. destruct (k =? j'); auto. }
  destruct (IH _ i' j' H') as [I1 I2]. split; [now rewrite I1|]. constructor; [|exact I2]. apply H'. apply N.mod_lt; discriminate.
Qed.
Lemma schedule_ok key n : (n <= 256)%nat -> forall i, i < 256 -> fst (schedule key n) i < 256.
Proof.
  induction n as [|n IH]; intros Hn i Hi; [exact Hi|]. cbn [schedule]. specialize (IH ltac:(lia)).
  destruct (schedule key n) as [f j]. cbn [fst] in *. unfold swap.
  assert ((j + f (N.of_nat n) + nth (n mod length key) key 0) mod 256 < 256) by (apply N.mod_lt; discriminate).
  destruct (i =? _); [auto|]. destruct (i =? _); [apply IH; lia|auto].
Qed.
Lemma rc4_stream_ok key n : length (rc4_stream key n) = n /\ bytes_ok (rc4_stream key n).
Proof. apply stream_ok. apply schedule_ok. apply le_n. Qed.
Lemma xor_bytes_ok a b : bytes_ok a -> bytes_ok b -> bytes_ok (xor_bytes a b).
Proof.
  unfold xor_bytes. intros Ha. revert b. induction Ha as [|x a Hx Ha IH]; intros [|y b] Hb; cbn [combine map fst snd]; try constructor.
  - inversion Hb; subst. now apply lxor_byte.
  - inversion Hb; subst. now apply IH.
Qed.
Lemma rc4_ok key l : bytes_ok l -> length (rc4 key l) = length l /\ bytes_ok (rc4 key l).
Proof.
  intros Hl. destruct (rc4_stream_ok key (length l)) as [L B]. unfold rc4. split; [rewrite xor_bytes_length, L; lia|now apply xor_bytes_ok].
Qed.
Lemma rc4_rc4 key l : rc4 key (rc4 key l) = l.
Proof.
  destruct (rc4_stream_ok key (length l)) as [L B]. unfold rc4 at 1. replace (length (rc4 key l)) with (length l).
  - unfold rc4. apply xor_xor. now rewrite L.
  - unfold rc4. rewrite xor_bytes_length, L. lia.
Qed.
Lemma rc4_round_trip key iv l : bytes_ok l -> rc4_decompress key (rc4_compress key iv l) = Some l.
Proof.
  intros Hl. rewrite rc4_compress_rc4 by assumption. rewrite rc4_decompress_rc4; [|apply write_fix_length|now apply rc4_ok].
  now rewrite rc4_rc4.
Qed.

(** ** The key of AES *)
Lemma fold_key_length l : forall i k, length (fold_key i l k) = length k.
Proof. induction l as [|b l IH]; intros i k; [reflexivity|]. cbn [fold_key]. rewrite IH. apply set_word_length. Qed.
Lemma fold_key_nth l : forall i k p, length k = 32%nat -> (p < 32)%nat ->
  nth p (fold_key i l k) 0 =
  N.lxor (nth p k 0) (fold_right N.lxor 0 (map (fun j => nth (j - i) l 0) (filter (fun j => Nat.eqb (j mod 32) p) (seq i (length l))))).
Proof.
  induction l as [|b l IH]; intros i k p Hk Hp; [cbn; now rewrite N.lxor_0_r|].
  cbn [fold_key length seq]. rewrite IH; [|unfold xor_at; now rewrite set_word_length|assumption]. unfold xor_at.
  assert (Hi : (i mod 32 < 32)%nat) by (apply Nat.mod_upper_bound; lia).
  rewrite nth_set_word by lia. cbn [filter].
  assert (R : map (fun j => nth (j - i) (b :: l) 0) (filter (fun j => Nat.eqb (j mod 32) p) (seq (S i) (length l))) =
              map (fun j => nth (j - S i) l 0) (filter (fun j => Nat.eqb (j mod 32) p) (seq (S i) (length l)))).
  { apply map_ext_in. intros j Hj. apply filter_In in Hj. destruct Hj as [Hj _]. apply in_seq in Hj.
    replace (j - i)%nat with (S (j - S i)) by lia. reflexivity. }
  rewrite (Nat.eqb_sym p). destruct (Nat.eqb_spec (i mod 32) p) as [e|e].
  - cbn [map fold_right]. rewrite R. replace (nth (i - i) (b :: l) 0) with b by now rewrite Nat.sub_diag. rewrite <- e. apply N.lxor_assoc.
  - now rewrite R.
Qed.
Lemma fold_key_folded key : fold_key 0 key (repeat 0 32) = folded key.
Proof.
  apply (nth_ext _ _ 0 0); rewrite fold_key_length; [reflexivity|]. intros p Hp. change (length (repeat 0 32)) with 32%nat in Hp.
  rewrite fold_key_nth by (auto; reflexivity). unfold folded. rewrite (nth_indep (map (key_byte key) (seq 0 32)) 0 (key_byte key 0)) by (rewrite map_length, seq_length; lia).
  rewrite (map_nth (key_byte key)), seq_nth by lia. unfold key_byte. cbn [plus].
  replace (nth p (repeat 0 32) 0) with 0 by (symmetry; apply nth_repeat). rewrite N.lxor_0_l.
  f_equal. apply map_ext. intros j. now rewrite Nat.sub_0_r.
Qed.
Lemma set_word_app k0 y z x : set_word (k0 ++ y :: z) (length k0) x = k0 ++ x :: z.
Proof. induction k0 as [|a k0 IH]; cbn; [reflexivity|]. now rewrite IH. Qed.
Lemma fold_key_short l : forall k0 n, (length k0 + n = 32)%nat -> (length l <= n)%nat ->
  fold_key (length k0) l (k0 ++ repeat 0 n) = k0 ++ l ++ repeat 0 (n - length l).
Proof.
  induction l as [|b l IH]; intros k0 n Hn Hl; [cbn; now rewrite Nat.sub_0_r|].
  destruct n as [|n]; [cbn in Hl; lia|]. cbn [length] in Hl. cbn [fold_key repeat]. unfold xor_at.
  rewrite Nat.mod_small by lia. rewrite app_nth2 by lia. rewrite Nat.sub_diag. cbn [nth].
  rewrite N.lxor_0_l, set_word_app. specialize (IH (k0 ++ [b]) n). rewrite app_length in IH. cbn [length] in IH.
  rewrite <- !app_assoc in IH. cbn [app] in IH. rewrite Nat.add_1_r in IH. cbn [length Nat.sub]. apply IH; lia.
Qed.
Lemma aes_key_folded key : aes_key key = (folded key, (4 * key_nk key)%nat).
Proof.
  unfold aes_key, key_nk. destruct (Nat.leb_spec (length key) 32) as [H|H].
  - f_equal.
    + rewrite <- fold_key_folded. symmetry. apply (fold_key_short key [] 32); auto.
    + cbv zeta. generalize dependent (length key). intros n Hn.
      do 33 (destruct n as [|n]; [reflexivity|]). lia.
  - rewrite fold_key_folded. f_equal.
    destruct (Nat.leb_spec (length key) 16); [lia|]. destruct (Nat.eqb_spec (length key) 32); [lia|]. reflexivity.
Qed.
Lemma fold_lxor_byte l : bytes_ok l -> fold_right N.lxor 0 l < 256.
Proof. induction 1 as [|x l Hx Hl IH]; [reflexivity|]. cbn. now apply lxor_byte. Qed.
Lemma folded_ok key : bytes_ok key -> length (folded key) = 32%nat /\ bytes_ok (folded key).
Proof.
  intros Hk. split; [reflexivity|]. unfold folded, bytes_ok. apply Forall_forall. intros x Hx. apply in_map_iff in Hx.
  destruct Hx as (i & <- & _). apply fold_lxor_byte. apply Forall_forall. intros y Hy. apply in_map_iff in Hy.
  destruct Hy as (j & <- & _). apply state_byte. exact Hk.
Qed.

(** ** The chaining of AES blocks *)
Lemma block_xor_xor size a b : block_xor size a b = xor_bytes (firstn size a) (firstn size b).
Proof. reflexivity. Qed.
Lemma xor_firstn n : forall a b, xor_bytes (firstn n a) (firstn n b) = firstn n (xor_bytes a b).
Proof.
  induction n as [|n IH]; intros [|x a] [|y b]; cbn [firstn]; try reflexivity. unfold xor_bytes in *. cbn [combine map firstn]. now rewrite IH.
Qed.
Lemma xor_short a : forall b, (length a <= length b)%nat -> xor_bytes a (firstn (length a) b) = xor_bytes a b.
Proof.
  induction a as [|x a IH]; intros [|y b] H; cbn [length firstn] in *; try reflexivity. unfold xor_bytes in *. cbn [combine map].
  now rewrite IH by lia.
Qed.
Lemma firstn_ok n (l : bytes) : bytes_ok l -> bytes_ok (firstn n l).
Proof. intros H. rewrite <- (firstn_skipn n l) in H. now apply bytes_ok_app in H. Qed.
Lemma skipn_ok n (l : bytes) : bytes_ok l -> bytes_ok (skipn n l).
Proof. intros H. rewrite <- (firstn_skipn n l) in H. now apply bytes_ok_app in H. Qed.
Lemma div16 n : (16 <= n)%nat -> (n / 16 = S ((n - 16) / 16))%nat.
Proof. intros H. replace n with (n - 16 + 1 * 16)%nat at 1 by lia. rewrite Nat.div_add by lia. lia. Qed.
Definition block (b : bytes) : Prop := length b = 16%nat /\ bytes_ok b.
Lemma last_block_ok l prev : (length l < 16)%nat -> bytes_ok l -> block prev ->
  block (xor_bytes l prev ++ repeat (N.of_nat (length l)) (16 - length l)).
Proof.
  intros Hl Bl [Lp Bp]. split.
  - rewrite app_length, xor_bytes_length, repeat_length. lia.
  - apply bytes_ok_app. split; [now apply xor_bytes_ok|]. apply Forall_forall. intros x Hx. apply repeat_spec in Hx. subst x.
    unfold byte_ok. lia.
Qed.
Lemma full_block_ok l prev : (16 <= length l)%nat -> bytes_ok l -> block prev -> block (xor_bytes (firstn 16 l) prev).
Proof.
  intros Hl Bl [Lp Bp]. split; [rewrite xor_bytes_length, firstn_length; lia|]. apply xor_bytes_ok; [now apply firstn_ok|assumption].
Qed.
Lemma first_block l : (16 <= length l)%nat -> bytes_ok l -> block (firstn 16 l).
Proof. intros. split; [rewrite firstn_length; lia|now apply firstn_ok]. Qed.

Section Chaining.
  Variables (rk : list N) (nr : nat) (E : bytes -> bytes).
  Hypothesis HE : forall b, block b -> aes_encrypt rk nr b = E b.
  Lemma comp_loop_chain fuel : forall l prev round, (length l <= fuel)%nat -> bytes_ok l -> block prev ->
    round + N.of_nat (length l / 16) <= INT32MAX ->
    aes_comp_loop rk nr fuel round prev l = Some (chain E (length l / 16) prev l).
  Proof.
    induction fuel as [|fuel IH]; intros l prev round Hf Bl Bp Hr; cbn [aes_comp_loop];
      (destruct (Nat.leb_spec 16 (length l)) as [H|H];
       [|rewrite Nat.div_small by lia; cbn [chain]; rewrite block_xor_xor, firstn_all, xor_short by (destruct Bp; lia);
         rewrite HE by (now apply last_block_ok); reflexivity]).
    - lia.
    - rewrite (div16 _ H) in *. destruct (N.eqb_spec round INT32MAX) as [e|_]; [lia|].
      rewrite IH; [|rewrite skipn_length; lia|now apply skipn_ok|now apply first_block|rewrite skipn_length; lia].
      cbn [chain]. rewrite skipn_length. rewrite block_xor_xor. rewrite (firstn_all2 prev) by (destruct Bp; lia).
      rewrite HE by (now apply full_block_ok). reflexivity.
  Qed.
End Chaining.
Lemma comp_loop_overflow rk nr fuel : forall l prev round, (length l <= fuel)%nat -> round <= INT32MAX ->
  INT32MAX < round + N.of_nat (length l / 16) -> aes_comp_loop rk nr fuel round prev l = None.
Proof.
  induction fuel as [|fuel IH]; intros l prev round Hf Hr Ho; cbn [aes_comp_loop];
    (destruct (Nat.leb_spec 16 (length l)) as [H|H]; [|rewrite Nat.div_small in Ho by lia; lia]).
  - lia.
  - rewrite (div16 _ H) in *. destruct (N.eqb_spec round INT32MAX) as [e|e]; [reflexivity|].
    rewrite IH; [reflexivity|rewrite skipn_length; lia|lia|rewrite skipn_length; lia].
Qed.
Lemma app_firstn16 (a b : bytes) : length a = 16%nat -> firstn 16 (a ++ b) = a /\ skipn 16 (a ++ b) = b.
Proof.
  intros H. rewrite <- H at 1 2. rewrite firstn_app, skipn_app, Nat.sub_diag, firstn_all, skipn_all. cbn. now rewrite app_nil_r.
Qed.
Lemma nth15_app (a : bytes) x n : (length a + n = 16)%nat -> (0 < n)%nat -> nth 15 (a ++ repeat x n) 0 = x.
Proof.
  intros H1 H2. rewrite app_nth2 by lia. rewrite (nth_indep _ 0 x) by (rewrite repeat_length; lia). apply nth_repeat.
Qed.
Lemma nth_xor a : forall b i, (i < length a)%nat -> (i < length b)%nat -> nth i (xor_bytes a b) 0 = N.lxor (nth i a 0) (nth i b 0).
Proof.
  induction a as [|x a IH]; intros [|y b] [|i] Ha Hb; cbn [length] in *; try lia; unfold xor_bytes in *; cbn [combine map nth fst snd]; auto.
  apply IH; lia.
Qed.
Lemma xor_app a b c : length a = length (firstn (length a) c) -> xor_bytes (a ++ b) c = xor_bytes a (firstn (length a) c) ++ xor_bytes b (skipn (length a) c).
Proof.
  revert c. induction a as [|x a IH]; intros [|y c] H; cbn [length firstn skipn app] in *; try discriminate; try reflexivity.
  unfold xor_bytes in *. cbn [combine map app fst snd]. f_equal. apply IH. lia.
Qed.
Section Unchaining.
  Variable E : bytes -> bytes.
  Hypothesis HB : forall b, block b -> block (E b).
  Lemma chain_length n : forall l prev, (length l / 16 = n)%nat -> bytes_ok l -> block prev -> length (chain E n prev l) = (16 * n + 16)%nat.
  Proof.
    induction n as [|n IH]; intros l prev Hn Bl Bp; cbn [chain].
    - apply HB. apply last_block_ok; auto. apply Nat.div_small_iff in Hn; lia.
    - assert (H : (16 <= length l)%nat).
      { destruct (Nat.le_gt_cases 16 (length l)) as [H|H]; [assumption|]. rewrite (Nat.div_small (length l)) in Hn by lia. discriminate. }
      rewrite app_length, (proj1 (HB _ (full_block_ok l prev H Bl Bp))).
      rewrite IH; [lia| |now apply skipn_ok|now apply first_block]. rewrite skipn_length. rewrite (div16 _ H) in Hn. lia.
  Qed.
  Variables (dk : list N) (dr : nat).
  Hypothesis HD : forall b, block b -> aes_decrypt dk dr (E b) = b.
  Lemma dec_loop_chain fuel : forall n l prev rem round, (length (chain E n prev l) <= fuel)%nat -> (length l / 16 = n)%nat -> bytes_ok l -> block prev ->
    round + N.of_nat n < INT32MAX ->
    exists pad, aes_dec_loop dk dr fuel round prev rem (chain E n prev l) = Some (l ++ pad, N.of_nat (length l mod 16)) /\
                length pad = (16 - length l mod 16)%nat.
  Proof.
    induction fuel as [|fuel IH]; intros n l prev rem round Hf Hn Bl Bp Hr.
    { rewrite chain_length in Hf by assumption. lia. }
    assert (HL := chain_length n l prev Hn Bl Bp).
    destruct n as [|n]; cbn [chain] in *.
    - assert (Hs : (length l < 16)%nat) by (apply Nat.div_small_iff in Hn; lia).
      assert (Bk := last_block_ok l prev Hs Bl Bp). set (b := xor_bytes l prev ++ _) in *.
      cbn [aes_dec_loop]. rewrite (proj1 (HB b Bk)). cbn [Nat.leb]. destruct (N.eqb_spec round INT32MAX) as [e|_]; [lia|].
      rewrite (firstn_all2 (n := 16)) by (rewrite (proj1 (HB b Bk)); lia). rewrite HD by assumption.
      rewrite block_xor_xor. rewrite (firstn_all2 b) by (destruct Bk; lia). rewrite (firstn_all2 prev) by (destruct Bp; lia).
      rewrite (skipn_all2 (n := 16)) by (rewrite (proj1 (HB b Bk)); lia). destruct Bp as [Lp Bp].
      replace (N.lxor (nth 15 (xor_bytes b prev) 0) (nth 15 prev 0)) with (N.of_nat (length l)).
      2:{ rewrite nth_xor by (destruct Bk; lia). rewrite N.lxor_assoc, N.lxor_nilpotent, N.lxor_0_r. unfold b.
          symmetry. apply nth15_app; [rewrite xor_bytes_length; lia|lia]. }
      assert (Lx : length (xor_bytes l prev) = length l) by (rewrite xor_bytes_length; lia).
      exists (xor_bytes (repeat (N.of_nat (length l)) (16 - length l)) (skipn (length l) prev)). split.
      + unfold b. rewrite xor_app by (rewrite firstn_length; lia). rewrite Lx, <- (xor_short l prev) by lia.
        rewrite xor_xor by (rewrite firstn_length; lia). rewrite (Nat.mod_small (length l)) by lia.
        destruct fuel; cbn [aes_dec_loop length Nat.leb]; now rewrite app_nil_r.
      + rewrite xor_bytes_length, repeat_length, skipn_length. rewrite Nat.mod_small by lia. lia.
    - assert (H : (16 <= length l)%nat).
      { destruct (Nat.le_gt_cases 16 (length l)) as [H|H]; [assumption|]. rewrite (Nat.div_small (length l)) in Hn by lia. discriminate. }
      assert (Bk := full_block_ok l prev H Bl Bp). assert (Fb := first_block l H Bl). set (b := xor_bytes (firstn 16 l) prev) in *.
      assert (Hn' : (length (skipn 16 l) / 16 = n)%nat) by (rewrite skipn_length; rewrite (div16 _ H) in Hn; lia).
      assert (Bs := skipn_ok 16 l Bl).
      cbn [aes_dec_loop]. rewrite HL. destruct (Nat.leb_spec 16 (16 * S n + 16)) as [_|]; [|lia].
      destruct (N.eqb_spec round INT32MAX) as [e|_]; [lia|].
      destruct (app_firstn16 (E b) (chain E n (firstn 16 l) (skipn 16 l)) (proj1 (HB b Bk))) as [-> ->].
      rewrite HD by assumption. rewrite block_xor_xor. rewrite (firstn_all2 b) by (destruct Bk; lia). rewrite (firstn_all2 prev) by (destruct Bp; lia).
      replace (xor_bytes b prev) with (firstn 16 l) by (symmetry; unfold b; apply xor_xor; destruct Bp, Fb; lia).
      destruct (IH n (skipn 16 l) (firstn 16 l) (N.lxor (nth 15 (firstn 16 l) 0) (nth 15 prev 0)) (round + 1)) as (pad & -> & Lpad); auto.
      { rewrite app_length, (proj1 (HB b Bk)) in Hf. lia. }
      { lia. }
      assert (Hm : (length (skipn 16 l) mod 16 = length l mod 16)%nat).
      { rewrite skipn_length. replace (length l) with (length l - 16 + 1 * 16)%nat at 2 by lia. now rewrite Nat.mod_add by lia. }
      rewrite Hm in *. exists pad. split; [|assumption]. unfold bytes in *. now rewrite app_assoc, firstn_skipn.
  Qed.
End Unchaining.

Lemma nk_cases key : nk_ok (key_nk key).
Proof. unfold key_nk, nk_ok. destruct (_ || _)%bool; auto. Qed.
Lemma nk_len key : (4 * key_nk key <= length (folded key))%nat.
Proof. change (length (folded key)) with 32%nat. unfold key_nk. destruct (_ || _)%bool; lia. Qed.
Lemma enc_keys key rk nr b : bytes_ok key -> aes_enc_key key = (rk, nr) -> block b -> aes_encrypt rk nr b = cipher (key_nk key) (folded key) b.
Proof.
  intros Bk He Hb. unfold aes_enc_key in He. rewrite aes_key_folded in He. destruct (folded_ok key Bk) as [Lf Bf].
  assert (H := encrypt_cipher (key_nk key) (folded key) b (nk_cases key) (nk_len key) Bf Hb).
  replace (4 * key_nk key * 8)%nat with (32 * key_nk key)%nat in He by lia. rewrite He in H. exact H.
Qed.
Lemma dec_keys key dk dr b : bytes_ok key -> aes_dec_key key = (dk, dr) -> block b ->
  aes_decrypt dk dr b = inv_cipher (key_nk key) (folded key) b.
Proof.
  intros Bk He Hb. unfold aes_dec_key in He. rewrite aes_key_folded in He. destruct (folded_ok key Bk) as [Lf Bf].
  assert (H := decrypt_inv_cipher (key_nk key) (folded key) b (nk_cases key) (nk_len key) Bf Hb).
  replace (4 * key_nk key * 8)%nat with (32 * key_nk key)%nat in He by lia. rewrite He in H. exact H.
Qed.
Definition vector (iv1 iv2 : N) : bytes := write_fix 8 iv1 ++ write_fix 8 iv2.
Lemma vector_ok iv1 iv2 : block (vector iv1 iv2).
Proof. split; [unfold vector; now rewrite app_length, !write_fix_length|]. apply bytes_ok_app. split; apply write_fix_ok. Qed.
Lemma cipher_block key b : bytes_ok key -> block b -> block (cipher (key_nk key) (folded key) b).
Proof. intros Bk Hb. apply cipher_ok; [apply nk_cases|apply nk_len|apply folded_ok; exact Bk|exact Hb]. Qed.
Lemma aes_compress_chain key iv1 iv2 l : bytes_ok key -> bytes_ok l -> N.of_nat (length l / 16) <= INT32MAX ->
  aes_compress key iv1 iv2 l =
  let E := cipher (key_nk key) (folded key) in CBytes (E (vector iv1 iv2) ++ chain E (length l / 16) (vector iv1 iv2) l).
Proof.
  intros Bk Bl Hl. unfold aes_compress. destruct (aes_enc_key key) as [rk nr] eqn:He. fold (vector iv1 iv2).
  assert (HE : forall b, block b -> aes_encrypt rk nr b = cipher (key_nk key) (folded key) b) by (intros b Hb; now apply enc_keys).
  rewrite (comp_loop_chain rk nr (cipher (key_nk key) (folded key)) HE) by (auto using vector_ok).
  now rewrite HE by apply vector_ok.
Qed.
Lemma aes_compress_overflow key iv1 iv2 l : INT32MAX < N.of_nat (length l / 16) -> aes_compress key iv1 iv2 l = CUndef.
Proof.
  intros H. unfold aes_compress. destruct (aes_enc_key key) as [rk nr]. rewrite comp_loop_overflow; [reflexivity|lia|unfold INT32MAX; lia|assumption].
Qed.
Lemma aes_round_trip key iv1 iv2 l : bytes_ok key -> bytes_ok l -> N.of_nat (length l / 16) < INT32MAX ->
  exists c, aes_compress key iv1 iv2 l = CBytes c /\ length c = (16 * (length l / 16) + 32)%nat /\ aes_decompress key c = CBytes l.
Proof.
  intros Bk Bl Hl. rewrite aes_compress_chain by (auto; lia). cbv zeta. set (E := cipher _ _). set (v := vector iv1 iv2).
  eexists. split; [reflexivity|]. assert (HB : forall b, block b -> block (E b)) by (intros b Hb; now apply cipher_block).
  assert (Bv : block v) by apply vector_ok.
  assert (L := chain_length E HB (length l / 16) l v eq_refl Bl Bv).
  assert (LL : length (E v ++ chain E (length l / 16) v l) = (16 * (length l / 16) + 32)%nat).
  { rewrite app_length, L, (proj1 (HB v Bv)). lia. }
  split; [exact LL|]. unfold aes_decompress. destruct (aes_dec_key key) as [dk dr] eqn:Hd. rewrite LL.
  destruct (Nat.ltb_spec (16 * (length l / 16) + 32) 32); [lia|].
  replace ((16 * (length l / 16) + 32) mod 16)%nat with 0%nat.
  2:{ replace (16 * (length l / 16) + 32)%nat with (0 + (length l / 16 + 2) * 16)%nat by lia. now rewrite Nat.mod_add by lia. }
  cbn [orb negb Nat.eqb]. destruct (app_firstn16 (E v) (chain E (length l / 16) v l) (proj1 (HB v Bv))) as [-> ->].
  assert (HD : forall b, block b -> aes_decrypt dk dr (E b) = b).
  { intros b Hb. rewrite (dec_keys key dk dr) by auto. apply inv_cipher_cipher; [apply nk_cases|apply nk_len|apply folded_ok; exact Bk|exact Hb]. }
  rewrite HD by assumption.
  destruct (dec_loop_chain E HB dk dr HD (16 * (length l / 16) + 32) (length l / 16) l v 0 0) as (pad & -> & Lp); auto; [lia|].
  assert (Hm : (length l mod 16 < 16)%nat) by (apply Nat.mod_upper_bound; lia).
  destruct (N.ltb_spec 16 (N.of_nat (length l mod 16))); [lia|].
  f_equal. rewrite app_length, Lp, Nat2N.id. replace (length l + (16 - length l mod 16) - (16 - length l mod 16))%nat with (length l) by lia.
  rewrite firstn_app, Nat.sub_diag, firstn_all. cbn [firstn]. apply app_nil_r.
Qed.
