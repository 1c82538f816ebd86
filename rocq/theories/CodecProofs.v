(** Lemmas about the integer codecs. *)
From Verif Require Import Bytes CodecModel.
Open Scope N_scope.

Lemma land_127 n : N.land n 127 = n mod 128.
Proof. change 127 with (N.ones 7). rewrite N.land_ones. reflexivity. Qed.
Lemma land_255 n : N.land n 255 = n mod 256.
Proof. change 255 with (N.ones 8). rewrite N.land_ones. reflexivity. Qed.

Lemma lor_128 n : n < 128 -> N.lor n 128 = n + 128.
Proof.
  intros H. assert (E : N.land n 128 = 0).
  { apply N.bits_inj_0. intros i. rewrite N.land_spec.
    destruct (N.eq_dec i 7) as [->|Hi].
    - replace (N.testbit n 7) with false; [reflexivity|].
      symmetry. rewrite N.testbit_eqb. change (2^7) with 128. rewrite N.div_small by lia. reflexivity.
    - replace (N.testbit 128 i) with false; [apply andb_false_r|].
      change 128 with (2^7). symmetry; apply N.pow2_bits_false; auto. }
  assert (E2 := N.add_nocarry_lxor n 128 E).
  rewrite E2. symmetry. apply N.lxor_lor; exact E.
Qed.

Lemma shiftr_div n k : N.shiftr n k = n / 2^k.
Proof. apply N.shiftr_div_pow2. Qed.

Lemma write_fix_length w n : length (write_fix w n) = w.
Proof.
  revert n; induction w as [|w IH]; intros n; cbn [write_fix]; [reflexivity|].
  rewrite app_length, IH; cbn [length]; lia.
Qed.

Lemma write_fix_ok w n : bytes_ok (write_fix w n).
Proof.
  revert n; induction w as [|w IH]; intros n; cbn [write_fix]; [constructor|].
  apply bytes_ok_app; split; [apply IH|]. constructor; [|constructor].
  unfold byte_ok. rewrite land_255. lia.
Qed.

Lemma read_fix_bytes_app a b :
  read_fix_bytes (a ++ [b]) = read_fix_bytes a * 256 + b.
Proof. unfold read_fix_bytes. rewrite fold_left_app. reflexivity. Qed.

Lemma read_write_fix_bytes w n : read_fix_bytes (write_fix w n) = n mod 256 ^ N.of_nat w.
Proof.
  revert n; induction w as [|w IH]; intros n; cbn [write_fix].
  - change (256 ^ N.of_nat 0) with 1. rewrite N.mod_1_r. reflexivity.
  - rewrite read_fix_bytes_app, IH, land_255, shiftr_div.
    change (2^8) with 256.
    replace (N.of_nat (S w)) with (1 + N.of_nat w) by lia.
    rewrite N.pow_add_r. change (256^1) with 256.
    rewrite N.mod_mul_r by (try apply N.pow_nonzero; lia). lia.
Qed.

Lemma read_write_fix w n rest :
  n < 256 ^ N.of_nat w -> read_fix w (write_fix w n ++ rest) = n.
Proof.
  intros H. unfold read_fix.
  replace w with (length (write_fix w n)) at 1 by apply write_fix_length.
  rewrite firstn_app, Nat.sub_diag, firstn_all, app_nil_r.
  rewrite read_write_fix_bytes. apply N.mod_small; exact H.
Qed.

Lemma read_fix_bytes_bound l : bytes_ok l -> read_fix_bytes l < 256 ^ blen l.
Proof.
  induction l as [|b l IH] using rev_ind; intros H.
  - cbn. lia.
  - apply bytes_ok_app in H. destruct H as [H1 H2]. inversion H2 as [|? ? Hb _]; subst.
    rewrite read_fix_bytes_app, blen_app, N.pow_add_r. change (256 ^ blen [b]) with 256.
    specialize (IH H1). unfold byte_ok in Hb. nia.
Qed.

Lemma write_read_fix_bytes l : bytes_ok l -> write_fix (length l) (read_fix_bytes l) = l.
Proof.
  induction l as [|b l IH] using rev_ind; intros H; [reflexivity|].
  apply bytes_ok_app in H. destruct H as [H1 H2]. inversion H2 as [|? ? Hb _]; subst.
  rewrite app_length. cbn [length]. rewrite Nat.add_1_r. cbn [write_fix].
  rewrite read_fix_bytes_app, shiftr_div, land_255. change (2^8) with 256.
  unfold byte_ok in Hb.
  replace ((read_fix_bytes l * 256 + b) / 256) with (read_fix_bytes l) by lia.
  replace ((read_fix_bytes l * 256 + b) mod 256) with b by lia.
  rewrite IH by assumption. reflexivity.
Qed.

(** ** Variable-width numbers *)

Lemma vn_mid_val num s : vn_mid num s = (num / 2^s) mod 128 + 128.
Proof. unfold vn_mid. rewrite land_127, shiftr_div. apply lor_128. generalize (num / 2^s). intros; lia. Qed.
Lemma vn_top_val num s : num / 2^s < 128 -> vn_top num s = num / 2^s + 128.
Proof. intros H. unfold vn_top. rewrite shiftr_div. apply lor_128; exact H. Qed.

Lemma shift_step num s : num / 2^(s+7) * 128 + (num / 2^s) mod 128 = num / 2^s.
Proof.
  rewrite N.pow_add_r. rewrite <- N.div_div by (apply N.pow_nonzero; lia).
  change (2^7) with 128. generalize (num / 2^s). intros; lia.
Qed.

Lemma div_lt_two64 num s : num < two64 -> num / 2^s < two64.
Proof.
  intros H. apply N.le_lt_trans with num; [|exact H]. apply N.div_le_upper_bound.
  - apply N.pow_nonzero; lia.
  - assert (2^s <> 0) by (apply N.pow_nonzero; lia). nia.
Qed.

Lemma loop_mid num s l cnt :
  num < two64 ->
  read_var_loop (vn_mid num s :: l) (num / 2^(s+7)) cnt = read_var_loop l (num / 2^s) (cnt + 1).
Proof.
  intros H. cbn [read_var_loop]. rewrite vn_mid_val.
  destruct (N.leb_spec 128 ((num / 2^s) mod 128 + 128)); [|generalize dependent (num / 2^s); intros; lia].
  f_equal. rewrite land_127, N.shiftl_mul_pow2. change (2^7) with 128.
  replace (((num / 2^s) mod 128 + 128) mod 128) with ((num / 2^s) mod 128) by (generalize (num / 2^s); intros; lia).
  rewrite shift_step. apply N.mod_small. apply div_lt_two64; exact H.
Qed.

Lemma loop_top num s l cnt :
  num / 2^s < 128 ->
  read_var_loop (vn_top num s :: l) 0 cnt = read_var_loop l (num / 2^s) (cnt + 1).
Proof.
  intros H. cbn [read_var_loop]. rewrite vn_top_val by exact H.
  revert H; generalize (num / 2^s); intros m H.
  destruct (N.leb_spec 128 (m + 128)); [|lia].
  f_equal. rewrite land_127, N.shiftl_0_l.
  unfold two64. lia.
Qed.

Lemma loop_low num l cnt :
  num < two64 -> read_var_loop (vn_low num :: l) (num / 2^7) cnt = Some (num, cnt + 1).
Proof.
  intros H. cbn [read_var_loop]. unfold vn_low. rewrite land_127.
  destruct (N.leb_spec 128 (num mod 128)); [lia|].
  f_equal. f_equal. rewrite land_127, N.shiftl_mul_pow2. change (2^7) with 128.
  unfold two64 in *. lia.
Qed.

Lemma top_ok num s t : num < 2^t -> t = s + 7 -> num / 2^s < 128.
Proof.
  intros H ->. rewrite N.pow_add_r in H. change (2^7) with 128 in H.
  apply N.div_lt_upper_bound; [apply N.pow_nonzero; lia|exact H].
Qed.

Ltac mids := repeat
  match goal with
  | |- context [read_var_loop (vn_mid ?n ?s :: ?l) (?n / 2 ^ ?t) ?c] =>
      replace (2^t) with (2^(s+7)) by reflexivity; rewrite (loop_mid n s l c) by assumption
  end.

Lemma read_write_var num rest :
  num < two64 -> read_var (write_var num ++ rest) = Some (num, size_var num).
Proof.
  intros H. unfold read_var, write_var, size_var.
  destruct (N.ltb_spec num (2^7)) as [H7|H7].
  { cbn [app read_var_loop]. change (2^7) with 128 in H7.
    destruct (N.leb_spec 128 num); [lia|]. rewrite land_127, N.shiftl_0_l.
    f_equal; f_equal; unfold two64; lia. }
  Ltac fin := cbn [app]; rewrite loop_top by (eapply top_ok; [eassumption|reflexivity]);
              mids; rewrite loop_low by assumption; reflexivity.
  destruct (N.ltb_spec num (2^14)); [fin|].
  destruct (N.ltb_spec num (2^21)); [fin|].
  destruct (N.ltb_spec num (2^28)); [fin|].
  destruct (N.ltb_spec num (2^35)); [fin|].
  destruct (N.ltb_spec num (2^42)); [fin|].
  destruct (N.ltb_spec num (2^49)); [fin|].
  destruct (N.ltb_spec num (2^56)); [fin|].
  destruct (N.ltb_spec num (2^63)); [fin|].
  assert (H70 : num < 2^70) by (change (2^70) with (2^6 * two64); nia). fin.
Qed.

Lemma write_var_length num : blen (write_var num) = size_var num.
Proof.
  unfold write_var, size_var.
  repeat match goal with |- context [?a <? ?b] => destruct (a <? b); [reflexivity|] end.
  reflexivity.
Qed.

Lemma size_var_pos num : 1 <= size_var num <= 10.
Proof.
  unfold size_var.
  repeat match goal with |- context [?a <? ?b] => destruct (a <? b); [lia|] end. lia.
Qed.

Lemma vn_mid_ok num s : byte_ok (vn_mid num s).
Proof. unfold byte_ok. rewrite vn_mid_val. generalize (num / 2^s); intros; lia. Qed.
Lemma vn_low_ok num : byte_ok (vn_low num).
Proof. unfold byte_ok, vn_low. rewrite land_127. lia. Qed.

Lemma write_var_ok num : num < two64 -> bytes_ok (write_var num).
Proof.
  intros H. unfold write_var.
  Ltac okt := repeat (apply Forall_cons; [first [apply vn_mid_ok | apply vn_low_ok
     | unfold byte_ok; rewrite vn_top_val by (eapply top_ok; [eassumption|reflexivity]);
       match goal with |- ?n / 2^?s + _ < _ =>
         assert (n / 2^s < 128) by (eapply top_ok; [eassumption|reflexivity]); generalize dependent (n / 2^s); intros end; lia ]|]); apply Forall_nil.
  destruct (N.ltb_spec num (2^7)).
  { constructor; [|constructor]. unfold byte_ok. change (2^7) with 128 in *. lia. }
  destruct (N.ltb_spec num (2^14)); [okt|].
  destruct (N.ltb_spec num (2^21)); [okt|].
  destruct (N.ltb_spec num (2^28)); [okt|].
  destruct (N.ltb_spec num (2^35)); [okt|].
  destruct (N.ltb_spec num (2^42)); [okt|].
  destruct (N.ltb_spec num (2^49)); [okt|].
  destruct (N.ltb_spec num (2^56)); [okt|].
  destruct (N.ltb_spec num (2^63)); [okt|].
  assert (H70 : num < 2^70) by (change (2^70) with (2^6 * two64); nia). okt.
Qed.

Lemma read_var_loop_prefix p q num cnt n' c' :
  read_var_loop p num cnt = Some (n', c') -> read_var_loop (p ++ q) num cnt = Some (n', c').
Proof.
  revert num cnt; induction p as [|c p IH]; intros num cnt; cbn [read_var_loop app]; [discriminate|].
  destruct (128 <=? c); auto.
Qed.

Lemma read_var_loop_bound p num cnt n' c' :
  read_var_loop p num cnt = Some (n', c') -> cnt < c' /\ c' <= cnt + blen p.
Proof.
  revert num cnt; induction p as [|c p IH]; intros num cnt; cbn [read_var_loop]; [discriminate|].
  rewrite blen_cons. destruct (128 <=? c).
  - intros E. apply IH in E. lia.
  - intros E; inversion E; subst. lia.
Qed.

(** A strict prefix of an encoding is rejected. *)
Lemma read_var_truncated num p q :
  num < two64 -> write_var num = p ++ q -> q <> [] -> read_var p = None.
Proof.
  intros H E Hq. destruct (read_var p) as [[n' c']|] eqn:R; [|reflexivity].
  exfalso. unfold read_var in R.
  assert (R2 := read_var_loop_prefix p q _ _ _ _ R).
  assert (R3 := read_write_var num [] H). rewrite app_nil_r, E in R3.
  unfold read_var in R3. rewrite R2 in R3. inversion R3; subst.
  apply read_var_loop_bound in R. rewrite <- write_var_length, E, blen_app in R.
  destruct q as [|x q]; [congruence|]. rewrite blen_cons in R. lia.
Qed.

Lemma get_write_var num rest : num < two64 -> get_var (write_var num ++ rest) = Some (num, rest).
Proof.
  intros H. unfold get_var. rewrite read_write_var by exact H.
  rewrite <- write_var_length, to_nat_blen.
  rewrite skipn_app, Nat.sub_diag, skipn_all. reflexivity.
Qed.

Lemma get_var_shorter l n r : get_var l = Some (n, r) -> (length r < length l)%nat.
Proof.
  unfold get_var. destruct (read_var l) as [[m s]|] eqn:E; [|discriminate].
  intros X; inversion X; subst. unfold read_var in E. apply read_var_loop_bound in E.
  rewrite skipn_length. unfold blen in E. lia.
Qed.

(** Decoding is injective on encodings, hence the encoding is prefix-free. *)
Lemma write_var_inj a b ra rb :
  a < two64 -> b < two64 -> write_var a ++ ra = write_var b ++ rb -> a = b /\ ra = rb.
Proof.
  intros Ha Hb E. assert (Ea := get_write_var a ra Ha). rewrite E, get_write_var in Ea by exact Hb.
  inversion Ea; auto.
Qed.
