From Verif Require Import Bytes CodecModel CodecProofs TextCodecModel.
Open Scope N_scope.

Lemma lor_plus k x b : x mod 2 ^ k = 0 -> b < 2 ^ k -> N.lor x b = x + b.
Proof.
  intros Hx Hb.
  assert (E : N.land x b = 0).
  { apply N.bits_inj_0. intros i. rewrite N.land_spec.
    destruct (N.lt_ge_cases i k) as [L|L].
    - rewrite <- (N.mod_pow2_bits_low x k i L), Hx, N.bits_0. reflexivity.
    - rewrite <- (N.mod_small b (2 ^ k) Hb), N.mod_pow2_bits_high by exact L. apply andb_false_r. }
  rewrite N.add_nocarry_lxor by exact E. rewrite N.lxor_lor by exact E. reflexivity.
Qed.
Lemma land_mod k x : N.land x (2 ^ k - 1) = x mod 2 ^ k.
Proof. rewrite N.sub_1_r, <- N.ones_equiv. apply N.land_ones. Qed.

(** Normalizing the bit operations of the codecs to arithmetic. *)
Ltac bits :=
  repeat match goal with
  | |- context [N.shiftr ?x ?k] => rewrite (N.shiftr_div_pow2 x k)
  | |- context [N.shiftl ?x ?k] => rewrite (N.shiftl_mul_pow2 x k)
  end;
  repeat match goal with
  | |- context [N.land ?x 1] => change (N.land x 1) with (N.land x (2 ^ 1 - 1)); rewrite (land_mod 1 x)
  | |- context [N.land ?x 3] => change (N.land x 3) with (N.land x (2 ^ 2 - 1)); rewrite (land_mod 2 x)
  | |- context [N.land ?x 7] => change (N.land x 7) with (N.land x (2 ^ 3 - 1)); rewrite (land_mod 3 x)
  | |- context [N.land ?x 15] => change (N.land x 15) with (N.land x (2 ^ 4 - 1)); rewrite (land_mod 4 x)
  | |- context [N.land ?x 31] => change (N.land x 31) with (N.land x (2 ^ 5 - 1)); rewrite (land_mod 5 x)
  | |- context [N.land ?x 63] => change (N.land x 63) with (N.land x (2 ^ 6 - 1)); rewrite (land_mod 6 x)
  | |- context [N.land ?x 255] => change (N.land x 255) with (N.land x (2 ^ 8 - 1)); rewrite (land_mod 8 x)
  | |- context [N.land ?x 4095] => change (N.land x 4095) with (N.land x (2 ^ 12 - 1)); rewrite (land_mod 12 x)
  | |- context [N.land ?x 262143] => change (N.land x 262143) with (N.land x (2 ^ 18 - 1)); rewrite (land_mod 18 x)
  | |- context [N.land ?x 16777215] => change (N.land x 16777215) with (N.land x (2 ^ 24 - 1)); rewrite (land_mod 24 x)
  | |- context [N.land ?x 1073741823] => change (N.land x 1073741823) with (N.land x (2 ^ 30 - 1)); rewrite (land_mod 30 x)
  end;
  change (2 ^ 1) with 2 in *; change (2 ^ 2) with 4 in *; change (2 ^ 3) with 8 in *; change (2 ^ 4) with 16 in *;
  change (2 ^ 5) with 32 in *; change (2 ^ 6) with 64 in *; change (2 ^ 8) with 256 in *;
  change (2 ^ 12) with 4096 in *; change (2 ^ 16) with 65536 in *; change (2 ^ 18) with 262144 in *;
  change (2 ^ 24) with 16777216 in *; change (2 ^ 30) with 1073741824 in *.

(** * Escaping *)
Lemma hexdigit_low d : d < 16 -> hexdigit (hexlow d) = Some d.
Proof.
  intros H. unfold hexlow. destruct (N.ltb_spec d 10); unfold hexdigit.
  - destruct (N.leb_spec 48 (48 + d)), (N.leb_spec (48 + d) 57); cbn [andb]; try lia. f_equal. lia.
  - destruct (N.leb_spec 48 (97 + (d - 10))), (N.leb_spec (97 + (d - 10)) 57),
      (N.leb_spec 65 (97 + (d - 10))), (N.leb_spec (97 + (d - 10)) 70),
      (N.leb_spec 97 (97 + (d - 10))), (N.leb_spec (97 + (d - 10)) 102); cbn [andb]; try lia. f_equal. lia.
Qed.

Lemma unesc_hex f c s : c < 256 -> unesc_loop (S f) (esc_hex c ++ s) = c :: unesc_loop f s.
Proof.
  intros H. unfold esc_hex. cbn [app unesc_loop].
  change (92 =? 92) with true. change (120 =? 97) with false. change (120 =? 98) with false.
  change (120 =? 116) with false. change (120 =? 110) with false. change (120 =? 118) with false.
  change (120 =? 102) with false. change (120 =? 114) with false. change ((120 =? 120) || (120 =? 88)) with true.
  cbn iota. cbn [take_hex]. rewrite !hexdigit_low by lia. f_equal. lia.
Qed.
(** Reading back one escaped byte. *)
Lemma unesc_byte na c rest f :
  c < 256 -> unesc_loop (S f) (esc_byte na c rest ++ escape_c na rest) = c :: unesc_loop f (escape_c na rest).
Proof.
  intros H. unfold esc_byte.
  destruct (N.eqb_spec c 0) as [->|H0].
  { destruct rest as [|n rest].
    - cbn. reflexivity.
    - destruct ((48 <=? n) && (n <=? 55)) eqn:En.
      + change [92; 120; 48; 48] with (esc_hex 0). apply unesc_hex. lia.
      + cbn [app unesc_loop]. change (92 =? 92) with true. cbn iota.
        change (48 =? 97) with false. change (48 =? 98) with false. change (48 =? 116) with false.
        change (48 =? 110) with false. change (48 =? 118) with false. change (48 =? 102) with false.
        change (48 =? 114) with false. change ((48 =? 120) || (48 =? 88)) with false.
        change ((48 <=? 48) && (48 <=? 56)) with true. cbn iota.
        (* the next character is not an octal digit *)
        assert (T : take_oct 2 (escape_c na (n :: rest)) (48 - 48) = (0, escape_c na (n :: rest))).
        { cbn [escape_c]. unfold esc_byte.
          destruct (n =? 0) eqn:N0.
          { destruct rest as [|m rest]; [reflexivity|]. destruct ((48 <=? m) && (m <=? 55)); reflexivity. }
          repeat (match goal with |- context [if n =? ?k then _ else _] => destruct (n =? k); [reflexivity|] end).
          destruct ((n <? 32) || (n =? 127)); [reflexivity|].
          destruct (na && (128 <=? n)); [reflexivity|].
          cbn [app take_oct]. rewrite En. reflexivity. }
        rewrite T. reflexivity. }
  repeat (match goal with |- context [if c =? ?k then _ else _] =>
            destruct (N.eqb_spec c k) as [E|?]; [subst c; reflexivity|] end).
  destruct ((c <? 32) || (c =? 127)); [apply unesc_hex; exact H|].
  destruct (na && (128 <=? c)); [apply unesc_hex; exact H|].
  cbn [app unesc_loop]. destruct (N.eqb_spec c 92); [congruence|]. reflexivity.
Qed.
Lemma esc_byte_len na c rest : (1 <= length (esc_byte na c rest))%nat.
Proof.
  unfold esc_byte, esc_hex.
  destruct (c =? 0); [destruct rest as [|n rest]; [cbn; lia|]; destruct ((48 <=? n) && (n <=? 55)); cbn; lia|].
  repeat match goal with |- context [if ?b then _ else _] => destruct b; [cbn; lia|] end. cbn; lia.
Qed.
Lemma escape_round_gen na s f :
  bytes_ok s -> (length (escape_c na s) <= f)%nat -> unesc_loop f (escape_c na s) = s.
Proof.
  revert f; induction s as [|c s IH]; intros f Hs Hf.
  - destruct f; reflexivity.
  - inversion Hs as [|? ? Hc Hs']; subst. cbn [escape_c] in *. rewrite app_length in Hf.
    pose proof (esc_byte_len na c s). destruct f as [|f]; [lia|].
    rewrite unesc_byte by exact Hc. rewrite IH by (try exact Hs'; lia). reflexivity.
Qed.
Lemma escape_round na s : bytes_ok s -> unescape_c (escape_c na s) = s.
Proof. intros H. apply escape_round_gen; [exact H|lia]. Qed.

(** Escaped text has no control characters. *)
Lemma hexlow_range d : d < 16 -> 48 <= hexlow d <= 102.
Proof. intros H. unfold hexlow. destruct (N.ltb_spec d 10); lia. Qed.
Lemma esc_byte_printable na c rest x :
  c < 256 -> In x (esc_byte na c rest) -> 32 <= x /\ x <> 127 /\ (na = true -> x < 128).
Proof.
  intros H. unfold esc_byte, esc_hex.
  assert (R : forall l, Forall (fun x => 32 <= x /\ x < 127) l -> In x l -> 32 <= x /\ x <> 127 /\ (na = true -> x < 128)).
  { intros l Hl Hx. rewrite Forall_forall in Hl. pose proof (Hl x Hx). lia. }
  assert (Hh : Forall (fun x => 32 <= x /\ x < 127) [92; 120; hexlow (c / 16); hexlow (c mod 16)]).
  { pose proof (hexlow_range (c / 16) ltac:(lia)). pose proof (hexlow_range (c mod 16) ltac:(lia)).
    repeat constructor; lia. }
  destruct (c =? 0).
  { destruct rest as [|n rest]; [|destruct ((48 <=? n) && (n <=? 55))]; apply R; repeat constructor; lia. }
  repeat (match goal with |- context [if c =? ?k then _ else _] => destruct (c =? k); [apply R; repeat constructor; lia|] end).
  destruct (N.ltb_spec c 32); cbn [orb]; [apply R, Hh|].
  destruct (N.eqb_spec c 127); [apply R, Hh|].
  destruct na; cbn [andb].
  - destruct (N.leb_spec 128 c); [apply R, Hh|]. intros [<-|[]]. lia.
  - intros [<-|[]]. split; [lia|]. split; [lia|discriminate].
Qed.
Lemma escape_printable na s x :
  bytes_ok s -> In x (escape_c na s) -> 32 <= x /\ x <> 127 /\ (na = true -> x < 128).
Proof.
  induction s as [|c s IH]; intros Hs; cbn [escape_c]; [intros []|].
  inversion Hs as [|? ? Hc Hs']; subst. rewrite in_app_iff. intros [Hx|Hx].
  - exact (esc_byte_printable na c s x Hc Hx).
  - exact (IH Hs' Hx).
Qed.

(** * Base64 *)
Lemma b64_val_char n : n < 64 -> b64_val (b64_char n) = Some n.
Proof.
  intros H. unfold b64_char.
  destruct (N.ltb_spec n 26); [|destruct (N.ltb_spec n 52); [|destruct (N.ltb_spec n 62); [|destruct (N.eqb_spec n 62)]]];
    unfold b64_val;
    repeat (match goal with |- context [?a <=? ?b] => destruct (N.leb_spec a b) end; cbn [andb]; try lia);
    try (f_equal; lia); subst; try reflexivity.
  assert (n = 63) by lia. subst. reflexivity.
Qed.
Lemma b64_step s v bits step eqs :
  v < 64 -> step < 4 -> b64_group (b64_char v :: s) bits step eqs = b64_group s (bits * 64 + v) (step + 1) eqs.
Proof.
  intros Hv Hs. cbn [b64_group]. destruct (N.ltb_spec step 4); [|lia]. rewrite b64_val_char by exact Hv.
  rewrite (lor_plus 6) by (rewrite ?N.shiftl_mul_pow2, ?N.mod_mul; try lia; assumption).
  rewrite N.shiftl_mul_pow2. reflexivity.
Qed.
Lemma b64_eq s bits step eqs :
  step < 4 -> b64_group (61 :: s) bits step eqs = b64_group s (bits * 64) (step + 1) (eqs + 1).
Proof.
  intros Hs. cbn [b64_group]. destruct (N.ltb_spec step 4); [|lia].
  change (b64_val 61) with (@None N). cbn iota. change (61 =? 61) with true. cbn iota.
  rewrite N.shiftl_mul_pow2. reflexivity.
Qed.
Lemma b64_end s bits eqs : b64_group s bits 4 eqs = (bits, 4, eqs, s).
Proof. destruct s; reflexivity. Qed.

Lemma list_ind3 (P : bytes -> Prop) :
  P [] -> (forall a, P [a]) -> (forall a b, P [a; b]) -> (forall a b c s, P s -> P (a :: b :: c :: s)) ->
  forall s, P s.
Proof.
  intros H0 H1 H2 H3. fix IH 1. intros [|a [|b [|c s]]]; [exact H0|apply H1|apply H2|apply H3, IH].
Qed.
Lemma base64_round_gen s : forall f,
  bytes_ok s -> (length (base64_encode s) <= f)%nat -> b64_loop f (base64_encode s) = s.
Proof.
  induction s as [|a|a b|a b c s IH] using list_ind3; intros f Hs Hf.
  - destruct f; reflexivity.
  - inversion Hs as [|? ? Ha _]; subst. unfold byte_ok in Ha. destruct f as [|f]; [cbn in Hf; lia|].
    cbn [base64_encode b64_loop]. bits. 
    rewrite b64_step, b64_step, b64_eq, b64_eq by lia.
    change (0 + 1 + 1 + 1 + 1) with 4. rewrite b64_end. change (0 + 1 + 1) with 2.
    cbn iota beta. change ((4 =? 0) && true) with false. change (2 =? 0) with false. change (2 =? 1) with false.
    change (2 =? 2) with true. cbn iota. bits. f_equal. lia.
  - inversion Hs as [|? ? Ha Hs']; subst. inversion Hs' as [|? ? Hb _]; subst. unfold byte_ok in Ha, Hb.
    destruct f as [|f]; [cbn in Hf; lia|].
    cbn [base64_encode b64_loop]. bits.
    rewrite b64_step, b64_step, b64_step, b64_eq by lia.
    change (0 + 1 + 1 + 1 + 1) with 4. rewrite b64_end. change (0 + 1) with 1.
    cbn iota beta. change ((4 =? 0) && true) with false. change (1 =? 0) with false. change (1 =? 1) with true.
    cbn iota. bits. f_equal; [lia|]. f_equal. lia.
  - inversion Hs as [|? ? Ha Hs']; subst. inversion Hs' as [|? ? Hb Hs'']; subst.
    inversion Hs'' as [|? ? Hc Hs3]; subst. unfold byte_ok in Ha, Hb, Hc.
    destruct f as [|f]; [cbn in Hf; lia|].
    cbn [base64_encode app b64_loop]. bits.
    rewrite b64_step, b64_step, b64_step, b64_step by lia.
    change (0 + 1 + 1 + 1 + 1) with 4. rewrite b64_end.
    cbn iota beta. change (4 =? 0) with false. change (0 =? 0) with true. cbn [andb]. cbn iota.
    rewrite IH; [|exact Hs3|cbn [base64_encode length app] in Hf; lia].
    bits. cbn [app]. f_equal; [lia|]. f_equal; [lia|]. f_equal. lia.
Qed.
Lemma base64_round s : bytes_ok s -> base64_decode (base64_encode s) = s.
Proof. intros H. apply base64_round_gen; [exact H|lia]. Qed.

(** * URL *)
Lemma url_num_low num d : d < 16 -> url_num num (hexlow d) = num * 16 + d.
Proof.
  intros H. unfold hexlow. destruct (N.ltb_spec d 10); unfold url_num;
    repeat (match goal with |- context [?a <=? ?b] => destruct (N.leb_spec a b) end; cbn [andb]; try lia).
Qed.
Lemma url_round s : bytes_ok s -> url_decode (url_encode s) = s.
Proof.
  induction 1 as [|c s Hc Hs IH]; [reflexivity|]. unfold byte_ok in Hc. cbn [url_encode].
  destruct (url_plain c) eqn:P.
  - cbn [app url_decode]. rewrite IH.
    assert (R : c <> 37 /\ c <> 43 /\ 32 < c /\ c < 127).
    { unfold url_plain in P.
      rewrite !orb_true_iff, !andb_true_iff, !N.leb_le, !N.eqb_eq in P. clear - P. lia. }
    destruct (N.eqb_spec c 37); [lia|]. destruct (N.eqb_spec c 43); [lia|].
    destruct (N.leb_spec c 32); [lia|]. destruct (N.leb_spec 128 c); [lia|]. destruct (N.eqb_spec c 127); [lia|].
    reflexivity.
  - cbn [app url_decode]. change (37 =? 37) with true. cbn iota. bits.
    rewrite (url_num_low 0), url_num_low by lia. rewrite IH. f_equal. lia.
Qed.

(** * UTF-8 *)
Lemma cont d : d < 64 -> N.land (N.lor 128 d) 63 = d.
Proof.
  intros H. rewrite (lor_plus 6 128) by (try reflexivity; exact H).
  change (N.land (128 + d) 63) with (N.land (128 + d) (2 ^ 6 - 1)). rewrite land_mod. change (2 ^ 6) with 64. lia.
Qed.
(** Reassembling the digits of a code. *)
Lemma join_lor k hi lo : lo < 2 ^ k -> N.lor (N.shiftl hi k) lo = hi * 2 ^ k + lo.
Proof.
  intros H. rewrite (lor_plus k); [rewrite N.shiftl_mul_pow2; reflexivity| |exact H].
  rewrite N.shiftl_mul_pow2. apply N.mod_mul. apply N.pow_nonzero. lia.
Qed.
Lemma join2 h d0 : d0 < 64 -> N.lor (N.shiftl h 6) d0 = h * 64 + d0.
Proof. intros. apply (join_lor 6). assumption. Qed.
Lemma shl_split h k j : N.shiftl h (k + j) = N.shiftl (N.shiftl h k) j.
Proof. symmetry. apply N.shiftl_shiftl. Qed.
Lemma join_sh x d k : d < 64 -> N.lor (N.shiftl x (6 + k)) (N.shiftl d k) = N.shiftl (x * 64 + d) k.
Proof. intros H. rewrite shl_split, <- N.shiftl_lor, join2 by exact H. reflexivity. Qed.
(** The equation of the decoder for one more byte. *)
Lemma utf8_cons c s1 : utf8_decode (c :: s1) =

      if c <? 128 then c :: utf8_decode s1
      else if c <? 224 then
        if 192 <=? c then
          match s1 with
          | b1 :: s2 => emit 128 (N.lor (N.shiftl (N.land c 31) 6) (N.land b1 63)) (utf8_decode s2)
          | _ => utf8_decode s1
          end
        else utf8_decode s1
      else if c <? 240 then
        match s1 with
        | b1 :: b2 :: s3 =>
            emit 2048 (N.lor (N.lor (N.shiftl (N.land c 15) 12) (N.shiftl (N.land b1 63) 6)) (N.land b2 63))
              (utf8_decode s3)
        | _ => utf8_decode s1
        end
      else if c <? 248 then
        match s1 with
        | b1 :: b2 :: b3 :: s4 =>
            emit 65536 (N.lor (N.lor (N.lor (N.shiftl (N.land c 7) 18) (N.shiftl (N.land b1 63) 12))
                                     (N.shiftl (N.land b2 63) 6)) (N.land b3 63))
              (utf8_decode s4)
        | _ => utf8_decode s1
        end
      else if c <? 252 then
        match s1 with
        | b1 :: b2 :: b3 :: b4 :: s5 =>
            emit 2097152 (N.lor (N.lor (N.lor (N.lor (N.shiftl (N.land c 3) 24) (N.shiftl (N.land b1 63) 18))
                                     (N.shiftl (N.land b2 63) 12)) (N.shiftl (N.land b3 63) 6)) (N.land b4 63))
              (utf8_decode s5)
        | _ => utf8_decode s1
        end
      else if c <? 254 then
        match s1 with
        | b1 :: b2 :: b3 :: b4 :: b5 :: s6 =>
            emit 67108864 (N.lor (N.lor (N.lor (N.lor (N.lor (N.shiftl (N.land c 1) 30) (N.shiftl (N.land b1 63) 24))
                                     (N.shiftl (N.land b2 63) 18)) (N.shiftl (N.land b3 63) 12))
                                     (N.shiftl (N.land b4 63) 6)) (N.land b5 63))
              (utf8_decode s6)
        | _ => utf8_decode s1
        end
      else utf8_decode s1.
Proof. reflexivity. Qed.
Lemma dec1 h d0 s : h < 32 -> d0 < 64 -> 128 <= (h * 64 + d0) ->
  utf8_decode ([N.lor 192 h; N.lor 128 d0] ++ s) = (h * 64 + d0) :: utf8_decode s.
Proof.
  intros Hh Hd0 Hlo. rewrite (lor_plus 5 192) by (try reflexivity; exact Hh).
  cbn [app]. rewrite utf8_cons.
  rewrite (proj2 (N.ltb_ge (192 + h) 128)) by (clear; lia).
  rewrite (proj2 (N.ltb_lt (192 + h) 224)) by (clear - Hh; lia).
  rewrite (proj2 (N.leb_le 192 (192 + h))) by (clear; lia).
  rewrite !cont by assumption.
  replace (N.land (192 + h) 31) with h by (change 31 with (2 ^ 5 - 1); rewrite land_mod; change (2 ^ 5) with 32; clear - Hh; lia).
  rewrite (join2 h d0) by assumption.
  unfold emit. rewrite (proj2 (N.leb_le 128 _)) by exact Hlo. reflexivity.
Qed.
Lemma dec2 h d0 d1 s : h < 16 -> d0 < 64 -> d1 < 64 -> 2048 <= ((h * 64 + d1) * 64 + d0) ->
  utf8_decode ([N.lor 224 h; N.lor 128 d1; N.lor 128 d0] ++ s) = ((h * 64 + d1) * 64 + d0) :: utf8_decode s.
Proof.
  intros Hh Hd0 Hd1 Hlo. rewrite (lor_plus 4 224) by (try reflexivity; exact Hh).
  cbn [app]. rewrite utf8_cons.
  rewrite (proj2 (N.ltb_ge (224 + h) 128)) by (clear; lia).
  rewrite (proj2 (N.ltb_ge (224 + h) 224)) by (clear; lia).
  rewrite (proj2 (N.ltb_lt (224 + h) 240)) by (clear - Hh; lia).
  rewrite !cont by assumption.
  replace (N.land (224 + h) 15) with h by (change 15 with (2 ^ 4 - 1); rewrite land_mod; change (2 ^ 4) with 16; clear - Hh; lia).
  change (N.shiftl h 12) with (N.shiftl h (6 + 6)). rewrite (join_sh h d1 6) by assumption.
  rewrite (join2 (h * 64 + d1) d0) by assumption.
  unfold emit. rewrite (proj2 (N.leb_le 2048 _)) by exact Hlo. reflexivity.
Qed.
Lemma dec3 h d0 d1 d2 s : h < 8 -> d0 < 64 -> d1 < 64 -> d2 < 64 -> 65536 <= (((h * 64 + d2) * 64 + d1) * 64 + d0) ->
  utf8_decode ([N.lor 240 h; N.lor 128 d2; N.lor 128 d1; N.lor 128 d0] ++ s) = (((h * 64 + d2) * 64 + d1) * 64 + d0) :: utf8_decode s.
Proof.
  intros Hh Hd0 Hd1 Hd2 Hlo. rewrite (lor_plus 3 240) by (try reflexivity; exact Hh).
  cbn [app]. rewrite utf8_cons.
  rewrite (proj2 (N.ltb_ge (240 + h) 128)) by (clear; lia).
  rewrite (proj2 (N.ltb_ge (240 + h) 224)) by (clear; lia).
  rewrite (proj2 (N.ltb_ge (240 + h) 240)) by (clear; lia).
  rewrite (proj2 (N.ltb_lt (240 + h) 248)) by (clear - Hh; lia).
  rewrite !cont by assumption.
  replace (N.land (240 + h) 7) with h by (change 7 with (2 ^ 3 - 1); rewrite land_mod; change (2 ^ 3) with 8; clear - Hh; lia).
  change (N.shiftl h 18) with (N.shiftl h (6 + 12)). rewrite (join_sh h d2 12) by assumption.
  change (N.shiftl (h * 64 + d2) 12) with (N.shiftl (h * 64 + d2) (6 + 6)). rewrite (join_sh (h * 64 + d2) d1 6) by assumption.
  rewrite (join2 ((h * 64 + d2) * 64 + d1) d0) by assumption.
  unfold emit. rewrite (proj2 (N.leb_le 65536 _)) by exact Hlo. reflexivity.
Qed.
Lemma dec4 h d0 d1 d2 d3 s : h < 4 -> d0 < 64 -> d1 < 64 -> d2 < 64 -> d3 < 64 -> 2097152 <= ((((h * 64 + d3) * 64 + d2) * 64 + d1) * 64 + d0) ->
  utf8_decode ([N.lor 248 h; N.lor 128 d3; N.lor 128 d2; N.lor 128 d1; N.lor 128 d0] ++ s) = ((((h * 64 + d3) * 64 + d2) * 64 + d1) * 64 + d0) :: utf8_decode s.
Proof.
  intros Hh Hd0 Hd1 Hd2 Hd3 Hlo. rewrite (lor_plus 2 248) by (try reflexivity; exact Hh).
  cbn [app]. rewrite utf8_cons.
  rewrite (proj2 (N.ltb_ge (248 + h) 128)) by (clear; lia).
  rewrite (proj2 (N.ltb_ge (248 + h) 224)) by (clear; lia).
  rewrite (proj2 (N.ltb_ge (248 + h) 240)) by (clear; lia).
  rewrite (proj2 (N.ltb_ge (248 + h) 248)) by (clear; lia).
  rewrite (proj2 (N.ltb_lt (248 + h) 252)) by (clear - Hh; lia).
  rewrite !cont by assumption.
  replace (N.land (248 + h) 3) with h by (change 3 with (2 ^ 2 - 1); rewrite land_mod; change (2 ^ 2) with 4; clear - Hh; lia).
  change (N.shiftl h 24) with (N.shiftl h (6 + 18)). rewrite (join_sh h d3 18) by assumption.
  change (N.shiftl (h * 64 + d3) 18) with (N.shiftl (h * 64 + d3) (6 + 12)). rewrite (join_sh (h * 64 + d3) d2 12) by assumption.
  change (N.shiftl ((h * 64 + d3) * 64 + d2) 12) with (N.shiftl ((h * 64 + d3) * 64 + d2) (6 + 6)). rewrite (join_sh ((h * 64 + d3) * 64 + d2) d1 6) by assumption.
  rewrite (join2 (((h * 64 + d3) * 64 + d2) * 64 + d1) d0) by assumption.
  unfold emit. rewrite (proj2 (N.leb_le 2097152 _)) by exact Hlo. reflexivity.
Qed.
Lemma dec5 h d0 d1 d2 d3 d4 s : h < 2 -> d0 < 64 -> d1 < 64 -> d2 < 64 -> d3 < 64 -> d4 < 64 -> 67108864 <= (((((h * 64 + d4) * 64 + d3) * 64 + d2) * 64 + d1) * 64 + d0) ->
  utf8_decode ([N.lor 252 h; N.lor 128 d4; N.lor 128 d3; N.lor 128 d2; N.lor 128 d1; N.lor 128 d0] ++ s) = (((((h * 64 + d4) * 64 + d3) * 64 + d2) * 64 + d1) * 64 + d0) :: utf8_decode s.
Proof.
  intros Hh Hd0 Hd1 Hd2 Hd3 Hd4 Hlo. rewrite (lor_plus 1 252) by (try reflexivity; exact Hh).
  cbn [app]. rewrite utf8_cons.
  rewrite (proj2 (N.ltb_ge (252 + h) 128)) by (clear; lia).
  rewrite (proj2 (N.ltb_ge (252 + h) 224)) by (clear; lia).
  rewrite (proj2 (N.ltb_ge (252 + h) 240)) by (clear; lia).
  rewrite (proj2 (N.ltb_ge (252 + h) 248)) by (clear; lia).
  rewrite (proj2 (N.ltb_ge (252 + h) 252)) by (clear; lia).
  rewrite (proj2 (N.ltb_lt (252 + h) 254)) by (clear - Hh; lia).
  rewrite !cont by assumption.
  replace (N.land (252 + h) 1) with h by (change 1 with (2 ^ 1 - 1); rewrite land_mod; change (2 ^ 1) with 2; clear - Hh; lia).
  change (N.shiftl h 30) with (N.shiftl h (6 + 24)). rewrite (join_sh h d4 24) by assumption.
  change (N.shiftl (h * 64 + d4) 24) with (N.shiftl (h * 64 + d4) (6 + 18)). rewrite (join_sh (h * 64 + d4) d3 18) by assumption.
  change (N.shiftl ((h * 64 + d4) * 64 + d3) 18) with (N.shiftl ((h * 64 + d4) * 64 + d3) (6 + 12)). rewrite (join_sh ((h * 64 + d4) * 64 + d3) d2 12) by assumption.
  change (N.shiftl (((h * 64 + d4) * 64 + d3) * 64 + d2) 12) with (N.shiftl (((h * 64 + d4) * 64 + d3) * 64 + d2) (6 + 6)). rewrite (join_sh (((h * 64 + d4) * 64 + d3) * 64 + d2) d1 6) by assumption.
  rewrite (join2 ((((h * 64 + d4) * 64 + d3) * 64 + d2) * 64 + d1) d0) by assumption.
  unfold emit. rewrite (proj2 (N.leb_le 67108864 _)) by exact Hlo. reflexivity.
Qed.
Lemma utf8_one c s : c < 2147483648 -> utf8_decode (utf8_of c ++ s) = c :: utf8_decode s.
Proof.
  intros H. unfold utf8_of.
  destruct (N.ltb_spec c 128) as [L|L].
  { cbn [app utf8_decode]. destruct (N.ltb_spec c 128); [reflexivity|lia]. }
  destruct (N.ltb_spec c 2048) as [L1|L1].
  { bits.
    remember (c / 64) as h eqn:Eh.
    remember (c mod 64) as d0 eqn:E0.
    assert (B : h < 32) by lia.
    assert (B0 : d0 < 64) by lia.
    assert (E : c = (h * 64 + d0)) by lia.
    rewrite E. apply dec1; try assumption. rewrite <- E. exact L. }
  destruct (N.ltb_spec c 65536) as [L2|L2].
  { bits.
    remember (c / 4096) as h eqn:Eh.
    remember (c mod 4096 / 64) as d1 eqn:E1.
    remember (c mod 64) as d0 eqn:E0.
    assert (B : h < 16) by lia.
    assert (B0 : d0 < 64) by lia.
    assert (B1 : d1 < 64) by lia.
    assert (E : c = ((h * 64 + d1) * 64 + d0)) by lia.
    rewrite E. apply dec2; try assumption. rewrite <- E. exact L1. }
  destruct (N.ltb_spec c 2097152) as [L3|L3].
  { bits.
    remember (c / 262144) as h eqn:Eh.
    remember (c mod 262144 / 4096) as d2 eqn:E2.
    remember (c mod 4096 / 64) as d1 eqn:E1.
    remember (c mod 64) as d0 eqn:E0.
    assert (B : h < 8) by lia.
    assert (B0 : d0 < 64) by lia.
    assert (B1 : d1 < 64) by lia.
    assert (B2 : d2 < 64) by lia.
    assert (E : c = (((h * 64 + d2) * 64 + d1) * 64 + d0)) by lia.
    rewrite E. apply dec3; try assumption. rewrite <- E. exact L2. }
  destruct (N.ltb_spec c 67108864) as [L4|L4].
  { bits.
    remember (c / 16777216) as h eqn:Eh.
    remember (c mod 16777216 / 262144) as d3 eqn:E3.
    remember (c mod 262144 / 4096) as d2 eqn:E2.
    remember (c mod 4096 / 64) as d1 eqn:E1.
    remember (c mod 64) as d0 eqn:E0.
    assert (B : h < 4) by lia.
    assert (B0 : d0 < 64) by lia.
    assert (B1 : d1 < 64) by lia.
    assert (B2 : d2 < 64) by lia.
    assert (B3 : d3 < 64) by lia.
    assert (E : c = ((((h * 64 + d3) * 64 + d2) * 64 + d1) * 64 + d0)) by lia.
    rewrite E. apply dec4; try assumption. rewrite <- E. exact L3. }
  destruct (N.ltb_spec c 2147483648) as [L5|L5]; [|lia].
  { bits.
    remember (c / 1073741824) as h eqn:Eh.
    remember (c mod 1073741824 / 16777216) as d4 eqn:E4.
    remember (c mod 16777216 / 262144) as d3 eqn:E3.
    remember (c mod 262144 / 4096) as d2 eqn:E2.
    remember (c mod 4096 / 64) as d1 eqn:E1.
    remember (c mod 64) as d0 eqn:E0.
    assert (B : h < 2) by lia.
    assert (B0 : d0 < 64) by lia.
    assert (B1 : d1 < 64) by lia.
    assert (B2 : d2 < 64) by lia.
    assert (B3 : d3 < 64) by lia.
    assert (B4 : d4 < 64) by lia.
    assert (E : c = (((((h * 64 + d4) * 64 + d3) * 64 + d2) * 64 + d1) * 64 + d0)) by lia.
    rewrite E. apply dec5; try assumption. rewrite <- E. exact L4. }
Qed.
Lemma utf8_round l : Forall (fun c => c < 2147483648) l -> utf8_decode (utf8_encode l) = l.
Proof.
  induction 1 as [|c l Hc Hl IH]; [reflexivity|]. cbn [utf8_encode flat_map]. fold (utf8_encode l).
  rewrite utf8_one by exact Hc. rewrite IH. reflexivity.
Qed.
