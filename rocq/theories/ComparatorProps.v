(** C25: key comparators are total preorders. *)
From Coq Require Import QArith.
From Verif Require Import Bytes BytesOrder CodecModel CodecProofs StrSerialModel StrSerialProofs
  ComparatorModel ComparatorProofs.
Open Scope N_scope.

(** The lexical comparator, on all keys; it is zero only for equal keys. *)
Theorem C25_lexical : preorder_on (fun _ => True) cmp_lexical /\
  forall a b, cmp_lexical a b = Some Eq <-> a = b.
Proof.
  split.
  - apply (by_value bcmp Some); [exact bcmp_pre|eauto|]. intros a b x y [= <-] [= <-]. reflexivity.
  - intros a b. unfold cmp_lexical. rewrite <- bcmp_eq. split; congruence.
Qed.
(** The case-insensitive one, on keys below 2^31 bytes; zero exactly for keys
    equal up to the case of ASCII letters. *)
Theorem C25_lexical_case :
  preorder_on (fun k => blen k < 2 ^ 31) cmp_case /\
  forall a b, blen a < 2 ^ 31 -> blen b < 2 ^ 31 ->
    (cmp_case a b = Some Eq <-> map lower a = map lower b).
Proof.
  assert (E : forall a b, blen a < 2 ^ 31 -> blen b < 2 ^ 31 -> cmp_case a b = Some (bcmp (map lower a) (map lower b))).
  { intros a b Ha Hb. unfold cmp_case. rewrite case_compare_spec; [reflexivity|].
    change (2 ^ 31) with 2147483648 in *. lia. }
  split.
  - apply (by_value bcmp (fun k => if blen k <? 2 ^ 31 then Some (map lower k) else None)); [exact bcmp_pre| |].
    + intros a Ha. exists (map lower a). destruct (N.ltb_spec (blen a) (2 ^ 31)); [reflexivity|lia].
    + intros a b x y Hx Hy.
      destruct (N.ltb_spec (blen a) (2 ^ 31)); [|discriminate].
      destruct (N.ltb_spec (blen b) (2 ^ 31)); [|discriminate].
      injection Hx as <-. injection Hy as <-. apply E; assumption.
  - intros a b Ha Hb. rewrite E by assumption. rewrite <- bcmp_eq. split; congruence.
Qed.
(** The decimal one, on the keys whose number does not overflow; it orders
    decimal expressions as the integers they denote. *)
Theorem C25_decimal :
  preorder_on (fun k => str_to_int k <> None) cmp_decimal /\
  forall x y : Z, (Z.abs x <= 2 ^ 63 - 49 -> Z.abs y <= 2 ^ 63 - 49 ->
    cmp_decimal (dec_expr x) (dec_expr y) = Some (x ?= y))%Z.
Proof.
  split.
  - apply (by_value zc str_to_int); [exact zc_pre| |].
    + intros a Ha. destruct (str_to_int a); [eauto|congruence].
    + intros a b x y Hx Hy. unfold cmp_decimal. rewrite Hx, Hy. reflexivity.
  - intros x y Hx Hy. unfold cmp_decimal. rewrite !str_to_int_expr by assumption.
    rewrite <- zc_compare. reflexivity.
Qed.
(** The numbers which are not handled: even the largest int64_t overflows in an
    intermediate sum (undefined behaviour). *)
Theorem C25_decimal_overflow_refuted :
  exists k, k = [57; 50; 50; 51; 51; 55; 50; 48; 51; 54; 56; 53; 52; 55; 55; 53; 56; 48; 55] /\
            cmp_decimal k [48] = None.
Proof. eexists; split; [reflexivity|]. reflexivity. Qed.
(** The hexadecimal one, on all keys. *)
Theorem C25_hexadecimal : preorder_on (fun _ => True) cmp_hex.
Proof.
  apply (by_value zc (fun k => Some (to_i64 (str_to_int_hex k)))); [exact zc_pre|eauto|].
  intros a b x y [= <-] [= <-]. reflexivity.
Qed.
(** It orders hexadecimal numbers below 2^63 by value: leading spaces, an optional 0x or 0X, digits and letters of either case. *)
Inductive hex_digit : N -> N -> Prop :=
| hd_digit d : d < 10 -> hex_digit (48 + d) d
| hd_lower d : 10 <= d < 16 -> hex_digit (97 + (d - 10)) d
| hd_upper d : 10 <= d < 16 -> hex_digit (65 + (d - 10)) d.
Definition base16 (ds : list N) : N := fold_left (fun n d => n * 16 + d) ds 0.
Definition hex_numeral (s : bytes) (v : N) : Prop :=
  exists sp pre cs ds, s = sp ++ pre ++ cs /\ Forall (fun c => c <= 32) sp /\ In pre [[]; [48; 120]; [48; 88]] /\ cs <> [] /\
    Forall2 hex_digit cs ds /\ v = base16 ds.
Lemma hex_digit_val c d : hex_digit c d -> hex_val c = Some d /\ 48 <= c /\ c <> 120 /\ c <> 88.
Proof.
  unfold hex_val. intros H.
  assert (G : forall a b c, (a <=? b) && (b <=? c) = true <-> a <= b <= c) by (intros a b e; rewrite andb_true_iff, !N.leb_le; tauto).
  inversion H; subst; repeat match goal with |- context [if ?x then _ else _] => let E := fresh in destruct x eqn:E end;
    repeat match goal with H : (_ && _ = true) |- _ => apply G in H end;
    repeat match goal with H : (_ && _ = false) |- _ => apply andb_false_iff in H; rewrite !N.leb_gt in H end;
    repeat split; try lia; f_equal; lia.
Qed.
Lemma hex_loop_val cs ds : Forall2 hex_digit cs ds -> forall n, fold_left (fun n d => n * 16 + d) ds n < two64 ->
  hex_loop cs n = fold_left (fun n d => n * 16 + d) ds n.
Proof.
  induction 1 as [|c d cs ds H HF IH]; intros n Hn; [reflexivity|]. cbn [fold_left] in *. cbn [hex_loop].
  rewrite (proj1 (hex_digit_val c d H)).
  assert (M : forall ds n, n <= fold_left (fun n d => n * 16 + d) ds n).
  { clear. induction ds as [|d ds IH]; intros n; cbn [fold_left]; [lia|]. specialize (IH (n * 16 + d)). lia. }
  rewrite N.mod_small; [now apply IH|]. pose proof (M ds (n * 16 + d)). lia.
Qed.
Lemma str_to_int_hex_val s v : hex_numeral s v -> v < two64 -> str_to_int_hex s = v.
Proof.
  intros (sp & pre & cs & ds & -> & Hsp & Hpre & Hcs & HF & ->) Hv. unfold str_to_int_hex.
  destruct HF as [|c d cs ds H HF]; [congruence|]. pose proof (hex_digit_val c d H) as (_ & C1 & C2 & C3).
  assert (S : forall l, match l with [] => False | a :: _ => 32 < a end -> skip_space (sp ++ l) = l).
  { intros l Hl. induction Hsp as [|a sp Ha Hsp IH]; cbn [app skip_space].
    - destruct l as [|a l]; [contradiction|]. cbn. destruct (N.leb_spec a 32); [lia|reflexivity].
    - destruct (N.leb_spec a 32); [exact IH|lia]. }
  assert (P : skip_0x (skip_space (sp ++ pre ++ c :: cs)) = c :: cs).
  { destruct Hpre as [<-|[<-|[<-|[]]]]; rewrite S by (cbn; lia); [|reflexivity|reflexivity]. cbn [app].
    destruct HF as [|c2 d2 cs ds H2 HF]; [reflexivity|]. pose proof (hex_digit_val c2 d2 H2) as (_ & _ & D2 & D3).
    unfold skip_0x. rewrite (proj2 (N.eqb_neq _ _) D2), (proj2 (N.eqb_neq _ _) D3), andb_false_r. reflexivity. }
  rewrite P. unfold base16. apply hex_loop_val; auto.
Qed.
Theorem C25_hexadecimal_value : forall a b x y, hex_numeral a x -> hex_numeral b y -> x < 2 ^ 63 -> y < 2 ^ 63 ->
  cmp_hex a b = Some (x ?= y).
Proof.
  intros a b x y Ha Hb Hx Hy. assert (T : two64 = 2 * 2 ^ 63) by reflexivity. unfold cmp_hex.
  rewrite (str_to_int_hex_val a x), (str_to_int_hex_val b y) by (auto; lia).
  assert (W : forall n, n < 2 ^ 63 -> to_i64 n = Z.of_N n).
  { intros n Hn. unfold to_i64. apply wrap_id; [cbn; tauto|]. unfold in_ity. split; [unfold t_min; cbn; lia|].
    change (t_max (mkity 64 true)) with (2 ^ 63 - 1)%Z. change (2 ^ 63)%Z with (Z.of_N (2 ^ 63)). lia. }
  rewrite !W by auto. rewrite <- N2Z.inj_compare, <- zc_compare. reflexivity.
Qed.
Example C25_hexadecimal_value_case : hex_numeral [32; 48; 120; 49; 65] 26 /\ hex_numeral [102] 15 /\ cmp_hex [32; 48; 120; 49; 65] [102] = Some Gt.
Proof.
  split; [|split; [|reflexivity]].
  - exists [32], [48; 120], [49; 65], [1; 10]. repeat split; try discriminate; cbn; auto; repeat constructor; try discriminate;
      [apply (hd_digit 1)|apply (hd_upper 10)]; lia.
  - exists [], [], [102], [15]. repeat split; try discriminate; cbn; auto; repeat constructor. apply (hd_lower 15). lia.
Qed.
(** But numbers from 2^63 are taken as negative: 8000000000000000 is before 0. *)
Theorem C25_hexadecimal_order_refuted :
  exists a b, str_to_int_hex b < str_to_int_hex a /\ cmp_hex a b = Some Lt.
Proof. exists (56 :: repeat 48 15), [48]. split; vm_compute; reflexivity. Qed.
(** Big-endian integers, on all keys; of one of the widths 1, 2, 4 and 8 it is
    the order of the signed integers. *)
Theorem C25_signed_big_endian :
  preorder_on (fun _ => True) cmp_signed_be /\
  forall (w : nat) (x y : Z), In w [1; 2; 4; 8]%nat ->
    (- 2 ^ (8 * Z.of_nat w - 1) <= x < 2 ^ (8 * Z.of_nat w - 1) ->
     - 2 ^ (8 * Z.of_nat w - 1) <= y < 2 ^ (8 * Z.of_nat w - 1) ->
    cmp_signed_be (int_to_be (tou64 x) w) (int_to_be (tou64 y) w) = Some (x ?= y))%Z.
Proof.
  split.
  - apply (by_value zc (fun k => Some (be_cast k))); [exact zc_pre|eauto|].
    intros a b x y [= <-] [= <-]. reflexivity.
  - intros w x y Hw Hx Hy.
    assert (R : forall v : Z, (- 2 ^ (8 * Z.of_nat w - 1) <= v < 2 ^ (8 * Z.of_nat w - 1))%Z ->
                be_cast (int_to_be (tou64 v) w) = v).
    { intros v Hv.
      assert (Hl : length (int_to_be (tou64 v) w) = w).
      { unfold int_to_be. rewrite write_fix_length. destruct Hw as [<-|[<-|[<-|[<-|[]]]]]; reflexivity. }
      unfold be_cast, be_to_int. rewrite Hl. unfold int_to_be, read_fix.
      assert (Ew : Nat.min w 8 = w) by (destruct Hw as [<-|[<-|[<-|[<-|[]]]]]; reflexivity).
      rewrite !Ew. rewrite firstn_all2 by (rewrite write_fix_length; lia).
      rewrite read_write_fix_bytes.
      set (t := mkity (8 * Z.of_nat w) true).
      assert (Ht : match w with
                   | 1%nat => mkity 8 true | 2%nat => mkity 16 true | 4%nat => mkity 32 true
                   | _ => mkity 64 true end = t).
      { unfold t. destruct Hw as [<-|[<-|[<-|[<-|[]]]]]; reflexivity. }
      rewrite Ht.
      assert (Hst : std_ity t). { unfold std_ity, t. destruct Hw as [<-|[<-|[<-|[<-|[]]]]]; cbn; tauto. }
      assert (Hin : in_ity t v). { unfold in_ity, t_min, t_max, t. cbn [t_bits t_signed]. lia. }
      rewrite <- (wrap_tou64 t v Hst Hin) at 2. unfold wrap.
      replace (Z.of_N (tou64 v mod 256 ^ N.of_nat w) mod 2 ^ t_bits t)%Z
        with (Z.of_N (tou64 v) mod 2 ^ t_bits t)%Z; [reflexivity|].
      unfold t. cbn [t_bits]. clear. generalize (tou64 v). intros n.
      rewrite N2Z.inj_mod by (apply N.pow_nonzero; lia).
      replace (Z.of_N (256 ^ N.of_nat w)) with (2 ^ (8 * Z.of_nat w))%Z.
      - rewrite Z.mod_mod by (apply Z.pow_nonzero; lia). reflexivity.
      - rewrite N2Z.inj_pow, nat_N_Z. change (Z.of_N 256) with (2 ^ 8)%Z. rewrite <- Z.pow_mul_r by lia. reflexivity. }
    unfold cmp_signed_be. rewrite (R x Hx), (R y Hy). unfold cmp_int. fold (zc x y). rewrite zc_compare. reflexivity.
Qed.
(** Other widths are compared as unsigned: -1 in three bytes is after 1. *)
Theorem C25_signed_three_bytes_refuted :
  cmp_signed_be (int_to_be (tou64 (-1)) 3) (int_to_be (tou64 1) 3) = Some Gt.
Proof. reflexivity. Qed.
(** Big-endian floating-point numbers, on all keys, whatever number the bytes mean. *)
Theorem C25_float_big_endian : forall dec : nat -> bytes -> fl, preorder_on (fun _ => True) (cmp_float_be dec).
Proof.
  intros dec. apply (by_value fnc (fun k => Some (str_to_float_be dec k))); [exact fnc_pre|eauto|].
  intros a b x y [= <-] [= <-]. reflexivity.
Qed.
(** Decimal real numbers, on the keys which do not mean NaN, whatever the
    rounding of the conversion. *)
Theorem C25_real_number_partial : forall conv : Z -> bytes -> bytes -> option Z -> fl,
  preorder_on (fun k => str_to_double conv k <> FNan) (cmp_real conv).
Proof.
  intros conv. apply (by_value fnc (fun k => if is_nan (str_to_double conv k) then None else Some (str_to_double conv k))).
  - exact fnc_pre.
  - intros a Ha. exists (str_to_double conv a). destruct (str_to_double conv a); try reflexivity. congruence.
  - intros a b x y. destruct (is_nan (str_to_double conv a)) eqn:A; [discriminate|].
    destruct (is_nan (str_to_double conv b)) eqn:B; [discriminate|]. intros [= <-] [= <-].
    unfold cmp_real. rewrite fnc_num by assumption. reflexivity.
Qed.
(** On all keys it is not transitive: "nan" is equivalent to "-inf" and to
    "inf", whatever the rounding. *)
Theorem C25_real_number_refuted : forall conv : Z -> bytes -> bytes -> option Z -> fl,
  let inf := [105; 110; 102] in let nan := [110; 97; 110] in let minf := 45 :: inf in
  le (cmp_real conv) inf nan /\ le (cmp_real conv) nan minf /\ ~ le (cmp_real conv) inf minf.
Proof.
  intros conv inf nan minf. repeat split; [right; reflexivity|right; reflexivity|].
  intros [H|H]; vm_compute in H; discriminate.
Qed.
(** An exponent after 16 columns of digits is ignored: 1.0000000000000001e5 is
    read as 1.000000000000000. *)
Theorem C25_real_number_exponent_refuted : forall conv : Z -> bytes -> bytes -> option Z -> fl,
  str_to_double conv ([49; 46] ++ repeat 48 15 ++ [49; 101; 53]) = conv 1%Z [49] (repeat 48 15) (Some 0%Z).
Proof. reflexivity. Qed.
(** The comparators of serialized pairs are total preorders on the strings which
    are in bounds and whose first elements the plain comparator handles. *)
Theorem C25_pair : forall (D : bytes -> Prop) (kc : kcmp),
  preorder_on D kc ->
  preorder_on (fun s => exists k v, deserialize_pair s = Some (k, v) /\ D k) (cmp_pair kc) /\
  forall a b c d r, blen a < two64 -> blen b < two64 -> blen c < two64 -> blen d < two64 -> kc a c = Some r ->
    cmp_pair kc (serialize_pair a b) (serialize_pair c d) =
    Some (match r with Eq => bcmp b d | _ => r end).
Proof.
  intros D kc P. split; [apply pair_pre; exact P|].
  intros a b c d r Ha Hb Hc Hd E. unfold cmp_pair. rewrite !pair_round by assumption. rewrite E.
  destruct r; reflexivity.
Qed.
(** A key which is not a serialized pair makes the comparator read outside. *)
Theorem C25_pair_out_of_bounds_refuted : forall kc n b, 0 < n < 128 -> cmp_pair kc [n] b = None.
Proof.
  intros kc n b H. unfold cmp_pair.
  replace (deserialize_pair [n]) with (@None (bytes * bytes)); [reflexivity|].
  unfold deserialize_pair, rv, read_var, read_var_loop.
  destruct (N.leb_spec 128 n); [lia|].
  assert (E : (N.shiftl 0 7 + N.land n 127) mod two64 = n).
  { rewrite land_127, N.shiftl_0_l, N.add_0_l. rewrite (N.mod_small n 128) by lia. apply N.mod_small.
    change two64 with 18446744073709551616. lia. }
  rewrite E. change (N.to_nat (0 + 1)) with 1%nat. cbn [skipn]. rewrite blen_nil.
  destruct (N.ltb_spec 0 n); [reflexivity|lia].
Qed.

(** Cases. *)
Example C25_decimal_case : cmp_decimal (dec_expr (-12)) (dec_expr 7) = Some Lt /\ dec_expr (-12) = [45; 49; 50].
Proof. split; reflexivity. Qed.
Example C25_case_case : cmp_case [65; 98] [97; 66] = Some Eq /\ cmp_case [65] [97; 66] = Some Lt.
Proof. split; reflexivity. Qed.
Example C25_real_case : str_to_double (fun s i f e => FNum (inject_Z s)) [45; 49; 46; 53; 101; 51] = FNum (-1).
Proof. reflexivity. Qed.
Example C25_pair_case : cmp_pair cmp_lexical (serialize_pair [1] [9]) (serialize_pair [1; 0] [3]) = Some Lt.
Proof. reflexivity. Qed.

Print Assumptions C25_lexical.
Print Assumptions C25_lexical_case.
Print Assumptions C25_decimal.
Print Assumptions C25_decimal_overflow_refuted.
Print Assumptions C25_hexadecimal.
Print Assumptions C25_hexadecimal_value.
Print Assumptions C25_hexadecimal_order_refuted.
Print Assumptions C25_signed_big_endian.
Print Assumptions C25_signed_three_bytes_refuted.
Print Assumptions C25_float_big_endian.
Print Assumptions C25_real_number_partial.
Print Assumptions C25_real_number_refuted.
Print Assumptions C25_real_number_exponent_refuted.
Print Assumptions C25_pair.
Print Assumptions C25_pair_out_of_bounds_refuted.
