From Coq Require Import Sorted.
From Verif Require Import Bytes BytesOrder CodecModel CodecProofs StrSerialModel.
Open Scope N_scope.

Lemma rv_write n rest : n < two64 -> rv (write_var n ++ rest) = (n, size_var n).
Proof. intros H. unfold rv. rewrite read_write_var by exact H. reflexivity. Qed.
Lemma skip_write n rest : skipn (N.to_nat (size_var n)) (write_var n ++ rest) = rest.
Proof. rewrite <- write_var_length, to_nat_blen, skipn_app, Nat.sub_diag, skipn_all. reflexivity. Qed.
Lemma skip_blen a (rest : bytes) : skipn (N.to_nat (blen a)) (a ++ rest) = rest.
Proof. rewrite to_nat_blen, skipn_app, Nat.sub_diag, skipn_all. reflexivity. Qed.
Lemma first_blen a (rest : bytes) : firstn (N.to_nat (blen a)) (a ++ rest) = a.
Proof. rewrite to_nat_blen, firstn_app, Nat.sub_diag, firstn_all. cbn. apply app_nil_r. Qed.
Lemma blen_ge a (rest : bytes) : (blen (a ++ rest) <? blen a) = false.
Proof. apply N.ltb_ge. rewrite blen_app. lia. Qed.
Lemma write_var_nonempty n : write_var n <> [].
Proof. intros E. pose proof (write_var_length n) as H. pose proof (size_var_pos n). rewrite E, blen_nil in H. lia. Qed.

Lemma pair_round a b :
  blen a < two64 -> blen b < two64 -> deserialize_pair (serialize_pair a b) = Some (a, b).
Proof.
  intros Ha Hb. unfold deserialize_pair, serialize_pair.
  rewrite (rv_write (blen a)) by exact Ha. cbn iota beta. rewrite skip_write, blen_ge, skip_blen.
  rewrite (rv_write (blen b)) by exact Hb. cbn iota beta. rewrite skip_write.
  rewrite N.ltb_irrefl, first_blen.
  replace (firstn (N.to_nat (blen b)) b) with b; [reflexivity|].
  rewrite to_nat_blen. symmetry. apply firstn_all.
Qed.
Lemma pair_first a b : blen a < two64 -> first_of_pair (serialize_pair a b) = Some a.
Proof.
  intros Ha. unfold first_of_pair, serialize_pair.
  rewrite (rv_write (blen a)) by exact Ha. cbn iota beta. rewrite skip_write, blen_ge, first_blen. reflexivity.
Qed.

Lemma vec_loop_round l acc fuel :
  (forall v, In v l -> blen v < 2 ^ 63) -> (length l < fuel)%nat ->
  vec_loop fuel (serialize_vec l) acc = DDone (acc ++ l).
Proof.
  revert acc fuel; induction l as [|v l IH]; intros acc fuel Hv Hf; (destruct fuel as [|fuel]; [cbn in Hf; lia|]).
  - cbn. rewrite app_nil_r. reflexivity.
  - cbn [serialize_vec flat_map]. change (flat_map _ l) with (serialize_vec l).
    rewrite <- app_assoc.
    assert (H : blen v < 2 ^ 63) by (apply Hv; left; reflexivity).
    cbn [vec_loop]. destruct (write_var (blen v) ++ v ++ serialize_vec l) eqn:E.
    { exfalso. apply app_eq_nil in E. exact (write_var_nonempty _ (proj1 E)). }
    rewrite <- E. rewrite rv_write by (change two64 with (2 * 2 ^ 63); lia). cbn iota beta.
    rewrite skip_write, blen_ge, skip_blen, first_blen.
    destruct (N.leb_spec (2 ^ 63) (blen v)); [lia|].
    rewrite IH; [rewrite <- app_assoc; reflexivity| |cbn [length] in Hf; lia].
    intros w Hw; apply Hv; right; exact Hw.
Qed.

Lemma i32_small n : n < 2147483648 -> i32 n = Z.of_N n.
Proof.
  intros H. unfold i32. rewrite N.mod_small by lia. destruct (N.ltb_spec n 2147483648); [reflexivity|lia].
Qed.
Lemma i32_first (s : bytes) : blen s < 2147483648 -> firstn (Z.to_nat (i32 (blen s))) s = s.
Proof.
  intros H. rewrite i32_small by exact H. rewrite <- (firstn_all s) at 3. f_equal. unfold blen. lia.
Qed.
Lemma i32_large (s : bytes) : 2147483648 <= blen s < 4294967296 -> firstn (Z.to_nat (i32 (blen s))) s = [].
Proof.
  intros H. unfold i32. rewrite N.mod_small by lia. destruct (N.ltb_spec (blen s) 2147483648); [lia|].
  replace (Z.to_nat _) with O by lia. reflexivity.
Qed.
Lemma in_serialize_vec_len l v : In v l -> blen v <= blen (serialize_vec l).
Proof.
  induction l as [|w l IH]; [intros []|]; intros [E|H]; cbn [serialize_vec flat_map];
    change (flat_map _ l) with (serialize_vec l); rewrite !blen_app; [subst; lia|].
  pose proof (IH H). lia.
Qed.

Lemma vec_round l fuel :
  blen (serialize_vec l) < 2147483648 -> (length l < fuel)%nat ->
  deserialize_vec fuel (serialize_vec l) = DDone l.
Proof.
  intros H Hf. unfold deserialize_vec. rewrite i32_first by exact H.
  rewrite vec_loop_round; [reflexivity| |exact Hf].
  intros v Hv. pose proof (in_serialize_vec_len l v Hv).
  apply N.lt_trans with 2147483648; [lia|reflexivity].
Qed.

(** Maps. *)
Definition smap_keys (l : smap) := map fst l.
Lemma emplace_last acc k v :
  (forall x, In x (smap_keys acc) -> blt x k) -> smap_emplace k v acc = acc ++ [(k, v)].
Proof.
  induction acc as [|[x w] acc IH]; intros H; cbn [smap_emplace app]; [reflexivity|].
  assert (Hx : blt x k) by (apply H; left; reflexivity).
  apply bcmp_gt in Hx. rewrite Hx. rewrite IH; [reflexivity|]. intros y Hy; apply H; right; exact Hy.
Qed.
Definition emplace_all (l acc : smap) : smap := fold_left (fun a kv => smap_emplace (fst kv) (snd kv) a) l acc.
Lemma map_loop_all l acc fuel :
  (forall kv, In kv l -> blen (fst kv) < 2 ^ 63 /\ blen (snd kv) < 2 ^ 63) -> (length l < fuel)%nat ->
  map_loop fuel (serialize_map l) acc = DDone (emplace_all l acc).
Proof.
  revert acc fuel; induction l as [|[k v] l IH]; intros acc fuel Hv Hf;
    (destruct fuel as [|fuel]; [cbn in Hf; lia|]); [reflexivity|].
  cbn [serialize_map flat_map fst snd]. change (flat_map _ l) with (serialize_map l).
  rewrite <- !app_assoc.
  destruct (Hv (k, v)) as [Hk Hw]; [left; reflexivity|]. cbn [fst snd] in Hk, Hw.
  assert (T : two64 = 2 * 2 ^ 63) by reflexivity.
  cbn [map_loop]. destruct (write_var (blen k) ++ k ++ write_var (blen v) ++ v ++ serialize_map l) eqn:E.
  { exfalso. apply app_eq_nil in E. exact (write_var_nonempty _ (proj1 E)). }
  rewrite <- E. rewrite rv_write by lia. cbn iota beta.
  rewrite skip_write, blen_ge, skip_blen, first_blen.
  destruct (N.leb_spec (2 ^ 63) (blen k)); [lia|].
  rewrite rv_write by lia. cbn iota beta.
  rewrite skip_write, blen_ge, skip_blen, first_blen.
  destruct (N.leb_spec (2 ^ 63) (blen v)); [lia|].
  rewrite IH; [reflexivity| |cbn [length] in Hf; lia]. intros kv Hkv; apply Hv; right; exact Hkv.
Qed.
Lemma emplace_all_sorted l acc : bsorted (smap_keys (acc ++ l)) -> emplace_all l acc = acc ++ l.
Proof.
  revert acc; induction l as [|[k v] l IH]; intros acc Hs; [now rewrite app_nil_r|]. unfold emplace_all. cbn [fold_left fst snd].
  fold (emplace_all l (smap_emplace k v acc)). rewrite emplace_last.
  - rewrite IH; rewrite <- app_assoc; [reflexivity|exact Hs].
  - intros x Hx. unfold smap_keys in Hs. rewrite map_app in Hs. cbn [map fst] in Hs.
    clear - Hs Hx. unfold smap_keys in Hx. revert Hs Hx. generalize (map fst acc). intros a.
    induction a as [|y a IH]; intros Hs; [intros []|]. inversion Hs as [|? ? Hs' HF]; subst.
    intros [Ey|Hx]; [|exact (IH Hs' Hx)]. subst y. rewrite Forall_forall in HF. apply HF.
    apply in_or_app; right; left; reflexivity.
Qed.
(** The first value of a key in a list of records. *)
Fixpoint first_value (k : bytes) (l : list (bytes * bytes)) : option bytes :=
  match l with (x, v) :: l' => if list_eq_dec N.eq_dec k x then Some v else first_value k l' | [] => None end.
Lemma emplace_sorted k v l : bsorted (smap_keys l) -> bsorted (smap_keys (smap_emplace k v l)) /\
  (forall x, In x (smap_keys (smap_emplace k v l)) -> x = k \/ In x (smap_keys l)).
Proof.
  induction l as [|[x w] l IH]; intros Hs; cbn [smap_emplace]; [split; [repeat constructor|cbn; intuition congruence]|].
  inversion Hs as [|? ? Hs' HF]; subst. destruct (bcmp k x) eqn:E.
  - split; auto.
  - split; [|cbn; intuition congruence]. constructor; auto. constructor; auto. eapply Forall_impl; [|exact HF]. intros y Hy. exact (blt_trans _ _ _ E Hy).
  - apply bcmp_gt in E. destruct (IH Hs') as [S I]. split; [|cbn; intros y [<-|Hy]; auto; destruct (I y Hy); auto].
    constructor; auto. apply Forall_forall. intros y Hy. destruct (I y Hy) as [->|Hi]; auto. rewrite Forall_forall in HF. auto.
Qed.
Lemma emplace_value k v l q : bsorted (smap_keys l) ->
  first_value q (smap_emplace k v l) = match first_value q l with Some w => Some w | None => if list_eq_dec N.eq_dec q k then Some v else None end.
Proof.
  assert (A : forall l y, Forall (blt y) (smap_keys l) -> first_value y l = None).
  { clear. induction l as [|[x w] l IH]; intros y H; [reflexivity|]. cbn. inversion H as [|? ? H1 H2]; subst. destruct (list_eq_dec N.eq_dec y x) as [->|_]; auto.
    now apply blt_irrefl in H1. }
  induction l as [|[x w] l IH]; intros Hs; [reflexivity|]. inversion Hs as [|? ? Hs' HF]; subst.
  cbn [smap_emplace]. destruct (bcmp k x) eqn:E.
  - apply bcmp_eq in E. subst x. cbn. destruct (list_eq_dec N.eq_dec q k) as [->|_]; [reflexivity|]. now destruct (first_value q l).
  - cbn. destruct (list_eq_dec N.eq_dec q k) as [->|Hq].
    + destruct (list_eq_dec N.eq_dec k x) as [->|_]; [now apply blt_irrefl in E|]. rewrite A; auto. eapply Forall_impl; [|exact HF]. intros y Hy. exact (blt_trans _ _ _ E Hy).
    + destruct (list_eq_dec N.eq_dec q x); auto. now destruct (first_value q l).
  - cbn. destruct (list_eq_dec N.eq_dec q x); auto.
Qed.
Lemma emplace_all_value l : forall acc q, bsorted (smap_keys acc) -> bsorted (smap_keys (emplace_all l acc)) /\
  first_value q (emplace_all l acc) = match first_value q acc with Some w => Some w | None => first_value q l end.
Proof.
  induction l as [|[k v] l IH]; intros acc q Hs; [split; auto; cbn; now destruct (first_value q acc)|]. unfold emplace_all. cbn [fold_left fst snd].
  fold (emplace_all l (smap_emplace k v acc)). destruct (IH (smap_emplace k v acc) q (proj1 (emplace_sorted k v acc Hs))) as [S E].
  split; auto. rewrite E, emplace_value by auto. cbn. destruct (first_value q acc); auto. now destruct (list_eq_dec N.eq_dec q k).
Qed.
Lemma in_serialize_map_len l kv :
  In kv l -> blen (fst kv) <= blen (serialize_map l) /\ blen (snd kv) <= blen (serialize_map l).
Proof.
  induction l as [|w l IH]; [intros []|]; intros [E|H]; cbn [serialize_map flat_map];
    change (flat_map _ l) with (serialize_map l); rewrite !blen_app; [subst; lia|].
  pose proof (IH H). lia.
Qed.
Lemma map_round l fuel :
  bsorted (map fst l) -> blen (serialize_map l) < 2147483648 -> (length l < fuel)%nat ->
  deserialize_map fuel (serialize_map l) = DDone l.
Proof.
  intros Hs H Hf. unfold deserialize_map. rewrite i32_first by exact H.
  rewrite map_loop_all; [now rewrite (emplace_all_sorted l [])| |exact Hf].
  intros kv Hv. pose proof (in_serialize_map_len l kv Hv).
  assert (2147483648 < 2 ^ 63) by reflexivity. lia.
Qed.

Lemma map_any l fuel : blen (serialize_map l) < 2147483648 -> (length l < fuel)%nat ->
  deserialize_map fuel (serialize_map l) = DDone (emplace_all l []).
Proof.
  intros H Hf. unfold deserialize_map. rewrite i32_first by exact H. apply map_loop_all; auto.
  intros kv Hv. pose proof (in_serialize_map_len l kv Hv). assert (2147483648 < 2 ^ 63) by reflexivity. lia.
Qed.

(** Malformed inputs: a final number without its last byte makes the loops spin. *)
Lemma vec_loop_spin n acc : vec_loop n [128] acc = DRunning.
Proof. revert acc; induction n as [|n IH]; intros acc; [reflexivity|]. cbn. apply IH. Qed.
Lemma map_loop_spin n acc : map_loop n [128] acc = DRunning.
Proof. revert acc; induction n as [|n IH]; intros acc; [reflexivity|]. cbn. apply IH. Qed.

(** Integer vectors. *)
Definition std_ity (t : ity) : Prop := In (t_bits t) [8; 16; 32; 64]%Z.

Lemma read_var_loop_skip s num cnt n c :
  read_var_loop s num cnt = Some (n, c) -> delta_read s num = (n, skipn (N.to_nat (c - cnt)) s).
Proof.
  revert num cnt; induction s as [|b s IH]; intros num cnt; cbn [read_var_loop delta_read]; [discriminate|].
  destruct (128 <=? b).
  - intros H. pose proof (read_var_loop_bound _ _ _ _ _ H). rewrite (IH _ _ H).
    replace (N.to_nat (c - cnt)) with (S (N.to_nat (c - (cnt + 1)))) by lia. reflexivity.
  - intros E; injection E as <- <-. replace (cnt + 1 - cnt) with 1 by lia. reflexivity.
Qed.
Lemma delta_read_write n rest : n < two64 -> delta_read (write_var n ++ rest) 0 = (n, rest).
Proof.
  intros H. pose proof (read_write_var n rest H) as R. unfold read_var in R.
  rewrite (read_var_loop_skip _ _ _ _ _ R). rewrite N.sub_0_r, skip_write. reflexivity.
Qed.

Ltac zpow :=
  repeat match goal with
  | |- context [Z.pow 2 ?k] => let c := eval vm_compute in (2 ^ k)%Z in change (2 ^ k)%Z with c
  | H : context [Z.pow 2 ?k] |- _ => let c := eval vm_compute in (2 ^ k)%Z in change (2 ^ k)%Z with c in H
  end.
Lemma wrap_id t v : std_ity t -> in_ity t v -> wrap t v = v.
Proof.
  unfold std_ity, in_ity, wrap, t_min, t_max. destruct t as [b s]; cbn [t_bits t_signed].
  intros Hb Hv. destruct s; (repeat (destruct Hb as [<-|Hb]; [|]); [..|destruct Hb]); zpow;
    try (match goal with |- context [(?a <? ?b)%Z] => destruct (Z.ltb_spec a b) end); lia.
Qed.
Lemma wrap_tou64 t v : std_ity t -> in_ity t v -> wrap t (Z.of_N (tou64 v)) = v.
Proof.
  intros Hb Hv. rewrite <- (wrap_id t v Hb Hv) at 2. unfold wrap, tou64.
  rewrite Z2N.id by (apply Z.mod_pos_bound; reflexivity).
  replace ((v mod 2 ^ 64) mod 2 ^ t_bits t)%Z with (v mod 2 ^ t_bits t)%Z; [reflexivity|].
  destruct t as [b s]; cbn [t_bits]; unfold std_ity in Hb; cbn [t_bits] in Hb.
  (repeat (destruct Hb as [<-|Hb]; [|]); [..|destruct Hb]); clear;
    match goal with |- context [(2 ^ 64)%Z] => change (2 ^ 64)%Z with 18446744073709551616%Z end;
    [change (2 ^ 8)%Z with 256%Z|change (2 ^ 16)%Z with 65536%Z|change (2 ^ 32)%Z with 4294967296%Z|
     change (2 ^ 64)%Z with 18446744073709551616%Z]; lia.
Qed.
Lemma tou64_lt v : tou64 v < two64.
Proof. unfold tou64. change two64 with (Z.to_N (2 ^ 64)). pose proof (Z.mod_pos_bound v (2 ^ 64)). lia. Qed.

(** The values zigzag can carry in type T. *)
Definition zz_ok (t : ity) (v : Z) : Prop :=
  if (t_bits t <? 32)%Z then True
  else if t_signed t then (- 2 ^ (t_bits t - 2) <= v < 2 ^ (t_bits t - 2))%Z
  else (t_bits t = 64 \/ v < 2 ^ 31)%Z.

Lemma tou64_pos v : (0 <= v < 18446744073709551616)%Z -> tou64 v = Z.to_N v.
Proof. intros H. unfold tou64. change (2 ^ 64)%Z with 18446744073709551616%Z. rewrite Z.mod_small by lia. reflexivity. Qed.
Lemma tou64_neg v : (- 18446744073709551616 <= v < 0)%Z -> tou64 v = Z.to_N (v + 18446744073709551616).
Proof. intros H. unfold tou64. change (2 ^ 64)%Z with 18446744073709551616%Z. f_equal. lia. Qed.

Lemma arith_ok t v : (t_min t <= v <= t_max t)%Z -> std_ity t -> arith t v = Some v.
Proof.
  intros H Hb. unfold arith. destruct (t_signed t) eqn:S.
  - destruct (Z.leb_spec (t_min t) v), (Z.leb_spec v (t_max t)); try lia. reflexivity.
  - rewrite wrap_id by (try exact Hb; exact H). reflexivity.
Qed.
Lemma wrapu64 v : wrap (mkity 64 false) v = (v mod 18446744073709551616)%Z.
Proof. reflexivity. Qed.

Lemma std_prom t : std_ity t -> std_ity (prom t).
Proof.
  intros H. unfold prom. destruct (Z.ltb_spec (t_bits t) 32); [|exact H]. right; right; left; reflexivity.
Qed.

(** Zigzag for every type but unsigned 64. *)
Lemma zz_value_gen t v :
  std_ity t -> in_ity t v -> zz_ok t v -> (t_signed t = true \/ t_bits t < 64)%Z ->
  exists n, delta_num t true v = Some n /\ n < two64 /\ delta_value t true n = Some v.
Proof.
  intros Hb Hv Hz Hn.
  assert (R : (t_min (prom t) <= 2 * v <= t_max (prom t) /\ t_min (prom t) <= v <= t_max (prom t) /\
               (v < 0 -> t_min (prom t) <= v + 1 <= 0 /\ 0 <= (v + 1) * -2 <= t_max (prom t)) /\
               - 9223372036854775808 <= v < 9223372036854775808 /\ (v < 0 -> t_signed (prom t) = true))%Z).
  { unfold std_ity in Hb. destruct t as [b s]. cbn [t_bits t_signed] in *.
    unfold in_ity, zz_ok, t_min, t_max, prom in *. cbn [t_bits t_signed] in *.
    destruct s; (repeat (destruct Hb as [<-|Hb]; [|]); [..|destruct Hb]);
      cbn in Hv, Hz, Hn |- *; try lia; repeat split; intros; try lia; try reflexivity. }
  destruct R as (R1 & R2 & R3 & R4 & R5).
  pose proof (std_prom t Hb) as Hp.
  unfold delta_num. change (2 ^ 63 - 1)%N with 9223372036854775807%N.
  destruct (Z.ltb_spec v 0) as [Hneg|Hpos].
  - rewrite (tou64_neg v) by lia.
    destruct (N.ltb_spec 9223372036854775807 (Z.to_N (v + 18446744073709551616))); [|lia].
    destruct (R3 Hneg) as [R6 R7].
    rewrite (arith_ok (prom t) (v + 1)) by (try exact Hp; lia).
    rewrite (arith_ok (prom t) ((v + 1) * -2)) by (try exact Hp; lia).
    assert (M : (t_max (prom t) <= 9223372036854775807)%Z).
    { clear - Hp R5 Hneg. specialize (R5 Hneg). unfold t_max. rewrite R5. unfold std_ity in Hp.
      (repeat (destruct Hp as [Hp|Hp]; [rewrite <- Hp; cbn; lia|])). destruct Hp. }
    rewrite tou64_pos by lia.
    exists (Z.to_N ((v + 1) * -2) + 1). rewrite N.mod_small by (change two64 with 18446744073709551616; lia).
    split; [reflexivity|]. split; [change two64 with 18446744073709551616; lia|].
    unfold delta_value.
    replace (N.odd (Z.to_N ((v + 1) * -2) + 1)) with true.
    2: { symmetry. replace (Z.to_N ((v + 1) * -2)) with (2 * Z.to_N (- (v + 1))) by lia.
         rewrite N.add_comm, N.odd_add_mul_2. reflexivity. }
    replace (Z.of_N ((Z.to_N ((v + 1) * -2) + 1 - 1) / 2)) with (- (v + 1))%Z.
    2: { replace (Z.to_N ((v + 1) * -2) + 1 - 1) with (Z.to_N (- (v + 1)) * 2) by lia.
         rewrite N.div_mul by lia. lia. }
    rewrite (wrap_id t (- (v + 1))).
    2: exact Hb.
    2: { clear - Hv Hb Hneg. unfold in_ity, t_min, t_max in *. unfold std_ity in Hb. destruct t as [b s].
         cbn [t_bits t_signed] in *. destruct s; [|lia].
         (repeat (destruct Hb as [<-|Hb]; [|]); [..|destruct Hb]); cbn in *; lia. }
    rewrite (arith_ok (prom t)) by (try exact Hp; lia).
    rewrite (arith_ok (prom t)) by (try exact Hp; lia).
    f_equal. replace (- (v + 1) * -1 - 1)%Z with v by lia. apply wrap_id; assumption.
  - rewrite (tou64_pos v) by lia.
    destruct (N.ltb_spec 9223372036854775807 (Z.to_N v)); [lia|].
    rewrite (arith_ok (prom t)) by (try exact Hp; lia).
    assert (B : (v * 2 < 18446744073709551616)%Z) by lia.
    rewrite tou64_pos by lia.
    exists (Z.to_N (v * 2)). split; [reflexivity|]. split; [change two64 with 18446744073709551616; lia|].
    unfold delta_value.
    replace (Z.to_N (v * 2)) with (2 * Z.to_N v) by lia.
    replace (N.odd (2 * Z.to_N v)) with false by (rewrite N.odd_mul; reflexivity).
    rewrite N.mul_comm, N.div_mul by lia. rewrite Z2N.id by lia. f_equal. apply wrap_id; assumption.
Qed.
(** Zigzag for uint64_t: all values. *)
Lemma zz_value_u64 v :
  (0 <= v < 18446744073709551616)%Z ->
  exists n, delta_num (mkity 64 false) true v = Some n /\ n < two64 /\
            delta_value (mkity 64 false) true n = Some v.
Proof.
  intros Hv. unfold delta_num, delta_value, arith, prom. cbn [t_bits t_signed]. change (64 <? 32)%Z with false.
  cbn [t_signed]. change (2 ^ 63 - 1)%N with 9223372036854775807%N. rewrite tou64_pos by lia. rewrite !wrapu64.
  change two64 with 18446744073709551616.
  destruct (N.ltb_spec 9223372036854775807 (Z.to_N v)) as [H|H].
  - set (m := (((v + 1) mod 18446744073709551616 * -2) mod 18446744073709551616)%Z).
    assert (Em : m = ((18446744073709551615 - v) * 2)%Z) by (unfold m; lia).
    rewrite Em. rewrite tou64_pos by lia.
    exists (Z.to_N ((18446744073709551615 - v) * 2) + 1).
    rewrite N.mod_small by lia. split; [reflexivity|]. split; [lia|].
    replace (N.odd _) with true.
    2: { replace (Z.to_N ((18446744073709551615 - v) * 2)) with (2 * Z.to_N (18446744073709551615 - v)) by lia.
         rewrite N.add_comm, N.odd_add_mul_2. reflexivity. }
    replace (Z.of_N ((Z.to_N ((18446744073709551615 - v) * 2) + 1 - 1) / 2)) with (18446744073709551615 - v)%Z.
    2: { replace (Z.to_N ((18446744073709551615 - v) * 2) + 1 - 1) with (Z.to_N (18446744073709551615 - v) * 2) by lia.
         rewrite N.div_mul by lia. lia. }
    rewrite !wrapu64. f_equal. lia.
  - rewrite (Z.mod_small (v * 2)) by lia. rewrite tou64_pos by lia. exists (Z.to_N (v * 2)).
    split; [reflexivity|]. split; [lia|].
    replace (Z.to_N (v * 2)) with (2 * Z.to_N v) by lia.
    replace (N.odd (2 * Z.to_N v)) with false by (rewrite N.odd_mul; reflexivity).
    rewrite N.mul_comm, N.div_mul by lia. rewrite Z2N.id by lia. rewrite wrapu64. f_equal. lia.
Qed.
Lemma zz_value t v :
  std_ity t -> in_ity t v -> zz_ok t v ->
  exists n, delta_num t true v = Some n /\ n < two64 /\ delta_value t true n = Some v.
Proof.
  intros Hb Hv Hz. destruct t as [b s]. destruct s; [apply zz_value_gen; auto|].
  destruct (Z.ltb_spec b 64) as [L|L]; [apply zz_value_gen; auto|].
  assert (b = 64)%Z.
  { unfold std_ity in Hb. cbn [t_bits] in Hb. repeat (destruct Hb as [<-|Hb]; [lia|]). destruct Hb. }
  subst b. apply zz_value_u64. unfold in_ity, t_min, t_max in Hv. cbn in Hv. lia.
Qed.
Lemma plain_value t v :
  std_ity t -> in_ity t v ->
  exists n, delta_num t false v = Some n /\ n < two64 /\ delta_value t false n = Some v.
Proof.
  intros Hb Hv. exists (tou64 v). split; [reflexivity|]. split; [apply tou64_lt|].
  unfold delta_value. rewrite wrap_tou64 by assumption. reflexivity.
Qed.

Lemma delta_round t zigzag l :
  std_ity t -> (forall v, In v l -> in_ity t v /\ (zigzag = true -> zz_ok t v)) ->
  exists s, serialize_delta t zigzag l = Some s /\ deserialize_delta t zigzag s = Some l.
Proof.
  intros Hb Hv. unfold deserialize_delta.
  enough (exists s, serialize_delta t zigzag l = Some s /\
     forall fuel, (length s <= fuel)%nat -> delta_loop fuel t zigzag s = Some l) as (s & H1 & H2).
  { exists s. split; [exact H1|]. apply H2. lia. }
  induction l as [|v l IH].
  - exists []. split; [reflexivity|]. intros [|fuel] _; reflexivity.
  - destruct IH as (s & H1 & H2). { intros w Hw; apply Hv; right; exact Hw. }
    destruct (Hv v) as [Hi Hz]; [left; reflexivity|].
    assert (exists n, delta_num t zigzag v = Some n /\ n < two64 /\ delta_value t zigzag n = Some v) as (n & E1 & E2 & E3).
    { destruct zigzag; [apply zz_value|apply plain_value]; auto. }
    exists (write_var n ++ s). split. { cbn [serialize_delta]. rewrite E1, H1. reflexivity. }
    intros fuel Hf. destruct fuel as [|fuel].
    { exfalso. pose proof (write_var_nonempty n) as W. destruct (write_var n); [congruence|cbn in Hf; lia]. }
    cbn [delta_loop]. destruct (write_var n ++ s) eqn:E.
    { exfalso. apply app_eq_nil in E. exact (write_var_nonempty _ (proj1 E)). }
    rewrite <- E, delta_read_write by exact E2. rewrite E3, H2; [reflexivity|].
    assert (length (write_var n ++ s) <= S fuel)%nat by (rewrite E; exact Hf).
    rewrite app_length in *. pose proof (write_var_nonempty n) as W. destruct (write_var n); [congruence|cbn in *; lia].
Qed.

Lemma basic_round t l :
  std_ity t -> (forall v, In v l -> in_ity t v) -> deserialize_basic t (serialize_basic t l) = l.
Proof.
  intros Hb Hv. unfold deserialize_basic.
  assert (W : (0 < t_width t)%nat /\ 256 ^ N.of_nat (t_width t) = Z.to_N (2 ^ t_bits t) /\ (0 < 2 ^ t_bits t)%Z).
  { unfold std_ity in Hb. destruct t as [b s]. unfold t_width. cbn [t_bits] in *.
    repeat (destruct Hb as [<-|Hb]; [repeat split; cbn; lia|]). destruct Hb. }
  destruct W as (W1 & W2 & W3).
  assert (L : length (serialize_basic t l) = (length l * t_width t)%nat).
  { unfold serialize_basic. induction l as [|v l IH]; [reflexivity|]. cbn [flat_map length].
    rewrite app_length, write_fix_length, IH; [lia|]. intros w Hw; apply Hv; right; exact Hw. }
  rewrite L, Nat.div_mul by lia. clear L.
  induction l as [|v l IH]; [reflexivity|].
  cbn [serialize_basic flat_map length basic_loop]. change (flat_map _ l) with (serialize_basic t l).
  pose proof (Z.mod_pos_bound v (2 ^ t_bits t) W3).
  rewrite read_write_fix by (rewrite W2; lia).
  rewrite skipn_app, write_fix_length, Nat.sub_diag, skipn_all2 by (rewrite write_fix_length; lia).
  cbn [app skipn]. rewrite IH by (intros w Hw; apply Hv; right; exact Hw). f_equal.
  rewrite Z2N.id by lia. transitivity (wrap t v); [|apply wrap_id; [exact Hb|apply Hv; left; reflexivity]].
  unfold wrap. rewrite Z.mod_mod by lia. reflexivity.
Qed.

Lemma int_delta_round n zigzag : n < two64 -> delta_to_int (int_to_delta n zigzag) zigzag = n.
Proof.
  intros H. unfold delta_to_int, int_to_delta. change two64 with 18446744073709551616 in *.
  change (2 ^ 63 - 1) with 9223372036854775807.
  destruct zigzag.
  - destruct (N.ltb_spec 9223372036854775807 n) as [L|L].
    + assert (E : tou64 ((Z.of_N n + 1) * -2 + 1) = 2 * (18446744073709551615 - n) + 1).
      { unfold tou64. change (2 ^ 64)%Z with 18446744073709551616%Z. lia. }
      rewrite E. rewrite <- (app_nil_r (write_var _)), rv_write by (change two64 with 18446744073709551616; lia).
      cbn [fst]. replace (N.odd _) with true by (rewrite N.add_comm, N.odd_add_mul_2; reflexivity).
      replace (2 * (18446744073709551615 - n) + 1 - 1) with ((18446744073709551615 - n) * 2) by lia.
      rewrite N.div_mul by lia. unfold tou64. change (2 ^ 64)%Z with 18446744073709551616%Z. lia.
    + rewrite N.mod_small by lia.
      rewrite <- (app_nil_r (write_var _)), rv_write by (change two64 with 18446744073709551616; lia).
      cbn [fst]. replace (N.odd _) with false by (rewrite N.odd_mul, andb_comm; reflexivity).
      apply N.div_mul; lia.
  - rewrite <- (app_nil_r (write_var _)), rv_write by exact H. reflexivity.
Qed.
Lemma int_be_round n size : (1 <= size <= 8)%nat -> n < 256 ^ N.of_nat size -> be_to_int (int_to_be n size) = n.
Proof.
  intros Hs Hn. unfold be_to_int, int_to_be. rewrite write_fix_length.
  replace (Nat.min (Nat.min size 8) 8) with size by lia. replace (Nat.min size 8) with size by lia.
  rewrite <- (app_nil_r (write_fix _ _)). apply read_write_fix. exact Hn.
Qed.
