(** Lemmas on the update logger (UlogModel). *)
From Coq Require Import ZArith Lia.
From Verif Require Import Bytes CodecModel CodecProofs HashUtilModel StatusModel DbmModel MqModel MqProofs UlogModel.
Local Open Scope N_scope.

Lemma to_i32_small n : n < 2147483648 -> to_i32 n = Z.of_N n.
Proof.
  intros H. unfold to_i32. rewrite N.mod_small by lia. cbv zeta.
  destruct (Z.leb_spec 2147483648 (Z.of_N n)); lia.
Qed.
Lemma in_i32_true z : (-2147483648 <= z <= 2147483647)%Z -> in_i32 z = true.
Proof. intros H. unfold in_i32. apply andb_true_intro. split; apply Z.leb_le; lia. Qed.
Lemma p_num_ok n rest rs : n < two64 -> rs = Z.of_N (blen (write_var n ++ rest)) ->
  p_num (write_var n ++ rest) rs = Some (n, rest, Z.of_N (blen rest)).
Proof.
  intros H E. assert (P := size_var_pos n). assert (L := write_var_length n). rewrite blen_app in E. unfold p_num.
  destruct (Z.ltb_spec rs 1) as [X|_]; [lia|].
  assert (Er : Z.to_nat rs = length (write_var n ++ rest)).
  { rewrite E. unfold blen. rewrite app_length. lia. }
  rewrite Er, firstn_all, read_write_var by exact H. f_equal. f_equal; [f_equal|lia].
  apply skipn_exact. rewrite <- L. apply to_nat_blen.
Qed.

Definition ids_ok (l : ulog) : Prop := (0 <= u_sid l < 2147483648)%Z /\ (0 <= u_idx l < 2147483648)%Z.
Lemma parse_written l : ids_ok l -> blen (ulog_bytes l) <= 2^30 -> parse (ulog_bytes l) = Some (SUCCESS, Some l).
Proof.
  destruct l as [sid idx op]. intros (Hs & Hi) Hl. cbn [u_sid u_idx] in *. unfold parse.
  rewrite to_i32_small by (change (2^30) with 1073741824 in Hl; lia).
  assert (W1 := size_var_pos (Z.to_N sid)). assert (W2 := size_var_pos (Z.to_N idx)).
  assert (B1 : Z.to_N sid < two64) by (change two64 with 18446744073709551616; lia).
  assert (B2 : Z.to_N idx < two64) by (change two64 with 18446744073709551616; lia).
  assert (I1 : to_i32 (Z.to_N sid) = sid) by (rewrite to_i32_small; lia).
  assert (I2 : to_i32 (Z.to_N idx) = idx) by (rewrite to_i32_small; lia).
  change (2^30) with 1073741824 in Hl.
  destruct op as [k v|k|]; unfold ulog_bytes in *; cbn [u_op u_sid u_idx] in *; rewrite <- ?app_assoc in *; cbn [app] in *; cbv zeta;
    rewrite !blen_cons, !blen_app, !write_var_length in Hl; rewrite !blen_cons, !blen_app, !write_var_length.
  - assert (W3 := size_var_pos (blen k)). assert (W4 := size_var_pos (blen v)).
    destruct (Z.ltb_spec (Z.of_N (1 + (size_var (Z.to_N sid) + (size_var (Z.to_N idx) + (size_var (blen k) + (size_var (blen v) + (blen k + blen v))))))) 3) as [X|_]; [lia|].
    rewrite p_num_ok by (auto; rewrite !blen_app, !write_var_length; lia).
    rewrite p_num_ok by (auto; rewrite !blen_app, !write_var_length; lia).
    rewrite I1, I2. change (161 =? 161) with true. cbn iota.
    rewrite p_num_ok by (try reflexivity; change two64 with 18446744073709551616; lia).
    rewrite p_num_ok by (try reflexivity; change two64 with 18446744073709551616; lia).
    rewrite !to_i32_small by lia. rewrite in_i32_true by lia. cbn [negb].
    rewrite blen_app. destruct (Z.eqb_spec (Z.of_N (blen k) + Z.of_N (blen v)) (Z.of_N (blen k + blen v))) as [_|X]; [|lia]. cbn [negb].
    destruct (Z.ltb_spec (Z.of_N (blen k)) 0) as [X|_]; [lia|]. destruct (Z.ltb_spec (Z.of_N (blen v)) 0) as [X|_]; [lia|]. cbn [orb].
    assert (Ek : Z.to_nat (Z.of_N (blen k)) = length k) by (unfold blen; lia).
    assert (Ev : Z.to_nat (Z.of_N (blen v)) = length v) by (unfold blen; lia).
    rewrite Ek, Ev, firstn_exact, skipn_exact, firstn_all by reflexivity. reflexivity.
  - assert (W3 := size_var_pos (blen k)).
    destruct (Z.ltb_spec (Z.of_N (1 + (size_var (Z.to_N sid) + (size_var (Z.to_N idx) + (size_var (blen k) + blen k))))) 3) as [X|_]; [lia|].
    rewrite p_num_ok by (auto; rewrite !blen_app, !write_var_length; lia).
    rewrite p_num_ok by (auto; rewrite !blen_app, !write_var_length; lia).
    rewrite I1, I2. change (162 =? 161) with false. change (162 =? 162) with true. cbn iota.
    rewrite p_num_ok by (try reflexivity; change two64 with 18446744073709551616; lia).
    rewrite to_i32_small by lia. rewrite Z.eqb_refl. cbn [negb].
    assert (Ek : Z.to_nat (Z.of_N (blen k)) = length k) by (unfold blen; lia).
    rewrite Ek, firstn_all. reflexivity.
  - destruct (Z.ltb_spec (Z.of_N (1 + (size_var (Z.to_N sid) + size_var (Z.to_N idx)))) 3) as [X|_]; [lia|].
    rewrite p_num_ok by (auto; rewrite !blen_app, !write_var_length; lia).
    rewrite <- (app_nil_r (write_var (Z.to_N idx))).
    rewrite p_num_ok by (auto; rewrite !blen_app, !write_var_length; lia).
    rewrite I1, I2. reflexivity.
Qed.

Lemma size_var_le5 n : n < 2^31 -> size_var n <= 5.
Proof.
  intros H. unfold size_var. repeat match goal with |- context [?a <? ?b] => destruct (N.ltb_spec a b); [lia|] end.
  change (2^31) with 2147483648 in *. change (2^35) with 34359738368 in *. lia.
Qed.
Lemma size_var_lt5 n : n < 2^28 -> size_var n <= 4.
Proof.
  intros H. unfold size_var. repeat match goal with |- context [?a <? ?b] => destruct (N.ltb_spec a b); [lia|] end. lia.
Qed.
Lemma size_var_ge5 n : 2^28 <= n -> 5 <= size_var n.
Proof.
  intros H. unfold size_var. change (2^28) with 268435456 in *.
  repeat match goal with |- context [?a <? ?b] => destruct (N.ltb_spec a b); [try lia; change (2^21) with 2097152 in *; change (2^14) with 16384 in *; change (2^7) with 128 in *; lia|] end. lia.
Qed.
Lemma bytes_blen l : blen (ulog_bytes l) =
  1 + size_var (Z.to_N (u_sid l)) + size_var (Z.to_N (u_idx l)) +
  match u_op l with USet k v => size_var (blen k) + size_var (blen v) + blen k + blen v | URemove k => size_var (blen k) + blen k | UClear => 0 end.
Proof.
  destruct l as [sid idx op]. unfold ulog_bytes. cbn [u_op u_sid u_idx]. destruct op; rewrite <- ?app_assoc; cbn [app]; rewrite !blen_cons, !blen_app, !write_var_length; lia.
Qed.
Definition op_ok (op : upd) : Prop := match op with USet k v => bytes_ok k /\ bytes_ok v | URemove k => bytes_ok k | UClear => True end.
Lemma ulog_bytes_ok l : ids_ok l -> blen (ulog_bytes l) <= 2^30 -> op_ok (u_op l) -> bytes_ok (ulog_bytes l).
Proof.
  intros (Hs & Hi) Hl. rewrite bytes_blen in Hl. change (2^30) with 1073741824 in Hl. revert Hl. destruct l as [sid idx op]. unfold ulog_bytes. cbn [u_op u_sid u_idx] in *.
  assert (B1 : Z.to_N sid < two64) by (change two64 with 18446744073709551616; lia).
  assert (B2 : Z.to_N idx < two64) by (change two64 with 18446744073709551616; lia).
  destruct op as [k v|k|]; intros Hl H; cbn [op_ok] in H; rewrite <- ?app_assoc; cbn [app]; (constructor; [unfold byte_ok; lia|]); repeat (apply bytes_ok_app; split);
    auto using write_var_ok; try apply H; apply write_var_ok; change two64 with 18446744073709551616; lia.
Qed.

(** * Applying *)
Section Target.
  Variable T : Type.
  Variable t_set : T -> bytes -> bytes -> code * T.
  Variable t_remove : T -> bytes -> code * T.
  Variable t_clear : T -> code * T.
  Notation op1 := (apply_op t_set t_remove t_clear).
  Notation file1 := (apply_file t_set t_remove t_clear).
  Notation files1 := (apply_files t_set t_remove t_clear).

  Definition wants (w g : Z) : bool := if (w <? 0)%Z then negb (g =? - w)%Z else (g =? w)%Z.
  Definition selects (min : N) (sid idx : Z) (h : N * ulog) : bool :=
    (min <=? fst h) && wants sid (u_sid (snd h)) && wants idx (u_idx (snd h)).
  Definition hist_ops (min : N) (sid idx : Z) (H : list (N * ulog)) : list upd := map (fun h => u_op (snd h)) (filter (selects min sid idx) H).
  Definition enc_msg (h : N * ulog) : msg := (fst h, ulog_bytes (snd h)).
  Definition h_ok (h : N * ulog) : Prop := ids_ok (snd h) /\ blen (ulog_bytes (snd h)) <= 2^30.

  Lemma passes_ok w g : w <> INT32MIN -> passes w g = Some (wants w g).
  Proof.
    intros H. unfold passes, wants. destruct (w <? 0)%Z; [|reflexivity]. destruct (Z.eqb_spec w INT32MIN); [contradiction|reflexivity].
  Qed.
  Lemma apply_log_ok t l sid idx : sid <> INT32MIN -> idx <> INT32MIN -> ids_ok l -> blen (ulog_bytes l) <= 2^30 ->
    apply_log t_set t_remove t_clear t (ulog_bytes l) sid idx =
      Some (if wants sid (u_sid l) && wants idx (u_idx l) then (SUCCESS, op1 t (u_op l)) else (INFEASIBLE_ERROR, t)).
  Proof.
    intros H1 H2 H3 H4. unfold apply_log. rewrite parse_written, !passes_ok by assumption.
    destruct (wants sid (u_sid l)); [|reflexivity]. destruct (wants idx (u_idx l)); reflexivity.
  Qed.
  Lemma hist_ops_app min sid idx A B : hist_ops min sid idx (A ++ B) = hist_ops min sid idx A ++ hist_ops min sid idx B.
  Proof.
    unfold hist_ops. rewrite <- map_app. f_equal. induction A as [|x A IH]; [reflexivity|]. cbn. rewrite IH. destruct (selects min sid idx x); reflexivity.
  Qed.

  Lemma apply_file_ok min sid idx : sid <> INT32MIN -> idx <> INT32MIN -> forall H pre fuel off t size,
    Forall h_ok H -> Forall msg_ok (map enc_msg H) -> (length H <= fuel)%nat ->
    N.max off 32 = blen pre -> size = blen (pre ++ recs (map enc_msg H)) -> (size = 32 -> off = 32) ->
    file1 fuel (pre ++ recs (map enc_msg H)) size min sid idx off t = Done SUCCESS (fold_left op1 (hist_ops min sid idx H) t).
  Proof.
    intros Hs Hi. induction H as [|h H IH]; intros pre fuel off t size HO HM Hf Hoff Hsz H32.
    - cbn [map recs concat] in *. unfold recs in *. cbn [map concat] in *. rewrite app_nil_r in *.
      assert (E : (off <? size) = false) by (apply N.ltb_ge; lia).
      destruct fuel; cbn [apply_file]; rewrite E; reflexivity.
    - cbn [map] in *. destruct fuel as [|fu]; [cbn in Hf; lia|]. inversion HO as [|? ? [O1 O2] O3]; subst. inversion HM as [|? ? M1 M2]; subst.
      change (recs (enc_msg h :: map enc_msg H)) with (mrec (fst (enc_msg h)) (snd (enc_msg h)) ++ recs (map enc_msg H)) in *.
      cbn [apply_file]. rewrite !blen_app, mrec_blen in *.
      destruct (N.ltb_spec off (blen pre + (12 + blen (snd (enc_msg h)) + blen (recs (map enc_msg H))))) as [_|X]; [|exfalso; lia].
      assert (RN : read_next (pre ++ mrec (fst (enc_msg h)) (snd (enc_msg h)) ++ recs (map enc_msg H)) off 0 =
        (SUCCESS, blen pre + blen (mrec (fst (enc_msg h)) (snd (enc_msg h))), Some (fst h, Some (ulog_bytes (snd h))))).
      { assert (X := @read_next_ok pre (enc_msg h) (recs (map enc_msg H)) (blen pre) 0 M1 eq_refl).
        assert (Y : forall f o, read_next f (N.max o 32) 0 = read_next f o 0) by (intros; unfold read_next; change MQ_META_SIZE with 32; rewrite <- N.max_assoc, N.max_id; reflexivity).
        rewrite <- Y, Hoff, X by lia. rewrite (proj2 (N.leb_le 0 _)) by lia. reflexivity. }
      rewrite RN. cbv iota beta.
      assert (G : forall t', file1 fu (pre ++ mrec (fst (enc_msg h)) (snd (enc_msg h)) ++ recs (map enc_msg H))
          (blen pre + (12 + blen (snd (enc_msg h)) + blen (recs (map enc_msg H)))) min sid idx (blen pre + blen (mrec (fst (enc_msg h)) (snd (enc_msg h)))) t' =
          Done SUCCESS (fold_left op1 (hist_ops min sid idx H) t')).
      { intros t'. rewrite app_assoc. apply IH; auto.
        - cbn in Hf. lia.
        - rewrite blen_app, mrec_blen. lia.
        - rewrite !blen_app, mrec_blen. lia.
        - intros X. lia. }
      change (hist_ops min sid idx (h :: H)) with (hist_ops min sid idx ([h] ++ H)). rewrite hist_ops_app, fold_left_app.
      unfold hist_ops at 2. cbn [filter]. unfold selects.
      destruct (N.ltb_spec (fst h) min) as [X|X].
      + rewrite (proj2 (N.leb_gt _ _) X). cbn [andb map fold_left]. apply G.
      + rewrite (proj2 (N.leb_le _ _) X). cbn [andb]. rewrite apply_log_ok by assumption.
        destruct (wants sid (u_sid (snd h)) && wants idx (u_idx (snd h))); cbn [map fold_left]; change (code_eqb SUCCESS SUCCESS) with true;
          change (code_eqb INFEASIBLE_ERROR SUCCESS) with false; change (code_eqb INFEASIBLE_ERROR INFEASIBLE_ERROR) with true; cbn [orb]; apply G.
  Qed.

  Lemma hist_ops_old min sid idx H : Forall (fun h => fst h < min) H -> hist_ops min sid idx H = [].
  Proof.
    induction 1 as [|h H X _ IH]; [reflexivity|]. change (h :: H) with ([h] ++ H). rewrite hist_ops_app, IH, app_nil_r.
    unfold hist_ops. cbn [filter]. unfold selects. rewrite (proj2 (N.leb_gt _ _) X). reflexivity.
  Qed.
  Lemma map_eq_app_inv {A B} (f : A -> B) l a b : map f l = a ++ b -> exists l1 l2, l = l1 ++ l2 /\ map f l1 = a /\ map f l2 = b.
  Proof.
    revert l; induction a as [|x a IH]; intros l E; [exists [], l; auto|]. destruct l as [|y l]; [discriminate|]. cbn in E. inversion E as [[E1 E2]].
    destruct (IH _ E2) as (l1 & l2 & -> & <- & <-). exists (y :: l1), l2. auto.
  Qed.
  (** Synchronized files with at least one message each. *)
  Lemma apply_files_ok min sid idx : sid <> INT32MIN -> idx <> INT32MIN -> forall l H t,
    Forall seg_ok l -> Forall (fun s => Forall (fun x => fst x <= sg_mts s) (sg_msgs s)) l -> Forall (fun s => sg_msize s = blen (seg_bytes s)) l ->
    Forall (fun s => 32 < blen (seg_bytes s)) l -> log_of l = map enc_msg H -> Forall h_ok H ->
    files1 (map enc l) min sid idx t = Done SUCCESS (fold_left op1 (hist_ops min sid idx H) t).
  Proof.
    intros Hs Hi. induction l as [|s l IH]; intros H t F1 F2 F3 F4 E HO.
    - destruct H; [reflexivity|discriminate].
    - inversion F1 as [|? ? A1 B1]; inversion F2 as [|? ? A2 B2]; inversion F3 as [|? ? A3 B3]; inversion F4 as [|? ? A4 B4]; subst.
      change (log_of (s :: l)) with (sg_msgs s ++ log_of l) in E. symmetry in E. apply map_eq_app_inv in E. destruct E as (Ha & Hb & -> & Ea & Eb).
      rewrite Forall_app in HO. destruct HO as [O1 O2].
      cbn [map apply_files]. unfold enc at 1. rewrite (load_seg A1). rewrite hist_ops_app, fold_left_app.
      destruct (N.ltb_spec (sg_mts s) min) as [X|X].
      + rewrite (hist_ops_old min sid idx Ha); [apply IH; auto|].
        assert (Y : Forall (fun x => fst x < min) (map enc_msg Ha)) by (rewrite Ea; eapply Forall_impl; [|exact A2]; cbn; intros; lia).
        rewrite Forall_map in Y. exact Y.
      + rewrite A3, N.min_id. destruct A1 as (_ & _ & _ & _ & A1).
        assert (P : blen (seg_bytes s) = 32 + blen (recs (sg_msgs s))) by apply seg_blen.
        assert (G : file1 (S (length (seg_bytes s))) (seg_bytes s) (blen (seg_bytes s)) min sid idx 0 t = Done SUCCESS (fold_left op1 (hist_ops min sid idx Ha) t)).
        { rewrite P. unfold seg_bytes. rewrite <- Ea. apply apply_file_ok; auto.
          - rewrite Ea. exact A1.
          - rewrite app_length. assert (Q := recs_len (map enc_msg Ha)). rewrite map_length in Q. lia.
          - rewrite blen_app, meta_blen. reflexivity.
          - intros Y. exfalso. rewrite P in A4. rewrite <- Ea in A4. lia. }
        rewrite G. apply IH; auto.
  Qed.
End Target.
