(** The bytes of a skip file as an image of a list of records; reading and writing records of such a file. *)
From Coq Require Import List NArith ZArith Bool Lia Arith.
Import ListNotations.
From Verif Require Import Bytes BytesOrder CodecModel CodecProofs StatusModel FlatModel MqProofs FlatProofs SkipModel.
Open Scope N_scope.

(** * Levels *)
Lemma level_spec u m i l : (2 <= u)%nat -> (l < level_of u m i <-> l < m /\ i mod u ^ S l = 0)%nat.
Proof.
  intros U. revert i l. induction m as [|m IH]; intros i l; cbn [level_of]; [lia|].
  destruct (Nat.eqb_spec (i mod u) 0) as [E|E].
  - destruct l as [|l].
    + rewrite Nat.pow_1_r. lia.
    + assert (P : (u ^ S l <> 0)%nat) by (apply Nat.pow_nonzero; lia).
      assert (Q := Nat.mod_mul_r i u (u ^ S l) ltac:(lia) P). replace (u ^ S (S l))%nat with (u * u ^ S l)%nat by reflexivity.
      specialize (IH (i / u)%nat l). rewrite Q, E, Nat.add_0_l. split.
      * intros H. destruct IH as [IH _]. destruct (IH ltac:(lia)) as [H1 H2]. rewrite H2. lia.
      * intros [H1 H2]. destruct IH as [_ IH]. assert (((i / u) mod u ^ S l)%nat = 0%nat) by (apply Nat.mul_eq_0 in H2; lia). assert (H3 := IH ltac:(lia)). lia.
  - split; [lia|]. intros [_ H]. exfalso. apply E. assert (P : (u ^ l <> 0)%nat) by (apply Nat.pow_nonzero; lia).
    assert (Q := Nat.mod_mul_r i u (u ^ l) ltac:(lia) P). change (u ^ S l)%nat with (u * u ^ l)%nat in H. lia.
Qed.
Lemma level_le u m i : (level_of u m i <= m)%nat.
Proof. revert i; induction m as [|m IH]; intros i; cbn [level_of]; [lia|]. destruct (Nat.eqb _ _); [|lia]. specialize (IH (i / u)%nat). lia. Qed.

(** * Sizes and offsets *)
Notation krec := (bytes * bytes)%type.
Definition rsize (p : sp) (j : nat) (r : krec) : N := head_size p (lev p j) (blen (fst r)) (blen (snd r)) + blen (fst r) + blen (snd r).
Fixpoint total (p : sp) (j : nat) (l : list krec) : N := match l with [] => 0 | r :: l' => rsize p j r + total p (S j) l' end.
(** The offset of the record at an index. *)
Definition off_of (p : sp) (l : list krec) (i : nat) : N := 128 + total p 0 (firstn i l).
(** The skip pointer of a record at a level: the offset of the record so many indices after, or zero. *)
Definition link (p : sp) (l : list krec) (i lv : nat) : N :=
  let j := (i + step p ^ S lv)%nat in if Nat.ltb j (length l) then off_of p l j else 0.
Definition links (p : sp) (l : list krec) (i : nat) : list N := map (link p l i) (seq 0 (lev p i)).
Notation node := (list N * (bytes * bytes))%type.
Definition nodeb (p : sp) (n : node) : bytes :=
  255 :: concat (map (write_fix (ow p)) (fst n)) ++ write_var (blen (fst (snd n))) ++ write_var (blen (snd (snd n))) ++ fst (snd n) ++ snd (snd n).
Definition nodes (p : sp) (l : list krec) : list node := map (fun i => (links p l i, nth i l ([], []))) (seq 0 (length l)).
Definition image (p : sp) (l : list krec) : bytes := concat (map (nodeb p) (nodes p l)).
(** A file of METADATA_SIZE bytes and the records. *)
Definition stored (p : sp) (f : bytes) (l : list krec) : Prop := exists pre, blen pre = 128 /\ f = pre ++ image p l.

Lemma total_app p j a b : total p j (a ++ b) = total p j a + total p (j + length a) b.
Proof.
  revert j; induction a as [|r a IH]; intros j; cbn [total app length]; [rewrite Nat.add_0_r; reflexivity|].
  rewrite IH. replace (j + S (length a))%nat with (S j + length a)%nat by lia. lia.
Qed.
Lemma rsize_pos p j r : 3 <= rsize p j r.
Proof. unfold rsize, head_size. assert (A := size_var_pos (blen (fst r))). assert (B := size_var_pos (blen (snd r))). lia. Qed.
Lemma off_S p l i r : nth_error l i = Some r -> off_of p l (S i) = off_of p l i + rsize p i r.
Proof.
  intros H. unfold off_of. apply nth_error_split in H as (a & b & -> & L). subst i.
  rewrite firstn_app, firstn_all2 by lia. replace (S (length a) - length a)%nat with 1%nat by lia. cbn [firstn].
  rewrite firstn_app, firstn_all, Nat.sub_diag. cbn [firstn]. rewrite app_nil_r, total_app. cbn [total]. rewrite Nat.add_0_l. lia.
Qed.
Lemma off_lt p l i j : (i < j)%nat -> (j <= length l)%nat -> off_of p l i < off_of p l j.
Proof.
  intros H. induction j as [|j IH]; [lia|]. intros L. destruct (nth_error l j) as [r|] eqn:E; [|apply nth_error_None in E; lia].
  rewrite (off_S p l j r E). assert (P := rsize_pos p j r). destruct (Nat.eq_dec i j) as [->|N]; [lia|]. specialize (IH ltac:(lia) ltac:(lia)). lia.
Qed.
Lemma off_le p l i j : (i <= j)%nat -> (j <= length l)%nat -> off_of p l i <= off_of p l j.
Proof. intros H L. destruct (Nat.eq_dec i j) as [->|N]; [lia|]. assert (X := off_lt p l i j ltac:(lia) L). lia. Qed.
Lemma off_base p l i : 128 <= off_of p l i.
Proof. unfold off_of. lia. Qed.
Lemma off_0 p l : off_of p l 0 = 128. Proof. reflexivity. Qed.
Lemma off_app p l r i : (i <= length l)%nat -> off_of p (l ++ r) i = off_of p l i.
Proof. intros H. unfold off_of. rewrite firstn_app. replace (i - length l)%nat with 0%nat by lia. cbn [firstn]. rewrite app_nil_r. reflexivity. Qed.

Lemma fix_concat w l : length (concat (map (write_fix w) l)) = (w * length l)%nat.
Proof. induction l as [|x l IH]; cbn [map concat length]; [lia|]. rewrite app_length, write_fix_length, IH. lia. Qed.
Lemma nodeb_len p n : blen (nodeb p n) = 1 + N.of_nat (ow p * length (fst n)) + size_var (blen (fst (snd n))) + size_var (blen (snd (snd n))) + blen (fst (snd n)) + blen (snd (snd n)).
Proof.
  unfold nodeb. rewrite blen_cons, !blen_app, !write_var_length.
  assert (E : blen (concat (map (write_fix (ow p)) (fst n))) = N.of_nat (ow p * length (fst n))) by (unfold blen; rewrite fix_concat; reflexivity). lia.
Qed.
Lemma nodeb_rsize p j n : length (fst n) = lev p j -> blen (nodeb p n) = rsize p j (snd n).
Proof. intros H. rewrite nodeb_len, H. unfold rsize, head_size. lia. Qed.
Definition CN (p : sp) (ns : list node) : bytes := concat (map (nodeb p) ns).
Lemma CN_app p a b : CN p (a ++ b) = CN p a ++ CN p b.
Proof. unfold CN. rewrite map_app, concat_app. reflexivity. Qed.
(** Nodes with as many skip pointers as their levels. *)
Definition shaped (p : sp) (ns : list node) : Prop := forall j n, nth_error ns j = Some n -> length (fst n) = lev p j.
Lemma CN_len_from p ns j0 : (forall j n, nth_error ns j = Some n -> length (fst n) = lev p (j0 + j)) -> blen (CN p ns) = total p j0 (map snd ns).
Proof.
  revert j0; induction ns as [|n ns IH]; intros j0 H; [reflexivity|]. unfold CN. cbn [map concat total]. rewrite blen_app.
  rewrite (nodeb_rsize p j0) by (rewrite (H 0%nat n eq_refl); f_equal; lia). f_equal. apply IH. intros j m E. rewrite (H (S j) m E). f_equal. lia.
Qed.
Lemma CN_off p ns i : shaped p ns -> blen (CN p (firstn i ns)) + 128 = off_of p (map snd ns) i.
Proof.
  intros H. rewrite (CN_len_from p _ 0).
  - unfold off_of. rewrite firstn_map. lia.
  - intros j n E. apply H. rewrite <- (firstn_skipn i ns). rewrite nth_error_app1; [exact E|]. apply nth_error_Some. intros X. pose proof (eq_trans (eq_sym E) X) as Y. discriminate Y.
Qed.
Lemma nodes_nth p l i r : nth_error l i = Some r -> nth_error (nodes p l) i = Some (links p l i, r).
Proof.
  intros H. assert (L : (i < length l)%nat) by (apply nth_error_Some; rewrite H; discriminate).
  unfold nodes. rewrite nth_error_map, (nth_error_nth' (seq 0 (length l)) 0%nat) by (rewrite seq_length; exact L). cbn. rewrite seq_nth by exact L. cbn.
  erewrite nth_error_nth by exact H. reflexivity.
Qed.
Lemma nodes_len p l : length (nodes p l) = length l.
Proof. unfold nodes. rewrite map_length, seq_length. reflexivity. Qed.
Lemma nodes_shaped p l : shaped p (nodes p l).
Proof.
  intros j n H. assert (L : (j < length l)%nat) by (rewrite <- (nodes_len p l); apply nth_error_Some; rewrite H; discriminate).
  destruct (nth_error l j) as [r|] eqn:E; [|apply nth_error_None in E; lia]. rewrite (nodes_nth p l j r E) in H. inversion H. cbn. unfold links. rewrite map_length, seq_length. reflexivity.
Qed.
Lemma nodes_snd p l : map snd (nodes p l) = l.
Proof.
  apply nth_ext with (d := ([], [])) (d' := ([], [])); rewrite map_length, nodes_len; [reflexivity|]. intros i H.
  destruct (nth_error l i) as [r|] eqn:E; [|apply nth_error_None in E; lia].
  assert (X := nodes_nth p l i r E). apply (map_nth_error snd) in X. rewrite (nth_error_nth _ _ _ X), (nth_error_nth _ _ _ E). reflexivity.
Qed.
Lemma stored_len p f l : stored p f l -> blen f = off_of p l (length l).
Proof.
  intros (pre & P & ->). rewrite blen_app, P. unfold image. fold (CN p (nodes p l)).
  assert (X := CN_off p (nodes p l) (length l) (nodes_shaped p l)). rewrite firstn_all2 in X by (rewrite nodes_len; lia). rewrite nodes_snd in X. lia.
Qed.
Lemma stored_split p f l i r : stored p f l -> nth_error l i = Some r ->
  exists a c, f = a ++ nodeb p (links p l i, r) ++ c /\ blen a = off_of p l i.
Proof.
  intros (pre & P & ->) H. assert (X := nodes_nth p l i r H). assert (X' := X). apply nth_error_split in X as (n1 & n2 & E & L).
  exists (pre ++ CN p n1), (CN p n2). split.
  - unfold image. fold (CN p (nodes p l)). rewrite E, CN_app. change (CN p ((links p l i, r) :: n2)) with (nodeb p (links p l i, r) ++ CN p n2). rewrite !app_assoc. reflexivity.
  - rewrite blen_app, P. assert (Y := CN_off p (nodes p l) i (nodes_shaped p l)). rewrite nodes_snd, E in Y.
    rewrite firstn_app, firstn_all2, L, Nat.sub_diag in Y by lia. cbn [firstn] in Y. rewrite app_nil_r in Y. lia.
Qed.
Lemma stored_nil p pre : blen pre = 128 -> stored p pre [].
Proof. intros H. exists pre. split; [exact H|]. unfold image. cbn. rewrite app_nil_r. reflexivity. Qed.

(** * Reading a record *)
(** The parameters that Open lets through (MAX_OFFSET_WIDTH 6, MIN_STEP_UNIT 2, MAX_MAX_LEVEL 32), tkrzw_dbm_skip.cc:48-54. *)
Definition sp_ok (p : sp) : Prop := (ow p <= 6)%nat /\ (2 <= step p)%nat /\ (maxl p <= 32)%nat.
Lemma lev_small p i : sp_ok p -> (ow p * lev p i <= 192)%nat.
Proof. intros (A & _ & C). assert (L := level_le (step p) (maxl p) i). unfold lev. nia. Qed.
Lemma read_skips_ok w sk rest : Forall (fun x => x < 256 ^ N.of_nat w) sk -> read_skips w (length sk) (concat (map (write_fix w) sk) ++ rest) = sk.
Proof.
  induction 1 as [|x sk Hx _ IH]; [reflexivity|]. cbn [length read_skips map concat]. rewrite <- app_assoc.
  rewrite read_write_fix by exact Hx. f_equal. rewrite skipn_exact by (symmetry; apply write_fix_length). exact IH.
Qed.
Lemma i32_small n : n < 2^31 -> i32 n = Z.of_N n.
Proof. intros H. unfold i32, TreePageModel.i32. rewrite N.mod_small by lia. destruct (N.ltb_spec n (2^31)); [reflexivity|lia]. Qed.
Lemma size_var_5 n : n < 2^31 -> size_var n <= 5.
Proof. intros H. unfold size_var. repeat match goal with |- context [?a <? ?b] => destruct (N.ltb_spec a b); [lia|] end. lia. Qed.
Lemma firstn_ge {A} n (l : list A) : (length l <= n)%nat -> firstn n l = l. Proof. apply firstn_all2. Qed.

Lemma read_body_ok a k v c : read_body (a ++ (k ++ v) ++ c) (blen a) (blen k) (blen v) = SOk (k, v).
Proof.
  unfold read_body. rewrite (f_read_app a (k ++ v) c) by (try reflexivity; rewrite blen_app; reflexivity).
  rewrite to_nat_blen, skipn_exact, firstn_exact by reflexivity. reflexivity.
Qed.
Lemma node_read p a sk k v c idx : sp_ok p -> length sk = lev p idx -> Forall (fun x => x < 256 ^ N.of_nat (ow p)) sk -> rsize p idx (k, v) < 2^31 ->
  exists vo, (vo = None \/ vo = Some v) /\ read_key p (a ++ nodeb p (sk, (k, v)) ++ c) (blen a) idx = SOk (mkR (lev p idx) idx (blen a) sk k (blen v) vo).
Proof.
  intros PO LS SK RS. unfold read_key. cbv zeta. set (lv := lev p idx) in *. assert (LM := lev_small p idx PO). fold lv in LM.
  assert (NL := nodeb_rsize p idx (sk, (k, v)) LS). cbn [snd] in NL. set (nb := nodeb p (sk, (k, v))) in *.
  unfold rsize, head_size in RS, NL. cbn [fst snd] in RS, NL. fold lv in RS, NL.
  assert (Pk := size_var_pos (blen k)). assert (Pv := size_var_pos (blen v)).
  assert (Kb : blen k < 2^31) by lia. assert (Vb : blen v < 2^31) by lia. assert (Sk := size_var_5 _ Kb). assert (Sv := size_var_5 _ Vb).
  rewrite !blen_app. replace (blen a + (blen nb + blen c) - blen a) with (blen nb + blen c) by lia.
  set (MR := N.min (blen nb + blen c) (2^40)). assert (HMR : blen nb <= MR) by (unfold MR; lia).
  set (n := N.min MR _). destruct (N.ltb_spec MR (1 + N.of_nat (ow p * lv) + 2)) as [X|_]; [lia|]. destruct (N.ltb_spec 256 n) as [X|_]; [lia|].
  assert (Hn : n <= blen (nb ++ c)) by (rewrite blen_app; unfold n, MR; lia).
  rewrite (f_read_prefix a (nb ++ c)) by (try reflexivity; exact Hn).
  set (hs := head_size p lv (blen k) (blen v)). assert (Hhs : hs = 1 + N.of_nat (ow p * lv) + size_var (blen k) + size_var (blen v)) by reflexivity.
  assert (HSn : hs <= n) by lia.
  assert (LF : length (concat (map (write_fix (ow p)) sk)) = (ow p * lv)%nat) by (rewrite fix_concat, LS; reflexivity).
  assert (LVk := var_len (blen k)). assert (LVv := var_len (blen v)).
  assert (EB : firstn (N.to_nat n) (nb ++ c) = 255 :: concat (map (write_fix (ow p)) sk) ++ write_var (blen k) ++ write_var (blen v) ++ firstn (N.to_nat (n - hs)) ((k ++ v) ++ c)).
  { unfold nb, nodeb. cbn [fst snd]. replace (N.to_nat n) with (S (N.to_nat (n - 1))) by lia. cbn [app firstn]. f_equal.
    rewrite <- !app_assoc. rewrite firstn_app_ge by (rewrite LF; lia). f_equal. rewrite firstn_app_ge by (rewrite LF, LVk; lia). f_equal.
    rewrite firstn_app_ge by (rewrite LF, LVk, LVv; lia). f_equal. f_equal. rewrite LF, LVk, LVv. lia. }
  rewrite EB. cbn [negb N.eqb]. change (negb (255 =? 255)) with false. cbv iota.
  replace (read_skips (ow p) lv) with (read_skips (ow p) (length sk)) by (rewrite LS; reflexivity). rewrite read_skips_ok by exact SK.
  rewrite <- LF, skipn_exact by reflexivity. rewrite get_write_var by (unfold two64; lia). rewrite !i32_small by exact Kb.
  destruct (Z.ltb_spec (Z.of_N MR) (Z.of_N (blen k))) as [X|_]; [lia|].
  rewrite get_write_var by (unfold two64; lia). rewrite !i32_small by exact Vb.
  destruct (Z.ltb_spec (Z.of_N MR) (Z.of_N (blen v))) as [X|_]; [lia|].
  destruct (Z.ltb_spec (Z.of_N (blen k)) 0) as [X|_]; [lia|]. destruct (Z.ltb_spec (Z.of_N (blen v)) 0) as [X|_]; [lia|]. cbn [orb]. rewrite !N2Z.id. fold hs.
  destruct (N.leb_spec (2^31) (hs + blen k + blen v)) as [X|_]; [lia|].
  set (m := N.to_nat (n - hs)). assert (Lb3 : length (firstn m ((k ++ v) ++ c)) = m).
  { rewrite firstn_length, !app_length. rewrite blen_app in Hn. unfold blen in *. lia. }
  unfold blen at 1 2. rewrite Lb3. fold (blen k). rewrite to_nat_blen.
  destruct (N.leb_spec (blen k) (N.of_nat m)) as [Lk|Lk].
  - rewrite <- app_assoc. rewrite (firstn_app_ge m k) by (unfold blen in Lk; lia). rewrite firstn_exact, skipn_exact by reflexivity.
    destruct (N.leb_spec (blen v) (blen (firstn (m - length k) (v ++ c)))) as [Lv|Lv].
    + exists (Some v). split; [right; reflexivity|]. f_equal. f_equal. f_equal. rewrite to_nat_blen.
      assert (length v <= m - length k)%nat. { unfold blen in Lv. rewrite firstn_length in Lv. lia. }
      rewrite firstn_app_ge by lia. apply firstn_exact. reflexivity.
    + exists None. split; [left; reflexivity|reflexivity].
  - destruct (N.ltb_spec (blen a + (blen nb + blen c)) (blen a + (hs + blen k + blen v))) as [X|_]; [lia|].
    exists (Some v). split; [right; reflexivity|].
    assert (EF : a ++ nb ++ c = (a ++ 255 :: concat (map (write_fix (ow p)) sk) ++ write_var (blen k) ++ write_var (blen v)) ++ (k ++ v) ++ c).
    { unfold nb, nodeb. cbn [fst snd]. rewrite <- !app_assoc. cbn [app]. rewrite <- !app_assoc. reflexivity. }
    assert (EL : blen (a ++ 255 :: concat (map (write_fix (ow p)) sk) ++ write_var (blen k) ++ write_var (blen v)) = blen a + hs).
    { rewrite blen_app, blen_cons, !blen_app, !write_var_length. unfold blen at 2. rewrite LF. lia. }
    rewrite EF, <- EL, read_body_ok. reflexivity.
Qed.

(** A record as it is in the file. *)
Definition good (p : sp) (l : list krec) (i : nat) (r : srec) : Prop :=
  exists k v, nth_error l i = Some (k, v) /\ r_lev r = lev p i /\ r_idx r = i /\ r_off r = off_of p l i /\ r_skips r = links p l i /\ r_key r = k
    /\ r_vsize r = blen v /\ (r_val r = None \/ r_val r = Some v).
(** The offsets fit the offset width, and the sizes of the records 32 bits. *)
Definition fits (p : sp) (l : list krec) : Prop :=
  off_of p l (length l) <= 256 ^ N.of_nat (ow p) /\ forall i r, nth_error l i = Some r -> rsize p i r < 2^31.
Lemma links_small p l i : fits p l -> Forall (fun x => x < 256 ^ N.of_nat (ow p)) (links p l i).
Proof.
  intros [F _]. apply Forall_forall. intros x H. unfold links in H. apply in_map_iff in H as (lv & <- & _). unfold link.
  destruct (Nat.ltb_spec (i + step p ^ S lv) (length l)) as [L|_].
  - assert (X := off_lt p l (i + step p ^ S lv) (length l) L (le_n _)). lia.
  - assert (256 ^ N.of_nat (ow p) <> 0) by (apply N.pow_nonzero; lia). lia.
Qed.
Lemma read_key_ok p f l i : sp_ok p -> stored p f l -> fits p l -> (i < length l)%nat -> exists r, read_key p f (off_of p l i) i = SOk r /\ good p l i r.
Proof.
  intros PO ST F L. destruct (nth_error l i) as [[k v]|] eqn:E; [|apply nth_error_None in E; lia].
  destruct (stored_split p f l i (k, v) ST E) as (a & c & -> & A). rewrite <- A.
  destruct (node_read p a (links p l i) k v c i PO) as (vo & V & R); [unfold links; rewrite map_length, seq_length; reflexivity|apply links_small; exact F|apply (proj2 F); exact E|].
  rewrite R. eexists. split; [reflexivity|]. exists k, v. cbn. rewrite A. auto 10.
Qed.
Lemma get_value_ok p f l i r k v : stored p f l -> good p l i r -> nth_error l i = Some (k, v) -> get_value p f r = SOk v.
Proof.
  intros ST (k' & v' & E & G1 & G2 & G3 & G4 & G5 & G6 & G7) E'. rewrite E' in E. assert (k' = k /\ v' = v) as [-> ->] by (split; congruence). unfold get_value.
  destruct G7 as [->| ->]; [|reflexivity]. rewrite G1, G3, G5, G6.
  destruct (stored_split p f l i (k, v) ST E') as (a & c & -> & A).
  assert (EF : a ++ nodeb p (links p l i, (k, v)) ++ c = (a ++ 255 :: concat (map (write_fix (ow p)) (links p l i)) ++ write_var (blen k) ++ write_var (blen v)) ++ (k ++ v) ++ c).
  { unfold nodeb. cbn [fst snd]. rewrite <- !app_assoc. cbn [app]. rewrite <- !app_assoc. reflexivity. }
  assert (EL : blen (a ++ 255 :: concat (map (write_fix (ow p)) (links p l i)) ++ write_var (blen k) ++ write_var (blen v)) = off_of p l i + head_size p (lev p i) (blen k) (blen v)).
  { rewrite blen_app, blen_cons, !blen_app, !write_var_length. unfold blen at 2. rewrite fix_concat. unfold links. rewrite map_length, seq_length, A. unfold head_size. lia. }
  rewrite EF, <- EL, read_body_ok. reflexivity.
Qed.
Lemma whole_ok p l i r k v : good p l i r -> nth_error l i = Some (k, v) -> whole p r = rsize p i (k, v).
Proof.
  intros (k' & v' & E & G1 & G2 & G3 & G4 & G5 & G6 & G7) E'. rewrite E' in E. assert (k' = k /\ v' = v) as [-> ->] by (split; congruence). unfold whole, rsize. rewrite G1, G5, G6. reflexivity.
Qed.
