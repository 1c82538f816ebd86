(** The loop over the records of a file of which only the first bytes are left. *)
From Coq Require Import List NArith ZArith Bool Lia Arith.
Import ListNotations.
From Verif Require Import Bytes BytesOrder CodecModel CodecProofs StatusModel FlatModel DbmModel MqProofs FlatProofs SkipModel SkipLayout SkipWrite SkipSearch SkipIter SkipMerge SkipSync SkipDb SkipProps SkipMetaModel SkipMetaSpec.
Open Scope N_scope.

Lemma get_var_cut x j rest : x < two64 -> get_var (firstn j (write_var x ++ rest)) = if Nat.ltb j (length (write_var x)) then None else Some (x, firstn (j - length (write_var x)) rest).
Proof.
  intros H. destruct (Nat.ltb_spec j (length (write_var x))) as [L|L].
  - rewrite firstn_app. replace (j - length (write_var x))%nat with 0%nat by lia. cbn [firstn]. rewrite app_nil_r. unfold get_var.
    rewrite (read_var_truncated x (firstn j (write_var x)) (skipn j (write_var x))); [reflexivity|exact H|symmetry; apply firstn_skipn|]. intros E. apply (f_equal (@length N)) in E. rewrite skipn_length in E. cbn in E. lia.
  - rewrite firstn_app_ge by exact L. apply get_write_var. exact H.
Qed.
(** A record of which the end is missing is not read as a record. *)
Lemma torn_read p a sk k v idx m : sp_ok p -> length sk = lev p idx -> rsize p idx (k, v) < 2^31 -> (m < length (nodeb p (sk, (k, v))))%nat -> m <> O ->
  exists c, skip_next p (a ++ firstn m (nodeb p (sk, (k, v)))) (blen a) idx = SErr c.
Proof.
  intros PO LS RS M M0. assert (NL := nodeb_rsize p idx (sk, (k, v)) LS). cbn [snd] in NL. set (nb := nodeb p (sk, (k, v))) in *.
  assert (LM := lev_small p idx PO). assert (FL : length (firstn m nb) = m) by (rewrite firstn_length; lia).
  unfold skip_next. rewrite blen_app. unfold blen at 3. rewrite FL. destruct (N.ltb_spec (blen a) (blen a + N.of_nat m)) as [_|X]; [|lia].
  assert (FB : blen (firstn m nb) = N.of_nat m) by (unfold blen; rewrite FL; reflexivity).
  assert (G : match read_key p (a ++ firstn m nb) (blen a) idx with SErr _ => True | SOk r => r_val r = None /\ r_off r = blen a /\ r_lev r = lev p idx /\ blen (r_key r) = blen k /\ r_vsize r = blen v | _ => False end).
  { unfold read_key. cbv zeta. set (lv := lev p idx) in *. unfold rsize, head_size in RS, NL. cbn [fst snd] in RS, NL. fold lv in RS, NL.
    assert (Pk := size_var_pos (blen k)). assert (Pv := size_var_pos (blen v)).
    assert (Kb : blen k < 2^31) by lia. assert (Vb : blen v < 2^31) by lia. assert (Sk := size_var_5 _ Kb). assert (Sv := size_var_5 _ Vb).
    rewrite blen_app, FB. replace (blen a + N.of_nat m - blen a) with (N.of_nat m) by lia.
    assert (MB : N.of_nat m < blen nb) by (unfold blen; lia). assert (T40 : 2^31 < 2^40) by reflexivity. replace (N.min (N.of_nat m) (2^40)) with (N.of_nat m) by lia.
    destruct (N.ltb_spec (N.of_nat m) (1 + N.of_nat (ow p * lv) + 2)) as [X|L2]; [exact I|]. set (n := N.min _ _).
    destruct (N.ltb_spec 256 n) as [X|_]; [lia|].
    rewrite (f_read_prefix a (firstn m nb)) by (try reflexivity; unfold blen, n; rewrite FL; lia). rewrite firstn_firstn.
    replace (Nat.min (N.to_nat n) m) with (N.to_nat n) by lia.
    assert (LF : length (concat (map (write_fix (ow p)) sk)) = (ow p * lv)%nat) by (rewrite fix_concat, LS; reflexivity).
    assert (LVk := var_len (blen k)). assert (LVv := var_len (blen v)).
    set (j := (N.to_nat n - 1 - ow p * lv)%nat).
    assert (EB : firstn (N.to_nat n) nb = 255 :: concat (map (write_fix (ow p)) sk) ++ firstn j (write_var (blen k) ++ write_var (blen v) ++ k ++ v)).
    { unfold nb, nodeb. cbn [fst snd]. replace (N.to_nat n) with (S (N.to_nat (n - 1))) by lia. cbn [firstn]. f_equal. rewrite firstn_app_ge by (rewrite LF; lia). f_equal. f_equal. rewrite LF. unfold j. lia. }
    rewrite EB. change (negb (255 =? 255)) with false. cbv iota. rewrite <- LF. rewrite skipn_exact by reflexivity.
    rewrite get_var_cut by (unfold two64; lia). destruct (Nat.ltb_spec j (length (write_var (blen k)))) as [X|J1]; [exact I|]. rewrite !i32_small by exact Kb.
    destruct (Z.ltb_spec (Z.of_N (N.of_nat m)) (Z.of_N (blen k))) as [X|_]; [exact I|].
    rewrite get_var_cut by (unfold two64; lia). destruct (Nat.ltb_spec (j - length (write_var (blen k))) (length (write_var (blen v)))) as [X|J2]; [exact I|]. rewrite !i32_small by exact Vb.
    destruct (Z.ltb_spec (Z.of_N (N.of_nat m)) (Z.of_N (blen v))) as [X|_]; [exact I|].
    destruct (Z.ltb_spec (Z.of_N (blen k)) 0) as [X|_]; [lia|]. destruct (Z.ltb_spec (Z.of_N (blen v)) 0) as [X|_]; [lia|]. cbn [orb]. rewrite !N2Z.id.
    unfold head_size. destruct (N.leb_spec (2^31) (1 + N.of_nat (ow p * lv) + size_var (blen k) + size_var (blen v) + blen k + blen v)) as [X|_]; [lia|].
    set (q := (j - length (write_var (blen k)) - length (write_var (blen v)))%nat).
    assert (QB : N.of_nat q < blen k + blen v). { unfold q, j. rewrite LVk, LVv. lia. }
    assert (LQ : length (firstn q (k ++ v)) = q). { rewrite firstn_length, app_length. unfold blen in QB. lia. }
    assert (BQ : blen (firstn q (k ++ v)) = N.of_nat q) by (unfold blen; rewrite LQ; reflexivity). rewrite BQ, to_nat_blen. destruct (N.leb_spec (blen k) (N.of_nat q)) as [Lk|Lk].
    - cbn [r_val r_off r_lev r_key r_vsize].
      destruct (N.leb_spec (blen v) (blen (skipn (length k) (firstn q (k ++ v))))) as [X|_].
      + exfalso. unfold blen in X. rewrite skipn_length, LQ in X. unfold blen in *. lia.
      + repeat split. unfold blen. rewrite firstn_length, LQ. unfold blen in Lk. lia.
    - destruct (N.ltb_spec (blen a + N.of_nat m) (blen a + (1 + N.of_nat (ow p * lv) + size_var (blen k) + size_var (blen v) + blen k + blen v))) as [_|X]; [exact I|lia]. }
  destruct (read_key _ _ _ _) as [r|c| |]; [|exists c; reflexivity|contradiction|contradiction]. destruct G as (R1 & R2 & R3 & R4 & R5). cbn [sbind]. unfold get_value. rewrite R1, R2, R3, R4, R5. unfold read_body, f_read.
  match goal with |- context [?x <? ?y] => destruct (N.ltb_spec x y) as [_|X] end; [eexists; reflexivity|]. exfalso. rewrite blen_app, FB in X.
  unfold rsize in NL. cbn [fst snd] in NL. assert (MB : N.of_nat m < blen nb) by (unfold blen; lia). lia.
Qed.
Lemma whole_read p a sk k v c idx : sp_ok p -> length sk = lev p idx -> Forall (fun x => x < 256 ^ N.of_nat (ow p)) sk -> rsize p idx (k, v) < 2^31 -> let f := a ++ nodeb p (sk, (k, v)) ++ c in
  skip_next p f (blen a) idx = SOk (Some (k, v), SSkip p f (blen a + rsize p idx (k, v)) (S idx)).
Proof.
  intros PO LS SK RS f. assert (NL := nodeb_rsize p idx (sk, (k, v)) LS). cbn [snd] in NL. assert (RP := rsize_pos p idx (k, v)). unfold skip_next.
  destruct (N.ltb_spec (blen a) (blen f)) as [_|X]; [|unfold f in X; rewrite !blen_app, NL in X; lia]. destruct (node_read p a sk k v c idx PO LS SK RS) as (vo & V & R). fold f in R. rewrite R. cbn [sbind].
  assert (GV : get_value p f (mkR (lev p idx) idx (blen a) sk k (blen v) vo) = SOk v).
  { unfold get_value. cbn [r_val r_off r_lev r_key r_vsize]. destruct V as [->| ->]; [|reflexivity].
    assert (EF : f = (a ++ 255 :: concat (map (write_fix (ow p)) sk) ++ write_var (blen k) ++ write_var (blen v)) ++ (k ++ v) ++ c).
    { unfold f, nodeb. cbn [fst snd]. rewrite <- !app_assoc. cbn [app]. rewrite <- !app_assoc. reflexivity. }
    assert (EL : blen (a ++ 255 :: concat (map (write_fix (ow p)) sk) ++ write_var (blen k) ++ write_var (blen v)) = blen a + head_size p (lev p idx) (blen k) (blen v)).
    { rewrite blen_app, blen_cons, !blen_app, !write_var_length. unfold blen at 2. rewrite fix_concat, LS. unfold head_size. lia. }
    rewrite EF, <- EL, read_body_ok. reflexivity. }
  rewrite GV. cbn [sbind r_key]. reflexivity.
Qed.
Lemma firstn_split_lt {A} n (a b c : list A) : (length a <= n)%nat -> (n < length a + length b)%nat -> firstn n (a ++ b ++ c) = a ++ firstn (n - length a) b.
Proof. intros H1 H2. rewrite firstn_app_ge by exact H1. f_equal. rewrite firstn_app. replace (n - length a - length b)%nat with 0%nat by lia. cbn [firstn]. apply app_nil_r. Qed.
(** The records from the one at [i] on that are whole in the first [n] bytes. *)
Definition first_whole (p : sp) (l : list krec) (n i : nat) : nat := length (filter (fun j => off_of p l j <=? N.of_nat n) (seq (S i) (length l - i))).
Lemma filter_none {A} (h : A -> bool) l : (forall x, In x l -> h x = false) -> filter h l = [].
Proof. induction l as [|x l IH]; intros H; [reflexivity|]. cbn. rewrite (H x (or_introl eq_refl)). apply IH. intros y Y. apply H. right. exact Y. Qed.
Lemma filter_le {A} (h : A -> bool) l : (length (filter h l) <= length l)%nat.
Proof. induction l as [|x l IH]; [cbn; lia|]. cbn. destruct (h x); cbn; lia. Qed.
Lemma scan_torn p f l n : sp_ok p -> stored p f l -> fits p l -> forall fu i, (i <= length l)%nat -> off_of p l i <= N.of_nat n -> (first_whole p l n i < fu)%nat ->
  exists e, scan fu p (firstn n f) (off_of p l i) i = SOk (firstn (first_whole p l n i) (skipn i l), e) /\ (off_of p l (length l) <= N.of_nat n -> e = None).
Proof.
  intros PO ST FT. assert (SL := stored_len _ _ _ ST). induction fu as [|fu IH]; intros i LI OI FU; [lia|]. cbn [scan].
  destruct (nth_error l i) as [[k v]|] eqn:E.
  - assert (IL : (i < length l)%nat) by (apply nth_error_Some; rewrite E; discriminate). assert (OS := off_S p l i (k, v) E).
    destruct (stored_split p f l i (k, v) ST E) as (a & c & EF & A). assert (LK : length (links p l i) = lev p i) by (unfold links; rewrite map_length, seq_length; reflexivity).
    assert (NL := nodeb_rsize p i (links p l i, (k, v)) LK). cbn [snd] in NL. set (nb := nodeb p (links p l i, (k, v))) in *. assert (RS := proj2 FT i (k, v) E).
    assert (LA : length a = N.to_nat (off_of p l i)) by (rewrite <- A; unfold blen; lia). assert (LB : length nb = N.to_nat (rsize p i (k, v))) by (rewrite <- NL; unfold blen; lia).
    destruct (N.leb_spec (off_of p l (S i)) (N.of_nat n)) as [W|W].
    + assert (FN : firstn n f = a ++ nb ++ firstn (n - length a - length nb) c).
      { rewrite EF. rewrite firstn_app_ge by lia. f_equal. apply firstn_app_ge. lia. }
      assert (WR := whole_read p a (links p l i) k v (firstn (n - length a - length nb) c) i PO LK (links_small p l i FT) RS). cbv zeta in WR. fold nb in WR. rewrite <- FN, A in WR. rewrite WR. rewrite <- OS.
      assert (FW : first_whole p l n i = S (first_whole p l n (S i))).
      { unfold first_whole. replace (length l - i)%nat with (S (length l - S i)) by lia. cbn [seq filter]. destruct (N.leb_spec (off_of p l (S i)) (N.of_nat n)) as [_|X]; [reflexivity|lia]. }
      destruct (IH (S i)) as (e & EQ & EN); [lia|exact W|lia|]. rewrite EQ. cbn [sbind]. exists e. split; [|exact EN]. f_equal. f_equal.
      rewrite (skipn_cons l i (k, v) E), FW. reflexivity.
    + assert (FN : firstn n f = a ++ firstn (n - length a) nb) by (rewrite EF; apply firstn_split_lt; lia).
      assert (FW : first_whole p l n i = O).
      { unfold first_whole. rewrite filter_none; [reflexivity|]. intros j J. apply in_seq in J. apply N.leb_gt. assert (X := off_le p l (S i) j ltac:(lia) ltac:(lia)). lia. }
      rewrite FW. cbn [firstn]. rewrite FN, <- A. destruct (Nat.eq_dec (n - length a) 0) as [Z|NZ].
      * rewrite Z. cbn [firstn]. rewrite app_nil_r. unfold skip_next. destruct (N.ltb_spec (blen a) (blen a)) as [X|_]; [lia|]. exists None. split; [reflexivity|auto].
      * destruct (torn_read p a (links p l i) k v i (n - length a) PO LK RS) as (e & R); [fold nb; lia|exact NZ|]. fold nb in R. rewrite R. exists (Some e). split; [reflexivity|].
        intros X. assert (Y := off_le p l (S i) (length l) ltac:(lia) ltac:(lia)). lia.
  - apply nth_error_None in E. assert (i = length l) by lia. subst i. rewrite firstn_all2 by (unfold blen in SL; lia). unfold skip_next. rewrite SL. destruct (N.ltb_spec (off_of p l (length l)) (off_of p l (length l))) as [X|_]; [lia|].
    exists None. rewrite skipn_all, firstn_nil. split; [reflexivity|auto].
Qed.
Lemma scan_whole p f l n : sp_ok p -> stored p f l -> fits p l -> (128 <= n)%nat ->
  exists e, scan (S (length (firstn n f))) p (firstn n f) 128 0 = SOk (whole_part p n l, e) /\ (off_of p l (length l) <= N.of_nat n -> e = None).
Proof.
  intros PO ST FT N128. assert (SL := stored_len _ _ _ ST). destruct (scan_torn p f l n PO ST FT (S (length (firstn n f))) 0) as (e & E & EN); [lia|rewrite off_0; lia| |].
  - apply Nat.lt_succ_r. assert (B : forall j, (j <= length l)%nat -> 128 + N.of_nat j <= off_of p l j).
    { induction j as [|j IH]; intros J; [rewrite off_0; lia|]. assert (Y := off_lt p l j (S j) ltac:(lia) J). assert (Z := IH ltac:(lia)). lia. }
    unfold first_whole. rewrite Nat.sub_0_r. rewrite firstn_length. apply Nat.min_glb.
    + assert (X : forall m, (m <= length l)%nat -> (length (filter (fun j => N.leb (off_of p l j) (N.of_nat n)) (seq 1 m)) <= n)%nat); [|apply X; lia].
      induction m as [|m IH]; intros M; [cbn; lia|]. replace (S m) with (m + 1)%nat by lia. rewrite seq_app, filter_app, app_length. cbn [seq filter Nat.add].
      destruct (N.leb_spec (off_of p l (S m)) (N.of_nat n)) as [Y|_]; [|cbn; rewrite Nat.add_0_r; apply IH; lia]. assert (Z := B (S m) M). assert (Q := filter_le (fun j => off_of p l j <=? N.of_nat n) (seq 1 m)). rewrite seq_length in Q. cbn [length]. lia.
    + assert (Q := filter_le (fun j => off_of p l j <=? N.of_nat n) (seq 1 (length l))). rewrite seq_length in Q. assert (Z := B (length l) (le_n _)). unfold blen in SL. lia.
  - rewrite off_0 in E. unfold first_whole in E. rewrite Nat.sub_0_r in E. cbn [skipn] in E. exists e. split; [exact E|exact EN].
Qed.
