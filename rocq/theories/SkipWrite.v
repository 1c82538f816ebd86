(** Writing records keeps a skip file an image of its records: UpdatePastRecords sets exactly the skip pointers that reach the new record. *)
From Coq Require Import List NArith ZArith Bool Lia Arith.
Import ListNotations.
From Verif Require Import Bytes BytesOrder CodecModel CodecProofs StatusModel FlatModel MqProofs FlatProofs SkipModel SkipLayout.
Open Scope N_scope.

Lemma set_nth_app {A} (a b : list A) x y : set_nth (length a) y (a ++ x :: b) = a ++ y :: b.
Proof. induction a as [|z a IH]; cbn [length app set_nth]; [reflexivity|]. rewrite IH. reflexivity. Qed.
Lemma set_nth_len {A} n x (l : list A) : length (set_nth n x l) = length l.
Proof. revert n; induction l as [|y l IH]; intros [|n]; cbn; auto. Qed.
Lemma set_nth_error {A} n x (l : list A) i : (n < length l)%nat -> nth_error (set_nth n x l) i = if Nat.eqb i n then Some x else nth_error l i.
Proof.
  revert n i; induction l as [|y l IH]; intros n i H; cbn [length] in H; [lia|].
  destruct n as [|n], i as [|i]; cbn [set_nth nth_error Nat.eqb]; auto. apply IH. lia.
Qed.
Lemma pwrite_mid a x b y : length x = length y -> pwrite (a ++ x ++ b) (blen a) y = a ++ y ++ b.
Proof.
  intros H. unfold pwrite. rewrite to_nat_blen, firstn_exact by reflexivity. f_equal. f_equal. rewrite app_assoc.
  apply skipn_exact. rewrite app_length. lia.
Qed.
Lemma nth_error_ext {A} (a b : list A) : (forall i, nth_error a i = nth_error b i) -> a = b.
Proof.
  revert b; induction a as [|x a IH]; intros [|y b] H; auto; try (specialize (H 0%nat); cbn in H; congruence).
  f_equal; [specialize (H 0%nat); cbn in H; congruence|]. apply IH. intros i. apply (H (S i)).
Qed.

Lemma nth_rep {A} (x d : A) m i : (i < m)%nat -> nth i (repeat x m) d = x.
Proof. revert i; induction m as [|m IH]; intros [|i] H; cbn; auto; try lia. apply IH. lia. Qed.
Lemma nth_skip {A} (d : A) m l i : nth i (skipn m l) d = nth (m + i) l d.
Proof. revert l; induction m as [|m IH]; intros [|y l]; cbn; auto. destruct i; reflexivity. Qed.

(** Setting one skip pointer. *)
Lemma patch p pre ns pi sk kv lv off : nth_error ns pi = Some (sk, kv) -> (lv < length sk)%nat ->
  pwrite (pre ++ CN p ns) (blen pre + blen (CN p (firstn pi ns)) + 1 + N.of_nat (lv * ow p)) (write_fix (ow p) off)
  = pre ++ CN p (set_nth pi (set_nth lv off sk, kv) ns).
Proof.
  intros H L. apply nth_error_split in H as (n1 & n2 & -> & E). subst pi. rewrite set_nth_app.
  destruct (nth_error sk lv) as [x|] eqn:Ex; [|apply nth_error_None in Ex; lia]. apply nth_error_split in Ex as (s1 & s2 & -> & E). subst lv. rewrite set_nth_app.
  rewrite firstn_exact by reflexivity. rewrite !CN_app.
  set (T := write_var (blen (fst kv)) ++ write_var (blen (snd kv)) ++ fst kv ++ snd kv).
  assert (EN : forall z, CN p ((s1 ++ z :: s2, kv) :: n2) = (255 :: concat (map (write_fix (ow p)) s1)) ++ write_fix (ow p) z ++ (concat (map (write_fix (ow p)) s2) ++ T ++ CN p n2)).
  { intros z. change (CN p ((s1 ++ z :: s2, kv) :: n2)) with (nodeb p (s1 ++ z :: s2, kv) ++ CN p n2). unfold nodeb, T. cbn [fst snd app]. f_equal.
    rewrite map_app, concat_app. cbn [map concat]. rewrite <- !app_assoc. reflexivity. }
  rewrite !EN. rewrite !app_assoc. rewrite <- !(app_assoc _ (write_fix _ _)).
  replace (blen pre + blen (CN p n1) + 1 + N.of_nat (length s1 * ow p)) with (blen ((pre ++ CN p n1) ++ 255 :: concat (map (write_fix (ow p)) s1))).
  - rewrite <- !app_assoc. rewrite !(app_assoc pre), !(app_assoc (pre ++ CN p n1)). rewrite <- !app_assoc. rewrite !(app_assoc pre), !(app_assoc (pre ++ CN p n1)).
    rewrite pwrite_mid by (rewrite !write_fix_length; reflexivity). reflexivity.
  - rewrite blen_app, blen_cons, blen_app. assert (X : blen (concat (map (write_fix (ow p)) s1)) = N.of_nat (length s1 * ow p)) by (unfold blen; rewrite fix_concat; f_equal; lia). lia.
Qed.

(** past_offsets_: at each level the last record that has it. *)
Definition past_ok (p : sp) (l : list krec) (past : list N) : Prop :=
  length past = maxl p /\ forall lv, (lv < maxl p)%nat ->
    nth lv past 0 = if Nat.eqb (length l) 0 then 0 else off_of p l ((length l - 1) / step p ^ S lv * step p ^ S lv).

Section Append.
Variable p : sp.
Hypothesis PO : sp_ok p.
Variable l : list krec.
Variable r : krec.
Let l' := l ++ [r].
Let n := length l.
(** The skip pointers after those to the new record have been set at the levels below [k]. *)
Let mlink (k j lv : nat) : N := if Nat.eqb (j + step p ^ S lv) n && negb (Nat.ltb lv k) then 0 else link p l' j lv.
Let nodes_at (k : nat) : list node := map (fun j => (map (mlink k j) (seq 0 (lev p j)), nth j l' ([], []))) (seq 0 (S n)).

Lemma nodes_at_nth k j : (j <= n)%nat -> nth_error (nodes_at k) j = Some (map (mlink k j) (seq 0 (lev p j)), nth j l' ([], [])).
Proof.
  intros H. unfold nodes_at. rewrite nth_error_map, (nth_error_nth' (seq 0 (S n)) 0%nat) by (rewrite seq_length; lia). cbn [option_map]. rewrite seq_nth by lia. reflexivity.
Qed.
Lemma nodes_at_len k : length (nodes_at k) = S n.
Proof. unfold nodes_at. rewrite map_length, seq_length. reflexivity. Qed.
Lemma lev_reach j lv : (lv < lev p j)%nat -> (j + step p ^ S lv = n)%nat -> (lv < lev p n)%nat.
Proof.
  destruct PO as (_ & U & _). unfold lev. rewrite !level_spec by exact U. intros [A B] C. split; [exact A|]. rewrite <- C.
  assert (X : (step p ^ S lv <> 0)%nat) by (apply Nat.pow_nonzero; lia). rewrite <- (Nat.mul_1_l (step p ^ S lv)) at 1. rewrite Nat.mod_add by exact X. exact B.
Qed.
Lemma link_old j lv : (j + step p ^ S lv < n)%nat -> link p l' j lv = link p l j lv.
Proof.
  intros H. unfold link. assert (L' : length l' = S n) by (unfold l'; rewrite app_length; cbn; lia). rewrite L'. fold n.
  destruct (Nat.ltb_spec (j + step p ^ S lv) (S n)); [|lia]. destruct (Nat.ltb_spec (j + step p ^ S lv) n); [|lia]. apply off_app. fold n. lia.
Qed.
Lemma link_out j lv : (n < j + step p ^ S lv)%nat -> link p l' j lv = 0.
Proof. intros H. unfold link. assert (L' : length l' = S n) by (unfold l'; rewrite app_length; cbn; lia). rewrite L'. destruct (Nat.ltb_spec (j + step p ^ S lv) (S n)); [lia|reflexivity]. Qed.
Lemma link_out' j lv : (n <= j + step p ^ S lv)%nat -> link p l j lv = 0.
Proof. intros H. unfold link. fold n. destruct (Nat.ltb_spec (j + step p ^ S lv) n); [lia|reflexivity]. Qed.
Lemma nodes_at_0 : nodes_at 0 = nodes p l ++ [(repeat 0 (lev p n), r)].
Proof.
  apply nth_error_ext. intros j. destruct (Nat.lt_trichotomy j n) as [L|[->|L]].
  - rewrite nodes_at_nth by lia. rewrite nth_error_app1 by (rewrite nodes_len; exact L).
    destruct (nth_error l j) as [x|] eqn:E; [|apply nth_error_None in E; fold n in E; lia]. rewrite (nodes_nth p l j x E).
    f_equal. f_equal.
    + unfold links. apply map_ext. intros lv. unfold mlink. cbn [Nat.ltb Nat.leb negb]. rewrite andb_true_r.
      destruct (Nat.eqb_spec (j + step p ^ S lv) n) as [Q|Q]; [symmetry; apply link_out'; lia|].
      destruct (Nat.lt_ge_cases (j + step p ^ S lv) n); [apply link_old; assumption|]. rewrite link_out, link_out' by lia. reflexivity.
    + unfold l'. rewrite app_nth1 by exact L. apply nth_error_nth. exact E.
  - rewrite nodes_at_nth by lia. rewrite nth_error_app2, nodes_len by (rewrite nodes_len; fold n; lia). fold n. rewrite Nat.sub_diag. cbn [nth_error]. f_equal. f_equal.
    + generalize 0%nat at 2. induction (lev p n) as [|m IH]; intros s; [reflexivity|]. cbn [seq map repeat]. f_equal; [|apply IH].
      unfold mlink. assert (X : (step p ^ S s <> 0)%nat) by (apply Nat.pow_nonzero; destruct PO; lia). destruct (_ && _); [reflexivity|]. apply link_out. lia.
    + unfold l'. rewrite app_nth2 by (fold n; lia). fold n. rewrite Nat.sub_diag. reflexivity.
  - assert (A : nth_error (nodes_at 0) j = None) by (apply nth_error_None; rewrite nodes_at_len; lia). rewrite A.
    symmetry. apply nth_error_None. rewrite app_length, nodes_len. fold n. cbn. lia.
Qed.
Lemma nodes_at_end : nodes_at (lev p n) = nodes p l'.
Proof.
  assert (L' : length l' = S n) by (unfold l'; rewrite app_length; cbn; lia). unfold nodes. rewrite L'. unfold nodes_at. apply map_ext_in. intros j _. f_equal.
  unfold links. apply map_ext_in. intros lv H. apply in_seq in H. unfold mlink. destruct (Nat.eqb_spec (j + step p ^ S lv) n) as [Q|Q]; [|reflexivity].
  assert (X := lev_reach j lv ltac:(lia) Q). destruct (Nat.ltb_spec lv (lev p n)); [reflexivity|lia].
Qed.
Lemma nodes_at_shaped k : shaped p (nodes_at k).
Proof.
  intros j x H. assert (L : (j < S n)%nat) by (rewrite <- (nodes_at_len k); apply nth_error_Some; intros X; pose proof (eq_trans (eq_sym H) X) as Y; discriminate Y).
  pose proof (eq_trans (eq_sym H) (nodes_at_nth k j ltac:(lia))) as Y. inversion Y. cbn. rewrite map_length, seq_length. reflexivity.
Qed.
Lemma nodes_at_snd k : map snd (nodes_at k) = l'.
Proof.
  unfold nodes_at. rewrite map_map. cbn [snd]. assert (L' : length l' = S n) by (unfold l'; rewrite app_length; cbn; lia). rewrite <- L'.
  apply nth_error_ext. intros i. destruct (Nat.lt_ge_cases i (length l')) as [L|L].
  - rewrite nth_error_map, (nth_error_nth' (seq 0 (length l')) 0%nat) by (rewrite seq_length; exact L). cbn [option_map]. rewrite seq_nth by exact L. cbn. symmetry. apply nth_error_nth'. exact L.
  - rewrite (proj2 (nth_error_None l' i) L). apply nth_error_None. rewrite map_length, seq_length. exact L.
Qed.
Lemma nodes_at_step k : (k < lev p n)%nat -> (0 < n)%nat -> let pi := (n - step p ^ S k)%nat in
  (k < lev p pi)%nat /\ (pi < n)%nat /\ ((n - 1) / step p ^ S k * step p ^ S k = pi)%nat /\
  set_nth pi (set_nth k (off_of p l n) (map (mlink k pi) (seq 0 (lev p pi))), nth pi l' ([], [])) (nodes_at k) = nodes_at (S k).
Proof.
  intros K P pi. destruct PO as (_ & U & _). assert (K' := K). unfold lev in K'. rewrite level_spec in K' by exact U. destruct K' as [Km KM].
  set (U' := (step p ^ S k)%nat) in *. assert (X : (U' <> 0)%nat) by (apply Nat.pow_nonzero; lia).
  assert (DV := Nat.div_mod n U' X). rewrite KM, Nat.add_0_r in DV. set (q := (n / U')%nat) in *. assert (Q : (0 < q)%nat) by nia.
  assert (PI : (pi = U' * (q - 1))%nat) by (unfold pi; nia).
  assert (LP : (k < lev p pi)%nat). { unfold lev. rewrite level_spec by exact U. split; [exact Km|]. fold U'. rewrite PI, Nat.mul_comm. apply Nat.mod_mul. exact X. }
  assert (PN : (pi < n)%nat) by (unfold pi; lia).
  assert (PU : (pi + U' = n)%nat) by nia.
  split; [exact LP|]. split; [exact PN|]. split.
  - replace (n - 1)%nat with ((U' - 1) + (q - 1) * U')%nat by nia. rewrite Nat.div_add, (Nat.div_small (U' - 1) U') by lia. rewrite PI. lia.
  - apply nth_error_ext. intros j. rewrite set_nth_error by (rewrite nodes_at_len; lia).
    destruct (Nat.le_gt_cases j n) as [L|L].
    + rewrite !nodes_at_nth by lia. destruct (Nat.eqb_spec j pi) as [->|NE].
      * f_equal. f_equal. apply nth_error_ext. intros lv. rewrite set_nth_error by (rewrite map_length, seq_length; exact LP). rewrite !nth_error_map.
        destruct (Nat.lt_ge_cases lv (lev p pi)) as [Lv|Lv].
        -- rewrite (nth_error_nth' (seq 0 (lev p pi)) 0%nat) by (rewrite seq_length; exact Lv). cbn [option_map]. rewrite seq_nth by exact Lv. rewrite Nat.add_0_l.
           destruct (Nat.eqb_spec lv k) as [->|NK].
           ++ f_equal. unfold mlink. destruct (Nat.ltb_spec k (S k)); [|lia]. cbn [negb]. rewrite andb_false_r. unfold link.
              assert (L' : length l' = S n) by (unfold l'; rewrite app_length; cbn; lia). rewrite L'. fold U'. rewrite PU.
              destruct (Nat.ltb_spec n (S n)); [|lia]. unfold l'. rewrite off_app by (fold n; lia). reflexivity.
           ++ f_equal. unfold mlink. destruct (Nat.ltb_spec lv k), (Nat.ltb_spec lv (S k)); try lia; reflexivity.
        -- rewrite (proj2 (nth_error_None (seq 0 (lev p pi)) lv)) by (rewrite seq_length; exact Lv). cbn [option_map]. destruct (Nat.eqb_spec lv k); [lia|reflexivity].
      * f_equal. f_equal. apply map_ext. intros lv. unfold mlink. destruct (Nat.eq_dec lv k) as [->|NK].
        -- destruct (Nat.eqb_spec (j + step p ^ S k) n) as [Q'|Q']; [|reflexivity]. exfalso. apply NE. unfold pi, U'. lia.
        -- destruct (Nat.ltb_spec lv k), (Nat.ltb_spec lv (S k)); try lia; reflexivity.
    + destruct (Nat.eqb_spec j pi); [lia|]. assert (A : forall k', nth_error (nodes_at k') j = None) by (intros k'; apply nth_error_None; rewrite nodes_at_len; lia). rewrite !A. reflexivity.
Qed.
Lemma update_links_ok pre past m k : blen pre = 128 -> past_ok p l past -> (k + m = lev p n)%nat ->
  update_links p n (off_of p l n) past m k (pre ++ CN p (nodes_at k)) = pre ++ CN p (nodes_at (lev p n)).
Proof.
  intros PR [PL PA]. revert k. induction m as [|m IH]; intros k E.
  - cbn [update_links]. replace k with (lev p n) by lia. reflexivity.
  - cbn [update_links]. assert (LE := level_le (step p) (maxl p) n). fold (lev p n) in LE. assert (PK := PA k ltac:(lia)).
    destruct (Nat.eq_dec n 0) as [Z|NZ].
    + fold n in PK. rewrite Z in PK. cbn [Nat.eqb] in PK. rewrite PK. change (0 =? 0) with true. cbv iota. rewrite <- (IH (S k)) by lia. f_equal. f_equal. f_equal. unfold nodes_at. apply map_ext. intros j. f_equal. apply map_ext. intros lv.
      unfold mlink. rewrite Z. assert (X : (step p ^ S lv <> 0)%nat) by (apply Nat.pow_nonzero; destruct PO; lia). destruct (Nat.eqb_spec (j + step p ^ S lv) 0); [lia|reflexivity].
    + destruct (nodes_at_step k ltac:(lia) ltac:(lia)) as (A & B & C & D). set (pi := (n - step p ^ S k)%nat) in *.
      assert (PK' : nth k past 0 = off_of p l pi). { rewrite PK. fold n. destruct (Nat.eqb_spec n 0) as [X|_]; [lia|]. rewrite C. reflexivity. }
      rewrite PK'. assert (OB := off_base p l pi). destruct (N.eqb_spec (off_of p l pi) 0) as [X|_]; [lia|].
      destruct (Nat.ltb_spec (lev p pi) k) as [X|_]; [lia|].
      rewrite <- (IH (S k)) by lia. f_equal.
      assert (NP := nodes_at_nth k pi ltac:(lia)).
      assert (OF := CN_off p (nodes_at k) pi (nodes_at_shaped k)). rewrite nodes_at_snd in OF. unfold l' in OF. rewrite off_app in OF by (fold n; lia).
      rewrite <- OF, <- PR. rewrite (N.add_comm (blen (CN p (firstn pi (nodes_at k))))).
      rewrite (patch p pre (nodes_at k) pi _ _ k (off_of p l n) NP) by (rewrite map_length, seq_length; exact A). rewrite D. reflexivity.
Qed.
Lemma write_ok f past num eff : stored p f l -> past_ok p l past -> rsize p n r < 2^31 ->
  exists f', write_record p (fst r) (snd r) (mkW f n past num eff) = SOk (mkW f' (S n) (update_past (lev p n) (off_of p l n) past) (S num) (eff + blen (fst r) + blen (snd r)))
    /\ stored p f' l' /\ past_ok p l' (update_past (lev p n) (off_of p l n) past).
Proof.
  intros ST PA RS. unfold write_record. cbn [w_file w_idx w_past w_num w_eff]. cbv zeta. unfold rsize in RS. fold n.
  destruct (N.leb_spec (2^31) (head_size p (lev p n) (blen (fst r)) (blen (snd r)) + blen (fst r) + blen (snd r))) as [X|_]; [lia|].
  rewrite (stored_len p f l ST). fold n. eexists. split; [reflexivity|]. split.
  - destruct ST as (pre & PR & ->). exists pre. split; [exact PR|]. change (image p l') with (CN p (nodes p l')). rewrite <- nodes_at_end.
    rewrite <- (update_links_ok pre past (lev p n) 0 PR PA) by lia. f_equal. rewrite nodes_at_0, CN_app. rewrite <- app_assoc. f_equal. change (image p l) with (CN p (nodes p l)). f_equal.
    unfold CN. cbn [map concat]. rewrite app_nil_r. unfold rec_bytes, nodeb. cbn [fst snd]. f_equal. f_equal.
    clear. induction (lev p n) as [|m IH]; [rewrite Nat.mul_0_r; reflexivity|]. cbn [repeat map concat]. rewrite <- IH.
    replace (ow p * S m)%nat with (ow p + ow p * m)%nat by lia. rewrite repeat_app. f_equal. clear. generalize (ow p). intros w.
    assert (Z : forall w0, write_fix w0 0 = repeat 0 w0). { induction w0 as [|w0 IH]; [reflexivity|]. cbn [write_fix]. change (N.shiftr 0 8) with 0. change (N.land 0 255) with 0. rewrite IH, <- repeat_cons. reflexivity. }
    symmetry. apply Z.
  - destruct PA as [PL PA]. assert (LE := level_le (step p) (maxl p) n). fold (lev p n) in LE. split.
    + unfold update_past. rewrite app_length, repeat_length, skipn_length. lia.
    + intros lv Lv. assert (L' : length l' = S n) by (unfold l'; rewrite app_length; cbn; lia). rewrite L'. replace (S n - 1)%nat with n by lia.
      cbn [Nat.eqb]. unfold update_past. destruct PO as (_ & U & _).
      assert (XP : (step p ^ S lv <> 0)%nat) by (apply Nat.pow_nonzero; lia).
      destruct (Nat.lt_ge_cases lv (lev p n)) as [A|A].
      * rewrite app_nth1 by (rewrite repeat_length; exact A). rewrite nth_rep by exact A.
        unfold lev in A. rewrite level_spec in A by exact U. destruct A as [_ A]. assert (DV := Nat.div_mod n (step p ^ S lv) XP). rewrite A, Nat.add_0_r in DV.
        replace (n / step p ^ S lv * step p ^ S lv)%nat with n by lia. unfold l'. rewrite off_app by (fold n; lia). reflexivity.
      * rewrite app_nth2 by (rewrite repeat_length; exact A). rewrite repeat_length, nth_skip. replace (lev p n + (lv - lev p n))%nat with lv by lia. rewrite PA by exact Lv.
        assert (NM : (n mod step p ^ S lv <> 0)%nat). { intros Q. assert (lv < lev p n)%nat; [|lia]. unfold lev. rewrite level_spec by exact U. split; assumption. }
        assert (NZ : (n <> 0)%nat) by (intros Q; apply NM; rewrite Q; apply Nat.mod_0_l; exact XP).
        assert (DV := Nat.div_mod n (step p ^ S lv) XP).
        assert (ED : ((n - 1) / step p ^ S lv = n / step p ^ S lv)%nat).
        { symmetry. apply Nat.div_unique with (r := (n mod step p ^ S lv - 1)%nat); [|lia]. assert (B := Nat.mod_upper_bound n (step p ^ S lv) XP). lia. }
        fold n. destruct (Nat.eqb_spec n 0) as [X|_]; [lia|]. rewrite ED.
        unfold l'. rewrite off_app; [reflexivity|]. fold n. rewrite DV at 2. lia.
Qed.
End Append.
