(** C16: the pages and the metadata of TreeDBM are read back as written; C15: evictions of pages are invisible. *)
From Coq Require Import List NArith ZArith Bool Lia Arith.
Import ListNotations.
From Verif Require Import Bytes CodecModel CodecProofs StatusModel TreePageModel.
Open Scope N_scope.

(** * Pages *)
Lemma i32_le n : (i32 n <= Z.of_N n)%Z.
Proof. unfold i32. pose proof (N.mod_le n (2^32) ltac:(lia)). pose proof (N.mod_lt n (2^32) ltac:(lia)). destruct (n mod 2^32 <? 2^31) eqn:E; lia. Qed.
Lemma take_app k r : take (blen k) (k ++ r) = POk (k, r).
Proof.
  unfold take. pose proof (i32_le (blen k)). unfold blen in *. rewrite app_length.
  destruct (Z.ltb_spec (Z.of_N (N.of_nat (length k + length r))) (i32 (N.of_nat (length k)))); [lia|].
  destruct (N.ltb_spec (N.of_nat (length k + length r)) (N.of_nat (length k))); [lia|]. rewrite Nat2N.id, firstn_app, skipn_app, Nat.sub_diag, firstn_all, skipn_all, app_nil_r. reflexivity.
Qed.
Lemma take_var_app n r : n < two64 -> take_var (write_var n ++ r) = POk (n, r).
Proof. intros H. unfold take_var. now rewrite get_write_var. Qed.
Lemma write_var_cons n : exists b r, write_var n = b :: r.
Proof. pose proof (write_var_length n). pose proof (size_var_pos n). destruct (write_var n) as [|b r]; [unfold blen in *; cbn in *; lia|eauto]. Qed.
Lemma blen_app a b : blen (a ++ b) = blen a + blen b.
Proof. unfold blen. rewrite app_length. lia. Qed.
Lemma blen_fix w n : blen (write_fix w n) = N.of_nat w.
Proof. unfold blen. now rewrite write_fix_length. Qed.
Lemma ser_rec_len r : blen (ser_rec r) = tr_size r.
Proof. unfold ser_rec, tr_size. rewrite !blen_app, !write_var_length. lia. Qed.
Lemma ser_recs_len rs : blen (concat (map ser_rec rs)) + 12 = leaf_size rs.
Proof. induction rs as [|r rs IH]; [reflexivity|]. cbn [map concat leaf_size fold_right]. rewrite blen_app, ser_rec_len. unfold leaf_size in IH. lia. Qed.
Lemma ser_leaf_len p n rs : blen (ser_leaf p n rs) = leaf_size rs.
Proof. unfold ser_leaf. rewrite !blen_app, !blen_fix. pose proof (ser_recs_len rs). lia. Qed.
Lemma leaf_size_cons r rs : leaf_size (r :: rs) = tr_size r + leaf_size rs. Proof. reflexivity. Qed.
Lemma des_recs_ok : forall rs f, (length rs <= f)%nat -> leaf_size rs < 2^31 -> des_recs f (concat (map ser_rec rs)) = POk rs.
Proof.
  induction rs as [|[k v] rs IH]; intros f Hf Hs; [destruct f; reflexivity|]. destruct f as [|f]; [cbn in Hf; lia|].
  assert (Hk : blen k < two64 /\ blen v < two64 /\ leaf_size rs < 2^31).
  { rewrite leaf_size_cons in Hs. unfold tr_size, two64 in *. cbn [fst snd] in Hs. change (2^31) with 2147483648 in *. lia. }
  destruct Hk as (Hk & Hv & Hr). cbn [map concat]. unfold ser_rec at 1. cbn [fst snd]. rewrite <- !app_assoc.
  destruct (write_var_cons (blen k)) as (b & r & Eb). cbn [des_recs]. rewrite Eb. cbn [app]. change (b :: r ++ ?x) with ((b :: r) ++ x). rewrite <- Eb.
  rewrite take_var_app by auto. cbn [pbind]. rewrite take_app. cbn [pbind]. rewrite take_var_app by auto. cbn [pbind]. rewrite take_app. cbn [pbind]. rewrite IH; auto. cbn in Hf; lia.
Qed.
Lemma six48 n : n < 2^48 -> n < 256 ^ N.of_nat 6.
Proof. intros H. change (256 ^ N.of_nat 6) with (2^48). exact H. Qed.
Lemma ser_rec_pos rs : (length rs <= length (concat (map ser_rec rs)))%nat.
Proof.
  induction rs as [|r rs IH]; [auto|]. cbn [map concat length]. rewrite app_length. pose proof (ser_rec_len r). unfold tr_size, blen in H. pose proof (size_var_pos (N.of_nat (length (fst r)))). lia.
Qed.
Lemma skip_fix w n r : skipn w (write_fix w n ++ r) = r.
Proof. rewrite skipn_app, write_fix_length, Nat.sub_diag. rewrite skipn_all2 by (rewrite write_fix_length; lia). reflexivity. Qed.

Lemma skip2 {A} : forall b a (l : list A), skipn (a + b) l = skipn a (skipn b l).
Proof. induction b as [|b IH]; intros a l; [now rewrite Nat.add_0_r|]. rewrite Nat.add_succ_r. destruct l; cbn [skipn]; [now rewrite !skipn_nil|apply IH]. Qed.

(** A leaf page of less than 2^31 bytes is stored in full and read back as it was. *)
Theorem C16_leaf_page : forall prev next rs, prev < 2^48 -> next < 2^48 -> leaf_size rs < 2^31 ->
  exists l, save_leaf (Z.of_N (leaf_size rs)) prev next rs = POk l /\ blen l = leaf_size rs /\ des_leaf l = POk (prev, next, rs).
Proof.
  intros prev next rs H1 H2 H3. exists (ser_leaf prev next rs). pose proof (ser_leaf_len prev next rs) as L. split; [|split; auto].
  - unfold save_leaf. rewrite L. destruct (Z.gtb_spec (Z.of_N (leaf_size rs)) 16384).
    + rewrite Z.ltb_irrefl. destruct (Z.ltb_spec (Z.of_N (leaf_size rs)) 0); [lia|]. cbn [orb]. f_equal. apply firstn_all2. unfold blen in L. lia.
    + destruct (Z.ltb_spec 16384 (Z.of_N (leaf_size rs))); [lia|]. rewrite Z.ltb_irrefl. destruct (Z.ltb_spec (Z.of_N (leaf_size rs)) 0); [lia|]. cbn [orb]. f_equal. apply firstn_all2. unfold blen in L. lia.
  - unfold des_leaf. assert (12 <= leaf_size rs) by (pose proof (ser_recs_len rs); lia). rewrite L. destruct (N.ltb_spec (leaf_size rs) 12); [lia|].
    assert (E1 : skipn 6 (ser_leaf prev next rs) = write_fix 6 next ++ concat (map ser_rec rs)) by apply skip_fix.
    assert (E2 : skipn 12 (ser_leaf prev next rs) = concat (map ser_rec rs)). { change 12%nat with (6 + 6)%nat. rewrite skip2, E1. apply skip_fix. }
    rewrite E2, des_recs_ok; auto.
    + cbn [pbind]. rewrite E1. unfold ser_leaf. rewrite !read_write_fix by (apply six48; auto). reflexivity.
    + unfold ser_leaf. rewrite !app_length. pose proof (ser_rec_pos rs). lia.
Qed.

Lemma ser_link_len l : blen (ser_link l) = tl_size l.
Proof. unfold ser_link, tl_size. rewrite !blen_app, write_var_length, blen_fix. lia. Qed.
Lemma inner_size_fold : forall ls n, fold_left (fun n l => n + tl_size l) ls n = n + blen (concat (map ser_link ls)).
Proof. induction ls as [|l ls IH]; intros n; cbn [fold_left map concat]; [unfold blen; cbn; lia|]. rewrite IH, blen_app, ser_link_len. lia. Qed.
Lemma ser_inner_len h ls : blen (ser_inner h ls) = inner_size ls.
Proof. unfold ser_inner, inner_size. rewrite inner_size_fold, blen_app, blen_fix. lia. Qed.
Lemma ser_link_pos ls : (length ls <= length (concat (map ser_link ls)))%nat.
Proof.
  induction ls as [|r rs IH]; [auto|]. cbn [map concat length]. rewrite app_length. pose proof (ser_link_len r). unfold tl_size, blen in H. lia.
Qed.
Lemma des_links_ok : forall ls f, (length ls <= f)%nat -> blen (concat (map ser_link ls)) < 2^31 -> Forall (fun l => snd l < 2^48) ls -> des_links f (concat (map ser_link ls)) = POk ls.
Proof.
  induction ls as [|[k c] ls IH]; intros f Hf Hs F; [destruct f; reflexivity|]. destruct f as [|f]; [cbn in Hf; lia|]. inversion F as [|? ? F1 F2]; subst. cbn [snd] in F1.
  cbn [map concat] in *. rewrite blen_app, ser_link_len in Hs. unfold tl_size in Hs. cbn [fst snd] in Hs.
  unfold ser_link at 1. cbn [fst snd]. rewrite <- !app_assoc.
  destruct (write_var_cons (blen k)) as (b & r & Eb). cbn [des_links]. rewrite Eb. cbn [app]. change (b :: r ++ ?x) with ((b :: r) ++ x). rewrite <- Eb.
  rewrite take_var_app by (unfold two64; lia). cbn [pbind]. rewrite take_app. cbn [pbind]. rewrite blen_app, blen_fix. change (N.of_nat 6) with 6.
  destruct (N.ltb_spec (6 + blen (concat (map ser_link ls))) 6); [lia|]. rewrite skip_fix, IH; auto; [|cbn in Hf; lia|lia]. cbn [pbind]. rewrite read_write_fix by (apply six48; auto). reflexivity.
Qed.
(** An inner page likewise. *)
Theorem C16_inner_page : forall heir ls, heir < 2^48 -> Forall (fun l => snd l < 2^48) ls -> inner_size ls < 2^31 ->
  exists l, save_inner heir ls = POk l /\ blen l = inner_size ls /\ des_inner l = POk (heir, ls).
Proof.
  intros heir ls H1 H2 H3. exists (ser_inner heir ls). pose proof (ser_inner_len heir ls) as L. split; [|split; auto].
  - unfold save_inner. rewrite L. destruct (N.ltb_spec 16384 (inner_size ls)).
    + rewrite N.ltb_irrefl. cbn [orb]. f_equal. apply firstn_all2. unfold blen in L. lia.
    + destruct (N.ltb_spec 16384 (inner_size ls)); [lia|]. rewrite N.ltb_irrefl. cbn [orb]. f_equal. apply firstn_all2. unfold blen in L. lia.
  - unfold des_inner. assert (Hs : inner_size ls = 6 + blen (concat (map ser_link ls))) by (unfold inner_size; apply inner_size_fold). rewrite L. destruct (N.ltb_spec (inner_size ls) 6); [lia|].
    unfold ser_inner at 2. rewrite skip_fix, des_links_ok; auto; [|unfold ser_inner; rewrite app_length; pose proof (ser_link_pos ls); lia|lia].
    cbn [pbind]. unfold ser_inner. rewrite read_write_fix by (apply six48; auto). reflexivity.
Qed.

(** The running page_size of a leaf is the size of its page, however the leaf has been made and changed. *)
Lemma leaf_size_app a b : leaf_size (a ++ b) + 12 = leaf_size a + leaf_size b.
Proof. unfold leaf_size. induction a as [|x a IH]; cbn [app fold_right]; lia. Qed.
Lemma leaf_size_split i rs : leaf_size (firstn i rs) + leaf_size (skipn i rs) = leaf_size rs + 12.
Proof. rewrite <- leaf_size_app, firstn_skipn. reflexivity. Qed.
Lemma nth_skip {A} : forall i (l : list A) r, nth_error l i = Some r -> skipn i l = r :: skipn (S i) l.
Proof. induction i as [|i IH]; intros [|a l] r H; cbn in *; try discriminate; [congruence|]. now apply IH. Qed.
Lemma div_fold : forall rs a b, fold_left (fun ab r => ((fst ab - Z.of_N (tr_size r))%Z, (snd ab + Z.of_N (tr_size r))%Z)) rs (a, b) = ((a - (Z.of_N (leaf_size rs) - 12))%Z, (b + (Z.of_N (leaf_size rs) - 12))%Z).
Proof. induction rs as [|r rs IH]; intros a b; cbn [fold_left fst snd]. - unfold leaf_size; cbn. f_equal; lia. - rewrite IH, leaf_size_cons. f_equal; lia. Qed.
Theorem C16_page_size : forall s, leaf_made s -> fst s = Z.of_N (leaf_size (snd s)).
Proof.
  induction 1 as [|s p n l p' n' rs H IH Hs Hl Hd|i r s H IH Hi|i v s H IH|i s H IH|s H IH|s H IH|a b Ha IHa Hb IHb]; cbn [fst snd].
  - reflexivity.
  - f_equal. unfold save_leaf in Hs. rewrite ser_leaf_len, IH in Hs. destruct (_ || _ || _); [discriminate|]. injection Hs as Hs.
    rewrite firstn_all2 in Hs by (pose proof (ser_leaf_len p n (snd s)) as L; unfold blen in L; lia). subst l.
    unfold des_leaf in Hd. rewrite ser_leaf_len in *. destruct (leaf_size (snd s) <? 12); [discriminate|].
    assert (E2 : skipn 12 (ser_leaf p n (snd s)) = concat (map ser_rec (snd s))). { change 12%nat with (6 + 6)%nat. rewrite skip2. unfold ser_leaf. now rewrite !skip_fix. }
    rewrite E2, des_recs_ok in Hd; auto; [|unfold ser_leaf; rewrite !app_length; pose proof (ser_rec_pos (snd s)); lia]. cbn in Hd. now injection Hd as <- <- <-.
  - unfold ps_insert. cbn [fst snd]. pose proof (leaf_size_app (firstn i (snd s)) (r :: skipn i (snd s))). rewrite leaf_size_cons in H0. pose proof (leaf_size_split i (snd s)). lia.
  - unfold ps_modify. destruct (nth_error (snd s) i) as [[k old]|] eqn:E; [|auto]. cbn [fst snd]. pose proof (leaf_size_app (firstn i (snd s)) ((k, v) :: skipn (S i) (snd s))) as A. rewrite leaf_size_cons in A. pose proof (leaf_size_split i (snd s)) as B. rewrite (nth_skip _ _ _ E), leaf_size_cons in B. lia.
  - unfold ps_erase. destruct (nth_error (snd s) i) as [r|] eqn:E; [|auto]. cbn [fst snd]. pose proof (leaf_size_app (firstn i (snd s)) (skipn (S i) (snd s))) as A. pose proof (leaf_size_split i (snd s)) as B. rewrite (nth_skip _ _ _ E), leaf_size_cons in B. lia.
  - unfold ps_divide. rewrite div_fold. cbn [fst snd]. pose proof (leaf_size_split (Nat.div2 (length (snd s))) (snd s)). lia.
  - unfold ps_divide. rewrite div_fold. cbn [fst snd]. pose proof (ser_recs_len (skipn (Nat.div2 (length (snd s))) (snd s))). lia.
  - unfold ps_merge. cbn [fst snd]. pose proof (leaf_size_app (snd a) (snd b)). lia.
Qed.
(** Hence every leaf, at any time, is saved in full. *)
Corollary C16_leaf_saved : forall s prev next, leaf_made s -> prev < 2^48 -> next < 2^48 -> (fst s < 2^31)%Z ->
  exists l, save_leaf (fst s) prev next (snd s) = POk l /\ des_leaf l = POk (prev, next, snd s).
Proof. intros s p n H Hp Hn Hs. rewrite (C16_page_size s H) in *. destruct (C16_leaf_page p n (snd s)) as (l & A & _ & B); auto; [lia|eauto]. Qed.

(** A page whose key size was damaged makes the reader leave the buffer: the size is compared as an int32_t. *)
Theorem C16_damaged_refuted : des_leaf (repeat 0 12 ++ write_var (2^31)) = PUb.
Proof. vm_compute. reflexivity. Qed.

(** * Metadata *)
Definition meta_ok (m : tmeta) : Prop :=
  t_num m < 2^48 /\ t_eff m < 2^48 /\ t_root m < 2^48 /\ t_first m < 2^48 /\ t_last m < 2^48 /\ t_leaves m < 2^48 /\ t_inners m < 2^48 /\
  t_page m < 2^24 /\ t_branches m < 2^24 /\ t_level m < 2^8 /\ t_comp m < 2^8 /\ length (t_mini m) = 10%nat.
(** The metadata as it is read: the first id stands for the last. *)
Definition with_last (m : tmeta) (x : N) : tmeta := mkTM (t_num m) (t_eff m) (t_root m) (t_first m) x (t_leaves m) (t_inners m) (t_page m) (t_branches m) (t_level m) (t_comp m) (t_mini m).
Lemma parse_save : forall m, meta_ok m -> parse_meta (save_meta m) = POk (with_last m (t_first m)).
Proof.
  intros m (H1 & H2 & H3 & H4 & H5 & H6 & H7 & H8 & H9 & H10 & H11 & H12).
  assert (Em : firstn 10 (t_mini m) ++ repeat 0 (10 - length (t_mini m)) = t_mini m) by (rewrite H12, firstn_all2 by lia; cbn; apply app_nil_r).
  assert (L : blen (save_meta m) = 64). { unfold save_meta. rewrite Em. rewrite !blen_app, !blen_fix. unfold blen at 2. rewrite H12. reflexivity. }
  unfold parse_meta. rewrite L. cbn [N.eqb Pos.eqb negb].
  assert (S4 : forall r, skipn 4 ([84; 68; 66; 0] ++ r) = r) by reflexivity.
  assert (Sk : forall a b (l : bytes), skipn (a + b) l = skipn a (skipn b l)) by (intros; apply skip2).
  assert (E4 : firstn 4 (save_meta m) = [84; 68; 66; 0]) by reflexivity. rewrite E4, beqb_refl. cbn [negb].
  unfold save_meta. rewrite Em.
  set (r13 := t_mini m). set (r12 := write_fix 1 (t_comp m) ++ r13). set (r11 := write_fix 1 (t_level m) ++ r12). set (r10 := write_fix 3 (t_branches m) ++ r11). set (r9 := write_fix 3 (t_page m) ++ r10).
  set (r8 := write_fix 6 (t_inners m) ++ r9). set (r7 := write_fix 6 (t_leaves m) ++ r8). set (r6 := write_fix 6 (t_last m) ++ r7). set (r5 := write_fix 6 (t_first m) ++ r6). set (r4 := write_fix 6 (t_root m) ++ r5). set (r3 := write_fix 6 (t_eff m) ++ r4). set (r2 := write_fix 6 (t_num m) ++ r3). set (l := [84; 68; 66; 0] ++ r2).
  assert (K1 : skipn 4 l = r2) by apply S4. assert (K2 : skipn 10 l = r3) by (change 10%nat with (6 + 4)%nat; rewrite Sk, K1; apply skip_fix). assert (K3 : skipn 16 l = r4) by (change 16%nat with (6 + 10)%nat; rewrite Sk, K2; apply skip_fix).
  assert (K4 : skipn 22 l = r5) by (change 22%nat with (6 + 16)%nat; rewrite Sk, K3; apply skip_fix). assert (K5 : skipn 28 l = r6) by (change 28%nat with (6 + 22)%nat; rewrite Sk, K4; apply skip_fix).
  assert (K6 : skipn 34 l = r7) by (change 34%nat with (6 + 28)%nat; rewrite Sk, K5; apply skip_fix). assert (K7 : skipn 40 l = r8) by (change 40%nat with (6 + 34)%nat; rewrite Sk, K6; apply skip_fix).
  assert (K8 : skipn 46 l = r9) by (change 46%nat with (6 + 40)%nat; rewrite Sk, K7; apply skip_fix). assert (K9 : skipn 49 l = r10) by (change 49%nat with (3 + 46)%nat; rewrite Sk, K8; apply skip_fix).
  assert (K10 : skipn 52 l = r11) by (change 52%nat with (3 + 49)%nat; rewrite Sk, K9; apply skip_fix). assert (K11 : skipn 53 l = r12) by (change 53%nat with (1 + 52)%nat; rewrite Sk, K10; apply skip_fix).
  assert (K12 : skipn 54 l = r13) by (change 54%nat with (1 + 53)%nat; rewrite Sk, K11; apply skip_fix).
  rewrite K1, K2, K3, K4, K6, K7, K8, K9, K10, K11, K12. unfold r2, r3, r4, r5, r7, r8, r9, r10, r11, r12.
  rewrite !read_write_fix; [|assumption..]. assert (EM : firstn 10 r13 = t_mini m) by (unfold r13; apply firstn_all2; lia). rewrite EM. reflexivity.
Qed.
(** All of the metadata is read back, except that the last leaf is read to be the first. *)
Theorem C16_metadata_partial : forall m given, meta_ok m -> 1 <= t_leaves m -> 1 <= t_page m -> 2 <= t_branches m -> 1 <= t_level m -> (comp_known (t_comp m) = true \/ t_comp m = 255 /\ given = true) ->
  load_meta given (save_meta m) = POk (with_last m (t_first m)).
Proof.
  intros m given H A B C D E. unfold load_meta. rewrite parse_save by auto. cbn [pbind with_last t_leaves t_page t_branches t_level t_comp].
  destruct (N.ltb_spec (t_leaves m) 1); [lia|]. destruct (N.ltb_spec (t_page m) 1); [lia|]. destruct (N.ltb_spec (t_branches m) 2); [lia|]. destruct (N.ltb_spec (t_level m) 1); [lia|]. cbn [orb].
  destruct E as [-> | [-> ->]]; reflexivity.
Qed.
(** So it is all read back exactly when there is one leaf. *)
Corollary C16_metadata_one_leaf : forall m given, meta_ok m -> 1 <= t_leaves m -> 1 <= t_page m -> 2 <= t_branches m -> 1 <= t_level m -> (comp_known (t_comp m) = true \/ t_comp m = 255 /\ given = true) ->
  (load_meta given (save_meta m) = POk m <-> t_first m = t_last m).
Proof.
  intros m given H A B C D E. rewrite C16_metadata_partial by auto. destruct m; unfold with_last; cbn. split; [intros X; now injection X|intros ->; reflexivity].
Qed.
Definition meta_case : tmeta := mkTM 300 1200 (inner_base + 0) 1 3 3 1 8130 256 2 1 (repeat 0 10).
Lemma meta_case_ok : meta_ok meta_case. Proof. unfold meta_ok, meta_case, inner_base; cbn. repeat split; lia. Qed.
Theorem C16_last_refuted : meta_ok meta_case /\ exists m', load_meta false (save_meta meta_case) = POk m' /\ t_last meta_case = 3 /\ t_last m' = 1.
Proof. split; [apply meta_case_ok|]. eexists. split; [vm_compute; reflexivity|]. split; reflexivity. Qed.
(** A page size of 2^24 is stored as 0, so the database cannot be opened, not even as it is created. *)
Theorem C16_page_limit_refuted : exists m, t_page m = 2^24 /\ load_meta false (save_meta m) = PBroken.
Proof. exists (mkTM 0 0 1 1 1 1 0 (2^24) 256 1 1 (repeat 0 10)). split; [reflexivity|vm_compute; reflexivity]. Qed.

(** * Evictions *)
(** The nodes as a plain heap, and what the operations do to it; an operation is legal if it is of a node there is (or, for a new one, is not),
    and puts a node that fits: of the kind of its id, with ids of six bytes and a page of less than 2^31 bytes. *)
Definition fits (x : N) (n : pnode) : Prop :=
  match n with
  | PLeaf p q rs => is_inner x = false /\ p < 2^48 /\ q < 2^48 /\ leaf_size rs < 2^31
  | PInner h ls => is_inner x = true /\ h < 2^48 /\ Forall (fun l => snd l < 2^48) ls /\ inner_size ls < 2^31
  end.
Definition heap := N -> option pnode.
Inductive hstep : cop -> heap -> option pnode -> heap -> Prop :=
| hs_load : forall x n g, g x = Some n -> hstep (CLoad x) g (Some n) g
| hs_save : forall x g, hstep (CSave x) g None g
| hs_evict : forall x g, hstep (CEvict x) g None g
| hs_write : forall x n g, g x <> None -> fits x n -> hstep (CWrite x n) g None (upd g x (Some n))
| hs_new : forall x n g, g x = None -> fits x n -> hstep (CNew x n) g None (upd g x (Some n))
| hs_remove : forall x g, g x <> None -> hstep (CRemove x) g None (upd g x None).
Inductive hrun : list cop -> heap -> list (option pnode) -> heap -> Prop :=
| hr_nil : forall g, hrun [] g [] g
| hr_cons : forall o os g a g1 l g2, hstep o g a g1 -> hrun os g1 l g2 -> hrun (o :: os) g (a :: l) g2.

Lemma node_back : forall x n, fits x n -> exists l, save_node n = POk l /\ load_node x l = POk n.
Proof.
  intros x [p q rs|h ls] F; cbn in F.
  - destruct F as (Fi & F1 & F2 & F3). destruct (C16_leaf_page p q rs F1 F2 F3) as (l & A & _ & B). exists l. split; auto. unfold load_node. now rewrite Fi, B.
  - destruct F as (Fi & F1 & F2 & F3). destruct (C16_inner_page h ls F1 F2 F3) as (l & A & _ & B). exists l. split; auto. unfold load_node. now rewrite Fi, B.
Qed.
Definition good (s : cstate) (g : heap) (x : N) : Prop :=
  match c_cache s x with
  | Some e => g x = Some (e_node e) /\ (e_dirty e = false -> exists l, c_store s x = Some l /\ load_node x l = POk (e_node e)) /\ (e_disk e = false -> c_store s x = None)
  | None => match c_store s x with Some l => exists n, load_node x l = POk n /\ g x = Some n | None => g x = None end
  end.
Definition sim (s : cstate) (g : heap) : Prop := forall x, good s g x /\ forall n, g x = Some n -> fits x n.
Lemma sim_upd : forall s s' g g' x, sim s g -> good s' g' x -> (forall n, g' x = Some n -> fits x n) ->
  (forall y, y <> x -> c_cache s' y = c_cache s y /\ c_store s' y = c_store s y /\ g' y = g y) -> sim s' g'.
Proof.
  intros s s' g g' x H Hx Hf Ho y. destruct (N.eq_dec y x) as [->|N]; [auto|]. destruct (Ho y N) as (A & B & C). destruct (H y) as [G F]. unfold good in *. rewrite A, B, C. auto.
Qed.
Ltac updo := intros y Ny; cbn; unfold upd; match goal with Hn : y <> ?z |- _ => destruct (N.eqb_spec y z); [contradiction|auto] end.
Lemma load_sim : forall s g x n, sim s g -> g x = Some n -> exists s', c_load x s = POk (n, s') /\ sim s' g /\ exists e, c_cache s' x = Some e.
Proof.
  intros s g x n H E. destruct (H x) as [G F]. unfold c_load, good in *. destruct (c_cache s x) as [e|] eqn:Ec.
  - destruct G as (G & _). rewrite E in G. injection G as ->. eauto.
  - destruct (c_store s x) as [l|] eqn:Es; [|congruence]. destruct G as (n' & L & G). rewrite E in G. injection G as <-. rewrite L. cbn. eexists. split; [reflexivity|]. split.
    + apply (sim_upd s _ g g x H); [|auto|updo]. unfold good. cbn. unfold upd. rewrite N.eqb_refl. cbn. split; auto. split; [intros _; eauto|discriminate].
    + cbn. unfold upd. rewrite N.eqb_refl. eauto.
Qed.
Lemma save_sim : forall s g x, sim s g -> exists s', c_save x s = POk s' /\ sim s' g /\ (forall y, c_cache s' y = None <-> c_cache s y = None) /\ (forall e, c_cache s' x = Some e -> e_dirty e = false).
Proof.
  intros s g x H. destruct (H x) as [G F]. unfold c_save, good in *. destruct (c_cache s x) as [e|] eqn:Ec.
  - destruct (e_dirty e) eqn:Ed.
    + destruct G as (G & _ & _). destruct (node_back x (e_node e) (F _ G)) as (l & A & B). rewrite A. cbn. eexists. split; [reflexivity|]. split; [|split].
      * apply (sim_upd s _ g g x H); [|auto|updo]. unfold good. cbn. unfold upd. rewrite N.eqb_refl. cbn. split; auto. split; [intros _; eauto|discriminate].
      * intros y. cbn. unfold upd. destruct (N.eqb_spec y x); [subst; rewrite Ec; split; discriminate|tauto].
      * cbn. unfold upd. rewrite N.eqb_refl. intros e0 X. now injection X as <-.
    + exists s. split; auto. split; auto. split; [tauto|]. intros e0 X. congruence.
  - exists s. split; auto. split; auto. split; [tauto|]. intros e0 X. congruence.
Qed.
Lemma evict_sim : forall s g x, sim s g -> exists s', c_evict x s = POk s' /\ sim s' g /\ c_cache s' x = None /\ (forall y, c_cache s y = None -> c_cache s' y = None).
Proof.
  intros s g x H. destruct (save_sim s g x H) as (s1 & A & B & C & D). unfold c_evict. rewrite A. cbn. eexists. split; [reflexivity|]. split; [|split].
  - apply (sim_upd s1 _ g g x B); [|apply B|updo]. destruct (B x) as [G _]. unfold good in *. cbn. unfold upd. rewrite N.eqb_refl. destruct (c_cache s1 x) as [e|] eqn:Ec.
    + destruct G as (G1 & G2 & _). destruct (G2 (D e eq_refl)) as (l & E1 & E2). rewrite E1. eauto.
    + exact G.
  - cbn. unfold upd. now rewrite N.eqb_refl.
  - intros y Y. cbn. unfold upd. destruct (N.eqb_spec y x); auto. now apply C.
Qed.
Lemma step_sim : forall o s g a g', sim s g -> hstep o g a g' -> exists s', c_step o s = POk (a, s') /\ sim s' g'.
Proof.
  intros o s g a g' H St. destruct St as [x n g E|x g|x g|x n g E F|x n g E F|x g E]; cbn [c_step].
  - destruct (load_sim s g x n H E) as (s1 & A & B & _). rewrite A. cbn. eauto.
  - destruct (save_sim s g x H) as (s1 & A & B & _). rewrite A. cbn. eauto.
  - destruct (evict_sim s g x H) as (s1 & A & B & _). rewrite A. cbn. eauto.
  - destruct (g x) as [n0|] eqn:Eg; [|congruence]. destruct (load_sim s g x n0 H Eg) as (s1 & A & B & e & C). rewrite A. cbn [pbind]. unfold c_write. rewrite C. cbn [pbind]. eexists. split; [reflexivity|].
    apply (sim_upd s1 _ g _ x B); [| |updo]. + destruct (B x) as [G _]. unfold good in *. cbn. unfold upd. rewrite N.eqb_refl. cbn. rewrite C in G. split; auto. split; [discriminate|apply G]. + unfold upd. rewrite N.eqb_refl. intros m X. now injection X as <-.
  - cbn. eexists. split; [reflexivity|]. apply (sim_upd s _ g _ x H); [| |updo]. + destruct (H x) as [G _]. unfold good in *. cbn. unfold upd. rewrite N.eqb_refl. cbn. split; auto. split; [discriminate|]. intros _. destruct (c_cache s x) as [e|]; [destruct G; congruence|]. destruct (c_store s x); auto. destruct G as (n0 & _ & G). congruence. + unfold upd. rewrite N.eqb_refl. intros m X. now injection X as <-.
  - destruct (g x) as [n0|] eqn:Eg; [|congruence]. destruct (load_sim s g x n0 H Eg) as (s1 & A & B & e & C). rewrite A. cbn [pbind]. unfold c_remove. rewrite C. cbn [pbind]. eexists. split; [reflexivity|].
    apply (sim_upd s1 _ g _ x B).
    + destruct (B x) as [G _]. unfold good in *. cbn. unfold upd. rewrite N.eqb_refl. rewrite C in G. destruct (e_disk e); [rewrite N.eqb_refl; auto|]. destruct G as (_ & _ & G). now rewrite G.
    + unfold upd. rewrite N.eqb_refl. discriminate.
    + intros y Ny. cbn. unfold upd. destruct (e_disk e); destruct (N.eqb_spec y x); try contradiction; auto.
Qed.
(** Whatever nodes are loaded, changed, added and removed, and whatever is saved and evicted in between, every node is seen as if it had never left memory. *)
Theorem C15_evictions : forall os l g', hrun os (fun _ => None) l g' -> exists s', c_run os c_init = POk (l, s') /\ sim s' g'.
Proof.
  assert (G : forall os g l g', hrun os g l g' -> forall s, sim s g -> exists s', c_run os s = POk (l, s') /\ sim s' g').
  { induction 1 as [g|o os g a g1 l g2 St R IH]; intros s H; cbn [c_run]; [eauto|]. destruct (step_sim o s g a g1 H St) as (s1 & A & B). rewrite A. cbn [pbind]. destruct (IH s1 B) as (s2 & C & D). rewrite C. cbn. eauto. }
  intros os l g' R. apply (G _ _ _ _ R). intros x. split; [reflexivity|discriminate].
Qed.
(** Closing: once the nodes in the cache have been flushed, the stored pages alone give every node back, and no others. *)
Theorem C16_pages : forall os l g' s', hrun os (fun _ => None) l g' -> c_run os c_init = POk (l, s') -> forall xs, (forall x, c_cache s' x <> None -> In x xs) ->
  exists s2 l2, c_run (map CEvict xs) s' = POk (l2, s2) /\ (forall x, c_cache s2 x = None) /\
    forall x, match g' x with Some n => exists p, c_store s2 x = Some p /\ load_node x p = POk n | None => c_store s2 x = None end.
Proof.
  intros os l g' s' R E xs Hx. destruct (C15_evictions os l g' R) as (s0 & E0 & H). rewrite E in E0. injection E0 as <-.
  assert (W : exists s2 l2, c_run (map CEvict xs) s' = POk (l2, s2) /\ sim s2 g' /\ forall x, c_cache s2 x = None).
  { clear R E. revert s' H Hx. induction xs as [|x xs IH]; intros s H Hx; cbn [map c_run].
    - exists s, []. split; auto. split; auto. intros x. destruct (c_cache s x) eqn:Ec; auto. destruct (Hx x). congruence.
    - destruct (evict_sim s g' x H) as (s1 & A & B & C & D). cbn [c_step]. rewrite A. cbn [pbind]. destruct (IH s1 B) as (s2 & l2 & F1 & F2 & F3).
      + intros y Y. destruct (Hx y) as [<-|]; [intros Z; apply Y, D, Z|now rewrite C in Y|assumption].
      + rewrite F1. cbn. eauto. }
  destruct W as (s2 & l2 & W1 & W2 & W3). exists s2, l2. split; auto. split; auto. intros x. destruct (W2 x) as [G _]. unfold good in G. rewrite W3 in G. destruct (c_store s2 x) as [p|].
  - destruct G as (n & G1 & G2). rewrite G2. eauto.
  - now rewrite G.
Qed.

(** * Cases *)
Definition ops_case : list cop :=
  [CNew 1 (PLeaf 0 0 []); CWrite 1 (PLeaf 0 0 [([97], [1; 2])]); CEvict 1; CNew 2 (PLeaf 1 0 [([98], [])]); CWrite 1 (PLeaf 0 2 [([97], [1; 2])]);
   CNew inner_base (PInner 1 [([98], 2)]); CEvict 2; CEvict inner_base; CLoad inner_base; CEvict 1; CLoad 1; CRemove 2].
Example C15_evictions_case : exists s', c_run ops_case c_init = POk ([None; None; None; None; None; None; None; None; Some (PInner 1 [([98], 2)]); None; Some (PLeaf 0 2 [([97], [1; 2])]); None], s').
Proof. eexists. vm_compute. reflexivity. Qed.
Example C16_leaf_case : save_leaf 18 5 9 [([97], [1; 2; 3])] = POk (write_fix 6 5 ++ write_fix 6 9 ++ [1; 97; 3; 1; 2; 3]).
Proof. vm_compute. reflexivity. Qed.
Example C16_size_case : leaf_made (ps_erase 0 (snd (ps_divide (ps_insert 1 ([98], [2]) (ps_insert 0 ([97], [1]) (12%Z, [])))))).
Proof. apply lm_erase, lm_div2, lm_insert; [apply lm_insert; [constructor|cbn; lia]|cbn; lia]. Qed.

Print Assumptions C16_leaf_page.
Print Assumptions C16_inner_page.
Print Assumptions C16_page_size.
Print Assumptions C16_leaf_saved.
Print Assumptions C16_metadata_partial.
Print Assumptions C16_last_refuted.
Print Assumptions C15_evictions.
Print Assumptions C16_pages.
