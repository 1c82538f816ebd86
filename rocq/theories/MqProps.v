(** C21, C22: the message queue.  Source: /repo/tkrzw_message_queue.cc. *)
From Coq Require Import Sorted.
From Verif Require Import Bytes CodecModel CodecProofs HashUtilModel StatusModel MqModel MqProofs.
Local Open Scope N_scope.

(** * Executions *)
(** The bytes that a message takes in a file (header 11, checksum 1). *)
Fixpoint rbytes (l : list msg) : N := match l with [] => 0 | x :: l' => 12 + blen (snd x) + rbytes l' end.
(** The directory after a crash which keeps the first [n] bytes of the last file. *)
Definition crash (q : mq) (n : N) : dir :=
  f_put (q_dir q) (q_last q) (firstn (N.to_nat n) (f_of (q_dir q) (q_last q))).
Definition last_size (q : mq) : N := blen (f_of (q_dir q) (q_last q)).
(** The size in the metadata of the last file: what was synchronized. *)
Definition synced_size (q : mq) : N := match load_meta (f_of (q_dir q) (q_last q)) with inr (_, _, _, n) => n | inl _ => 0 end.

(** A queue [q] and one reader [r] at a time.  [W]: the messages written so far with
    their effective timestamps, [T]: the running maximum of the given timestamps,
    [D]: the messages delivered by the reader.  Preconditions the code relies on:
    messages of less than 2^32 - 1 bytes, file ids of at most ten digits, a file
    size limit of at most 2^47. *)
Inductive sys : mq -> rd -> list msg -> N -> list msg -> Prop :=
| sys_new max ign min q :
    max <= 2^47 -> mq_open [] max false ign = Some (SUCCESS, q) -> sys q (rd_new min) [] 0 []
| sys_write q r W T D hard ts m q' :
    sys q r W T D -> bytes_ok m -> blen m < UINT32MAX -> mq_write q hard ts m = (SUCCESS, q') -> q_last q' < 10^10 ->
    sys q' r (W ++ [(N.max ts T, m)]) (N.max ts T) D
| sys_update q r W T D ts q' :
    sys q r W T D -> mq_update q ts = (SUCCESS, q') -> sys q' r W (N.max ts T) D
| sys_sync q r W T D q' : sys q r W T D -> mq_sync q = (SUCCESS, q') -> sys q' r W T D
| sys_reopen q r W T D q1 q2 max ign min :
    sys q r W T D -> mq_close q = (SUCCESS, q1) -> max <= 2^47 -> mq_open (q_dir q1) max false ign = Some (SUCCESS, q2) ->
    sys q2 (rd_new min) W T []
| sys_reader q r W T D min : sys q r W T D -> sys q (rd_new min) W T []
| sys_got q r W T D t m r' : sys q r W T D -> rd_turn q r = (TGot t m, r') -> sys q r' W T (D ++ [(t, m)])
| sys_more q r W T D r' : sys q r W T D -> rd_turn q r = (TMore, r') -> sys q r' W T D
| sys_wait q r W T D r' : sys q r W T D -> rd_turn q r = (TWait, r') -> sys q r' W T D
(** A crash losing the messages [lost], none of which was synchronized, after
    which the application restores the clock. *)
| sys_crash q r W lost T D max ign min ts q1 q2 :
    sys q r (W ++ lost) T D -> 32 + rbytes lost <= last_size q -> synced_size q <= last_size q - rbytes lost ->
    max <= 2^47 -> mq_open (crash q (last_size q - rbytes lost)) max false ign = Some (SUCCESS, q1) ->
    T <= ts -> mq_update q1 ts = (SUCCESS, q2) -> sys q2 (rd_new min) W ts [].

(** * The invariant *)
Set Implicit Arguments.
Record sinv (q : mq) (r : rd) (W : list msg) (T : N) (D : list msg) (a : N) (init : list seg) (lst : seg) : Prop := {
  s_q : qinv q a init lst;
  s_log : W = log_of (init ++ [lst]);
  s_ts : T = q_ts q;
  s_id : q_last q < 10^10;
  s_sort : StronglySorted N.le (map fst W);
  s_rd : exists n, rinv a (map sg_msgs (init ++ [lst])) r D n }.
Lemma pow10 : 10^10 + 1 < 2^48. Proof. reflexivity. Qed.
Lemma concat_map_snoc (L : list (list msg)) l : concat (L ++ [l]) = concat L ++ l.
Proof. rewrite concat_app. cbn. rewrite app_nil_r. reflexivity. Qed.
Lemma rbytes_recs l : rbytes l = blen (recs l).
Proof. induction l as [|x l IH]; [reflexivity|]. change (recs (x :: l)) with (mrec (fst x) (snd x) ++ recs l). cbn [rbytes]. rewrite blen_app, mrec_blen, IH. lia. Qed.
Lemma rbytes_app l l' : rbytes (l ++ l') = rbytes l + rbytes l'.
Proof. induction l; cbn [app rbytes]; lia. Qed.
Lemma s_f q r W T D a init lst : sinv q r W T D a init lst -> f_of (q_dir q) (q_last q) = seg_bytes lst.
Proof. intros I. unfold f_of. rewrite (i_file (i_read (s_q I))). reflexivity. Qed.
(** A crash keeping the whole messages [ms] of the last file. *)
Lemma crash_dir q r W T D a init lst n : sinv q r W T D a init lst ->
  crash q n = map enc init ++ [(q_last q, firstn (N.to_nat n) (seg_bytes lst))].
Proof.
  intros I. unfold crash. rewrite (s_f I), (i_dir (i_read (s_q I))), (i_last (i_read (s_q I))), f_put_at by apply (i_read (s_q I)). reflexivity.
Qed.
Definition with_msgs (s : seg) (ms : list msg) : seg := mkSeg (sg_id s) (sg_cyc s) (sg_mts s) (sg_msize s) ms.
Lemma crash_whole q r W T D a init lst ms ms' : sinv q r W T D a init lst -> sg_msgs lst = ms ++ ms' ->
  crash q (32 + rbytes ms) = map enc (init ++ [with_msgs lst ms]).
Proof.
  intros I E. rewrite (crash_dir _ I), map_app. cbn [map]. f_equal. f_equal. unfold enc. cbn [with_msgs sg_id].
  f_equal; [symmetry; apply (i_last_id (i_read (s_q I)))|]. unfold seg_bytes. cbn [with_msgs sg_cyc sg_id sg_mts sg_msize sg_msgs].
  rewrite E, recs_app, app_assoc. apply firstn_exact. rewrite app_length, meta_len, rbytes_recs. unfold blen. lia.
Qed.
Lemma with_msgs_read q a init lst ms ms' max : qread q a init lst -> sg_msgs lst = ms ++ ms' ->
  qread (mkMq (map enc (init ++ [with_msgs lst ms])) true (sg_id lst) (Some (sg_cyc lst)) (sg_mts lst) max) a init (with_msgs lst ms).
Proof.
  intros I E. assert (O := i_ok I). rewrite Forall_app in O. destruct O as [O1 O2]. inversion O2 as [|? ? (P1 & P2 & P3 & P4 & P5) _]; subst.
  rewrite E, Forall_app in P5.
  split; cbn [q_dir q_last q_open].
  - reflexivity.
  - assert (C := i_contig I). apply contig_app in C. apply contig_app. cbn in *. tauto.
  - rewrite (i_last_id I). apply I.
  - apply Forall_app. split; [exact O1|]. constructor; [|constructor]. unfold seg_ok. cbn [with_msgs sg_cyc sg_id sg_mts sg_msize sg_msgs]. tauto.
  - apply I.
  - reflexivity.
Qed.
Lemma with_msgs_ok q a init lst ms ms' : qread q a init lst -> sg_msgs lst = ms ++ ms' ->
  contig a (init ++ [with_msgs lst ms]) /\ seg_ok (with_msgs lst ms).
Proof.
  intros I E. assert (X := @with_msgs_read _ _ _ _ _ _ 0 I E). split; [apply X|]. assert (O := i_ok X). rewrite Forall_app in O. destruct O as [_ O]. inversion O; assumption.
Qed.
Lemma open_crash q r W T D a init lst ms ms' max ign : sinv q r W T D a init lst -> sg_msgs lst = ms ++ ms' ->
  mq_open (crash q (32 + rbytes ms)) max false ign =
    Some (SUCCESS, mkMq (map enc (init ++ [with_msgs lst ms])) true (sg_id lst) (Some (sg_cyc lst)) (sg_mts lst) max).
Proof.
  intros I E. destruct (@with_msgs_ok _ _ _ _ _ _ (i_read (s_q I)) E) as [C O]. rewrite (@crash_whole _ _ _ _ _ _ _ _ _ _ I E).
  exact (@open_whole a init (with_msgs lst ms) max ign C O).
Qed.
Lemma sorted_app_l (l l' : list N) : StronglySorted N.le (l ++ l') -> StronglySorted N.le l.
Proof.
  induction l as [|x l IH]; intros H; [constructor|]. cbn in H. inversion H; subst. constructor; [auto|].
  rewrite Forall_app in *. tauto.
Qed.

Lemma sys_inv q r W T D : sys q r W T D -> exists a init lst, sinv q r W T D a init lst.
Proof.
  induction 1 as [max ign min q Hm Ho|q r W T D hard ts m q' SY IH Hm Hl Hw Hid|q r W T D ts q' SY IH Hu|q r W T D q' SY IH Hs
    |q r W T D q1 q2 max ign min SY IH Hc Hm Ho|q r W T D min SY IH|q r W T D t m r' SY IH Ht|q r W T D r' SY IH Ht|q r W T D r' SY IH Ht
    |q r W lost T D max ign min ts q1 q2 SY IH Hl Hy Hm Ho HT Hu].
  - cbv in Ho. exists 0, [], (mkSeg 0 1 0 32 []). inversion Ho; subst q. clear Ho. split.
    + split; [split| | | | | | | | |]; cbn [q_dir q_last q_open q_ts q_cyc q_max].
      * reflexivity.
      * cbn. auto.
      * reflexivity.
      * constructor; [|constructor]. unfold seg_ok. cbn. repeat split; constructor.
      * constructor.
      * reflexivity.
      * constructor.
      * constructor; [cbn; lia|constructor].
      * reflexivity.
      * reflexivity.
      * exact Hm.
      * reflexivity.
      * exists 0%nat. cbn. repeat split; constructor.
      * constructor.
      * constructor.
    + reflexivity.
    + reflexivity.
    + reflexivity.
    + constructor.
    + eexists. apply rinv_new.
  - destruct IH as (a & init & lst & I). assert (HT := s_ts I). subst T.
    unfold mq_write in Hw. destruct (N.leb_spec TS_LIMIT ts) as [X|Hts]; [discriminate|]. rewrite (i_open (i_read (s_q I))) in Hw. cbn [negb] in Hw.
    cbv zeta in Hw. assert (P := pow10).
    destruct (write_inv (s_q I) Hts Hm Hl ltac:(assert (Z := s_id I); lia)) as (init' & lst' & I' & E1 & E2 & E3 & E4).
    set (q1 := q_write q ts m) in *. set (t := N.max ts (q_ts q)) in *.
    assert (Elog : log_of (init' ++ [lst']) = W ++ [(t, m)]).
    { unfold log_of at 1. destruct E4 as [E4|E4]; rewrite E4, concat_map_snoc, (s_log I).
      - rewrite log_of_app, log_of_one. unfold log_of. rewrite app_assoc. reflexivity.
      - reflexivity. }
    assert (Hsort : StronglySorted N.le (map fst (W ++ [(t, m)]))).
    { rewrite map_app. cbn [map fst]. apply sorted_snoc; [apply I|]. apply Forall_map. rewrite (s_log I).
      eapply Forall_impl; [|apply (s_q I)]. cbn. intros x Hx. unfold t. lia. }
    assert (Hrd : exists n, rinv a (map sg_msgs (init' ++ [lst'])) r D n).
    { destruct (s_rd I) as [n R]. destruct E4 as [E4|E4]; rewrite E4.
      - rewrite map_app in R. cbn [map] in R. eapply rinv_more, R.
      - destruct (rinv_next R) as [n' R']. rewrite <- (app_nil_l [(t, m)]). eapply rinv_more, R'. }
    destruct hard; inversion Hw; subst q'.
    + cbn [q_sync q_last] in Hid. exists a, init', (resync q1 lst').
      assert (Em : map sg_msgs (init' ++ [resync q1 lst']) = map sg_msgs (init' ++ [lst'])) by (rewrite !map_app; reflexivity).
      split; [apply sync_inv; [exact I'|lia]| | | | |].
      * unfold log_of. rewrite Em. symmetry. exact Elog.
      * cbn [q_sync q_ts]. symmetry. exact E1.
      * exact Hid.
      * exact Hsort.
      * rewrite Em. exact Hrd.
    + exists a, init', lst'. split; auto.
  - destruct IH as (a & init & lst & I). unfold mq_update in Hu. destruct (N.leb_spec TS_LIMIT ts); [discriminate|]. inversion Hu; subst q'.
    exists a, init, lst. assert (J := s_q I). assert (HT := s_ts I). subst T. split.
    + assert (TL := i_tsl J). split; [split| | | | | | | | |]; cbn [q_dir q_last q_open q_ts q_cyc q_max]; try apply J; try apply (i_read J).
      * eapply Forall_impl; [|apply (i_ts J)]. cbn. intros. lia.
      * eapply Forall_impl; [|apply (i_mts J)]. cbn. intros. lia.
      * lia.
    + apply I.
    + cbn. reflexivity.
    + apply I.
    + apply I.
    + apply I.
  - destruct IH as (a & init & lst & I). unfold mq_sync in Hs. rewrite (i_open (i_read (s_q I))) in Hs. inversion Hs; subst q'.
    exists a, init, (resync q lst). assert (P := pow10). assert (Z := s_id I).
    assert (Em : map sg_msgs (init ++ [resync q lst]) = map sg_msgs (init ++ [lst])) by (rewrite !map_app; reflexivity).
    split.
    + apply sync_inv; [apply I|lia].
    + unfold log_of. rewrite Em. apply I.
    + apply I.
    + apply I.
    + apply I.
    + rewrite Em. apply I.
  - destruct IH as (a & init & lst & I). unfold mq_close in Hc. rewrite (i_open (i_read (s_q I))) in Hc. injection Hc as <-. change (q_dir _) with (q_dir (q_sync q)) in Ho.
    assert (P := pow10). assert (Z := s_id I).
    assert (J := sync_inv (s_q I) ltac:(lia)). assert (R := i_read J). rewrite (i_dir R) in Ho.
    assert (O := i_ok R). assert (O' := O). rewrite Forall_app in O'. destruct O' as [_ O']. inversion O' as [|? ? O'' _]; subst.
    rewrite (@open_whole a init (resync q lst) max ign (i_contig R) O'') in Ho. inversion Ho; subst q2. clear Ho.
    assert (Em : map sg_msgs (init ++ [resync q lst]) = map sg_msgs (init ++ [lst])) by (rewrite !map_app; reflexivity).
    exists a, init, (resync q lst). cbn [resync sg_id sg_cyc sg_mts]. split.
    + split; [split| | | | | | | | |]; cbn [q_dir q_last q_open q_ts q_cyc q_max]; try apply R; try apply J; try reflexivity; try exact Hm.
      rewrite (i_last_id (i_read (s_q I))). apply (i_read (s_q I)).
    + unfold log_of. rewrite Em. apply I.
    + apply I.
    + cbn [q_last]. rewrite (i_last_id (i_read (s_q I))). exact Z.
    + apply I.
    + eexists. apply rinv_new.
  - destruct IH as (a & init & lst & I). exists a, init, lst. split; try apply I. eexists. apply rinv_new.
  - destruct IH as (a & init & lst & I). destruct (s_rd I) as [n R]. assert (P := turn_ok (i_read (s_q I)) R). rewrite Ht in P. destruct P as [_ P].
    cbn [fst snd] in P. destruct P as (n' & _ & P). exists a, init, lst. split; try apply I. eauto.
  - destruct IH as (a & init & lst & I). destruct (s_rd I) as [n R]. assert (P := turn_ok (i_read (s_q I)) R). rewrite Ht in P. destruct P as [_ P].
    cbn [fst snd] in P. destruct P as (n' & _ & P). exists a, init, lst. split; try apply I. eauto.
  - destruct IH as (a & init & lst & I). destruct (s_rd I) as [n R]. assert (P := turn_ok (i_read (s_q I)) R). rewrite Ht in P. destruct P as [_ P].
    cbn [fst snd] in P. destruct P as (_ & n' & P). exists a, init, lst. split; try apply I. eauto.
  - destruct IH as (a & init & lst & I). unfold last_size, synced_size in *. rewrite (s_f I), seg_blen in Hl.
    assert (RD := i_read (s_q I)). assert (O := i_ok RD). assert (O' := O). rewrite Forall_app in O'. destruct O' as [_ O']. inversion O' as [|? ? O'' _]; subst.
    rewrite (s_f I), (load_seg O''), seg_blen in Hy. rewrite (s_f I), seg_blen in Ho. rewrite <- rbytes_recs in *.
    assert (E := s_log I). rewrite log_of_app, log_of_one in E.
    assert (G : exists ms, sg_msgs lst = ms ++ lost /\ W = log_of init ++ ms).
    { clear - E Hl. apply app_eq_app in E. destruct E as [z [[E1 E2]|[E1 E2]]].
      - exists z. split; assumption.
      - rewrite E2, rbytes_app in Hl. assert (Z : rbytes z = 0) by lia. destruct z as [|x z]; [|cbn in Z; lia].
        cbn in E2. rewrite app_nil_r in E1. subst lost W. exists []. rewrite app_nil_r. auto. }
    destruct G as (ms & G1 & G2). rewrite G1, rbytes_app in Ho, Hy.
    replace (32 + (rbytes ms + rbytes lost) - rbytes lost) with (32 + rbytes ms) in Ho, Hy by lia.
    rewrite (@open_crash _ _ _ _ _ _ _ _ _ _ max ign I G1) in Ho. inversion Ho; subst q1. clear Ho.
    unfold mq_update in Hu. destruct (N.leb_spec TS_LIMIT ts) as [|Hts]; [discriminate|]. inversion Hu; subst q2. clear Hu. cbn [q_dir q_open q_last q_cyc q_ts q_max].
    assert (MT := i_mts (s_q I)). rewrite Forall_app in MT. destruct MT as [M1 M2]. inversion M2 as [|? ? M3 _]; subst.
    assert (TS := i_ts (s_q I)). rewrite log_of_app, log_of_one, G1, app_assoc, Forall_app in TS. destruct TS as [TS _].
    assert (HTT := s_ts I).
    assert (X : N.max ts (sg_mts lst) = ts) by lia. rewrite X.
    assert (RR := @with_msgs_read _ _ _ _ _ _ max RD G1).
    exists a, init, (with_msgs lst ms). split.
    + split; [split| | | | | | | | |]; cbn [q_dir q_last q_open q_ts q_cyc q_max]; try apply RR; try reflexivity; try exact Hm; try exact Hts.
      * rewrite log_of_app, log_of_one. cbn [with_msgs sg_msgs]. eapply Forall_impl; [|exact TS]. cbn. intros. lia.
      * apply Forall_app. split; [eapply Forall_impl; [|exact M1]; cbn; intros; lia|]. constructor; [cbn; lia|constructor].
      * assert (SZ := i_size (s_q I)). rewrite seg_blen in *. cbn [with_msgs sg_msgs]. rewrite G1, recs_app, blen_app in SZ. lia.
      * destruct (i_sync (s_q I)) as (k & K1 & K2 & K3). exists k. cbn [with_msgs sg_msgs sg_msize sg_mts].
        assert (Kk : (k <= length ms)%nat).
        { destruct (Nat.le_gt_cases k (length ms)) as [|Hgt]; [assumption|exfalso]. rewrite K2 in Hy. rewrite G1, firstn_app, firstn_all2, recs_app, blen_app, <- rbytes_recs in Hy by lia.
          destruct lost as [|x lost]; [rewrite G1, app_nil_r in K1; lia|]. replace (k - length ms)%nat with (S (k - length ms - 1)) in Hy by lia. cbn [firstn] in Hy.
          change (recs (x :: firstn (k - length ms - 1) lost)) with (mrec (fst x) (snd x) ++ recs (firstn (k - length ms - 1) lost)) in Hy. rewrite blen_app, mrec_blen in Hy. lia. }
        rewrite G1, firstn_app in K2, K3. replace (k - length ms)%nat with 0%nat in K2, K3 by lia. cbn [firstn] in K2, K3. rewrite app_nil_r in K2, K3. auto.
      * apply (s_q I).
      * apply (s_q I).
    + rewrite log_of_app, log_of_one. reflexivity.
    + reflexivity.
    + cbn [q_last]. rewrite (i_last_id RD). apply I.
    + assert (Z := s_sort I). rewrite map_app in Z. eapply sorted_app_l, Z.
    + eexists. apply rinv_new.
Qed.
Unset Implicit Arguments.

(** * C21 *)
Lemma keep_prefix min W W1 W2 : W = W1 ++ W2 -> keep min W = keep min W1 ++ keep min W2.
Proof. intros ->. apply keep_app. Qed.
Lemma rinv_prefix a L r D n : rinv a L r D n -> exists W1 W2, concat L = W1 ++ W2 /\ D = keep (r_min r) W1.
Proof.
  intros [_ H]. destruct (r_fid r) as [id|].
  - destruct H as (A & l & B & k & -> & _ & _ & _ & -> & _). exists (concat A ++ firstn k l), (skipn k l ++ concat B).
    split; [|reflexivity]. rewrite concat_app. cbn [concat]. rewrite <- app_assoc. f_equal. rewrite app_assoc, firstn_skipn. reflexivity.
  - destruct H as (_ & -> & _). exists [], (concat L). split; reflexivity.
Qed.
(** At every moment the reader has received, in order and without gaps, exactly the
    messages with timestamp >= min of some prefix of what has been written; the
    timestamps never decrease and the queue reports their running maximum. *)
Theorem C21_fifo : forall q r W T D, sys q r W T D ->
  (exists W1 W2, W = W1 ++ W2 /\ D = filter (fun x => r_min r <=? fst x) W1) /\
  StronglySorted N.le (map fst W) /\ Forall (fun x => fst x <= T) W /\ q_ts q = T.
Proof.
  intros q r W T D H. destruct (sys_inv H) as (a & init & lst & I). destruct (s_rd I) as [n R].
  assert (HT := s_ts I). subst T. split; [|split; [apply I|split; [|reflexivity]]].
  - destruct (rinv_prefix _ _ _ _ _ R) as (W1 & W2 & E1 & E2). exists W1, W2. split; [rewrite (s_log I); exact E1|exact E2].
  - rewrite (s_log I). apply (s_q I).
Qed.
(** One turn of Read never fails; it waits only when everything has been delivered,
    and what it returns is the next message due. *)
Theorem C21_read_turn : forall q r W T D, sys q r W T D ->
  let due := filter (fun x => r_min r <=? fst x) W in
  match fst (rd_turn q r) with
  | TFail _ => False
  | TWait => D = due
  | TGot t m => exists later, due = D ++ (t, m) :: later
  | TMore => True
  end.
Proof.
  intros q r W T D H due. destruct (sys_inv H) as (a & init & lst & I). destruct (s_rd I) as [n R].
  assert (P := turn_ok (i_read (s_q I)) R). unfold turn_post in P. destruct P as [Em P]. assert (EW := s_log I). fold (log_of (init ++ [lst])) in P.
  destruct (fst (rd_turn q r)) as [| |c|t m].
  - exact Logic.I.
  - destruct P as [P _]. rewrite P. unfold due. rewrite EW. reflexivity.
  - exact P.
  - destruct P as (n' & _ & P). destruct (rinv_prefix _ _ _ _ _ P) as (W1 & W2 & E1 & E2). fold (log_of (init ++ [lst])) in E1. rewrite <- EW in E1.
    rewrite Em in E2. exists (keep (r_min r) W2). change due with (keep (r_min r) W). rewrite E1, keep_app, <- E2, <- app_assoc. reflexivity.
Qed.
(** Reading until there is nothing more takes finitely many turns and delivers
    exactly the messages with timestamp >= min, in the order of writing. *)
Theorem C21_reads_all : forall q r W T D, sys q r W T D ->
  exists n, rd_all n q r D = Some (filter (fun x => r_min r <=? fst x) W, TWait).
Proof.
  intros q r W T D H. destruct (sys_inv H) as (a & init & lst & I). destruct (s_rd I) as [n R]. exists (S n).
  rewrite (rd_all_ok (i_read (s_q I)) R) by lia. rewrite (s_log I). reflexivity.
Qed.
(** Writing, synchronizing and updating the timestamp succeed on an open queue. *)
Theorem C21_write_succeeds : forall q r W T D hard ts m, sys q r W T D -> ts < 2^48 - 1 ->
  exists q', mq_write q hard ts m = (SUCCESS, q') /\ q_ts q' = N.max ts T.
Proof.
  intros q r W T D hard ts m H Hts. destruct (sys_inv H) as (a & init & lst & I). unfold mq_write.
  destruct (N.leb_spec TS_LIMIT ts) as [X|_]; [unfold TS_LIMIT in X; lia|]. rewrite (i_open (i_read (s_q I))). cbn [negb]. cbv zeta.
  eexists. split; [reflexivity|]. rewrite (s_ts I). destruct hard; cbn [q_sync q_ts q_write]; unfold q_write; cbv zeta; cbn [q_ts];
    destruct (q_max q <=? blen (f_of (q_dir q) (q_last q))); reflexivity.
Qed.
(** Closing and opening again, with any file size limit and either mode, succeeds and
    keeps the messages (sys_reopen) and the timestamp. *)
Theorem C21_reopen : forall q r W T D max ign, sys q r W T D ->
  exists q1 q2, mq_close q = (SUCCESS, q1) /\ mq_open (q_dir q1) max false ign = Some (SUCCESS, q2) /\
    q_ts q2 = T /\ q_last q2 = q_last q.
Proof.
  intros q r W T D max ign H. destruct (sys_inv H) as (a & init & lst & I). unfold mq_close. rewrite (i_open (i_read (s_q I))). cbv zeta.
  assert (P := pow10). assert (Z := s_id I). assert (J := sync_inv (s_q I) ltac:(lia)). assert (R := i_read J).
  eexists _, _. split; [reflexivity|]. change (q_dir (mkMq (q_dir (q_sync q)) _ _ _ _ _)) with (q_dir (q_sync q)). rewrite (i_dir R).
  assert (O := i_ok R). rewrite Forall_app in O. destruct O as [_ O]. inversion O as [|? ? O' _]; subst.
  split; [exact (@open_whole a init (resync q lst) max ign (i_contig R) O')|]. cbn [q_ts q_last resync sg_mts sg_id].
  split; [symmetry; apply I|]. apply (i_last_id (i_read (s_q I))).
Qed.
(** RemoveOldFiles, sparing the latest file, succeeds and removes only messages
    older than the threshold, from the oldest on; a new reader of what is left
    finds all the rest. *)
Lemma remove_old_ok th init lst : Forall seg_ok init -> StronglySorted N.le (map sg_mts init) ->
  exists A B, init = A ++ B /\ Forall (fun s => sg_mts s < th) A /\
    remove_old (map enc (init ++ [lst])) th true = (SUCCESS, map enc (B ++ [lst])).
Proof.
  intros F S. induction init as [|s init IH].
  - exists [], []. split; [reflexivity|]. split; [constructor|]. reflexivity.
  - inversion F; subst. inversion S; subst. destruct IH as (A & B & E1 & E2 & E3); [assumption|assumption|].
    assert (R : forall l, remove_old (enc s :: l) th true =
       match l with [] => (SUCCESS, [enc s]) | _ => let '(c, l1) := remove_old l th true in (c, if sg_mts s <? th then l1 else enc s :: l1) end).
    { intros l. unfold enc at 1. cbn [remove_old]. rewrite load_seg by assumption. destruct l; reflexivity. }
    cbn [map app]. rewrite R. rewrite E3. destruct (map enc (init ++ [lst])) eqn:El; [destruct init; discriminate|].
    destruct (N.ltb_spec (sg_mts s) th) as [X|X].
    + exists (s :: A), B. rewrite E1. split; [reflexivity|]. split; [constructor; assumption|]. reflexivity.
    + exists [], (s :: init). split; [reflexivity|]. split; [constructor|]. destruct A as [|x A].
      * cbn in E1. subst B. reflexivity.
      * exfalso. inversion E2; subst. match goal with H : Forall (N.le _) _ |- _ => cbn in H; inversion H; subst end. lia.
Qed.
Theorem C21_remove_old : forall q r W T D th, sys q r W T D ->
  exists W1 W2 d, W = W1 ++ W2 /\ Forall (fun x => fst x < th) W1 /\
    remove_old (q_dir q) th true = (SUCCESS, d) /\
    forall min, exists n, rd_all n (mkMq d (q_open q) (q_last q) (q_cyc q) (q_ts q) (q_max q)) (rd_new min) [] =
      Some (filter (fun x => min <=? fst x) W2, TWait).
Proof.
  intros q r W T D th H. destruct (sys_inv H) as (a & init & lst & I). assert (R := i_read (s_q I)).
  assert (O := i_ok R). assert (O' := O). rewrite Forall_app in O'. destruct O' as [O1 O2].
  destruct (remove_old_ok th init lst O1 (i_mono (s_q I))) as (A & B & E1 & E2 & E3).
  exists (log_of A), (log_of (B ++ [lst])), (map enc (B ++ [lst])).
  split; [rewrite (s_log I), E1, <- app_assoc, log_of_app; reflexivity|]. split; [|split; [rewrite (i_dir R); exact E3|]].
  - assert (X := i_init R). rewrite E1, Forall_app in X. destruct X as [X _]. clear - X E2. unfold log_of.
    induction A as [|s A IH]; cbn [map concat]; [constructor|]. inversion X; inversion E2; subst. apply Forall_app. split; [|apply IH; assumption].
    eapply Forall_impl; [|eassumption]. cbn. intros. lia.
  - assert (Q : qread (mkMq (map enc (B ++ [lst])) (q_open q) (q_last q) (q_cyc q) (q_ts q) (q_max q)) (a + N.of_nat (length A)) B lst).
    { assert (C := i_contig R). rewrite E1, <- app_assoc in C, O. apply contig_app in C. apply Forall_app in O. split; cbn [q_dir q_last q_open].
      - reflexivity.
      - apply C.
      - rewrite (i_last R), E1, app_length. lia.
      - apply O.
      - assert (X := i_init R). rewrite E1, Forall_app in X. apply X.
      - apply R. }
    intros min. eexists. rewrite (rd_all_ok Q (rinv_new _ _ _) (m := S _)) by apply Nat.lt_succ_diag_r. reflexivity.
Qed.
(** Without sparing it, messages as recent as wanted are removed: the metadata of
    the file being written is that of the last synchronization. *)
Theorem C21_remove_old_latest_refuted : exists q r W T D th x,
  sys q r W T D /\ In x W /\ th <= fst x /\ remove_old (q_dir q) th false = (SUCCESS, []).
Proof.
  destruct (mq_open [] 100 false false) as [[c q]|] eqn:E; [|discriminate]. assert (Ec : c = SUCCESS) by (cbv in E; congruence). subst c.
  destruct (mq_write q false 10 [97]) as [c q'] eqn:E'. assert (Ec : c = SUCCESS) by (cbv in E; inversion E; subst; cbv in E'; congruence). subst c.
  exists q', (rd_new 0), [(10, [97])], 10, [], 5, (10, [97]).
  split; [|split; [left; reflexivity|split; [cbn; lia|cbv in E; inversion E; subst; cbv in E'; inversion E'; subst; reflexivity]]].
  apply (sys_write q (rd_new 0) [] 0 [] false 10 [97] q'); [|constructor; [reflexivity|constructor]|reflexivity|exact E'|].
  - apply (sys_new 100 false 0); [cbn; lia|exact E].
  - cbv in E; inversion E; subst; cbv in E'; inversion E'; subst. reflexivity.
Qed.

(** A concrete run: a limit of 50 bytes makes two files of the four messages, the
    third one given a lower timestamp than the second. *)
Definition q_of (o : option (code * mq)) : mq := match o with Some (_, q) => q | None => mkMq [] false 0 None 0 0 end.
Definition tq0 : mq := q_of (mq_open [] 50 false false).
Lemma tq0_sys min : sys tq0 (rd_new min) [] 0 [].
Proof. apply (sys_new 50 false min); [discriminate|vm_compute; reflexivity]. Qed.
Definition eq1 : mq := Eval vm_compute in snd (mq_write tq0 false 5 [97]).
Definition eq2 : mq := Eval vm_compute in snd (mq_write eq1 true 7 [98; 99]).
Definition eq3 : mq := Eval vm_compute in snd (mq_write eq2 false 3 []).
Definition eq4 : mq := Eval vm_compute in snd (mq_write eq3 false 9 [100]).
Example C21_example :
  sys eq4 (rd_new 6) [(5, [97]); (7, [98; 99]); (7, []); (9, [100])] 9 [] /\ q_last eq4 = 1 /\
  rd_all 20 eq4 (rd_new 6) [] = Some ([(7, [98; 99]); (7, []); (9, [100])], TWait).
Proof.
  split; [|split; vm_compute; reflexivity].
  apply (sys_write eq3 (rd_new 6) [(5, [97]); (7, [98; 99]); (7, [])] 7 [] false 9 [100]);
    [|repeat constructor|reflexivity|vm_compute; reflexivity|vm_compute; reflexivity].
  apply (sys_write eq2 (rd_new 6) [(5, [97]); (7, [98; 99])] 7 [] false 3 []);
    [|repeat constructor|reflexivity|vm_compute; reflexivity|vm_compute; reflexivity].
  apply (sys_write eq1 (rd_new 6) [(5, [97])] 5 [] true 7 [98; 99]);
    [|repeat constructor|reflexivity|vm_compute; reflexivity|vm_compute; reflexivity].
  apply (sys_write tq0 (rd_new 6) [] 0 [] false 5 [97]);
    [apply tq0_sys|repeat constructor|reflexivity|vm_compute; reflexivity|vm_compute; reflexivity].
Qed.

(** * C22 *)
Lemma mrec_hd t m : hd 0 (mrec t m) = 255.
Proof. reflexivity. Qed.
Lemma zero_region_hd f o e y p : skipn (N.to_nat o) f = y :: p -> y <> 0 -> o < e -> zero_region f o e = false.
Proof.
  intros E Hy Ho. unfold zero_region, sub. rewrite E.
  assert (X : exists k, N.to_nat (N.min 131072 (e - o)) = S k) by (exists (N.to_nat (N.min 131072 (e - o) - 1)); lia).
  destruct X as [k ->]. cbn [firstn is_zero forallb]. unfold is_zero. cbn [forallb]. destruct (N.eqb_spec y 0); [contradiction|reflexivity].
Qed.
(** A crash keeps some first [n] >= 32 bytes of the last file.  Let [k] of its messages
    [Wl] be whole in those bytes.  Cut between two messages, the queue reopens with
    exactly the whole messages.  Cut inside a message it does not reopen at all
    without IGNORE_BROKEN; with it, it keeps the whole ones, and if less than the
    header of the torn one is there, they can all be read.
    What is missing (see the refutations below): reopening in all cases, the torn
    message with a complete header, the timestamps, and crashes in the metadata. *)
Theorem C22_recovery_partial : forall q r W T D n max ign, sys q r W T D -> 32 <= n <= last_size q ->
  exists Wi Wl k, W = Wi ++ Wl /\ (k <= length Wl)%nat /\ 32 + rbytes (firstn k Wl) <= n /\
    (k = length Wl \/ n < 32 + rbytes (firstn (S k) Wl)) /\
    let torn := n - (32 + rbytes (firstn k Wl)) in
    exists c q', mq_open (crash q n) max false ign = Some (c, q') /\
      (if (torn =? 0) || ign then c = SUCCESS else c = BROKEN_DATA_ERROR) /\
      ((torn =? 0) || (ign && (torn <? 11)) = true ->
        forall min, exists t, rd_all t q' (rd_new min) [] = Some (filter (fun x => min <=? fst x) (Wi ++ firstn k Wl), TWait)).
Proof.
  intros q r W T D n max ign H Hn. destruct (sys_inv H) as (a & init & lst & I). assert (R := i_read (s_q I)).
  assert (O := i_ok R). assert (O' := O). rewrite Forall_app in O'. destruct O' as [O1 O2]. inversion O2 as [|? ? O3 _]; subst.
  unfold last_size in Hn. rewrite (s_f I), seg_blen in Hn.
  destruct (@cut_split (sg_msgs lst) (N.to_nat (n - 32)) ltac:(unfold blen in Hn; lia)) as (k & p & K1 & K2 & K3 & K4).
  remember (firstn k (sg_msgs lst)) as ms eqn:Hms.
  assert (Ems : sg_msgs lst = ms ++ skipn k (sg_msgs lst)) by (rewrite Hms; symmetry; apply firstn_skipn).
  assert (En : n = 32 + rbytes ms + blen p) by (rewrite rbytes_recs; unfold blen in *; lia).
  assert (Rd : forall q', qread q' a init (with_msgs lst ms) -> forall min, exists t, rd_all t q' (rd_new min) [] = Some (filter (fun x => min <=? fst x) (log_of init ++ ms), TWait)).
  { intros q' Q min. eexists. rewrite (rd_all_ok Q (rinv_new _ _ _) (m := S _)) by apply Nat.lt_succ_diag_r. rewrite log_of_app, log_of_one. reflexivity. }
  exists (log_of init), (sg_msgs lst), k. rewrite <- Hms.
  split; [rewrite (s_log I), log_of_app, log_of_one; reflexivity|]. split; [exact K1|]. split; [lia|].
  destruct K4 as [->|(x & rest & p' & X1 & X2 & X3 & X4)].
  - rewrite blen_nil, N.add_0_r in En. split.
    { destruct (Nat.eq_dec k (length (sg_msgs lst))) as [|Hk]; [left; assumption|right].
      destruct (skipn k (sg_msgs lst)) as [|x rest] eqn:Es.
      - exfalso. apply (f_equal (@length msg)) in Es. rewrite skipn_length in Es. cbn in Es. lia.
      - assert (Ek : length ms = k) by (rewrite Hms; rewrite firstn_length; lia).
        rewrite Ems, firstn_app, Ek. replace (S k - k)%nat with 1%nat by lia. rewrite firstn_all2 by lia. cbn [firstn]. rewrite rbytes_app. cbn [rbytes]. lia. }
    cbv zeta. rewrite En, N.sub_diag. eexists _, _. split; [exact (@open_crash _ _ _ _ _ _ _ _ _ _ max ign I Ems)|].
    cbn [N.eqb orb]. split; [reflexivity|]. intros _. apply Rd. exact (@with_msgs_read _ _ _ _ _ _ max R Ems).
  - assert (Ek : length ms = k) by (rewrite Hms; rewrite firstn_length; lia).
    assert (Hp : 0 < blen p < 12 + blen (snd x)).
    { rewrite <- (mrec_blen (fst x)), X2, blen_app. destruct p; [congruence|]. destruct p'; [congruence|]. rewrite !blen_cons. lia. }
    split.
    { right. rewrite X1, firstn_app, Ek. replace (S k - k)%nat with 1%nat by lia. rewrite firstn_all2 by lia. cbn [firstn]. rewrite rbytes_app. cbn [rbytes]. lia. }
    cbv zeta. replace (n - (32 + rbytes ms)) with (blen p) by lia.
    destruct (N.eqb_spec (blen p) 0) as [|_]; [lia|]. cbn [orb].
    destruct O3 as (P1 & P2 & P3 & P4 & P5).
    assert (Fx : msg_ok x /\ Forall msg_ok ms).
    { rewrite X1 in P5. apply Forall_app in P5. destruct P5 as [P5 P6]. inversion P6; subst. auto. }
    destruct Fx as [Fx Fm].
    assert (Ed : crash q n = map enc init ++ [(a + N.of_nat (length init), meta_bytes (sg_cyc lst) (a + N.of_nat (length init)) (sg_mts lst) (sg_msize lst) ++ recs ms ++ p)]).
    { rewrite (crash_dir _ I), <- (i_last R). f_equal. f_equal. f_equal. unfold seg_bytes. rewrite (i_last_id R).
      rewrite firstn_app, meta_len. rewrite firstn_all2 by (rewrite meta_len; lia). f_equal. rewrite <- K2. f_equal. lia. }
    rewrite Ed. clear Ed. set (M := meta_bytes (sg_cyc lst) (a + N.of_nat (length init)) (sg_mts lst) (sg_msize lst)).
    assert (C := i_contig R). apply contig_app in C. destruct C as [C [C' _]].
    assert (OP := @open_unfold a init (sg_cyc lst) (sg_mts lst) (sg_msize lst) (recs ms ++ p) max ign C P1 ltac:(rewrite <- C'; exact P2) P3 P4).
    cbv zeta in OP. fold M in OP.
    assert (LM : blen M = 32) by apply meta_blen.
    assert (NS : sg_msize lst =? blen (M ++ recs ms ++ p) = false).
    { apply N.eqb_neq. rewrite !blen_app, LM, <- rbytes_recs. destruct (i_sync (s_q I)) as (k' & Y1 & Y2 & _). rewrite Y2.
      destruct (Nat.le_gt_cases k' k) as [Hk|Hk].
      - assert (Z := @recs_firstn_le (sg_msgs lst) k' k Hk). rewrite <- Hms in Z. rewrite rbytes_recs. unfold blen in *. lia.
      - assert (Z := @recs_firstn_le (sg_msgs lst) (S k) k' Hk). rewrite X1 in Z at 1. rewrite firstn_app, Ek in Z. replace (S k - k)%nat with 1%nat in Z by lia.
        rewrite firstn_all2 in Z by lia. cbn [firstn] in Z. rewrite recs_app, recs_one, app_length in Z. rewrite rbytes_recs.
        assert (Z2 := mrec_blen (fst x) (snd x)). unfold blen in *. lia. }
    rewrite NS in OP. clear NS.
    assert (ZR : forall o, o = 32 + rbytes ms -> zero_region (M ++ recs ms ++ p) o (blen (M ++ recs ms ++ p)) = false).
    { intros o ->. destruct p as [|y p]; [congruence|].
      assert (Ey : y = 255) by (apply (f_equal (hd 0)) in X2; rewrite mrec_hd in X2; symmetry; exact X2).
      apply zero_region_hd with y p; [|rewrite Ey; discriminate|rewrite !blen_app, LM, <- rbytes_recs, blen_cons; lia].
      rewrite app_assoc. apply skipn_exact. rewrite app_length, rbytes_recs. unfold M. rewrite meta_len. unfold blen. lia. }
    destruct (N.ltb_spec (blen p) 11) as [H11|H11].
    + assert (SC := @scan_cut_header M ms p Fm LM H11). rewrite SC in OP. rewrite <- rbytes_recs in OP.
      rewrite (ZR _ eq_refl), Bool.andb_false_r, Bool.orb_false_r in OP.
      destruct (N.eqb_spec (32 + rbytes ms) (blen (M ++ recs ms ++ p))) as [Z|_];
        [rewrite !blen_app, LM, <- rbytes_recs in Z; lia|]. cbn [orb] in OP.
      destruct ign; cbn [andb orb].
      * eexists _, _. split; [exact OP|]. split; [reflexivity|]. intros _.
        replace (cut_to (M ++ recs ms ++ p) (32 + rbytes ms)) with (seg_bytes (with_msgs lst ms)).
        2: { rewrite app_assoc. rewrite cut_to_app by (rewrite blen_app, LM, rbytes_recs; reflexivity). unfold seg_bytes. cbn [with_msgs sg_cyc sg_id sg_mts sg_msize sg_msgs]. rewrite C'. reflexivity. }
        apply Rd. assert (Q := @with_msgs_read _ _ _ _ _ _ max R Ems). rewrite map_app in Q. cbn [map enc with_msgs sg_id] in Q. unfold enc at 2 in Q. cbn [with_msgs sg_id] in Q. rewrite C' in Q. exact Q.
      * eexists _, _. split; [exact OP|]. split; [reflexivity|]. discriminate.
    + assert (SC := @scan_cut_body M ms x p p' Fm Fx LM H11 X3 X2). rewrite SC in OP. rewrite <- rbytes_recs, mrec_blen in OP.
      destruct (N.eqb_spec (32 + rbytes ms + (12 + blen (snd x))) (blen (M ++ recs ms ++ p))) as [Z|_];
        [rewrite !blen_app, LM, <- rbytes_recs in Z; lia|].
      destruct (N.ltb_spec (32 + rbytes ms + (12 + blen (snd x))) (blen (M ++ recs ms ++ p))) as [Z|_];
        [rewrite !blen_app, LM, <- rbytes_recs in Z; lia|]. cbn [andb orb] in OP. rewrite Bool.orb_false_r in OP.
      destruct ign; cbn [andb orb].
      * eexists _, _. split; [exact OP|]. split; [reflexivity|]. discriminate.
      * eexists _, _. split; [exact OP|]. split; [reflexivity|]. discriminate.
Qed.

(** The end of the last file may also read as zeros (a file extended before the
    data reached the disk).  After whole messages, any number of zeros is cut off
    and the queue reopens in both modes. *)
Theorem C22_zero_tail : forall q r W T D lost z max ign, sys q r W T D ->
  (exists kept, W = kept ++ lost) -> 32 + rbytes lost <= last_size q -> z <> 0%nat ->
  synced_size q <> last_size q - rbytes lost + N.of_nat z ->
  exists kept q', W = kept ++ lost /\
    mq_open (f_put (q_dir q) (q_last q) (firstn (N.to_nat (last_size q - rbytes lost)) (f_of (q_dir q) (q_last q)) ++ repeat 0 z)) max false ign
      = Some (SUCCESS, q') /\
    forall min, exists t, rd_all t q' (rd_new min) [] = Some (filter (fun x => min <=? fst x) kept, TWait).
Proof.
  intros q r W T D lost z max ign H [W0 EW] Hl Hz Hy. subst W. destruct (sys_inv H) as (a & init & lst & I). assert (R := i_read (s_q I)).
  unfold last_size, synced_size in *. rewrite (s_f I) in *. rewrite seg_blen, <- rbytes_recs in *.
  assert (O := i_ok R). assert (O' := O). rewrite Forall_app in O'. destruct O' as [_ O']. inversion O' as [|? ? O'' _]; subst.
  rewrite (load_seg O'') in Hy.
  assert (E := s_log I). rewrite log_of_app, log_of_one in E.
  assert (G : exists ms, sg_msgs lst = ms ++ lost /\ W0 = log_of init ++ ms).
  { clear - E Hl. apply app_eq_app in E. destruct E as [w [[E1 E2]|[E1 E2]]].
    - exists w. split; assumption.
    - rewrite E2, rbytes_app in Hl. assert (Z : rbytes w = 0) by lia. destruct w as [|x w]; [|cbn in Z; lia].
      cbn in E2. rewrite app_nil_r in E1. subst lost W0. exists []. rewrite app_nil_r. auto. }
  destruct G as (ms & G1 & G2). exists W0. rewrite G1, rbytes_app in *.
  replace (32 + (rbytes ms + rbytes lost) - rbytes lost) with (32 + rbytes ms) in * by lia.
  destruct O'' as (P1 & P2 & P3 & P4 & P5). rewrite G1, Forall_app in P5. destruct P5 as [P5 _].
  assert (C := i_contig R). assert (C0 := C). apply contig_app in C. destruct C as [C [C' _]].
  set (M := meta_bytes (sg_cyc lst) (a + N.of_nat (length init)) (sg_mts lst) (sg_msize lst)).
  assert (LM : blen M = 32) by apply meta_blen.
  assert (ED : f_put (q_dir q) (q_last q) (firstn (N.to_nat (32 + rbytes ms)) (seg_bytes lst) ++ repeat 0 z) = map enc init ++ [(a + N.of_nat (length init), M ++ recs ms ++ repeat 0 z)]).
  { rewrite (i_dir R), (i_last R), f_put_at by exact C0. cbn [map]. f_equal. f_equal. f_equal. rewrite app_assoc. f_equal. unfold seg_bytes. rewrite C'. fold M.
    rewrite G1, recs_app, app_assoc. apply firstn_exact. rewrite app_length, rbytes_recs. unfold M. rewrite meta_len. unfold blen. lia. }
  rewrite ED. clear ED.
  assert (OP := @open_unfold a init (sg_cyc lst) (sg_mts lst) (sg_msize lst) (recs ms ++ repeat 0 z) max ign C P1 ltac:(rewrite <- C'; exact P2) P3 P4).
  cbv zeta in OP. fold M in OP.
  assert (LF : blen (M ++ recs ms ++ repeat 0 z) = 32 + rbytes ms + N.of_nat z).
  { rewrite !blen_app, LM, <- rbytes_recs. assert (X : blen (repeat 0 z) = N.of_nat z) by (unfold blen; rewrite repeat_length; reflexivity). lia. }
  rewrite LF in OP. destruct (N.eqb_spec (sg_msize lst) (32 + rbytes ms + N.of_nat z)) as [X|_]; [contradiction|].
  rewrite (@scan_zeros M ms z P5 LM) in OP. rewrite <- rbytes_recs in OP.
  destruct (N.ltb_spec (32 + rbytes ms) (32 + rbytes ms + N.of_nat z)) as [_|X]; [|lia].
  assert (ZR : zero_region (M ++ recs ms ++ repeat 0 z) (32 + rbytes ms) (32 + rbytes ms + N.of_nat z) = true).
  { rewrite <- LF. rewrite app_assoc. apply zero_region_tail. rewrite blen_app, LM, rbytes_recs. reflexivity. }
  rewrite ZR, Bool.orb_true_r in OP. eexists. split; [reflexivity|]. split; [exact OP|].
  replace (cut_to (M ++ recs ms ++ repeat 0 z) (32 + rbytes ms)) with (seg_bytes (with_msgs lst ms)).
  2: { rewrite app_assoc. rewrite cut_to_app by (rewrite blen_app, LM, rbytes_recs; reflexivity). unfold seg_bytes. cbn [with_msgs sg_cyc sg_id sg_mts sg_msize sg_msgs]. rewrite C'. reflexivity. }
  assert (Q := @with_msgs_read _ _ _ _ _ _ max R G1). rewrite map_app in Q. cbn [map] in Q. unfold enc at 2 in Q. cbn [with_msgs sg_id] in Q. rewrite C' in Q.
  intros min. eexists. rewrite (rd_all_ok Q (rinv_new _ _ _) (m := S _)) by apply Nat.lt_succ_diag_r. rewrite log_of_app, log_of_one, G2. reflexivity.
Qed.

(** A crash while the metadata is being rewritten (Synchronize writes 32 bytes in
    place): the first [j] bytes are new.  Up to the magic data nothing changed; from
    there on the cyclic magic differs at the two ends, and Open fails in both modes
    (also with IGNORE_BROKEN): no message can be read any more. *)
Definition torn_sync (q : mq) (j : nat) : dir :=
  f_put (q_dir q) (q_last q)
    (firstn j (f_of (q_dir (q_sync q)) (q_last q)) ++ skipn j (f_of (q_dir q) (q_last q))).
Lemma cyc_next_neq c : c < 256 -> cyc_next (Some c) <> c.
Proof.
  intros H. cbn [cyc_next]. destruct (N.eq_dec c 255) as [->|]; [discriminate|]. rewrite N.mod_small by lia. lia.
Qed.
Lemma open_bad_meta a init f fid ts size max ign : contig a init -> load_meta f = inr (None, fid, ts, size) ->
  exists q', mq_open (map enc init ++ [(a + N.of_nat (length init), f)]) max false ign = Some (BROKEN_DATA_ERROR, q').
Proof.
  intros C El. set (id := a + N.of_nat (length init)).
  assert (Er : rev (map enc init ++ [(id, f)]) = (id, f) :: rev (map enc init)) by (rewrite rev_app_distr; reflexivity).
  assert (Ef : f_of (map enc init ++ [(id, f)]) id = f) by apply f_get_last, C.
  assert (Ene : exists x y, f = x :: y) by (destruct f; [discriminate El|eauto]).
  revert Er Ef.
  assert (Ed : exists x y, map enc init ++ [(id, f)] = x :: y) by (destruct init; cbn; eauto).
  destruct Ed as (dx & dy & Ed). rewrite Ed. intros Er Ef. destruct Ene as (x & y & ->).
  unfold mq_open. rewrite Er. cbv zeta. cbn [q_dir]. rewrite Ef. cbn iota. cbn [q_dir]. rewrite Ef, El.
  change (code_eqb BROKEN_DATA_ERROR SUCCESS) with false. cbn [negb andb].
  destruct ign; cbn [negb]; [|eexists; reflexivity].
  change MQ_META_SIZE with 32. destruct (scan_file (x :: y)) as [o ->].
  destruct ((o =? _) || true || _); eexists; reflexivity.
Qed.
Theorem C22_torn_metadata_refuted : forall q r W T D, sys q r W T D ->
  (forall j, (j <= 9)%nat -> torn_sync q j = q_dir q) /\
  torn_sync q 32 = q_dir (q_sync q) /\
  (forall j max ign, (10 <= j <= 31)%nat -> exists q', mq_open (torn_sync q j) max false ign = Some (BROKEN_DATA_ERROR, q')).
Proof.
  intros q r W T D H. destruct (sys_inv H) as (a & init & lst & I). assert (R := i_read (s_q I)). assert (P := pow10). assert (Z := s_id I).
  assert (J := sync_inv (s_q I) ltac:(lia)). assert (C := i_contig R). assert (C0 := C). apply contig_app in C. destruct C as [C [C' _]].
  assert (O := i_ok R). rewrite Forall_app in O. destruct O as [_ O]. inversion O as [|? ? (P1 & P2 & P3 & P4 & P5) _]; subst. clear O.
  assert (F2 : f_of (q_dir (q_sync q)) (q_last q) = seg_bytes (resync q lst)).
  { unfold f_of. assert (X := i_file (i_read J)). cbn [q_sync q_last] in X. cbn [q_sync q_last] . unfold q_sync in X. cbn [q_last] in X. unfold q_sync. rewrite X. reflexivity. }
  assert (T0 : forall j, torn_sync q j = map enc init ++ [(a + N.of_nat (length init), firstn j (seg_bytes (resync q lst)) ++ skipn j (seg_bytes lst))]).
  { intros j. unfold torn_sync. rewrite F2, (s_f I), (i_dir R), (i_last R), f_put_at by exact C0. reflexivity. }
  set (M1 := meta_bytes (sg_cyc lst) (sg_id lst) (sg_mts lst) (sg_msize lst)) in *.
  assert (S1 : seg_bytes lst = M1 ++ recs (sg_msgs lst)) by reflexivity.
  set (M2 := meta_bytes (cyc_next (q_cyc q)) (sg_id lst) (q_ts q) (blen (seg_bytes lst))) in *.
  assert (S2 : seg_bytes (resync q lst) = M2 ++ recs (sg_msgs lst)) by reflexivity.
  assert (L1 : length M1 = 32%nat) by apply meta_len. assert (L2 : length M2 = 32%nat) by apply meta_len.
  split; [|split].
  - intros j Hj. rewrite T0. rewrite (i_dir R), map_app. f_equal. cbn [map]. unfold enc. rewrite C'. f_equal. f_equal.
    replace (firstn j (seg_bytes (resync q lst))) with (firstn j (seg_bytes lst)); [apply firstn_skipn|].
    rewrite S1, S2. unfold M1, M2, meta_bytes. rewrite <- !app_assoc. rewrite !firstn_app.
    change (length mq_magic) with 9%nat. replace (j - 9)%nat with 0%nat by lia. reflexivity.
  - rewrite T0, (i_dir (i_read J)), map_app. f_equal. cbn [map]. unfold enc. cbn [resync sg_id]. rewrite C'. reflexivity.
  - intros j max ign Hj. rewrite T0.
    assert (E : exists fid ts size, load_meta (firstn j (seg_bytes (resync q lst)) ++ skipn j (seg_bytes lst)) = inr (None, fid, ts, size)).
    { set (f := firstn j (seg_bytes (resync q lst)) ++ skipn j (seg_bytes lst)).
      assert (Ef : f = firstn j M2 ++ skipn j M1 ++ recs (sg_msgs lst)).
      { unfold f. rewrite S1, S2, firstn_app, skipn_app, L1, L2. replace (j - 32)%nat with 0%nat by lia. cbn [firstn skipn]. rewrite app_nil_r. reflexivity. }
      unfold load_meta. assert (Lf : blen f = 32 + blen (recs (sg_msgs lst))).
      { rewrite Ef, !blen_app. unfold blen. rewrite firstn_length, skipn_length, L1, L2. lia. }
      destruct (N.ltb_spec (blen f) MQ_META_SIZE) as [X|_]; [unfold MQ_META_SIZE in X; lia|].
      assert (E9 : firstn 9 f = mq_magic).
      { rewrite Ef. rewrite firstn_app, firstn_firstn, firstn_length, L2. replace (9 - _)%nat with 0%nat by lia. replace (Nat.min 9 j) with 9%nat by lia.
        rewrite firstn_O, app_nil_r. unfold M2, meta_bytes. apply firstn_exact. reflexivity. }
      rewrite E9, beqb_refl. cbn [negb]. cbv zeta.
      assert (E10 : read_fix 1 (skipn 9 f) = cyc_next (q_cyc q)).
      { rewrite Ef. rewrite skipn_app, firstn_length, L2. replace (9 - _)%nat with 0%nat by lia. rewrite skipn_O.
        replace (firstn j M2) with (mq_magic ++ write_fix 1 (cyc_next (q_cyc q)) ++ firstn (j - 10) (skipn 10 M2)).
        2: { replace j with (10 + (j - 10))%nat at 2 by lia. rewrite <- (firstn_skipn 10 M2) at 2. rewrite firstn_app. 
             rewrite (firstn_all2 (n := 10 + (j - 10))) by (rewrite firstn_length; lia). rewrite firstn_length, L2. replace (10 + (j - 10) - Nat.min 10 32)%nat with (j - 10)%nat by lia.
             rewrite app_assoc. f_equal. }
        rewrite skipn_exact by reflexivity. rewrite <- app_assoc. apply read_write_fix. apply cyc_next_lt. }
      assert (E31 : read_fix 1 (skipn 31 f) = sg_cyc lst).
      { rewrite Ef. rewrite skipn_app, firstn_length, L2. rewrite (skipn_all2 (firstn j M2)) by (rewrite firstn_length; lia).
        rewrite skipn_app, skipn_length, L1. cbn [app]. replace (31 - Nat.min j 32 - (32 - j))%nat with 0%nat by lia. cbn [skipn].
        assert (Es : skipn (31 - Nat.min j 32) (skipn j M1) = write_fix 1 (sg_cyc lst)).
        { replace (skipn (31 - Nat.min j 32) (skipn j M1)) with (skipn 31 M1).
          - unfold M1, meta_bytes. rewrite !app_assoc. apply skipn_exact. rewrite !app_length, !write_fix_length. reflexivity.
          - rewrite <- (firstn_skipn j M1) at 1. rewrite skipn_app, firstn_length, L1. rewrite skipn_all2 by (rewrite firstn_length; lia). reflexivity. }
        rewrite Es. apply read_write_fix. exact P1. }
      rewrite E10, E31. rewrite (i_cyc (s_q I)). destruct (N.eqb_spec (cyc_next (Some (sg_cyc lst))) (sg_cyc lst)) as [X|_]; [destruct (cyc_next_neq _ P1 X)|].
      eexists _, _, _. reflexivity. }
    destruct E as (fid & ts & size & E). eapply open_bad_meta; [exact C|exact E].
Qed.

(** A crash just after a new file has been made, in its first 32 bytes: Open fails
    in both modes for ever (and on each attempt, the file being left as it is). *)
Theorem C22_short_file_refuted : forall q r W T D n max ign, sys q r W T D -> 0 < n < 32 ->
  exists q', mq_open (crash q n) max false ign = Some (INFEASIBLE_ERROR, q') /\ q_dir q' = crash q n.
Proof.
  intros q r W T D n max ign H Hn. destruct (sys_inv H) as (a & init & lst & I). assert (R := i_read (s_q I)).
  assert (C := i_contig R). apply contig_app in C. destruct C as [C _].
  rewrite (crash_dir _ I), (i_last R). set (id := a + N.of_nat (length init)). set (f := firstn (N.to_nat n) (seg_bytes lst)).
  assert (Lf : blen f = n). { unfold f, blen. rewrite firstn_length. assert (X := seg_blen lst). unfold blen in X. lia. }
  assert (Er : rev (map enc init ++ [(id, f)]) = (id, f) :: rev (map enc init)) by (rewrite rev_app_distr; reflexivity).
  assert (Ef : f_of (map enc init ++ [(id, f)]) id = f) by apply f_get_last, C.
  assert (Ene : exists x y, f = x :: y) by (destruct f; [rewrite blen_nil in Lf; lia|eauto]).
  assert (El : load_meta f = inl INFEASIBLE_ERROR).
  { unfold load_meta. destruct (N.ltb_spec (blen f) MQ_META_SIZE) as [_|X]; [reflexivity|unfold MQ_META_SIZE in X; lia]. }
  revert Er Ef.
  assert (Ed : exists x y, map enc init ++ [(id, f)] = x :: y) by (destruct init; cbn; eauto).
  destruct Ed as (dx & dy & Ed). rewrite Ed. intros Er Ef. clearbody f. destruct Ene as (x & y & ->).
  unfold mq_open. rewrite Er. cbv zeta. cbn [q_dir]. rewrite Ef. cbn iota. cbn [q_dir]. rewrite Ef, El. eexists. split; reflexivity.
Qed.

(** The timestamp after recovery is that of the last synchronization, not of the
    recovered messages: here a message of time 10 is delivered, then one of time 5. *)
Definition tq1 : mq := snd (mq_write tq0 false 10 [97]).
Definition tq2 : mq := q_of (mq_open (crash tq1 (last_size tq1)) 50 false false).
Definition tq3 : mq := snd (mq_write tq2 false 5 [98]).
Lemma tq1_sys min : sys tq1 (rd_new min) [(10, [97])] 10 [].
Proof.
  change [(10, [97])] with ([] ++ [(N.max 10 0, [97])]). change 10 with (N.max 10 0) at 2.
  apply (sys_write tq0 (rd_new min) [] 0 [] false 10 [97] tq1); [|constructor; [reflexivity|constructor]|reflexivity|vm_compute; reflexivity|vm_compute; reflexivity].
  apply (sys_new 50 false min); [discriminate|vm_compute; reflexivity].
Qed.
Theorem C22_timestamp_refuted :
  sys tq1 (rd_new 0) [(10, [97])] 10 [] /\
  mq_open (crash tq1 (last_size tq1)) 50 false false = Some (SUCCESS, tq2) /\ q_ts tq2 = 0 /\
  mq_write tq2 false 5 [98] = (SUCCESS, tq3) /\
  rd_all 10 tq3 (rd_new 0) [] = Some ([(10, [97]); (5, [98])], TWait).
Proof. split; [apply tq1_sys|]. vm_compute. repeat split. Qed.
(** Worse: a reader starting at time 7 then misses the message of time 10 once its
    file has been closed with the lower time in the metadata. *)
Definition tq4 : mq := snd (mq_write (snd (mq_write tq3 false 5 [99])) false 8 [100]).
Theorem C22_message_missed_refuted :
  rd_all 10 tq4 (rd_new 0) [] = Some ([(10, [97]); (5, [98]); (5, [99]); (8, [100])], TWait) /\
  rd_all 10 tq4 (rd_new 7) [] = Some ([(8, [100])], TWait).
Proof. vm_compute. split; reflexivity. Qed.
(** A crash between the creation of a new file and the writing of its metadata loses
    the timestamp altogether. *)
Definition tq5 : mq := snd (mq_write (snd (mq_write tq0 true 10 (repeat 97 20))) true 11 [98]).
Theorem C22_new_file_refuted :
  q_ts tq5 = 11 /\ q_last tq5 = 1 /\
  (let q := q_of (mq_open (crash tq5 0) 50 false false) in
   q_ts q = 0 /\ rd_all 10 (snd (mq_write q true 3 [99])) (rd_new 0) [] = Some ([(10, repeat 97 20); (3, [99])], TWait)).
Proof. vm_compute. repeat split. Qed.
(** A message torn after three bytes whose rest reads as zeros: Open succeeds, and
    reading fails. *)
Theorem C22_zero_fill_refuted :
  let f := f_of (q_dir tq1) 0 in
  let d := f_put (q_dir tq1) 0 (firstn 35 f ++ repeat 0 10) in
  length f = 45%nat /\
  exists q, mq_open d 50 false false = Some (SUCCESS, q) /\ rd_all 10 q (rd_new 0) [] = Some ([], TFail BROKEN_DATA_ERROR).
Proof. intros f d. split; [vm_compute; reflexivity|]. exists (q_of (mq_open d 50 false false)). split; vm_compute; reflexivity. Qed.
(** IGNORE_BROKEN with the header of the torn message complete: the file is extended
    and readers fail at the message from then on. *)
Theorem C22_torn_body_refuted :
  let d := crash tq1 44 in
  exists q, mq_open d 50 false true = Some (SUCCESS, q) /\ rd_all 10 q (rd_new 0) [] = Some ([], TFail BROKEN_DATA_ERROR) /\
    rd_all 10 (snd (mq_write q true 20 [98])) (rd_new 0) [] = Some ([], TFail BROKEN_DATA_ERROR).
Proof. intros d. exists (q_of (mq_open d 50 false true)). split; [|split]; vm_compute; reflexivity. Qed.
(** The hypotheses of the recovery theorem are met by a crash inside the message. *)
Example C22_example : sys tq1 (rd_new 0) [(10, [97])] 10 [] /\ 32 <= 40 <= last_size tq1 /\
  option_map fst (mq_open (crash tq1 40) 50 false false) = Some BROKEN_DATA_ERROR /\
  option_map fst (mq_open (crash tq1 40) 50 false true) = Some SUCCESS /\
  exists q, mq_open (f_put (q_dir tq1) 0 (firstn 32 (f_of (q_dir tq1) 0) ++ repeat 0 9)) 50 false false = Some (SUCCESS, q).
Proof. split; [apply tq1_sys|]. split; [vm_compute; split; discriminate|]. split; [vm_compute; reflexivity|]. split; [vm_compute; reflexivity|]. eexists. vm_compute. reflexivity. Qed.

Print Assumptions C21_fifo. Print Assumptions C21_read_turn. Print Assumptions C21_reads_all. Print Assumptions C21_write_succeeds.
Print Assumptions C21_reopen. Print Assumptions C21_remove_old. Print Assumptions C21_remove_old_latest_refuted.
Print Assumptions C22_recovery_partial. Print Assumptions C22_zero_tail. Print Assumptions C22_torn_metadata_refuted.
Print Assumptions C22_short_file_refuted. Print Assumptions C22_timestamp_refuted. Print Assumptions C22_message_missed_refuted.
Print Assumptions C22_new_file_refuted. Print Assumptions C22_zero_fill_refuted. Print Assumptions C22_torn_body_refuted.
