(** Lemmas about the message queue. *)
From Coq Require Import Sorted.
From Verif Require Import Bytes CodecModel CodecProofs HashUtilModel HashUtilProofs StatusModel MqModel.
Local Open Scope N_scope.

(** * Pieces of files *)
Lemma sub_app a x c : sub (a ++ x ++ c) (blen a) (blen x) = x.
Proof.
  unfold sub. rewrite !to_nat_blen. rewrite skipn_app, skipn_all, Nat.sub_diag. cbn [app skipn].
  rewrite firstn_app, firstn_all, Nat.sub_diag. cbn [firstn]. apply app_nil_r.
Qed.
Lemma sub_app_eq a x c off n : off = blen a -> n = blen x -> sub (a ++ x ++ c) off n = x.
Proof. intros -> ->. apply sub_app. Qed.
Lemma blen_write_fix w n : blen (write_fix w n) = N.of_nat w.
Proof. unfold blen. rewrite write_fix_length. reflexivity. Qed.
Lemma skipn_exact {A} n (a b : list A) : n = length a -> skipn n (a ++ b) = b.
Proof. intros ->. rewrite skipn_app, skipn_all, Nat.sub_diag. reflexivity. Qed.
Lemma firstn_exact {A} n (a b : list A) : n = length a -> firstn n (a ++ b) = a.
Proof. intros ->. rewrite firstn_app, firstn_all, Nat.sub_diag. cbn. apply app_nil_r. Qed.

Lemma meta_len cyc fid ts size : length (meta_bytes cyc fid ts size) = 32%nat.
Proof. unfold meta_bytes. rewrite !app_length, !write_fix_length. reflexivity. Qed.
Lemma meta_blen cyc fid ts size : blen (meta_bytes cyc fid ts size) = 32.
Proof. unfold blen. rewrite meta_len. reflexivity. Qed.

Lemma load_meta_ok cyc fid ts size rest : cyc < 256 -> fid < 2^48 -> ts < 2^48 -> size < 2^48 ->
  load_meta (meta_bytes cyc fid ts size ++ rest) = inr (Some cyc, fid, ts, size).
Proof.
  intros H1 H2 H3 H4. unfold load_meta. rewrite blen_app, meta_blen.
  destruct (N.ltb_spec (32 + blen rest) MQ_META_SIZE) as [X|_]; [unfold MQ_META_SIZE in X; lia|].
  unfold meta_bytes. rewrite <- !app_assoc.
  rewrite (firstn_exact 9 mq_magic) by reflexivity. rewrite beqb_refl. cbn [negb].
  assert (S9 : forall r, skipn 9 (mq_magic ++ r) = r) by (intros; apply skipn_exact; reflexivity).
  assert (S10 : forall r, skipn 10 (mq_magic ++ write_fix 1 cyc ++ r) = r).
  { intros r. rewrite app_assoc. apply skipn_exact. rewrite app_length, write_fix_length. reflexivity. }
  assert (S16 : forall r, skipn 16 (mq_magic ++ write_fix 1 cyc ++ write_fix 6 fid ++ r) = r).
  { intros r. rewrite (app_assoc mq_magic), (app_assoc (mq_magic ++ _)). apply skipn_exact. rewrite !app_length, !write_fix_length. reflexivity. }
  assert (S22 : forall r, skipn 22 (mq_magic ++ write_fix 1 cyc ++ write_fix 6 fid ++ write_fix 6 ts ++ r) = r).
  { intros r. rewrite (app_assoc mq_magic), (app_assoc (mq_magic ++ _)), (app_assoc ((mq_magic ++ _) ++ _)). apply skipn_exact.
    rewrite !app_length, !write_fix_length. reflexivity. }
  assert (S31 : forall r, skipn 31 (mq_magic ++ write_fix 1 cyc ++ write_fix 6 fid ++ write_fix 6 ts ++ write_fix 6 size ++ [0;0;0] ++ r) = r).
  { intros r. rewrite (app_assoc mq_magic), (app_assoc (mq_magic ++ _)), (app_assoc ((mq_magic ++ _) ++ _)),
      (app_assoc (((mq_magic ++ _) ++ _) ++ _)), (app_assoc ((((mq_magic ++ _) ++ _) ++ _) ++ _)). apply skipn_exact.
    rewrite !app_length, !write_fix_length. reflexivity. }
  cbv zeta. rewrite S9, S10, S16, S22, S31.
  rewrite !read_write_fix by (cbn; lia). rewrite N.eqb_refl. reflexivity.
Qed.

(** * Records *)
Definition msg := (N * bytes)%type.
Definition msg_ok (x : msg) : Prop := fst x < TS_LIMIT /\ bytes_ok (snd x) /\ blen (snd x) < UINT32MAX.
Definition recs (l : list msg) : bytes := concat (map (fun x => mrec (fst x) (snd x)) l).

Lemma rec_header_blen ts n : blen (rec_header ts n) = 11.
Proof. unfold rec_header. rewrite blen_cons, blen_app, !blen_write_fix. reflexivity. Qed.
Lemma mrec_blen ts m : blen (mrec ts m) = 12 + blen m.
Proof. unfold mrec. cbv zeta. rewrite !blen_app, rec_header_blen. unfold blen at 2. cbn [length]. lia. Qed.
Lemma rec_header_ok ts n : bytes_ok (rec_header ts n).
Proof.
  unfold rec_header. constructor; [unfold byte_ok, MQ_REC_MAGIC; lia|]. apply bytes_ok_app. split; apply write_fix_ok.
Qed.
Lemma csum_agree h m : bytes_ok h -> bytes_ok m -> csum_continuous 251 (h ++ m) 0 = csum_pair 251 h m 0.
Proof.
  intros H1 H2. rewrite csum_continuous_spec, csum_pair_spec by (try lia; auto; try (apply bytes_ok_app; auto)). reflexivity.
Qed.
Lemma csum_byte h m : csum_pair 251 h m 0 + 1 < 252.
Proof. assert (H := csum_pair_lt 251 h m 0). lia. Qed.

Lemma header_read ts n : ts < 2^48 -> n < 2^32 ->
  hd 0 (rec_header ts n) = MQ_REC_MAGIC /\ read_fix 6 (skipn 1 (rec_header ts n)) = ts /\ read_fix 4 (skipn 7 (rec_header ts n)) = n.
Proof.
  intros H1 H2. unfold rec_header. split; [reflexivity|]. split.
  - cbn [skipn]. apply read_write_fix. cbn. lia.
  - change (skipn 7 (MQ_REC_MAGIC :: write_fix 6 ts ++ write_fix 4 n)) with (skipn 6 (write_fix 6 ts ++ write_fix 4 n)).
    rewrite skipn_exact by (rewrite write_fix_length; reflexivity).
    rewrite <- (app_nil_r (write_fix 4 n)). apply read_write_fix. cbn. lia.
Qed.

(** Reading a whole record. *)
Lemma read_next_ok pre x rest off min : msg_ok x -> off = blen pre -> 32 <= off ->
  read_next (pre ++ mrec (fst x) (snd x) ++ rest) off min =
    (SUCCESS, off + blen (mrec (fst x) (snd x)), Some (fst x, if min <=? fst x then Some (snd x) else None)).
Proof.
  destruct x as [t m]. intros (Ht & Hm & Hl) Hoff H32. cbn [fst snd] in *. unfold read_next.
  rewrite N.max_l by (unfold MQ_META_SIZE; lia). rewrite !blen_app, mrec_blen.
  destruct (N.ltb_spec (blen pre + (12 + blen m + blen rest)) (off + MQ_HEADER_SIZE)) as [X|_]; [unfold MQ_HEADER_SIZE in X; lia|].
  cbv zeta. set (h := rec_header t (blen m)).
  assert (Eh : sub (pre ++ mrec t m ++ rest) off MQ_HEADER_SIZE = h).
  { unfold mrec. cbv zeta. rewrite <- !app_assoc. apply sub_app_eq; [exact Hoff|]. unfold h. rewrite rec_header_blen. reflexivity. }
  rewrite Eh. unfold TS_LIMIT, UINT32MAX in *.
  destruct (header_read t (blen m)) as (E1 & E2 & E3); [lia|lia|]. fold h in E1, E2, E3. rewrite E1, E2, E3.
  rewrite N.eqb_refl. cbn [negb].
  destruct (N.eqb_spec (blen m) 4294967295); [lia|].
  destruct (min <=? t).
  - destruct (N.ltb_spec (blen pre + (12 + blen m + blen rest)) (off + MQ_HEADER_SIZE + blen m + 1)) as [X|_]; [unfold MQ_HEADER_SIZE in X; lia|].
    assert (Em : sub (pre ++ mrec t m ++ rest) (off + MQ_HEADER_SIZE) (blen m) = m).
    { unfold mrec. cbv zeta. fold h. rewrite <- !app_assoc. rewrite (app_assoc pre h). apply sub_app_eq; [|reflexivity].
      rewrite blen_app. unfold h. rewrite rec_header_blen. unfold MQ_HEADER_SIZE. lia. }
    assert (Ec : sub (pre ++ mrec t m ++ rest) (off + MQ_HEADER_SIZE + blen m) 1 = [csum_continuous 251 (h ++ m) 0 + 1]).
    { unfold mrec. cbv zeta. fold h. rewrite <- !app_assoc. rewrite (app_assoc h), (app_assoc pre). apply sub_app_eq; [|reflexivity].
      rewrite !blen_app. unfold h. rewrite rec_header_blen. unfold MQ_HEADER_SIZE. lia. }
    rewrite Em, Ec. cbn [hd]. rewrite csum_agree by (auto; apply rec_header_ok). rewrite N.eqb_refl.
    f_equal. f_equal. unfold MQ_HEADER_SIZE. lia.
  - f_equal. f_equal. unfold MQ_HEADER_SIZE. lia.
Qed.

Arguments mrec : simpl never. Arguments meta_bytes : simpl never. Arguments read_next : simpl never. Arguments rec_header : simpl never.
Set Implicit Arguments.
(** * Segments: one file each *)
Record seg := mkSeg { sg_id : N; sg_cyc : N; sg_mts : N; sg_msize : N; sg_msgs : list msg }.
Definition seg_bytes (s : seg) : bytes := meta_bytes (sg_cyc s) (sg_id s) (sg_mts s) (sg_msize s) ++ recs (sg_msgs s).
Definition seg_ok (s : seg) : Prop :=
  sg_cyc s < 256 /\ sg_id s < 2^48 /\ sg_mts s < 2^48 /\ sg_msize s < 2^48 /\ Forall msg_ok (sg_msgs s).
Definition enc (s : seg) : N * bytes := (sg_id s, seg_bytes s).
Fixpoint contig (a : N) (l : list seg) : Prop :=
  match l with [] => True | s :: l' => sg_id s = a /\ contig (a + 1) l' end.
Lemma contig_app a l l' : contig a (l ++ l') <-> contig a l /\ contig (a + N.of_nat (length l)) l'.
Proof.
  revert a; induction l as [|s l IH]; intros a; cbn [app contig length].
  - rewrite N.add_0_r. tauto.
  - rewrite IH. replace (a + 1 + N.of_nat (length l)) with (a + N.of_nat (S (length l))) by lia. tauto.
Qed.
Lemma seg_blen s : blen (seg_bytes s) = 32 + blen (recs (sg_msgs s)).
Proof. unfold seg_bytes. rewrite blen_app, meta_blen. reflexivity. Qed.
Lemma load_seg s : seg_ok s -> load_meta (seg_bytes s) = inr (Some (sg_cyc s), sg_id s, sg_mts s, sg_msize s).
Proof. intros (H1 & H2 & H3 & H4 & _). apply load_meta_ok; assumption. Qed.
Lemma save_seg s cyc fid ts : save_meta (seg_bytes s) cyc fid ts = seg_bytes (mkSeg fid cyc ts (blen (seg_bytes s)) (sg_msgs s)).
Proof.
  unfold save_meta. rewrite N.max_l by (rewrite seg_blen; unfold MQ_META_SIZE; lia).
  unfold seg_bytes at 2. rewrite skipn_exact by (rewrite meta_len; reflexivity). reflexivity.
Qed.
Lemma save_empty cyc fid ts : save_meta [] cyc fid ts = seg_bytes (mkSeg fid cyc ts 32 []).
Proof. reflexivity. Qed.

Lemma f_get_at a A s B : contig a (A ++ s :: B) -> f_get (map enc (A ++ s :: B)) (a + N.of_nat (length A)) = Some (seg_bytes s).
Proof.
  revert a; induction A as [|x A IH]; intros a H; cbn [app map length f_get enc contig] in *.
  - rewrite N.add_0_r. destruct H as [-> _]. rewrite N.eqb_refl. reflexivity.
  - destruct H as [<- H]. destruct (N.eqb_spec (sg_id x) (sg_id x + N.of_nat (S (length A)))); [lia|].
    replace (sg_id x + N.of_nat (S (length A))) with (sg_id x + 1 + N.of_nat (length A)) by lia. apply IH, H.
Qed.
Lemma f_put_at a A s B b : contig a (A ++ s :: B) ->
  f_put (map enc (A ++ s :: B)) (a + N.of_nat (length A)) b = map enc A ++ (a + N.of_nat (length A), b) :: map enc B.
Proof.
  revert a; induction A as [|x A IH]; intros a H; cbn [app map length f_put enc contig] in *.
  - rewrite N.add_0_r. destruct H as [-> _]. rewrite N.eqb_refl. reflexivity.
  - destruct H as [<- H]. destruct (N.eqb_spec (sg_id x) (sg_id x + N.of_nat (S (length A)))); [lia|].
    replace (sg_id x + N.of_nat (S (length A))) with (sg_id x + 1 + N.of_nat (length A)) by lia. rewrite IH by exact H. reflexivity.
Qed.
Lemma f_put_new a A b : contig a A -> f_put (map enc A) (a + N.of_nat (length A)) b = map enc A ++ [(a + N.of_nat (length A), b)].
Proof.
  revert a; induction A as [|x A IH]; intros a H; cbn [app map length f_put enc contig] in *.
  - reflexivity.
  - destruct H as [<- H]. destruct (N.eqb_spec (sg_id x) (sg_id x + N.of_nat (S (length A)))); [lia|].
    replace (sg_id x + N.of_nat (S (length A))) with (sg_id x + 1 + N.of_nat (length A)) by lia. rewrite IH by exact H. reflexivity.
Qed.
Lemma f_put_at_snoc a A b c : contig a A ->
  f_put (map enc A ++ [(a + N.of_nat (length A), b)]) (a + N.of_nat (length A)) c = map enc A ++ [(a + N.of_nat (length A), c)].
Proof.
  revert a; induction A as [|x A IH]; intros a H; cbn [app map length f_put enc contig] in *.
  - rewrite N.add_0_r, N.eqb_refl. reflexivity.
  - destruct H as [<- H]. destruct (N.eqb_spec (sg_id x) (sg_id x + N.of_nat (S (length A)))); [lia|].
    replace (sg_id x + N.of_nat (S (length A))) with (sg_id x + 1 + N.of_nat (length A)) by lia. rewrite IH by exact H. reflexivity.
Qed.
Lemma f_get_snoc a A b : contig a A -> f_get (map enc A ++ [(a + N.of_nat (length A), b)]) (a + N.of_nat (length A)) = Some b.
Proof.
  revert a; induction A as [|x A IH]; intros a H; cbn [app map length f_get enc contig] in *.
  - rewrite N.add_0_r, N.eqb_refl. reflexivity.
  - destruct H as [<- H]. destruct (N.eqb_spec (sg_id x) (sg_id x + N.of_nat (S (length A)))); [lia|].
    replace (sg_id x + N.of_nat (S (length A))) with (sg_id x + 1 + N.of_nat (length A)) by lia. apply IH, H.
Qed.

(** * The invariant of an open queue *)
Definition log_of (l : list seg) : list msg := concat (map sg_msgs l).
(** What readers rely on. *)
Record qread (q : mq) (a : N) (init : list seg) (lst : seg) : Prop := {
  i_dir : q_dir q = map enc (init ++ [lst]);
  i_contig : contig a (init ++ [lst]);
  i_last : q_last q = a + N.of_nat (length init);
  i_ok : Forall seg_ok (init ++ [lst]);
  i_init : Forall (fun s => Forall (fun x => fst x <= sg_mts s) (sg_msgs s)) init;
  i_open : q_open q = true }.
(** The metadata describe the first messages of the file. *)
Definition synced (s : seg) : Prop := exists k, (k <= length (sg_msgs s))%nat /\ sg_msize s = 32 + blen (recs (firstn k (sg_msgs s))) /\ Forall (fun x => fst x <= sg_mts s) (firstn k (sg_msgs s)).
Record qinv (q : mq) (a : N) (init : list seg) (lst : seg) : Prop := {
  i_read : qread q a init lst;
  i_ts : Forall (fun x => fst x <= q_ts q) (log_of (init ++ [lst]));
  i_mts : Forall (fun s => sg_mts s <= q_ts q) (init ++ [lst]);
  i_tsl : q_ts q < TS_LIMIT;
  i_cyc : q_cyc q = Some (sg_cyc lst);
  i_max : q_max q <= 2^47;
  i_size : blen (seg_bytes lst) < 2^47 + 2^33;
  i_sync : synced lst;
  i_mono : StronglySorted N.le (map sg_mts init);
  i_full : Forall (fun s => sg_msize s = blen (seg_bytes s)) init }.
Lemma i_last_id q a init lst : qread q a init lst -> sg_id lst = q_last q.
Proof. intros I. assert (H := i_contig I). apply contig_app in H. destruct H as [_ [H _]]. rewrite H. symmetry. apply I. Qed.
Lemma i_file q a init lst : qread q a init lst -> f_get (q_dir q) (q_last q) = Some (seg_bytes lst).
Proof. intros I. rewrite (i_dir I), (i_last I). apply f_get_at, I. Qed.
Lemma cyc_next_lt c : cyc_next c < 256.
Proof. destruct c as [c|]; cbn; [|lia]. assert (H := N.mod_lt c 255). lia. Qed.

Definition resync (q : mq) (s : seg) : seg := mkSeg (sg_id s) (cyc_next (q_cyc q)) (q_ts q) (blen (seg_bytes s)) (sg_msgs s).
Lemma log_of_app l l' : log_of (l ++ l') = log_of l ++ log_of l'.
Proof. unfold log_of. rewrite map_app, concat_app. reflexivity. Qed.
Lemma log_of_one s : log_of [s] = sg_msgs s.
Proof. unfold log_of. cbn. apply app_nil_r. Qed.

Lemma sorted_snoc l x : StronglySorted N.le l -> Forall (fun y => y <= x) l -> StronglySorted N.le (l ++ [x]).
Proof.
  induction 1 as [|y l Hs IH Hy]; intros F; cbn [app]; [constructor; constructor|]. inversion F; subst.
  constructor; [apply IH; assumption|]. apply Forall_app. split; [exact Hy|]. constructor; [assumption|constructor].
Qed.
Lemma recs_app l l' : recs (l ++ l') = recs l ++ recs l'.
Proof. unfold recs. rewrite map_app, concat_app. reflexivity. Qed.
Lemma recs_one x : recs [x] = mrec (fst x) (snd x).
Proof. unfold recs. cbn [map concat]. apply app_nil_r. Qed.
Lemma sync_inv q a init lst : qinv q a init lst -> q_last q < 2^48 -> qinv (q_sync q) a init (resync q lst).
Proof.
  intros I Hid. assert (F := i_file (i_read I)). assert (J := i_contig (i_read I)). apply contig_app in J. destruct J as [J1 [J2 _]].
  assert (Hd : q_dir (q_sync q) = map enc (init ++ [resync q lst])).
  { unfold q_sync. cbn [q_dir]. unfold f_of. rewrite F, (i_dir (i_read I)), (i_last (i_read I)), f_put_at by apply (i_read I).
    rewrite map_app. cbn [map]. f_equal. f_equal. unfold enc. f_equal; [symmetry; exact J2|].
    rewrite save_seg. unfold resync. rewrite J2. reflexivity. }
  assert (O := i_ok (i_read I)). rewrite Forall_app in O. destruct O as [O1 O2]. inversion O2 as [|? ? (P1 & P2 & P3 & P4 & P5) _]; subst.
  assert (TS := i_ts I). assert (MT := i_mts I). rewrite Forall_app in MT. destruct MT as [M1 M2].
  assert (TL := i_tsl I). assert (SZ := i_size I).
  split; [split| | | | | | | | |].
  - exact Hd.
  - apply contig_app. split; [exact J1|]. cbn. split; [exact J2|exact Logic.I].
  - unfold q_sync. cbn [q_last]. apply (i_read I).
  - apply Forall_app. split; [exact O1|]. constructor; [|constructor]. unfold seg_ok, resync. cbn [sg_cyc sg_id sg_mts sg_msize sg_msgs].
    split; [apply cyc_next_lt|]. split; [exact P2|]. split; [unfold TS_LIMIT in TL; lia|]. split; [lia|exact P5].
  - apply (i_read I).
  - apply (i_read I).
  - rewrite log_of_app, log_of_one in *. cbn [resync sg_msgs]. exact TS.
  - apply Forall_app. split; [exact M1|]. constructor; [apply N.le_refl|constructor].
  - exact TL.
  - reflexivity.
  - apply I.
  - assert (X : blen (seg_bytes (resync q lst)) = blen (seg_bytes lst)) by (rewrite !seg_blen; reflexivity). rewrite X. exact SZ.
  - exists (length (sg_msgs lst)). cbn [resync sg_msgs sg_msize sg_mts]. rewrite firstn_all. split; [lia|]. split; [apply seg_blen|].
    rewrite log_of_app, log_of_one, Forall_app in TS. apply TS.
  - apply I.
  - apply I.
Qed.

Lemma append_inv q a init lst ts m : qinv q a init lst -> ts < TS_LIMIT -> bytes_ok m -> blen m < UINT32MAX ->
  blen (seg_bytes lst) < 2^47 ->
  let t := N.max ts (q_ts q) in
  qinv (mkMq (f_put (q_dir q) (q_last q) (f_of (q_dir q) (q_last q) ++ mrec t m)) (q_open q) (q_last q) (q_cyc q) t (q_max q))
       a init (mkSeg (sg_id lst) (sg_cyc lst) (sg_mts lst) (sg_msize lst) (sg_msgs lst ++ [(t, m)])).
Proof.
  intros I Hts Hm Hl Hs t. assert (F := i_file (i_read I)). assert (J := i_contig (i_read I)). apply contig_app in J. destruct J as [J1 [J2 _]].
  assert (O := i_ok (i_read I)). rewrite Forall_app in O. destruct O as [O1 O2]. inversion O2 as [|? ? (P1 & P2 & P3 & P4 & P5) _]; subst.
  assert (TS := i_ts I). assert (MT := i_mts I). assert (TL := i_tsl I).
  assert (Et : t < TS_LIMIT) by (unfold t; lia).
  assert (R : recs (sg_msgs lst ++ [(t, m)]) = recs (sg_msgs lst) ++ mrec t m) by (rewrite recs_app, recs_one; reflexivity).
  split; [split| | | | | | | | |]; cbn [q_dir q_last q_ts q_open q_cyc q_max].
  - unfold f_of. rewrite F, (i_dir (i_read I)), (i_last (i_read I)), f_put_at by apply (i_read I).
    rewrite map_app. cbn [map]. f_equal. f_equal. unfold enc. cbn [sg_id]. f_equal; [symmetry; exact J2|].
    unfold seg_bytes. cbn [sg_cyc sg_id sg_mts sg_msize sg_msgs]. rewrite R, app_assoc. reflexivity.
  - apply contig_app. split; [exact J1|]. cbn. split; [exact J2|exact Logic.I].
  - apply (i_read I).
  - apply Forall_app. split; [exact O1|]. constructor; [|constructor]. unfold seg_ok. cbn. repeat (split; [assumption|]).
    apply Forall_app. split; [exact P5|]. constructor; [|constructor]. unfold msg_ok. cbn. auto.
  - apply (i_read I).
  - apply (i_read I).
  - rewrite log_of_app, log_of_one in *. cbn [sg_msgs]. rewrite app_assoc. apply Forall_app. split.
    + eapply Forall_impl; [|exact TS]. cbn. unfold t. intros. lia.
    + constructor; [apply N.le_refl|constructor].
  - assert (X : Forall (fun s => sg_mts s <= t) (init ++ [lst])) by (eapply Forall_impl; [|exact MT]; cbn; unfold t; intros; lia).
    rewrite Forall_app in X. destruct X as [X1 X2]. apply Forall_app. split; [exact X1|]. inversion X2; subst. constructor; [cbn; assumption|constructor].
  - exact Et.
  - apply I.
  - apply I.
  - rewrite seg_blen. cbn [sg_msgs]. rewrite R, blen_app, mrec_blen. rewrite seg_blen in Hs. unfold UINT32MAX in Hl. lia.
  - destruct (i_sync I) as (k & K1 & K2 & K3). exists k. cbn [sg_msgs sg_msize sg_mts].
    rewrite app_length. rewrite firstn_app. replace (k - length (sg_msgs lst))%nat with 0%nat by lia. cbn [firstn]. rewrite app_nil_r.
    split; [lia|auto].
  - apply I.
  - apply I.
Qed.

Lemma rotate_inv q a init lst : qinv q a init lst -> q_last q + 1 < 2^48 ->
  exists c, qinv (q_rotate q) a (init ++ [resync q lst]) (mkSeg (q_last q + 1) c (q_ts q) 32 []) /\
  q_ts (q_rotate q) = q_ts q /\ q_max (q_rotate q) = q_max q /\ q_last (q_rotate q) = q_last q + 1.
Proof.
  intros I Hid. assert (I1 := sync_inv I ltac:(lia)). assert (J := i_contig (i_read I1)).
  unfold q_rotate. cbv zeta. change (q_last (q_sync q)) with (q_last q).
  set (q1 := mkMq (f_put (q_dir (q_sync q)) (q_last q + 1) []) (q_open (q_sync q)) (q_last q + 1) (q_cyc (q_sync q)) (q_ts (q_sync q)) (q_max (q_sync q))).
  exists (cyc_next (q_cyc q1)). split; [|auto].
  assert (L1 : q_last q + 1 = a + N.of_nat (length (init ++ [resync q lst]))) by (rewrite (i_last (i_read I)), app_length; cbn; lia).
  assert (D1 : q_dir q1 = map enc (init ++ [resync q lst]) ++ [(q_last q + 1, [])]).
  { unfold q1. cbn [q_dir]. rewrite (i_dir (i_read I1)), L1. apply f_put_new, J. }
  assert (TS := i_ts I1). assert (MT := i_mts I1). assert (TL := i_tsl I1). assert (O := i_ok (i_read I1)).
  split; [split| | | | | | | | |].
  - unfold q_sync at 1. cbn [q_dir]. unfold f_of. change (q_last q1) with (q_last q + 1). rewrite D1, L1.
    rewrite f_get_snoc, f_put_at_snoc by exact J. rewrite (map_app enc (init ++ [resync q lst])). cbn [map]. reflexivity.
  - apply contig_app. split; [exact J|]. cbn. rewrite <- L1. auto.
  - exact L1.
  - apply Forall_app. split; [exact O|]. constructor; [|constructor]. unfold seg_ok. cbn [sg_cyc sg_id sg_mts sg_msize sg_msgs]. split; [apply cyc_next_lt|].
    split; [lia|]. split; [change (q_ts (q_sync q)) with (q_ts q) in TL; unfold TS_LIMIT in TL; lia|]. split; [lia|constructor].
  - apply Forall_app. split; [apply (i_read I)|]. constructor; [|constructor]. cbn.
    assert (T := i_ts I). rewrite log_of_app, log_of_one, Forall_app in T. apply T.
  - apply (i_read I).
  - rewrite log_of_app, log_of_one. cbn [sg_msgs]. rewrite app_nil_r. exact TS.
  - apply Forall_app. split; [exact MT|]. constructor; [apply N.le_refl|constructor].
  - exact TL.
  - reflexivity.
  - apply I.
  - rewrite seg_blen. cbn [sg_msgs]. change (recs []) with (@nil N). rewrite blen_nil. lia.
  - exists 0%nat. cbn. split; [lia|]. split; [reflexivity|constructor].
  - rewrite map_app. cbn [map]. apply sorted_snoc; [apply I|]. apply Forall_map.
    assert (X := i_mts I). rewrite Forall_app in X. apply X.
  - apply Forall_app. split; [apply I|]. constructor; [|constructor]. rewrite !seg_blen. cbn [resync sg_msize sg_msgs]. apply seg_blen.
Qed.

Lemma write_inv q a init lst ts m : qinv q a init lst -> ts < TS_LIMIT -> bytes_ok m -> blen m < UINT32MAX -> q_last q + 1 < 2^48 ->
  let t := N.max ts (q_ts q) in
  exists init' lst', qinv (q_write q ts m) a init' lst' /\ q_ts (q_write q ts m) = t /\ q_max (q_write q ts m) = q_max q /\
    q_last q <= q_last (q_write q ts m) <= q_last q + 1 /\
    (map sg_msgs (init' ++ [lst']) = map sg_msgs init ++ [sg_msgs lst ++ [(t, m)]] \/
     map sg_msgs (init' ++ [lst']) = map sg_msgs (init ++ [lst]) ++ [[(t, m)]]).
Proof.
  intros I Hts Hm Hl Hid t. unfold q_write. cbv zeta.
  assert (FO : f_of (q_dir q) (q_last q) = seg_bytes lst) by (unfold f_of; rewrite (i_file (i_read I)); reflexivity).
  rewrite FO. destruct (N.leb_spec (q_max q) (blen (seg_bytes lst))) as [H|H]; cbn iota.
  - destruct (rotate_inv I Hid) as (c & I' & E1 & E2 & E3).
    assert (X := append_inv I' Hts Hm Hl). cbv zeta in X. rewrite E1 in X.
    eexists _, _. split; [rewrite E1; apply X; rewrite seg_blen; cbn [sg_msgs]; change (recs []) with (@nil N); rewrite blen_nil; lia|]. cbn [q_ts q_max q_last]. rewrite E1, E2, E3.
    split; [reflexivity|]. split; [reflexivity|]. split; [lia|]. right.
    rewrite !map_app. cbn [map sg_msgs resync app]. reflexivity.
  - assert (X := append_inv I Hts Hm Hl). cbv zeta in X.
    eexists _, _. split; [apply X; assert (M := i_max I); lia|]. cbn [q_ts q_max q_last].
    split; [reflexivity|]. split; [reflexivity|]. split; [lia|]. left.
    rewrite map_app. cbn [map sg_msgs]. reflexivity.
Qed.

(** * Readers *)
Definition keep (min : N) (l : list msg) : list msg := filter (fun x => min <=? fst x) l.
Lemma keep_app min l l' : keep min (l ++ l') = keep min l ++ keep min l'.
Proof. apply filter_app. Qed.
Fixpoint weight (L : list (list msg)) : nat := match L with [] => O | l :: L' => (S (length l) + weight L')%nat end.
(** [D]: delivered so far; [n]: bound of the turns until everything is read. *)
Definition rinv (a : N) (L : list (list msg)) (r : rd) (D : list msg) (n : nat) : Prop :=
  r_cancel r = false /\
  match r_fid r with
  | None => r_file r = false /\ D = [] /\ n = S (weight L)
  | Some id => exists A l B k, L = A ++ l :: B /\ id = a + N.of_nat (length A) /\ (k <= length l)%nat /\
      (if r_file r then r_off r = 32 + blen (recs (firstn k l)) else k = 0%nat) /\
      D = keep (r_min r) (concat A ++ firstn k l) /\ n = (weight (l :: B) - k)%nat
  end.

Lemma rinv_more a L l x r D n : rinv a (L ++ [l]) r D n -> exists n', rinv a (L ++ [l ++ [x]]) r D n'.
Proof.
  intros [H1 H2]. unfold rinv. destruct (r_fid r) as [id|].
  - destruct H2 as (A & s & B & k & E & Ei & Hk & Ho & Hd & Hn).
    destruct (@exists_last _ (s :: B) ltac:(discriminate)) as (B' & z & EB). rewrite EB, app_assoc in E.
    apply app_inj_tail in E. destruct E as [E1 E2]. subst z L.
    destruct B' as [|s' B'].
    + cbn in EB. inversion EB; subst s B. eexists. split; [exact H1|]. exists A, (l ++ [x]), [], k.
      rewrite firstn_app. replace (k - length l)%nat with 0%nat by lia. cbn [firstn]. rewrite !app_nil_r, app_length.
      split; [reflexivity|]. split; [exact Ei|]. split; [lia|]. split; [exact Ho|]. split; [exact Hd|reflexivity].
    + cbn in EB. inversion EB; subst s' B. eexists. split; [exact H1|]. exists A, s, (B' ++ [l ++ [x]]), k.
      split; [rewrite <- app_assoc; reflexivity|]. auto 10.
  - destruct H2 as (E1 & E2 & E3). eexists. auto.
Qed.
Lemma rinv_next a L r D n : rinv a L r D n -> exists n', rinv a (L ++ [[]]) r D n'.
Proof.
  intros [H1 H2]. unfold rinv. destruct (r_fid r) as [id|].
  - destruct H2 as (A & s & B & k & E & Ei & Hk & Ho & Hd & Hn). eexists. split; [exact H1|]. exists A, s, (B ++ [[]]), k.
    split; [rewrite E, <- app_assoc; reflexivity|]. auto 10.
  - destruct H2 as (E1 & E2 & E3). eexists. auto.
Qed.

Lemma pick_ok min l : Forall seg_ok l ->
  match pick (map enc l) min with
  | inl _ => False
  | inr (Some id) => exists A s B, l = A ++ s :: B /\ id = sg_id s /\ Forall (fun s => sg_mts s < min) A
  | inr None => Forall (fun s => sg_mts s < min) l
  end.
Proof.
  induction l as [|s l IH]; intros H; cbn [map pick]; [constructor|]. inversion H; subst. cbn [enc].
  rewrite load_seg by assumption. destruct (N.leb_spec min (sg_mts s)).
  - exists [], s, l. split; [reflexivity|]. split; [reflexivity|constructor].
  - specialize (IH ltac:(assumption)). destruct (pick (map enc l) min) as [c|[id|]].
    + exact IH.
    + destruct IH as (A & s' & B & -> & -> & F). exists (s :: A), s', B. split; [reflexivity|]. split; [reflexivity|]. constructor; assumption.
    + constructor; assumption.
Qed.
Lemma keep_old min l : Forall (fun s => Forall (fun x => fst x <= sg_mts s) (sg_msgs s)) l -> Forall (fun s => sg_mts s < min) l ->
  keep min (log_of l) = [].
Proof.
  intros H1 H2. unfold keep. apply (proj1 (forallb_filter_id _ _)) || idtac.
  assert (G : Forall (fun x => (min <=? fst x) = false) (log_of l)).
  { unfold log_of. induction l as [|s l IH]; cbn; [constructor|]. inversion H1; inversion H2; subst.
    apply Forall_app. split; [|apply IH; assumption]. eapply Forall_impl; [|eassumption]. cbn. intros x Hx. apply N.leb_gt. lia. }
  induction G as [|x l' Hx G' IH]; [reflexivity|]. cbn. rewrite Hx. exact IH.
Qed.

(** The part of a turn after the file is chosen. *)
Definition turn_at (q : mq) (r : rd) (id : N) : turn * rd :=
  match f_get (q_dir q) id with
  | None => (TFail NOT_FOUND_ERROR, mkRd (r_min r) (Some id) (r_off r) false (r_ts r) (r_cancel r))
  | Some f =>
      let off := if r_file r then r_off r else MQ_META_SIZE in
      if blen f <? off + MQ_HEADER_SIZE then
        if id =? q_last q then (TWait, mkRd (r_min r) (Some id) off true (r_ts r) (r_cancel r))
        else (TMore, mkRd (r_min r) (Some (id + 1)) 0 false (r_ts r) (r_cancel r))
      else
        match read_next f off (r_min r) with
        | (_, off', Some (ts, Some m)) => (TGot ts m, mkRd (r_min r) (Some id) off' true (Some ts) (r_cancel r))
        | (_, off', Some (ts, None)) => (TMore, mkRd (r_min r) (Some id) off' true (Some ts) (r_cancel r))
        | (c, off', None) => (TFail c, mkRd (r_min r) (Some id) off' true (r_ts r) (r_cancel r))
        end
  end.
Definition turn_post (a : N) (L : list (list msg)) (r : rd) (D : list msg) (n : nat) (o : turn * rd) : Prop :=
  r_min (snd o) = r_min r /\
  match fst o with
  | TFail _ => False
  | TMore => exists n', (n' < n)%nat /\ rinv a L (snd o) D n'
  | TWait => D = keep (r_min r) (concat L) /\ exists n', rinv a L (snd o) D n'
  | TGot t m => exists n', (n' < n)%nat /\ rinv a L (snd o) (D ++ [(t, m)]) n'
  end.
Lemma turn_at_ok q a init lst r id A l B k D : qread q a init lst -> r_cancel r = false ->
  map sg_msgs (init ++ [lst]) = A ++ l :: B -> id = a + N.of_nat (length A) -> (k <= length l)%nat ->
  (if r_file r then r_off r = 32 + blen (recs (firstn k l)) else k = 0%nat) ->
  D = keep (r_min r) (concat A ++ firstn k l) ->
  turn_post a (map sg_msgs (init ++ [lst])) r D (weight (l :: B) - k)%nat (turn_at q r id).
Proof.
  intros I Hc E Hid Hk Ho HD. assert (EL := E). apply map_eq_app in E. destruct E as (SA & SB & E & EA & EB).
  apply map_eq_cons in EB. destruct EB as (s & SB' & -> & El & EB). subst A.
  rewrite map_length in Hid.
  assert (F : f_get (q_dir q) id = Some (seg_bytes s)).
  { rewrite (i_dir I), E, Hid. apply f_get_at. rewrite <- E. apply I. }
  assert (O := i_ok I). rewrite E in O. apply Forall_app in O. destruct O as [_ O]. inversion O as [|? ? (P1 & P2 & P3 & P4 & P5) _]; subst.
  unfold turn_at. rewrite F. cbv zeta.
  set (off := if r_file r then r_off r else MQ_META_SIZE).
  assert (Hoff : off = 32 + blen (recs (firstn k (sg_msgs s)))).
  { unfold off. destruct (r_file r); [exact Ho|]. subst k. reflexivity. }
  assert (Fb : seg_bytes s = (meta_bytes (sg_cyc s) (sg_id s) (sg_mts s) (sg_msize s) ++ recs (firstn k (sg_msgs s))) ++ recs (skipn k (sg_msgs s))).
  { rewrite <- app_assoc, <- recs_app, firstn_skipn. reflexivity. }
  assert (Bl : blen (seg_bytes s) = off + blen (recs (skipn k (sg_msgs s)))) by (rewrite Fb, !blen_app, meta_blen; lia).
  destruct (skipn k (sg_msgs s)) as [|x rest] eqn:Es.
  - (* at the end of the file *)
    assert (Ek : k = length (sg_msgs s)).
    { assert (X := skipn_length k (sg_msgs s)). rewrite Es in X. cbn in X. lia. }
    change (recs []) with (@nil N) in Bl. rewrite blen_nil in Bl.
    destruct (N.ltb_spec (blen (seg_bytes s)) (off + MQ_HEADER_SIZE)) as [_|X]; [|unfold MQ_HEADER_SIZE in X; lia].
    assert (Efl : firstn k (sg_msgs s) = sg_msgs s) by (rewrite Ek; apply firstn_all).
    destruct (N.eqb_spec (a + N.of_nat (length SA)) (q_last q)) as [El|El].
    + assert (Len : length (init ++ [lst]) = length (SA ++ s :: SB')) by (rewrite E; reflexivity).
      rewrite !app_length in Len. cbn [length] in Len. rewrite (i_last I) in El.
      assert (SB' = []) by (destruct SB'; [reflexivity|cbn [length] in Len; lia]). subst SB'.
      unfold turn_post. cbn [fst snd r_min]. split; [reflexivity|]. split.
      * rewrite EL, Efl. cbn [map]. rewrite concat_app. cbn [concat]. rewrite app_nil_r. reflexivity.
      * eexists. split; [exact Hc|]. cbn [r_fid r_file r_off r_min]. exists (map sg_msgs SA), (sg_msgs s), (map sg_msgs []), k.
        split; [exact EL|]. rewrite map_length. auto 10.
    + destruct SB' as [|s2 SB'].
      { exfalso. apply El. rewrite (i_last I). assert (Len : length (init ++ [lst]) = length (SA ++ [s])) by (rewrite E; reflexivity).
        rewrite !app_length in Len. cbn [length] in Len. lia. }
      unfold turn_post. cbn [fst snd r_min]. split; [reflexivity|]. exists (weight (map sg_msgs (s2 :: SB'))). split; [cbn [weight map]; lia|].
      split; [exact Hc|]. cbn [r_fid r_file r_off r_min map]. exists (map sg_msgs SA ++ [sg_msgs s]), (sg_msgs s2), (map sg_msgs SB'), 0%nat.
      split; [rewrite EL, <- app_assoc; reflexivity|]. split; [rewrite app_length, map_length; cbn [length]; lia|]. split; [lia|].
      split; [reflexivity|]. split; [|lia]. rewrite Efl, concat_app. cbn [concat firstn]. rewrite !app_nil_r. reflexivity.
  - (* a message follows *)
    assert (Lk : (S (k + length rest) = length (sg_msgs s))%nat).
    { assert (X := skipn_length k (sg_msgs s)). rewrite Es in X. cbn in X. lia. }
    assert (Fk : firstn (S k) (sg_msgs s) = firstn k (sg_msgs s) ++ [x]).
    { rewrite <- (firstn_skipn k (sg_msgs s)) at 1. rewrite Es. rewrite firstn_app, firstn_length_le by lia.
      rewrite firstn_all2 by (rewrite firstn_length; lia). replace (S k - k)%nat with 1%nat by lia. reflexivity. }
    assert (Hx : msg_ok x).
    { assert (X := P5). rewrite <- (firstn_skipn k (sg_msgs s)), Es in X. apply Forall_app in X. destruct X as [_ X]. inversion X; assumption. }
    change (recs (x :: rest)) with (mrec (fst x) (snd x) ++ recs rest) in Fb, Bl. rewrite blen_app, mrec_blen in Bl.
    destruct (N.ltb_spec (blen (seg_bytes s)) (off + MQ_HEADER_SIZE)) as [X|_]; [unfold MQ_HEADER_SIZE in X; lia|].
    rewrite Fb. rewrite (@read_next_ok _ x (recs rest) off (r_min r)); [|exact Hx|rewrite blen_app, meta_blen; exact Hoff|lia].
    assert (Hoff' : off + blen (mrec (fst x) (snd x)) = 32 + blen (recs (firstn (S k) (sg_msgs s)))).
    { rewrite Fk, recs_app, recs_one, blen_app. lia. }
    destruct x as [t m]. cbn [fst snd] in *.
    assert (KD : keep (r_min r) (concat (map sg_msgs SA) ++ firstn (S k) (sg_msgs s)) =
                 keep (r_min r) (concat (map sg_msgs SA) ++ firstn k (sg_msgs s)) ++ (if r_min r <=? t then [(t, m)] else [])).
    { rewrite Fk, app_assoc, keep_app. reflexivity. }
    destruct (r_min r <=? t).
    + unfold turn_post. cbn [fst snd r_min]. split; [reflexivity|]. exists (weight (sg_msgs s :: map sg_msgs SB') - S k)%nat.
      split; [cbn [weight]; lia|]. split; [exact Hc|]. cbn [r_fid r_file r_off r_min].
      exists (map sg_msgs SA), (sg_msgs s), (map sg_msgs SB'), (S k). split; [exact EL|]. rewrite map_length. split; [reflexivity|]. split; [lia|]. split; [exact Hoff'|].
      split; [symmetry; exact KD|reflexivity].
    + rewrite app_nil_r in KD. unfold turn_post. cbn [fst snd r_min]. split; [reflexivity|]. exists (weight (sg_msgs s :: map sg_msgs SB') - S k)%nat.
      split; [cbn [weight]; lia|]. split; [exact Hc|]. cbn [r_fid r_file r_off r_min].
      exists (map sg_msgs SA), (sg_msgs s), (map sg_msgs SB'), (S k). split; [exact EL|]. rewrite map_length. split; [reflexivity|]. split; [lia|]. split; [exact Hoff'|].
      split; [symmetry; exact KD|reflexivity].
Qed.

Lemma weight_app L L' : weight (L ++ L') = (weight L + weight L')%nat.
Proof. induction L as [|l L IH]; cbn [app weight]; [reflexivity|]. rewrite IH. lia. Qed.
Lemma turn_ok q a init lst r D n : qread q a init lst -> rinv a (map sg_msgs (init ++ [lst])) r D n ->
  turn_post a (map sg_msgs (init ++ [lst])) r D n (rd_turn q r).
Proof.
  intros I [Hc R]. unfold rd_turn. replace (r_cancel r || negb (q_open q)) with false by (rewrite Hc, (i_open I); reflexivity).
  destruct (r_fid r) as [id|] eqn:Ef.
  - destruct R as (A & l & B & k & E & Ei & Hk & Ho & Hd & ->). exact (@turn_at_ok q a init lst r id A l B k D I Hc E Ei Hk Ho Hd).
  - destruct R as (Rf & -> & ->).
    assert (X : exists SA s SB, init ++ [lst] = SA ++ s :: SB /\ Forall (fun s => sg_mts s < r_min r) SA /\
      match pick (q_dir q) (r_min r) with inl c => inl c | inr (Some i) => inr i | inr None => inr (q_last q) end = inr (sg_id s)).
    { rewrite (i_dir I). assert (P := pick_ok (r_min r) (i_ok I)). destruct (pick (map enc (init ++ [lst])) (r_min r)) as [c|[id|]].
      - destruct P.
      - destruct P as (SA & s & SB & E & -> & F). exists SA, s, SB. auto.
      - exists init, lst, []. split; [reflexivity|]. apply Forall_app in P. split; [apply P|]. rewrite (i_last_id I). reflexivity. }
    destruct X as (SA & s & SB & E & F & ->).
    assert (Eid : sg_id s = a + N.of_nat (length SA)).
    { assert (C := i_contig I). rewrite E in C. apply contig_app in C. apply C. }
    assert (Epre : exists C, init = SA ++ C).
    { destruct (@exists_last _ (s :: SB) ltac:(discriminate)) as (C & z & EC). rewrite EC, app_assoc in E. apply app_inj_tail in E.
      exists C. apply E. }
    destruct Epre as (C & EC).
    assert (K0 : keep (r_min r) (log_of SA) = []).
    { apply keep_old; [|exact F]. assert (X := i_init I). rewrite EC, Forall_app in X. apply X. }
    assert (G := @turn_at_ok q a init lst r (sg_id s) (map sg_msgs SA) (sg_msgs s) (map sg_msgs SB) 0%nat []
      I Hc ltac:(rewrite E, map_app; reflexivity) ltac:(rewrite map_length; exact Eid) ltac:(lia)).
    rewrite Rf in G. specialize (G eq_refl). cbn [firstn] in G. rewrite app_nil_r in G. specialize (G (eq_sym K0)).
    assert (W : (weight (sg_msgs s :: map sg_msgs SB) <= weight (map sg_msgs (init ++ [lst])))%nat).
    { rewrite E, map_app, weight_app. cbn [map]. lia. }
    unfold turn_at in G. unfold turn_post in G |- *. destruct G as [G1 G2]. split; [exact G1|].
    match type of G2 with match fst ?o with _ => _ end => destruct (fst o) end; try exact G2.
    + destruct G2 as (n' & H1 & H2). exists n'. split; [lia|exact H2].
    + destruct G2 as (n' & H1 & H2). exists n'. split; [lia|exact H2].
Qed.

(** Reading to the end: what is delivered and the last turn. *)
Fixpoint rd_all (n : nat) (q : mq) (r : rd) (D : list msg) : option (list msg * turn) :=
  match n with
  | O => None
  | S n' =>
      match rd_turn q r with
      | (TMore, r') => rd_all n' q r' D
      | (TGot t m, r') => rd_all n' q r' (D ++ [(t, m)])
      | (t, _) => Some (D, t)
      end
  end.
Lemma rd_all_ok q a init lst : qread q a init lst -> forall n r D, rinv a (map sg_msgs (init ++ [lst])) r D n ->
  forall m, (n < m)%nat -> rd_all m q r D = Some (keep (r_min r) (log_of (init ++ [lst])), TWait).
Proof.
  intros I. induction n as [n IH] using lt_wf_ind. intros r D R m Hm. destruct m as [|m]; [lia|]. cbn [rd_all].
  assert (P := turn_ok I R). destruct (rd_turn q r) as [[| |c|t x] r']; destruct P as [P1 P2]; cbn [fst snd] in *.
  - destruct P2 as (n' & H1 & H2). rewrite <- P1. apply (IH n' H1 _ _ H2). lia.
  - destruct P2 as [-> _]. reflexivity.
  - destruct P2.
  - destruct P2 as (n' & H1 & H2). rewrite <- P1. apply (IH n' H1 _ _ H2). lia.
Qed.
Lemma rinv_new a L min : rinv a L (rd_new min) [] (S (weight L)).
Proof. split; [reflexivity|]. cbn. auto. Qed.

(** * Opening *)
Lemma scan_recs tail whole : Forall msg_ok whole -> forall pre off fuel, off = blen pre -> 32 <= off -> (length whole <= fuel)%nat ->
  scan fuel (pre ++ recs whole ++ tail) off = scan (fuel - length whole) (pre ++ recs whole ++ tail) (off + blen (recs whole)).
Proof.
  induction 1 as [|x whole Hx Hw IH]; intros pre off fuel Ho H32 Hf.
  - cbn [length]. change (recs []) with (@nil N). rewrite blen_nil, N.add_0_r, Nat.sub_0_r. reflexivity.
  - cbn [length] in Hf. destruct fuel as [|fuel]; [lia|]. cbn [scan length].
    change (recs (x :: whole)) with (mrec (fst x) (snd x) ++ recs whole). rewrite <- !app_assoc.
    rewrite (@read_next_ok _ x _ off INT64MAX Hx Ho H32). change (code_eqb SUCCESS SUCCESS) with true. cbn iota.
    assert (G := IH (pre ++ mrec (fst x) (snd x)) (off + blen (mrec (fst x) (snd x))) fuel).
    rewrite <- !app_assoc in G. rewrite G by (rewrite ?blen_app; lia). rewrite blen_app. cbn [Nat.sub]. f_equal. lia.
Qed.
Lemma scan_stop fuel f off c off' o : read_next f off INT64MAX = (c, off', o) -> c <> SUCCESS -> scan (S fuel) f off = Some off'.
Proof. intros E H. cbn [scan]. rewrite E. destruct (code_eqb_spec c SUCCESS); [contradiction|reflexivity]. Qed.
Lemma read_next_short f off min : 32 <= off -> blen f < off + 11 -> read_next f off min = (INFEASIBLE_ERROR, off, None).
Proof.
  intros H1 H2. unfold read_next. rewrite N.max_l by (unfold MQ_META_SIZE; lia).
  destruct (N.ltb_spec (blen f) (off + MQ_HEADER_SIZE)) as [_|X]; [reflexivity|unfold MQ_HEADER_SIZE in X; lia].
Qed.
Lemma recs_len l : (12 * length l <= length (recs l))%nat.
Proof.
  induction l as [|x l IH]; [cbn; lia|]. change (recs (x :: l)) with (mrec (fst x) (snd x) ++ recs l).
  rewrite app_length. assert (H := mrec_blen (fst x) (snd x)). unfold blen in H. cbn [length]. lia.
Qed.
(** A record cut inside its header, and after it. *)
Lemma scan_cut_header pre whole p : Forall msg_ok whole -> blen pre = 32 -> blen p < 11 ->
  scan (S (length (pre ++ recs whole ++ p))) (pre ++ recs whole ++ p) 32 = Some (32 + blen (recs whole)).
Proof.
  intros Hw Hp Hs. assert (L := recs_len whole).
  rewrite scan_recs; [|exact Hw|auto|lia|rewrite !app_length; lia].
  replace (S (length (pre ++ recs whole ++ p)) - length whole)%nat with (S (length (pre ++ recs whole ++ p) - length whole)) by (rewrite !app_length; lia).
  eapply scan_stop; [apply read_next_short; [lia|rewrite !blen_app; lia]|discriminate].
Qed.
Lemma read_next_head pre h x rest off min : msg_ok x -> h = rec_header (fst x) (blen (snd x)) -> off = blen pre -> 32 <= off ->
  min > fst x -> read_next (pre ++ h ++ rest) off min = (SUCCESS, off + blen (mrec (fst x) (snd x)), Some (fst x, None)).
Proof.
  destruct x as [t m]. intros (Ht & Hm & Hl) -> Hoff H32 Hmin. cbn [fst snd] in *. unfold read_next.
  rewrite N.max_l by (unfold MQ_META_SIZE; lia). rewrite !blen_app, rec_header_blen, mrec_blen.
  destruct (N.ltb_spec (blen pre + (11 + blen rest)) (off + MQ_HEADER_SIZE)) as [X|_]; [unfold MQ_HEADER_SIZE in X; lia|].
  cbv zeta. set (h := rec_header t (blen m)).
  assert (Eh : sub (pre ++ h ++ rest) off MQ_HEADER_SIZE = h).
  { apply sub_app_eq; [exact Hoff|]. unfold h. rewrite rec_header_blen. reflexivity. }
  rewrite Eh. unfold TS_LIMIT, UINT32MAX in *.
  destruct (header_read t (blen m)) as (E1 & E2 & E3); [lia|lia|]. fold h in E1, E2, E3. rewrite E1, E2, E3.
  rewrite N.eqb_refl. cbn [negb].
  destruct (N.eqb_spec (blen m) 4294967295); [lia|].
  destruct (N.leb_spec min t); [lia|]. f_equal. f_equal. unfold MQ_HEADER_SIZE. lia.
Qed.
Lemma scan_cut_body pre whole x p p' : Forall msg_ok whole -> msg_ok x -> blen pre = 32 -> 11 <= blen p -> p' <> [] ->
  mrec (fst x) (snd x) = p ++ p' ->
  scan (S (length (pre ++ recs whole ++ p))) (pre ++ recs whole ++ p) 32 = Some (32 + blen (recs whole) + blen (mrec (fst x) (snd x))).
Proof.
  intros Hw Hx Hp Hs Hp' E. assert (L := recs_len whole).
  rewrite scan_recs; [|exact Hw|auto|lia|rewrite !app_length; lia].
  assert (Lp : (11 <= length p)%nat) by (unfold blen in Hs; lia).
  replace (S (length (pre ++ recs whole ++ p)) - length whole)%nat with (S (S (length (pre ++ recs whole ++ p) - length whole - 1)))
    by (rewrite !app_length; lia).
  assert (Eh : exists p2, p = rec_header (fst x) (blen (snd x)) ++ p2).
  { exists (skipn 11 p). rewrite <- (firstn_skipn 11 p) at 1. f_equal.
    assert (H : firstn 11 (p ++ p') = firstn 11 p) by (rewrite firstn_app; replace (11 - length p)%nat with 0%nat by lia; cbn [firstn]; apply app_nil_r).
    rewrite <- H, <- E. unfold mrec. cbv zeta. rewrite <- !app_assoc. rewrite firstn_exact; [reflexivity|].
    assert (X := rec_header_blen (fst x) (blen (snd x))). unfold blen at 1 in X. lia. }
  destruct Eh as (p2 & Ep).
  assert (Lm : blen p < blen (mrec (fst x) (snd x))).
  { rewrite E, blen_app. destruct p'; [congruence|]. rewrite blen_cons. lia. }
  remember (S (length (pre ++ recs whole ++ p) - length whole - 1)) as fu. cbn [scan].
  rewrite Ep at 1. rewrite (app_assoc pre). rewrite (@read_next_head (pre ++ recs whole) _ x p2 (32 + blen (recs whole)) INT64MAX Hx eq_refl);
    [|rewrite blen_app; lia|lia|destruct Hx as (H & _); unfold TS_LIMIT in H; unfold INT64MAX; lia].
  change (code_eqb SUCCESS SUCCESS) with true. cbn iota. subst fu.
  eapply scan_stop; [apply read_next_short; [lia|]|discriminate].
  rewrite !blen_app. lia.
Qed.
Lemma is_zero_repeat n : is_zero (repeat 0 n) = true.
Proof. unfold is_zero. induction n; cbn; [reflexivity|]. exact IHn. Qed.
Lemma firstn_repeat {A} (x : A) n k : firstn k (repeat x n) = repeat x (min k n).
Proof. revert k; induction n as [|n IH]; intros [|k]; cbn; try reflexivity. rewrite IH. reflexivity. Qed.
Lemma zero_region_tail f z off : off = blen f -> zero_region (f ++ repeat 0 z) off (blen (f ++ repeat 0 z)) = true.
Proof.
  intros ->. unfold zero_region, sub. rewrite to_nat_blen. rewrite skipn_app, skipn_all, Nat.sub_diag. cbn [app skipn].
  rewrite firstn_repeat. apply is_zero_repeat.
Qed.
Lemma scan_zeros pre whole z : Forall msg_ok whole -> blen pre = 32 ->
  scan (S (length (pre ++ recs whole ++ repeat 0%N z))) (pre ++ recs whole ++ repeat 0%N z) 32 = Some (32 + blen (recs whole)).
Proof.
  intros Hw Hp. assert (L := recs_len whole).
  rewrite scan_recs; [|exact Hw|auto|lia|rewrite !app_length; lia].
  replace (S (length (pre ++ recs whole ++ repeat 0%N z)) - length whole)%nat with (S (length (pre ++ recs whole ++ repeat 0%N z) - length whole)) by (rewrite !app_length; lia).
  destruct (N.ltb_spec (N.of_nat z) 11) as [Hz|Hz].
  - eapply scan_stop; [apply read_next_short; [lia|rewrite !blen_app; unfold blen at 3; rewrite repeat_length; lia]|discriminate].
  - assert (R : read_next (pre ++ recs whole ++ repeat 0%N z) (32 + blen (recs whole)) INT64MAX = (CANCELED_ERROR, 32 + blen (recs whole), None)).
    { unfold read_next. rewrite N.max_l by (unfold MQ_META_SIZE; lia).
      assert (Lr : blen (repeat 0%N z) = N.of_nat z) by (unfold blen; rewrite repeat_length; reflexivity).
      destruct (N.ltb_spec (blen (pre ++ recs whole ++ repeat 0%N z)) (32 + blen (recs whole) + MQ_HEADER_SIZE)) as [X|_];
        [rewrite !blen_app, Lr in X; unfold MQ_HEADER_SIZE in X; lia|].
      cbv zeta.
      assert (Es : sub (pre ++ recs whole ++ repeat 0%N z) (32 + blen (recs whole)) MQ_HEADER_SIZE = repeat 0%N 11).
      { rewrite app_assoc. replace z with (11 + (z - 11))%nat by lia. rewrite repeat_app. apply sub_app_eq; [rewrite blen_app; lia|reflexivity]. }
      rewrite Es. change (hd 0 (repeat 0%N 11) =? MQ_REC_MAGIC) with false. cbn [negb]. rewrite is_zero_repeat. cbn [andb].
      rewrite app_assoc. rewrite zero_region_tail by (rewrite blen_app; lia). reflexivity. }
    eapply scan_stop; [exact R|discriminate].
Qed.

Lemma f_get_last a init f : contig a init -> f_of (map enc init ++ [(a + N.of_nat (length init), f)]) (a + N.of_nat (length init)) = f.
Proof. intros H. unfold f_of. rewrite f_get_snoc by exact H. reflexivity. Qed.
Lemma open_unfold a init cyc mts msize body max ign : contig a init ->
  let id := a + N.of_nat (length init) in
  cyc < 256 -> id < 2^48 -> mts < 2^48 -> msize < 2^48 ->
  let f := meta_bytes cyc id mts msize ++ body in
  let q2 := mkMq (map enc init ++ [(id, f)]) true id (Some cyc) mts max in
  mq_open (map enc init ++ [(id, f)]) max false ign =
    if msize =? blen f then Some (SUCCESS, q2)
    else match scan (S (length f)) f 32 with
         | None => None
         | Some n =>
             if (n =? blen f) || ign || ((n <? blen f) && zero_region f n (blen f))
             then Some (SUCCESS, mkMq (map enc init ++ [(id, cut_to f n)]) true id (Some cyc) mts max)
             else Some (BROKEN_DATA_ERROR, q2)
         end.
Proof.
  intros C id H1 H2 H3 H4 f q2.
  assert (Er : rev (map enc init ++ [(id, f)]) = (id, f) :: rev (map enc init)) by (rewrite rev_app_distr; reflexivity).
  assert (Ef : f_of (map enc init ++ [(id, f)]) id = f) by apply f_get_last, C.
  assert (El : load_meta f = inr (Some cyc, id, mts, msize)) by (apply load_meta_ok; assumption).
  assert (Ene : exists x y, f = x :: y) by (unfold f, meta_bytes, mq_magic; cbn [app]; eauto).
  assert (Ep : forall n, f_put (map enc init ++ [(id, f)]) id (cut_to f n) = map enc init ++ [(id, cut_to f n)])
    by (intros n; apply f_put_at_snoc, C).
  unfold q2 in *. clear q2. revert Er Ef Ep.
  assert (Ed : exists x y, map enc init ++ [(id, f)] = x :: y) by (destruct init; cbn; eauto).
  destruct Ed as (dx & dy & Ed). rewrite Ed. intros Er Ef Ep.
  clearbody f. destruct Ene as (x & y & ->).
  unfold mq_open. rewrite Er. cbv zeta. cbn [q_dir]. rewrite Ef. cbn iota. cbn [q_dir]. rewrite Ef, El, N.eqb_refl.
  change (code_eqb SUCCESS SUCCESS) with true. cbn [negb andb].
  change MQ_META_SIZE with 32. destruct (msize =? blen (x :: y)); [reflexivity|].
  destruct (scan (S (length (x :: y))) (x :: y) 32) as [n|]; [|reflexivity].
  destruct ((n =? blen (x :: y)) || ign || ((n <? blen (x :: y)) && zero_region (x :: y) n (blen (x :: y)))); [|reflexivity].
  rewrite Ep. reflexivity.
Qed.

(** The scan always ends. *)
Lemma scan_total f n : forall off, blen f <= off + N.of_nat n -> exists o, scan (S n) f off = Some o.
Proof.
  induction n as [|n IH]; intros off H; cbn [scan]; unfold read_next at 1;
    destruct (N.ltb_spec (blen f) (N.max off MQ_META_SIZE + MQ_HEADER_SIZE)) as [X|X]; try (eexists; reflexivity);
    unfold MQ_META_SIZE, MQ_HEADER_SIZE in *; try (exfalso; lia).
  cbv zeta.
  destruct (negb _); [destruct (is_zero _ && zero_region _ _ _); eexists; reflexivity|].
  destruct (_ =? UINT32MAX); [eexists; reflexivity|].
  destruct (INT64MAX <=? _).
  - destruct (blen f <? _); [eexists; reflexivity|]. destruct (_ =? csum_pair _ _ _ _ + 1); [|eexists; reflexivity].
    change (code_eqb SUCCESS SUCCESS) with true. cbn iota. apply IH. lia.
  - change (code_eqb SUCCESS SUCCESS) with true. cbn iota. apply IH. lia.
Qed.
Lemma scan_file f : exists o, scan (S (length f)) f 32 = Some o.
Proof. apply scan_total. unfold blen. lia. Qed.

(** Any prefix of the messages of a file: whole messages and a piece of the next. *)
Lemma cut_split ms n : (n <= length (recs ms))%nat -> exists k p, (k <= length ms)%nat /\
  firstn n (recs ms) = recs (firstn k ms) ++ p /\ n = (length (recs (firstn k ms)) + length p)%nat /\
  (p = [] \/ exists x rest p', ms = firstn k ms ++ x :: rest /\ mrec (fst x) (snd x) = p ++ p' /\ p' <> [] /\ p <> []).
Proof.
  revert n; induction ms as [|x ms IH]; intros n Hn.
  - cbn in Hn. replace n with 0%nat by lia. exists 0%nat, []. cbn. auto.
  - change (recs (x :: ms)) with (mrec (fst x) (snd x) ++ recs ms) in *. rewrite app_length in Hn.
    destruct (Nat.le_gt_cases (length (mrec (fst x) (snd x))) n) as [H|H].
    + destruct (IH (n - length (mrec (fst x) (snd x)))%nat ltac:(lia)) as (k & p & K1 & K2 & K3 & K4).
      exists (S k), p. cbn [firstn length]. change (recs (x :: firstn k ms)) with (mrec (fst x) (snd x) ++ recs (firstn k ms)).
      split; [lia|]. split; [rewrite firstn_app, K2, firstn_all2 by lia; rewrite <- app_assoc; reflexivity|].
      split; [rewrite app_length; lia|]. destruct K4 as [->|(y & rest & p' & E1 & E2)]; [auto|right].
      exists y, rest, p'. split; [rewrite E1 at 1; reflexivity|exact E2].
    + exists 0%nat, (firstn n (mrec (fst x) (snd x))). cbn [firstn]. change (recs []) with (@nil N).
      split; [lia|]. split; [rewrite firstn_app; replace (n - _)%nat with 0%nat by lia; cbn [firstn app]; apply app_nil_r|].
      split; [rewrite firstn_length; cbn; lia|]. destruct n as [|n]; [auto|right].
      exists x, ms, (skipn (S n) (mrec (fst x) (snd x))). split; [reflexivity|]. split; [symmetry; apply firstn_skipn|].
      split; intros E; apply (f_equal (@length N)) in E; [rewrite skipn_length in E|rewrite firstn_length in E]; cbn [length] in E; lia.
Qed.
Lemma recs_firstn_le ms k k' : (k <= k')%nat -> (length (recs (firstn k ms)) <= length (recs (firstn k' ms)))%nat.
Proof.
  intros H. replace (firstn k ms) with (firstn k (firstn k' ms)) by (rewrite firstn_firstn; f_equal; lia).
  rewrite <- (firstn_skipn k (firstn k' ms)) at 2. rewrite recs_app, app_length. lia.
Qed.
Lemma cut_to_same f n : n = blen f -> cut_to f n = f.
Proof. intros ->. unfold cut_to. rewrite to_nat_blen, firstn_all, N.sub_diag. apply app_nil_r. Qed.
Lemma cut_to_app a b n : n = blen a -> cut_to (a ++ b) n = a.
Proof.
  intros ->. unfold cut_to. rewrite to_nat_blen, firstn_exact by reflexivity. rewrite blen_app.
  replace (blen a - (blen a + blen b)) with 0 by lia. apply app_nil_r.
Qed.

(** Opening a file of whole messages, whatever its metadata say about the size. *)
Lemma open_whole a init s max ign : contig a (init ++ [s]) -> seg_ok s ->
  mq_open (map enc (init ++ [s])) max false ign =
    Some (SUCCESS, mkMq (map enc (init ++ [s])) true (sg_id s) (Some (sg_cyc s)) (sg_mts s) max).
Proof.
  intros C O. apply contig_app in C. destruct C as [C [Ei _]]. destruct O as (O1 & O2 & O3 & O4 & O5).
  rewrite map_app. cbn [map]. unfold enc at 2 4. rewrite Ei. unfold seg_bytes. rewrite Ei.
  assert (X := @open_unfold a init (sg_cyc s) (sg_mts s) (sg_msize s) (recs (sg_msgs s)) max ign C O1).
  cbv zeta in X. refine (eq_trans (X _ O3 O4) _); [rewrite <- Ei; exact O2|]. clear X.
  set (f := meta_bytes _ _ _ _ ++ recs (sg_msgs s)).
  destruct (sg_msize s =? blen f); [reflexivity|].
  assert (Y := @scan_cut_header (meta_bytes (sg_cyc s) (a + N.of_nat (length init)) (sg_mts s) (sg_msize s)) (sg_msgs s) [] O5 (meta_blen _ _ _ _) ltac:(rewrite blen_nil; lia)).
  rewrite app_nil_r in Y. fold f in Y. rewrite Y.
  assert (Ef : 32 + blen (recs (sg_msgs s)) = blen f) by (unfold f; rewrite blen_app, meta_blen; reflexivity).
  rewrite Ef, N.eqb_refl. cbn [orb]. rewrite cut_to_same by reflexivity. reflexivity.
Qed.
