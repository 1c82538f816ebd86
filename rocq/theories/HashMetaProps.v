(** Property C08: the header of the hash database survives reopening, torn
    headers are detected, and what happens to the contents over sessions. *)
From Verif Require Import Bytes MapSpec CodecModel CodecProofs FileModel HashUtilModel HashRecModel HashRecProofs FbpModel FbpProofs
  HashDbModel HashDbLayout HashDbAppend HashDbInPlace HashDbProofs HashDbProps HashMetaModel HashMetaProofs.
Open Scope N_scope.

(** Every field in range comes back. *)
Theorem C08_header_round_trip : forall f h finish, hdr_range h ->
  exists h', read_hdr (file_write f 0 (hdr_bytes h finish)) = Some h' /\
    hd_cyc h' = hd_cyc h /\ hd_major h' = hd_major h /\ hd_minor h' = hd_minor h /\ hd_flags h' = hd_flags h /\
    hd_ow h' = hd_ow h /\ hd_apow h' = hd_apow h /\ hd_nb h' = hd_nb h /\
    hd_num h' = Z.max 0 (hd_num h) /\ hd_eff h' = Z.max 0 (hd_eff h) /\ hd_fsize h' = hd_fsize h /\ hd_time h' = hd_time h /\
    hd_type h' = hd_type h /\
    hd_opaque h' = firstn 64 (hd_opaque h) ++ repeat 0 (64 - length (hd_opaque h)) /\
    (N.land (hd_closure h') 1 <> 0 <-> finish = true /\ N.land (hd_closure h) 1 <> 0).
Proof.
  intros f h finish H. exists (hdr_read h finish). rewrite read_hdr_write by apply hdr_bytes_blen.
  split; [apply hdr_save_load; exact H|]. unfold hdr_read. cbn [hd_cyc hd_major hd_minor hd_flags hd_ow hd_apow hd_closure hd_nb hd_num hd_eff hd_fsize hd_time hd_type hd_opaque].
  do 12 (split; [reflexivity|]). split.
  - unfold pad_opaque, OPAQUE_SIZE. f_equal. f_equal. rewrite firstn_length. lia.
  - unfold closure_out. destruct (N.eqb_spec (N.land (hd_closure h) 1) 0); destruct finish; cbn [negb andb]; split; try discriminate; intuition congruence.
Qed.
Print Assumptions C08_header_round_trip.

(** A header of which the first [k] bytes were overwritten by the next version
    is the old one, the new one, or is reported as inconsistent. *)
Theorem C08_torn_header : forall hn ho fn fo k,
  (0 <= hd_cyc ho < 256)%Z -> hd_cyc hn = next_cyc (hd_cyc ho) ->
  let t := firstn k (hdr_bytes hn fn) ++ skipn k (hdr_bytes ho fo) in
  ((k <= 9)%nat -> t = hdr_bytes ho fo) /\
  ((10 <= k <= 127)%nat -> exists h, parse_hdr t = Some h /\ hd_cyc h = (-1)%Z) /\
  ((128 <= k)%nat -> t = hdr_bytes hn fn).
Proof.
  intros hn ho fn fo k Ho En. cbv zeta. destruct (next_cyc_ne _ Ho) as [Hne Hr]. rewrite <- En in *.
  split; [intros Hk; apply torn_small; auto; lia|]. split.
  - intros Hk. apply torn_parse; auto; lia.
  - intros Hk. apply torn_large; auto using hdr_bytes_length.
Qed.
Print Assumptions C08_torn_header.

(** The same for two headers whose counters differ in any way: the counters
    are all the detection depends on. *)
Theorem C08_torn_any_version : forall hn ho fn fo k,
  (0 <= hd_cyc ho < 256)%Z -> (0 <= hd_cyc hn < 256)%Z -> (10 <= k <= 127)%nat ->
  hd_cyc hn <> hd_cyc ho ->
  exists h, parse_hdr (firstn k (hdr_bytes hn fn) ++ skipn k (hdr_bytes ho fo)) = Some h /\ hd_cyc h = (-1)%Z.
Proof. intros hn ho fn fo k Ho Hn Hk Hne. apply torn_parse; auto. Qed.
Print Assumptions C08_torn_any_version.
(** With equal counters (255 saves apart) a mixture is accepted. *)
Example C08_wrap_ex :
  let ho := mkhdr 7 1 0 1 4 3 1 100 5 50 4096 0 0 [] in
  let hn := mkhdr 7 1 0 1 4 3 1 100 9 90 8192 0 0 [] in
  option_map (fun h => (hd_cyc h, hd_num h, hd_fsize h)) (parse_hdr (torn 32 (hdr_bytes hn true) (hdr_bytes ho true))) = Some (7, 9, 4096)%Z.
Proof. vm_compute. reflexivity. Qed.

(** A file with a torn header is never taken as healthy. *)
Theorem C08_torn_not_healthy : forall cap mrs f hn ho fn fo k o,
  (0 <= hd_cyc ho < 256)%Z -> hd_cyc hn = next_cyc (hd_cyc ho) -> (10 <= k <= 127)%nat ->
  (Z.of_N (fsize f) < 2 ^ 63 - 1)%Z ->
  file_read f 0 METADATA_SIZE = Some (firstn k (hdr_bytes hn fn) ++ skipn k (hdr_bytes ho fo)) ->
  h_open cap mrs f = Some o -> op_healthy o = false.
Proof.
  intros cap mrs f hn ho fn fo k o Ho En Hk Hs Er Eo.
  destruct (C08_torn_header hn ho fn fo k Ho En) as (_ & H & _). destruct (H Hk) as (h & Ep & Hc).
  apply (h_open_unclosed cap mrs f h o); [unfold read_hdr; rewrite Er; exact Ep| |exact Eo].
  right. rewrite Hc. change (2 ^ 63 - 1)%Z with 9223372036854775807%Z in Hs. lia.
Qed.
Print Assumptions C08_torn_not_healthy.

(** Closing and opening: the same map, the same counters, the same opaque
    metadata; trailing zero bytes (of the file's preallocation) do not matter. *)
Theorem C08_reopen : forall d x s m time cap mrs f,
  hdb_ok d -> h_inv d s m -> close_ok d x s time -> 1 <= cap ->
  padded (h_close d x s time) f ->
  exists x' s', h_open cap mrs f = Some (mkopened true (with_mrs d mrs) x' s') /\
    h_inv (with_mrs d mrs) s' m /\ s_num s' = s_num s /\ s_eff s' = s_eff s /\
    x_type x' = x_type x /\ x_opaque x' = firstn 64 (x_opaque x) ++ repeat 0 (64 - length (x_opaque x)).
Proof.
  intros d x s m time cap mrs f Hd Hi Hc Hcap Hp.
  destruct (reopen d x s m time cap mrs f Hd Hi Hc Hcap Hp) as (x' & s' & E & _ & I & N1 & N2 & _ & _ & T & O & _).
  exists x', s'. repeat (split; [assumption|]). rewrite O. unfold pad_opaque, OPAQUE_SIZE. rewrite firstn_length. f_equal. f_equal. lia.
Qed.
Print Assumptions C08_reopen.

(** * Sessions *)
(** The limits of the format: at the end of each session the file is within the
    offset width and below 2^63 bytes. *)
Fixpoint sessions_fit (cap mrs : N) (f : file) (sessions : list (list hop * Z)) : Prop :=
  match sessions with
  | [] => True
  | (ops, time) :: rest =>
      int64 time /\
      forall o, h_open cap mrs f = Some o -> op_healthy o = true ->
        let s := fst (h_run (op_db o) (op_st o) ops) in
        fsize (s_file s) <= capacity (op_db o) /\ fsize (s_file s) < 2 ^ 63 /\
        sessions_fit cap mrs (h_close (op_db o) (op_misc o) s time) rest
  end.

Lemma padded_refl f : padded f f.
Proof. split; [lia|]. split; [reflexivity|]. intros; lia. Qed.

Lemma close_ok_intro d x s m time : hdb_ok d -> h_inv d s m -> (Z.of_N (d_nb d) <= MAX_NUM_BUCKETS)%Z -> misc_ok x ->
  fsize (s_file s) <= capacity d -> fsize (s_file s) < 2 ^ 63 -> int64 time -> close_ok d x s time.
Proof.
  intros Hd Hi Hn Hx Hc Hs Ht. destruct (h_inv_bounds d s m Hd Hi) as (B1 & B2 & B3).
  change (2 ^ 63) with 9223372036854775808 in Hs. unfold close_ok, int64 in *. repeat (split; try assumption; try lia); apply Hx.
Qed.

Lemma sessions_ok cap mrs : 1 <= cap -> META_MIN_READ_SIZE <= mrs -> forall sessions d x s m time f,
  hdb_ok d -> h_inv d s m -> close_ok d x s time -> padded (h_close d x s time) f ->
  ops_ok m (concat (map fst sessions)) -> sessions_fit cap mrs f sessions ->
  exists f' out d' x' s' time', run_sessions cap mrs f sessions = Some (f', out) /\
    out = map (fun r => (HOk, Some r)) (snd (map_run m (concat (map fst sessions)))) /\
    hdb_ok d' /\ h_inv d' s' (fst (map_run m (concat (map fst sessions)))) /\ close_ok d' x' s' time' /\
    padded (h_close d' x' s' time') f'.
Proof.
  intros Hcap Hmrs. induction sessions as [|[ops t] rest IH]; intros d x s m time f Hd Hi Hc Hp Hops Hfit.
  - exists f, [], d, x, s, time. repeat split; auto; apply Hp || apply Hd || apply Hc.
  - cbn [map fst concat] in Hops. apply ops_ok_app in Hops. destruct Hops as [Hops1 Hops2].
    destruct (reopen d x s m time cap mrs f Hd Hi Hc Hcap Hp) as (x1 & s1 & E & X1 & I1 & _).
    cbn [sessions_fit] in Hfit. destruct Hfit as [Ht Hfit]. specialize (Hfit _ E eq_refl). cbn [op_db op_st op_misc] in Hfit.
    destruct Hfit as (F1 & F2 & F3).
    assert (Hd1 : hdb_ok (with_mrs d mrs)) by (destruct Hd as (D1 & D2 & D3); repeat split; try apply D1; assumption).
    destruct (h_history (with_mrs d mrs) ops s1 m Hd1 I1 Hops1 F1) as (A1 & A2 & _).
    assert (Hc1 : close_ok (with_mrs d mrs) x1 (fst (h_run (with_mrs d mrs) s1 ops)) t).
    { apply close_ok_intro with (m := fst (map_run m ops)); auto. apply Hc. }
    destruct (IH _ _ _ _ t _ Hd1 A2 Hc1 (padded_refl _) Hops2 F3) as (f' & out & d' & x' & s' & t' & R1 & R2 & R3 & R4 & R5 & R6).
    cbn [run_sessions]. rewrite E. cbn [op_healthy op_db op_st op_misc].
    destruct (h_run (with_mrs d mrs) s1 ops) as [s2 out1]. cbn [fst snd] in *. rewrite R1.
    exists f', (out1 ++ out), d', x', s', t'. split; [reflexivity|]. cbn [map fst concat]. rewrite map_run_app. cbn [fst snd].
    split; [rewrite map_app, A1, R2; reflexivity|]. auto.
Qed.

(** Whatever is done in any number of sessions, each opening and closing the
    file, is as if it were done on one map; and a last opening sees that map. *)
Theorem C08_sessions : forall d x t0 cap mrs sessions,
  hdb_ok d -> (Z.of_N (d_nb d) <= MAX_NUM_BUCKETS)%Z -> misc_ok x -> int64 t0 -> 1 <= cap -> META_MIN_READ_SIZE <= mrs ->
  record_base d <= capacity d ->
  let ops := concat (map fst sessions) in
  ops_ok aempty ops -> sessions_fit cap mrs (h_create d x t0) sessions ->
  exists f out o, run_sessions cap mrs (h_create d x t0) sessions = Some (f, out) /\
    out = map (fun r => (HOk, Some r)) (snd (map_run aempty ops)) /\
    h_open cap mrs f = Some o /\ op_healthy o = true /\
    msize (fst (map_run aempty ops)) (s_num (op_st o)) (s_eff (op_st o)) /\
    forall key, key_ok key -> h_get (op_db o) (op_st o) key = mkhres (op_st o) HOk (Some (fst (map_run aempty ops) key)).
Proof.
  intros d x t0 cap mrs sessions Hd Hnb Hx Ht Hcap Hmrs Hrb ops Hops Hfit.
  destruct (create_closed d x t0) as (s & Hp & S1 & S2 & S3 & S4).
  assert (G := record_base_ge d).
  assert (Hs : same_data d (mkfile (fun _ => 0) (record_base d)) (s_file s)).
  { rewrite S1. apply same_data_write; change (blen (rechead d)) with 16; cbn [fsize]; unfold RECORD_BASE_HEADER_SIZE, METADATA_SIZE in *; lia. }
  assert (Hi : h_inv d s aempty).
  { assert (I := h_inv_frame d (h_init d 1) aempty (s_file s) (s_fbp s) (s_log s) (h_init_inv d 1 Hd ltac:(lia)) Hs).
    cbn [h_init s_num s_eff s_fbp] in I. destruct s as [sf sp sn se sl]. cbn [s_file s_fbp s_num s_eff s_log] in *. subst.
    apply I. intros _. split; [split; [constructor|cbn; lia]|]. split; [cbn; lia|]. intros b []. }
  assert (Hrb63 : record_base d < 2 ^ 63).
  { unfold record_base. destruct Hd as ((Hw & Ha & _) & _). unfold MAX_NUM_BUCKETS in Hnb.
    assert (A := align_num_lt (METADATA_SIZE + d_nb d * N.of_nat (ow (d_c d)) + FBP_SECTION_SIZE + RECORD_BASE_HEADER_SIZE) (N.max RECORD_BASE_ALIGN (halign (d_c d)))).
    assert (A0 : N.max RECORD_BASE_ALIGN (halign (d_c d)) <= 65536).
    { unfold RECORD_BASE_ALIGN, halign. assert (P := N.pow_le_mono_r 2 _ _ ltac:(discriminate) Ha). change (2 ^ 16) with 65536 in P. lia. }
    unfold METADATA_SIZE, FBP_SECTION_SIZE, RECORD_BASE_HEADER_SIZE, RECORD_BASE_ALIGN in *.
    change (2 ^ 63) with 9223372036854775808. specialize (A ltac:(lia)). nia. }
  assert (Hf : fsize (s_file s) = record_base d) by apply Hs.
  assert (Hc : close_ok d x s t0) by (apply close_ok_intro with (m := aempty); auto; lia).
  destruct (sessions_ok cap mrs Hcap Hmrs sessions d x s aempty t0 _ Hd Hi Hc Hp Hops Hfit)
    as (f & out & d' & x' & s' & t' & R1 & R2 & R3 & R4 & R5 & R6).
  destruct (reopen d' x' s' _ t' cap mrs f R3 R4 R5 Hcap R6) as (x2 & s2 & E & _ & I2 & _ & _ & _ & _ & _ & _ & Sz).
  exists f, out, (mkopened true (with_mrs d' mrs) x2 s2). split; [exact R1|]. split; [exact R2|]. split; [exact E|]. split; [reflexivity|].
  cbn [op_st op_db]. split; [exact (h_inv_size _ _ _ I2)|].
  intros key Hk. apply h_get_spec; auto.
  - destruct R3 as (D1 & D2 & D3). repeat split; try apply D1; assumption.
  - rewrite Sz. apply R5.
Qed.
Print Assumptions C08_sessions.

(** A copy of the file taken at any time between opening and closing is not
    taken as healthy, whatever the operations have done beyond the header. *)
Theorem C08_unclosed_not_healthy : forall d x s m time cap mrs f o ops g o',
  hdb_ok d -> h_inv d s m -> close_ok d x s time -> 1 <= cap -> META_MIN_READ_SIZE <= mrs -> padded (h_close d x s time) f ->
  h_open cap mrs f = Some o -> ops_ok m ops ->
  fsize (s_file (fst (h_run (op_db o) (op_st o) ops))) <= capacity d ->
  (forall i, i < METADATA_SIZE -> fdata g i = fdata (s_file (fst (h_run (op_db o) (op_st o) ops))) i) ->
  METADATA_SIZE <= fsize g ->
  h_open cap mrs g = Some o' -> op_healthy o' = false.
Proof.
  intros d x s m time cap mrs f o ops g o' Hd Hi Hc Hcap Hmrs Hp E Hops Hsz Hg Hgs E'.
  destruct (reopen d x s m time cap mrs f Hd Hi Hc Hcap Hp) as (x1 & s1 & E1 & _ & I1 & _ & _ & _ & _ & _ & _ & Sz).
  rewrite E1 in E. injection E as <-. cbn [op_db op_st] in *.
  destruct (open_header cap mrs f _ E1 eq_refl) as (h & Eh & Hcl). cbn [op_st] in Eh.
  assert (Hd1 : hdb_ok (with_mrs d mrs)) by (destruct Hd as (D1 & D2 & D3); repeat split; try apply D1; assumption).
  assert (K := h_run_keeps (with_mrs d mrs) ops s1 m Hd1 I1 Hops Hsz).
  apply (h_open_unclosed cap mrs g h o'); [|left; rewrite Hcl; reflexivity|exact E'].
  rewrite <- Eh. apply read_hdr_frame.
  - intros i Hi'. rewrite Hg by exact Hi'. apply K. left. exact Hi'.
  - assert (G := h_inv_rb _ _ _ I1). assert (G' := record_base_ge (with_mrs d mrs)). unfold METADATA_SIZE in *. lia.
  - exact Hgs.
Qed.
Print Assumptions C08_unclosed_not_healthy.

(** * Stale free blocks *)
(** Synchronize writes a header which says "closed" but not the free blocks, and
    CloseImpl writes that header before the free blocks.  So a copy made by the
    FileProcessor of Synchronize (DBM::CopyFileData), or a crash inside Close,
    leaves a file which opens as healthy with the free blocks of an earlier
    closing.  Such a block may hold a live record by now: the next Set destroys
    it.  In the first witness the key is lost, in the second the chain becomes
    a loop and looking up the key does not end. *)
Definition sf_db (nb : N) : hdb := mkhdb (mkhcfg 4 3 0) nb true 48.
Definition sf_misc : hmisc := mkmisc 0 1 0 1 0 [].
Definition sf_first : list hop := [ex_set [97] [1]; ex_rm [97]].
(** The copy made while the second session has set "b". *)
Definition sf_copy (nb : N) : option (hdb * hst) :=
  match run_sessions 8 48 (h_create (sf_db nb) sf_misc 0) [(sf_first, 0%Z)] with
  | Some (f, _) =>
      match h_open 8 48 f with
      | Some o => let s := fst (h_run (op_db o) (op_st o) [ex_set [98] [2]]) in
          match h_open 8 48 (h_sync_image (op_db o) (op_misc o) s 0) with
          | Some o' => if op_healthy o' then Some (op_db o', op_st o') else None
          | None => None
          end
      | None => None
      end
  | None => None
  end.
Theorem C08_stale_free_blocks_refuted :
  exists d s, sf_copy 2 = Some (d, s) /\
    h_seen (h_get d s [98]) = Some (Some [2]) /\
    h_status (h_set d s [99] [3]) = HOk /\
    h_seen (h_get d (h_st (h_set d s [99] [3])) [98]) = Some None.
Proof.
  destruct (sf_copy 2) as [[d s]|] eqn:E; [|vm_compute in E; discriminate].
  exists d, s. split; [reflexivity|]. 
  assert (H : match sf_copy 2 with Some (d, s) =>
    (h_seen (h_get d s [98]), h_status (h_set d s [99] [3]), h_seen (h_get d (h_st (h_set d s [99] [3])) [98])) = (Some (Some [2]), HOk, Some None)
    | None => False end) by (vm_compute; reflexivity).
  rewrite E in H. injection H as H1 H2 H3. auto.
Qed.
Print Assumptions C08_stale_free_blocks_refuted.
Theorem C08_stale_free_blocks_loop_refuted :
  exists d s, sf_copy 1 = Some (d, s) /\
    h_seen (h_get d s [98]) = Some (Some [2]) /\
    h_status (h_set d s [99] [3]) = HOk /\
    h_status (h_get d (h_st (h_set d s [99] [3])) [98]) = HNoFuel.
Proof.
  destruct (sf_copy 1) as [[d s]|] eqn:E; [|vm_compute in E; discriminate].
  exists d, s. split; [reflexivity|]. 
  assert (H : match sf_copy 1 with Some (d, s) =>
    (h_seen (h_get d s [98]), h_status (h_set d s [99] [3]), h_status (h_get d (h_st (h_set d s [99] [3])) [98])) = (Some (Some [2]), HOk, HNoFuel)
    | None => False end) by (vm_compute; reflexivity).
  rewrite E in H. injection H as H1 H2 H3. auto.
Qed.
Print Assumptions C08_stale_free_blocks_loop_refuted.

(** * A concrete case *)
Fixpoint fit_b (cap mrs : N) (f : file) (sessions : list (list hop * Z)) : bool :=
  match sessions with
  | [] => true
  | (ops, time) :: rest =>
      ((-9223372036854775808 <=? time) && (time <? 9223372036854775808))%Z &&
      match h_open cap mrs f with
      | Some o => if op_healthy o then
          let s := fst (h_run (op_db o) (op_st o) ops) in
          (fsize (s_file s) <=? capacity (op_db o)) && (fsize (s_file s) <? 2 ^ 63) &&
          fit_b cap mrs (h_close (op_db o) (op_misc o) s time) rest
          else true
      | None => true
      end
  end.
Lemma fit_b_ok cap mrs sessions : forall f, fit_b cap mrs f sessions = true -> sessions_fit cap mrs f sessions.
Proof.
  induction sessions as [|[ops t] rest IH]; intros f H; cbn [sessions_fit]; [exact I|]. cbn [fit_b] in H.
  apply andb_true_iff in H. destruct H as [H1 H2]. split; [unfold int64; lia|]. intros o E Ho. rewrite E, Ho in H2. cbv zeta in *.
  apply andb_true_iff in H2. destruct H2 as [H2 H3]. apply andb_true_iff in H2. destruct H2 as [H2 H4].
  split; [lia|]. split; [lia|]. apply IH, H3.
Qed.
Definition c08_sessions : list (list hop * Z) :=
  [([ex_set [97] [1]; ex_set [98] [2; 2]; ex_rm [97]], 5%Z); ([ex_set [99] [3]; ex_app [98] [7]], 6%Z)].
Example C08_ex : sessions_fit 8 48 (h_create (ex_db true) sf_misc 0) c08_sessions /\ record_base (ex_db true) <= capacity (ex_db true) /\ misc_ok sf_misc.
Proof.
  split; [apply fit_b_ok; vm_compute; reflexivity|]. split; [vm_compute; congruence|].
  unfold misc_ok, sf_misc. cbn. repeat split; try lia; try discriminate; try (left; lia).
Qed.
Example C08_ex_result :
  match run_sessions 8 48 (h_create (ex_db true) sf_misc 0) c08_sessions with
  | Some (f, _) => match h_open 8 48 f with
      | Some o => (op_healthy o, map (fun k => h_seen (h_get (op_db o) (op_st o) k)) [[97]; [98]; [99]])
                  = (true, [Some None; Some (Some [2; 2; 7]); Some (Some [3])])
      | None => False end
  | None => False end.
Proof. vm_compute. reflexivity. Qed.
