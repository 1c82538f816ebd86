(** C20: update logs.  Source: /repo/tkrzw_dbm_ulog.cc. *)
From Coq Require Import ZArith Lia.
From Verif Require Import Bytes CodecModel CodecProofs HashUtilModel StatusModel DbmModel MqModel MqProofs MqProps UlogModel UlogProofs.
Local Open Scope N_scope.

(** * Messages *)
(** What a logger writes decodes to the same operation, for any ids (nonnegative
    int32_t) and keys and values as long as the message has at most 2^30 bytes (the
    limit that ReadVarNum asserts). *)
Theorem C20_decode l : ids_ok l -> blen (ulog_bytes l) <= 2^30 -> parse (ulog_bytes l) = Some (SUCCESS, Some l).
Proof. apply parse_written. Qed.
Print Assumptions C20_decode.
Example C20_decode_ex : let l := mkUlog 300 2 (USet [107; 49] [0; 255; 163]) in
  ids_ok l /\ ulog_bytes l = [161; 130; 44; 2; 2; 3; 107; 49; 0; 255; 163] /\ parse (ulog_bytes l) = Some (SUCCESS, Some l).
Proof. cbv zeta. repeat split; cbn; try lia; reflexivity. Qed.

(** Distinct operations have distinct messages. *)
Theorem C20_injective l l' : ids_ok l -> ids_ok l' -> blen (ulog_bytes l) <= 2^30 -> ulog_bytes l = ulog_bytes l' -> l = l'.
Proof.
  intros H1 H2 H3 E. assert (A := parse_written l H1 H3). rewrite E in A, H3. rewrite (parse_written l' H2 H3) in A. inversion A. reflexivity.
Qed.
Print Assumptions C20_injective.
(** The texts of the in-memory logger are not: with the delimiter "\t", the key "a"
    with the value "b\tc" and the key "a\tb" with the value "c". *)
Theorem C20_text_injective_refuted : exists op op', op <> op' /\ text_log [9] op = text_log [9] op'.
Proof. exists (USet [97] [98; 9; 99]), (USet [97; 9; 98] [99]). split; [discriminate|reflexivity]. Qed.

(** The constructor and the thread-local override give nonnegative int32_t ids. *)
Theorem C20_logger_ids sid idx tl s op : (sid < 2147483648)%Z -> (idx < 2147483648)%Z -> (tl < 2147483648)%Z ->
  rec_sid (lg_new sid idx) tl = Some s -> ids_ok (mkUlog s (lg_idx (lg_new sid idx)) op).
Proof.
  intros H1 H2 H3. unfold rec_sid, lg_new, ids_ok. cbn [lg_sid lg_idx u_sid u_idx].
  destruct (Z.leb_spec 0 tl); [intros X; inversion X; subst; lia|]. destruct (tl =? INT32MIN)%Z; [discriminate|]. intros X; inversion X; subst; lia.
Qed.
Print Assumptions C20_logger_ids.

(** The buffer that a logger writes into (20 bytes and the strings) is large enough
    except for one combination: both ids and both sizes at least 2^28. *)
Theorem C20_buffer l : ids_ok l -> blen (ulog_bytes l) <= 2^30 ->
  ulog_write l = None <->
  exists k v, u_op l = USet k v /\ (2^28 <= u_sid l)%Z /\ (2^28 <= u_idx l)%Z /\ 2^28 <= blen k /\ 2^28 <= blen v.
Proof.
  intros ((S1 & S2) & (I1 & I2)) Hl. rewrite bytes_blen in Hl. unfold ulog_write. rewrite bytes_blen.
  change (2^28)%Z with 268435456%Z. change (2^30) with 1073741824 in Hl.
  assert (A1 := size_var_le5 (Z.to_N (u_sid l))). assert (A2 := size_var_le5 (Z.to_N (u_idx l))).
  assert (B1 := size_var_lt5 (Z.to_N (u_sid l))). assert (B2 := size_var_lt5 (Z.to_N (u_idx l))).
  assert (C1 := size_var_ge5 (Z.to_N (u_sid l))). assert (C2 := size_var_ge5 (Z.to_N (u_idx l))).
  change (2^28) with 268435456 in *. change (2^31) with 2147483648 in *.
  destruct (u_op l) as [k v|k|]; cbn [ulog_room].
  - assert (A3 := size_var_le5 (blen k)). assert (A4 := size_var_le5 (blen v)).
    assert (B3 := size_var_lt5 (blen k)). assert (B4 := size_var_lt5 (blen v)).
    assert (C3 := size_var_ge5 (blen k)). assert (C4 := size_var_ge5 (blen v)).
    change (2^28) with 268435456 in *. change (2^31) with 2147483648 in *.
    set (x1 := size_var (Z.to_N (u_sid l))) in *. set (x2 := size_var (Z.to_N (u_idx l))) in *. set (x3 := size_var (blen k)) in *. set (x4 := size_var (blen v)) in *. clearbody x1 x2 x3 x4.
    destruct (N.ltb_spec (N.max (20 + blen k + blen v) 4096) (1 + x1 + x2 + (x3 + x4 + blen k + blen v))) as [X|X].
    + split; [intros _|reflexivity]. exists k, v. split; [reflexivity|]. lia.
    + split; [discriminate|]. intros (k' & v' & E & D1 & D2 & D3 & D4). inversion E; subst k' v'. lia.
  - assert (A3 := size_var_le5 (blen k)). change (2^31) with 2147483648 in *.
    destruct (N.ltb_spec (N.max (20 + blen k) 4096) (1 + size_var (Z.to_N (u_sid l)) + size_var (Z.to_N (u_idx l)) + (size_var (blen k) + blen k))) as [X|X]; [lia|].
    split; [discriminate|]. intros (k' & v' & E & _). discriminate.
  - destruct (N.ltb_spec 4096 (1 + size_var (Z.to_N (u_sid l)) + size_var (Z.to_N (u_idx l)) + 0)) as [X|X]; [lia|].
    split; [discriminate|]. intros (k' & v' & E & _). discriminate.
Qed.
Print Assumptions C20_buffer.
(** ... in which one byte is written behind the buffer. *)
Theorem C20_buffer_refuted : exists l, ids_ok l /\ blen (ulog_bytes l) <= 2^30 /\ ulog_write l = None.
Proof.
  assert (L : blen (repeat 0 (N.to_nat 268435456)) = 268435456) by (unfold blen; rewrite repeat_length; lia).
  set (k := repeat 0 (N.to_nat 268435456)) in *. clearbody k.
  exists (mkUlog 268435456 268435456 (USet k k)). assert (I : ids_ok (mkUlog 268435456 268435456 (USet k k))) by (split; cbn; lia).
  assert (B : blen (ulog_bytes (mkUlog 268435456 268435456 (USet k k))) <= 2^30).
  { rewrite bytes_blen. cbn [u_sid u_idx u_op]. rewrite L. vm_compute. discriminate. }
  split; [exact I|]. split; [exact B|]. apply C20_buffer; auto. exists k, k. cbn [u_op u_sid u_idx]. rewrite L. repeat split; vm_compute; discriminate.
Qed.
Print Assumptions C20_buffer_refuted.

(** Any message at all: the key and the value are parts of the message. *)
Lemma p_num_suffix rp rs n rp' rs' : p_num rp rs = Some (n, rp', rs') -> exists p, rp = p ++ rp'.
Proof.
  unfold p_num. destruct (rs <? 1)%Z; [discriminate|]. destruct (read_var _) as [[m step]|]; [|discriminate]. intros X; inversion X; subst.
  exists (firstn (N.to_nat step) rp). symmetry. apply firstn_skipn.
Qed.
Theorem C20_parse_inside m l : parse m = Some (SUCCESS, Some l) ->
  exists a b, m = a ++ match u_op l with USet k v => k ++ v | URemove k => k | UClear => [] end ++ b.
Proof.
  unfold parse. cbv zeta. destruct (to_i32 (blen m) <? 3)%Z; [discriminate|]. destruct m as [|magic rp]; [discriminate|].
  destruct (p_num rp _) as [[[n1 rp1] rs1]|] eqn:E1; [|discriminate]. destruct (p_num rp1 _) as [[[n2 rp2] rs2]|] eqn:E2; [|discriminate].
  apply p_num_suffix in E1, E2. destruct E1 as [q1 ->]. destruct E2 as [q2 ->].
  destruct (magic =? 161).
  - destruct (p_num rp2 _) as [[[n3 rp3] rs3]|] eqn:E3; [|discriminate]. destruct (p_num rp3 _) as [[[n4 rp4] rs4]|] eqn:E4; [|discriminate].
    apply p_num_suffix in E3, E4. destruct E3 as [q3 ->]. destruct E4 as [q4 ->].
    destruct (negb (in_i32 _)); [discriminate|]. destruct (negb _); [discriminate|]. destruct (_ || _); [discriminate|].
    intros X; inversion X; subst l. cbn [u_op]. exists (magic :: q1 ++ q2 ++ q3 ++ q4), (skipn (Z.to_nat (to_i32 n4)) (skipn (Z.to_nat (to_i32 n3)) rp4)).
    cbn [app]. rewrite <- !app_assoc, !firstn_skipn. reflexivity.
  - destruct (magic =? 162).
    + destruct (p_num rp2 _) as [[[n3 rp3] rs3]|] eqn:E3; [|discriminate]. apply p_num_suffix in E3. destruct E3 as [q3 ->].
      destruct (negb _); [discriminate|]. intros X; inversion X; subst l. cbn [u_op]. exists (magic :: q1 ++ q2 ++ q3), (skipn (Z.to_nat (to_i32 n3)) rp3).
      cbn [app]. rewrite <- !app_assoc, firstn_skipn. reflexivity.
    + destruct (magic =? 163); [|discriminate]. intros X; inversion X; subst l. cbn [u_op]. exists (magic :: q1 ++ q2 ++ rp2), []. cbn. rewrite !app_nil_r. reflexivity.
Qed.
Print Assumptions C20_parse_inside.
(** But not every message is handled: a key size of 2^32 - 1 is taken as -1 and,
    with a value size to match, makes a string_view of the size -1. *)
Theorem C20_parse_any_refuted : exists m, blen m <= 2^30 /\ parse m = None.
Proof. exists ([161; 0; 0] ++ write_var 4294967295 ++ [1]). split; [vm_compute; discriminate|reflexivity]. Qed.
Print Assumptions C20_parse_any_refuted.
(** * Selection *)
(** The filters: a nonnegative number must be equal, a negative one excludes. *)
Theorem C20_filter T (t_set : T -> bytes -> bytes -> code * T) t_remove t_clear t l sid idx :
  (-2147483648 < sid)%Z -> (-2147483648 < idx)%Z -> ids_ok l -> blen (ulog_bytes l) <= 2^30 ->
  let chosen := ((0 <= sid)%Z -> u_sid l = sid) /\ ((sid < 0)%Z -> u_sid l <> - sid)%Z /\
                ((0 <= idx)%Z -> u_idx l = idx) /\ ((idx < 0)%Z -> u_idx l <> - idx)%Z in
  (chosen -> apply_log t_set t_remove t_clear t (ulog_bytes l) sid idx =
     Some (SUCCESS, match u_op l with USet k v => snd (t_set t k v) | URemove k => snd (t_remove t k) | UClear => snd (t_clear t) end)) /\
  (~ chosen -> apply_log t_set t_remove t_clear t (ulog_bytes l) sid idx = Some (INFEASIBLE_ERROR, t)).
Proof.
  intros H1 H2 H3 H4. assert (N1 : sid <> INT32MIN) by (unfold INT32MIN; lia). assert (N2 : idx <> INT32MIN) by (unfold INT32MIN; lia).
  intros chosen. rewrite apply_log_ok by assumption.
  assert (W : forall w g, wants w g = true <-> ((0 <= w)%Z -> g = w) /\ ((w < 0)%Z -> g <> - w)%Z).
  { intros w g. unfold wants. destruct (Z.ltb_spec w 0).
    - destruct (Z.eqb_spec g (- w)%Z); cbn [negb]; split; try discriminate; try reflexivity.
      + intros [_ X]. exfalso. apply X; assumption.
      + intros _. split; [lia|auto].
    - destruct (Z.eqb_spec g w); split; try discriminate; try reflexivity.
      + intros _. split; [auto|lia].
      + intros [X _]. exfalso. auto. }
  assert (C : wants sid (u_sid l) && wants idx (u_idx l) = true <-> chosen).
  { rewrite Bool.andb_true_iff, !W. unfold chosen. tauto. }
  destruct (wants sid (u_sid l) && wants idx (u_idx l)).
  - split; [reflexivity|]. intros X. destruct X. apply C. reflexivity.
  - split; [intros X; apply C in X; discriminate|reflexivity].
Qed.
Print Assumptions C20_filter.
(** The status of the operation itself is lost: a database where Set fails. *)
Theorem C20_apply_status_refuted : exists (t_set : unit -> bytes -> bytes -> code * unit) m,
  t_set tt [1] [2] = (SYSTEM_ERROR, tt) /\ apply_log t_set (fun t _ => (SUCCESS, t)) (fun t => (SUCCESS, t)) tt m (-1) (-1) = Some (SUCCESS, tt) /\
  parse m = Some (SUCCESS, Some (mkUlog 0 0 (USet [1] [2]))).
Proof. exists (fun t _ _ => (SYSTEM_ERROR, t)), (ulog_bytes (mkUlog 0 0 (USet [1] [2]))). repeat split; reflexivity. Qed.

(** * Replay *)
(** A specification of the effect of an update. *)
Definition upd_map (m : amap) (op : upd) : amap :=
  match op with USet k v => aset m k v | URemove k => adel m k | UClear => aempty end.
(** A history of calls on the source database: Process with what the processor
    answers for the current value, and Clear. *)
Inductive dbcall := DProc (k : bytes) (f : option bytes -> action) | DClear.
Definition step1 (m : amap) (c : dbcall) : amap := match c with DProc k f => act m k (f (m k)) | DClear => aempty end.
Definition log1 (m : amap) (c : dbcall) : list upd := match c with DProc k f => logged m k (f (m k)) | DClear => [UClear] end.
Fixpoint run_calls (m : amap) (cs : list dbcall) : amap := match cs with [] => m | c :: cs' => run_calls (step1 m c) cs' end.
Fixpoint log_calls (m : amap) (cs : list dbcall) : list upd := match cs with [] => [] | c :: cs' => log1 m c ++ log_calls (step1 m c) cs' end.

Lemma upd_map_same m m' op : same_map m m' -> same_map (upd_map m op) (upd_map m' op).
Proof. intros H x. destruct op; cbn; unfold aset, adel; try destruct (beqb _ _); auto. Qed.
Lemma fold_upd_same ops : forall m m', same_map m m' -> same_map (fold_left upd_map ops m) (fold_left upd_map ops m').
Proof. induction ops as [|op ops IH]; intros m m' H; cbn; [exact H|]. apply IH, upd_map_same, H. Qed.
Lemma log1_ok m c : same_map (fold_left upd_map (log1 m c) m) (step1 m c).
Proof.
  destruct c as [k f|]; cbn; [|intros x; reflexivity]. unfold logged, act. destruct (m k) as [v|] eqn:E; destruct (f _) eqn:F; cbn; intros x; try reflexivity.
  unfold adel. destruct (beqb_spec k x) as [<-|]; [exact E|reflexivity].
Qed.
(** The log of a history describes it, from any state. *)
Theorem C20_history m cs : same_map (fold_left upd_map (log_calls m cs) m) (run_calls m cs).
Proof.
  revert m; induction cs as [|c cs IH]; intros m; [intros x; reflexivity|]. cbn [log_calls run_calls]. rewrite fold_left_app.
  intros x. rewrite (fold_upd_same _ _ _ (log1_ok m c) x). apply IH.
Qed.
Print Assumptions C20_history.

(** Replaying a closed queue.  [H]: the updates written to it, with their
    timestamps; the queue has gone through any execution (rotation, reopening,
    crashes and readers, MqProps).  Every file has a message (see below).  The
    target is any database; its statuses play no role. *)
Theorem C20_replay T (t_set : T -> bytes -> bytes -> code * T) t_remove t_clear t0 q r W tm D (H : list (N * ulog)) q1 min sid idx :
  sys q r W tm D -> W = map (fun h => (fst h, ulog_bytes (snd h))) H ->
  Forall (fun h => ids_ok (snd h) /\ blen (ulog_bytes (snd h)) <= 2^30) H ->
  mq_close q = (SUCCESS, q1) -> Forall (fun f => 32 < blen (snd f)) (q_dir q1) ->
  (-2147483648 < sid)%Z -> (-2147483648 < idx)%Z ->
  apply_files t_set t_remove t_clear (q_dir q1) min sid idx t0 =
    Done SUCCESS (fold_left (fun t op => match op with USet k v => snd (t_set t k v) | URemove k => snd (t_remove t k) | UClear => snd (t_clear t) end)
      (map (fun h => u_op (snd h)) (filter (fun h => (min <=? fst h) && wants sid (u_sid (snd h)) && wants idx (u_idx (snd h))) H)) t0).
Proof.
  intros SY -> HO Hc Hne H1 H2. destruct (sys_inv SY) as (a & init & lst & I). unfold mq_close in Hc. rewrite (i_open (i_read (s_q I))) in Hc. injection Hc as <-.
  change (q_dir _) with (q_dir (q_sync q)) in *. assert (P := pow10). assert (Z := s_id I).
  assert (J := sync_inv (s_q I) ltac:(lia)). assert (R := i_read J). rewrite (i_dir R) in *.
  rewrite Forall_map in Hne. cbn [enc snd] in Hne.
  refine (apply_files_ok T t_set t_remove t_clear min sid idx _ _ _ H t0 (i_ok R) _ _ Hne _ HO); try (unfold INT32MIN; lia).
  - apply Forall_app. split; [apply R|]. constructor; [|constructor]. assert (X := i_ts J). rewrite log_of_app, log_of_one, Forall_app in X. apply X.
  - apply Forall_app. split; [apply J|]. constructor; [|constructor]. rewrite seg_blen. cbn [resync sg_msize sg_msgs]. apply seg_blen.
  - rewrite log_of_app, log_of_one. cbn [resync sg_msgs]. assert (X := s_log I). rewrite log_of_app, log_of_one in X. symmetry. exact X.
Qed.
Print Assumptions C20_replay.

(** The whole way: any history of calls on an empty database whose updates were
    logged with the ids (sid, idx), replayed into an empty database, gives the
    same contents; the target is seen through its contents [view]. *)
Theorem C20_rebuild T (t_set : T -> bytes -> bytes -> code * T) t_remove t_clear (view : T -> amap) t0 cs q r W tm D tss sid idx q1 :
  (forall t k v, same_map (view (snd (t_set t k v))) (aset (view t) k v)) ->
  (forall t k, same_map (view (snd (t_remove t k))) (adel (view t) k)) ->
  (forall t, same_map (view (snd (t_clear t))) aempty) ->
  same_map (view t0) aempty ->
  sys q r W tm D -> length tss = length (log_calls aempty cs) ->
  W = map (fun h => (fst h, ulog_bytes (mkUlog sid idx (snd h)))) (combine tss (log_calls aempty cs)) ->
  (0 <= sid < 2147483648)%Z -> (0 <= idx < 2147483648)%Z ->
  Forall (fun op => blen (ulog_bytes (mkUlog sid idx op)) <= 2^30) (log_calls aempty cs) ->
  mq_close q = (SUCCESS, q1) -> Forall (fun f => 32 < blen (snd f)) (q_dir q1) ->
  exists t1, apply_files t_set t_remove t_clear (q_dir q1) 0 sid idx t0 = Done SUCCESS t1 /\ same_map (view t1) (run_calls aempty cs).
Proof.
  intros V1 V2 V3 V0 SY Hl EW Hs Hi HO Hc Hne.
  set (H := map (fun h : N * upd => (fst h, mkUlog sid idx (snd h))) (combine tss (log_calls aempty cs))).
  assert (E := C20_replay T t_set t_remove t_clear t0 q r W tm D H q1 0 sid idx SY).
  rewrite E; clear E; try assumption; try lia.
  - eexists. split; [reflexivity|].
    assert (EF : filter (fun h : N * ulog => (0 <=? fst h) && wants sid (u_sid (snd h)) && wants idx (u_idx (snd h))) H = H).
    { unfold H. clear EW H Hc Hne. induction (combine tss (log_calls aempty cs)) as [|h l IH]; [reflexivity|]. cbn [map filter fst snd u_sid u_idx].
      rewrite (proj2 (N.leb_le 0 _)) by lia. unfold wants at 1 2. destruct (Z.ltb_spec sid 0); [lia|]. destruct (Z.ltb_spec idx 0); [lia|].
      rewrite !Z.eqb_refl. cbn [andb]. f_equal. exact IH. }
    rewrite EF. unfold H. rewrite map_map. cbn [snd u_op].
    assert (EO : map (fun x : N * upd => snd x) (combine tss (log_calls aempty cs)) = log_calls aempty cs).
    { revert Hl. generalize (log_calls aempty cs). clear. intros l; revert tss; induction l as [|y l IH]; intros [|x tss] Hl; try discriminate; [reflexivity|].
      cbn in *. f_equal. apply IH. lia. }
    rewrite EO. assert (G : forall ops t m, same_map (view t) m -> same_map (view (fold_left (fun t op => match op with USet k v => snd (t_set t k v) | URemove k => snd (t_remove t k) | UClear => snd (t_clear t) end) ops t)) (fold_left upd_map ops m)).
    { induction ops as [|op ops IH]; intros t m Hm; [exact Hm|]. cbn [fold_left]. apply IH. intros x. rewrite <- (upd_map_same _ _ op Hm x). destruct op; cbn [upd_map]; [apply V1|apply V2|apply V3]. }
    intros x. rewrite (G _ _ _ V0 x). apply C20_history.
  - unfold H. rewrite EW, map_map. reflexivity.
  - unfold H. rewrite Forall_map. apply Forall_forall. intros [ts op] Hin. cbn [snd]. split; [split; assumption|].
    rewrite Forall_forall in HO. apply HO. eapply in_combine_r, Hin.
Qed.
Print Assumptions C20_rebuild.

(** The target of the examples: a map. *)
Definition am_set (m : amap) (k v : bytes) : code * amap := (SUCCESS, aset m k v).
Definition am_remove (m : amap) (k : bytes) : code * amap := (match m k with Some _ => SUCCESS | None => NOT_FOUND_ERROR end, adel m k).
Definition am_clear (m : amap) : code * amap := (SUCCESS, aempty).
(** An execution: three calls, logged with a rotation (a file limit of 50 bytes). *)
Definition ex_calls : list dbcall := [DProc [1] (fun _ => ASet [10]); DProc [2] (fun _ => ASet [20]); DProc [3] (fun _ => ARemove); DProc [1] (fun _ => ARemove)].
Definition ex_q0 : mq := Eval vm_compute in match mq_open [] 50 false false with Some (_, q) => q | None => mkMq [] false 0 None 0 0 end.
Definition ex_m (n : nat) : bytes := ulog_bytes (mkUlog 1 0 (nth n (log_calls aempty ex_calls) UClear)).
Definition ex_q1 : mq := Eval vm_compute in snd (mq_write ex_q0 false 5 (ex_m 0)).
Definition ex_q2 : mq := Eval vm_compute in snd (mq_write ex_q1 false 6 (ex_m 1)).
Definition ex_q3 : mq := Eval vm_compute in snd (mq_write ex_q2 false 7 (ex_m 2)).
Definition ex_q4 : mq := Eval vm_compute in snd (mq_close ex_q3).
Example C20_replay_ex :
  (exists W, sys ex_q3 (rd_new 0) W 7 [] /\ W = map (fun h => (fst h, ulog_bytes (mkUlog 1 0 (snd h)))) (combine [5; 6; 7] (log_calls aempty ex_calls))) /\
  mq_close ex_q3 = (SUCCESS, ex_q4) /\ length (q_dir ex_q4) = 3%nat /\ Forall (fun f => 32 < blen (snd f)) (q_dir ex_q4) /\
  match apply_files am_set am_remove am_clear (q_dir ex_q4) 0 1 0 aempty with
  | Done c m => c = SUCCESS /\ m [1] = None /\ m [2] = Some [20] /\ m [3] = None
  | _ => False
  end.
Proof.
  split; [|split; [reflexivity|split; [reflexivity|split; [repeat constructor|vm_compute; auto]]]].
  exists ([] ++ [(N.max 5 0, ex_m 0)] ++ [(N.max 6 (N.max 5 0), ex_m 1)] ++ [(N.max 7 (N.max 6 (N.max 5 0)), ex_m 2)]). split; [|reflexivity].
  rewrite !app_assoc. change 7 with (N.max 7 (N.max 6 (N.max 5 0))) at 2.
  apply sys_write with (q := ex_q2) (hard := false); [|vm_compute; repeat constructor|reflexivity|reflexivity|reflexivity].
  apply sys_write with (q := ex_q1) (hard := false); [|vm_compute; repeat constructor|reflexivity|reflexivity|reflexivity].
  apply sys_write with (q := ex_q0) (hard := false); [|vm_compute; repeat constructor|reflexivity|reflexivity|reflexivity].
  apply sys_new with (max := 50) (ign := false); [vm_compute; discriminate|reflexivity].
Qed.

(** * What replay needs *)
(** A queue to which nothing was written: the replay of its one file, which has no
    message, fails instead of doing nothing. *)
Definition empty_q : mq := Eval vm_compute in snd (mq_close ex_q0).
Theorem C20_replay_empty_refuted : exists q q1, sys q (rd_new 0) [] 0 [] /\ mq_close q = (SUCCESS, q1) /\
  forall m, apply_files am_set am_remove am_clear (q_dir q1) 0 (-1) (-1) m = Done INFEASIBLE_ERROR m.
Proof.
  exists ex_q0, empty_q. split; [apply sys_new with (max := 50) (ign := false); [vm_compute; discriminate|reflexivity]|].
  split; [reflexivity|]. intros m. reflexivity.
Qed.
Print Assumptions C20_replay_empty_refuted.
(** Without synchronization (the queue is still open), messages are left out: here
    the first of two is applied, the second is not. *)
Definition un_q0 : mq := Eval vm_compute in match mq_open [] 1000 false false with Some (_, q) => q | None => mkMq [] false 0 None 0 0 end.
Definition un_q1 : mq := Eval vm_compute in snd (mq_write un_q0 false 5 (ex_m 0)).
Definition un_q2 : mq := Eval vm_compute in snd (mq_write un_q1 false 6 (ex_m 1)).
Theorem C20_replay_unsynced_refuted : exists q W, sys q (rd_new 0) W 6 [] /\ length W = 2%nat /\
  match apply_files am_set am_remove am_clear (q_dir q) 0 1 0 aempty with Done c m => c = SUCCESS /\ m [1] = Some [10] /\ m [2] = None | _ => False end.
Proof.
  exists un_q2, ([] ++ [(N.max 5 0, ex_m 0)] ++ [(N.max 6 (N.max 5 0), ex_m 1)]). split; [|split; [reflexivity|vm_compute; auto]].
  rewrite !app_assoc. change 6 with (N.max 6 (N.max 5 0)) at 2.
  apply sys_write with (q := un_q1) (hard := false); [|vm_compute; repeat constructor|reflexivity|reflexivity|reflexivity].
  apply sys_write with (q := un_q0) (hard := false); [|vm_compute; repeat constructor|reflexivity|reflexivity|reflexivity].
  apply sys_new with (max := 1000) (ign := false); [vm_compute; discriminate|reflexivity].
Qed.
Print Assumptions C20_replay_unsynced_refuted.
(** A file whose metadata cover a region of zeros (the data of a synchronized tail
    lost by the file system) is never left: ReadNextMessage returns
    CANCELED_ERROR and the loop asks again at the same offset. *)
Theorem C20_replay_hang_refuted : exists d, apply_files am_set am_remove am_clear d 0 (-1) (-1) aempty = Hangs /\
  match d with [(_, f)] => load_meta f = inr (Some 1, 0, 7, 64) /\ blen f = 64 | _ => False end.
Proof. exists [(0, meta_bytes 1 0 7 64 ++ repeat 0 32)]. split; [reflexivity|split; reflexivity]. Qed.
Print Assumptions C20_replay_hang_refuted.

(** * The logger into a second database *)
(** The second database follows the first, and no removal makes the log fail. *)
Theorem C20_mirror T (t_set : T -> bytes -> bytes -> code * T) t_remove t_clear (view : T -> amap) t0 cs :
  (forall t k v, fst (t_set t k v) = SUCCESS /\ same_map (view (snd (t_set t k v))) (aset (view t) k v)) ->
  (forall t k, (fst (t_remove t k) = match view t k with Some _ => SUCCESS | None => NOT_FOUND_ERROR end) /\ same_map (view (snd (t_remove t k))) (adel (view t) k)) ->
  (forall t, fst (t_clear t) = SUCCESS /\ same_map (view (snd (t_clear t))) aempty) ->
  same_map (view t0) aempty ->
  same_map (view (fold_left (fun t op => snd (dbm_log t_set t_remove t_clear t op)) (log_calls aempty cs) t0)) (run_calls aempty cs) /\
  forall t op, fst (dbm_log t_set t_remove t_clear t op) = SUCCESS.
Proof.
  intros V1 V2 V3 V0. split.
  - assert (G : forall ops t m, same_map (view t) m -> same_map (view (fold_left (fun t op => snd (dbm_log t_set t_remove t_clear t op)) ops t)) (fold_left upd_map ops m)).
    { induction ops as [|op ops IH]; intros t m Hm; [exact Hm|]. cbn [fold_left]. apply IH. intros x. rewrite <- (upd_map_same _ _ op Hm x).
      destruct op; cbn [upd_map dbm_log]; [apply V1| |apply V3]. assert (X := proj2 (V2 t k)). destruct (t_remove t k) as [c t']. apply X. }
    intros x. rewrite (G _ _ _ V0 x). apply C20_history.
  - intros t [k v|k|]; cbn [dbm_log]; [apply V1| |apply V3]. assert (X := proj1 (V2 t k)). destruct (t_remove t k) as [c t']. cbn [fst] in *. subst c.
    destruct (view t k); reflexivity.
Qed.
Print Assumptions C20_mirror.
