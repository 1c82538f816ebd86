(** Properties C03 and C04: the hash database is a map in both update modes.

    The specification is MapSpec.v: [map_run] runs a history of record
    operations on a mathematical map, and [msize] counts its keys and bytes.
    [hdb_ok] says that the tuning is in the range enforced by the code,
    [ops_ok] that keys and values respect the size limits of the format.
    The file may not grow beyond the range of the offset width; the code does
    not check this, see [C03_capacity_refuted]. *)
From Verif Require Import Bytes MapSpec CodecModel CodecProofs FileModel HashUtilModel HashUtilProofs HashRecModel
  HashRecProofs FbpModel FbpProofs HashDbModel HashDbLayout HashDbAppend HashDbInPlace HashDbProofs.
Open Scope N_scope.

(** What it means that a database run agrees with the map run: all operations
    succeed, every processor saw what the map holds, the count and the data size
    are exact and each lookup returns the value of the map. *)
Definition agrees (d : hdb) (s : hst) (out : list (hstatus * option (option bytes))) (ops : list hop) : Prop :=
  let m := fst (map_run aempty ops) in
  out = map (fun x => (HOk, Some x)) (snd (map_run aempty ops)) /\
  msize m (s_num s) (s_eff s) /\
  (forall key, key_ok key -> h_get d s key = mkhres s HOk (Some (m key))).

Lemma history_agrees d cap ops :
  hdb_ok d -> 1 <= cap -> ops_ok aempty ops ->
  let '(s, out) := h_run d (h_init d cap) ops in
  fsize (s_file s) <= capacity d -> agrees d s out ops.
Proof.
  intros Hd Hc Hops. assert (H := h_history d ops (h_init d cap) aempty Hd (h_init_inv d cap Hd Hc) Hops).
  destruct (h_run d (h_init d cap) ops) as [s out]. cbn [fst snd] in H. intros Hf.
  destruct (H Hf) as (H1 & H2 & _). split; [exact H1|]. split; [apply (h_inv_size d); exact H2|].
  intros key Hk. apply h_get_spec; assumption.
Qed.

Theorem C03_in_place_map : forall d cap ops,
  hdb_ok d -> d_inplace d = true -> 1 <= cap -> ops_ok aempty ops ->
  let '(s, out) := h_run d (h_init d cap) ops in
  fsize (s_file s) <= capacity d -> agrees d s out ops.
Proof. intros d cap ops Hd _. apply history_agrees; exact Hd. Qed.
Print Assumptions C03_in_place_map.

Theorem C04_appending_map : forall d cap ops,
  hdb_ok d -> d_inplace d = false -> 1 <= cap -> ops_ok aempty ops ->
  let '(s, out) := h_run d (h_init d cap) ops in
  fsize (s_file s) <= capacity d -> agrees d s out ops.
Proof. intros d cap ops Hd _. apply history_agrees; exact Hd. Qed.
Print Assumptions C04_appending_map.

(** The two modes cannot be told apart: the same outputs and the same lookups. *)
Theorem C04_modes_agree : forall d d' cap ops,
  hdb_ok d -> hdb_ok d' -> d_inplace d = true -> d_inplace d' = false -> 1 <= cap -> ops_ok aempty ops ->
  let '(s, out) := h_run d (h_init d cap) ops in
  let '(s', out') := h_run d' (h_init d' cap) ops in
  fsize (s_file s) <= capacity d -> fsize (s_file s') <= capacity d' ->
  out = out' /\ s_num s = s_num s' /\ s_eff s = s_eff s' /\
  forall key, key_ok key -> h_seen (h_get d s key) = h_seen (h_get d' s' key).
Proof.
  intros d d' cap ops Hd Hd' _ _ Hc Hops. assert (H := history_agrees d cap ops Hd Hc Hops). assert (H' := history_agrees d' cap ops Hd' Hc Hops).
  destruct (h_run d (h_init d cap) ops) as [s out]. destruct (h_run d' (h_init d' cap) ops) as [s' out'].
  intros Hf Hf'. destruct (H Hf) as (A1 & A2 & A3), (H' Hf') as (B1 & B2 & B3).
  split; [congruence|]. destruct (msize_fun _ _ _ _ _ A2 B2) as [E1 E2]. split; [exact E1|]. split; [exact E2|].
  intros key Hk. rewrite (A3 key Hk), (B3 key Hk). reflexivity.
Qed.
Print Assumptions C04_modes_agree.

(** SetUpdateModeAppending may be called between any two operations. *)
Theorem C04_mode_switch : forall d cap ops1 ops2,
  hdb_ok d -> 1 <= cap -> ops_ok aempty (ops1 ++ ops2) ->
  let '(s1, out1) := h_run d (h_init d cap) ops1 in
  let '(s2, out2) := h_run (to_appending d) s1 ops2 in
  fsize (s_file s2) <= capacity d -> agrees (to_appending d) s2 (out1 ++ out2) (ops1 ++ ops2).
Proof.
  intros d cap ops1 ops2 Hd Hc Hops. apply ops_ok_app in Hops. destruct Hops as [Hops1 Hops2].
  assert (H := h_history d ops1 (h_init d cap) aempty Hd (h_init_inv d cap Hd Hc) Hops1).
  destruct (h_run d (h_init d cap) ops1) as [s1 out1]. cbn [fst snd] in H.
  set (m1 := fst (map_run aempty ops1)) in *.
  assert (G := h_run_grows (to_appending d) ops2 s1).
  assert (H' := fun Hi => h_history (to_appending d) ops2 s1 m1 Hd Hi Hops2).
  destruct (h_run (to_appending d) s1 ops2) as [s2 out2]. cbn [fst snd] in *. intros Hf.
  destruct (H ltac:(lia)) as (A1 & A2 & _).
  destruct (H' (h_inv_switch d s1 m1 Hd A2) Hf) as (B1 & B2 & _).
  unfold agrees. rewrite map_run_app. fold m1. cbn [fst snd].
  split; [rewrite map_app, A1, B1; reflexivity|]. split; [apply (h_inv_size (to_appending d)); exact B2|].
  intros key Hk. apply h_get_spec; assumption.
Qed.
Print Assumptions C04_mode_switch.

(** The limit of the offset width is not checked: in a file which has exactly
    reached it, a successful Set makes all keys of the bucket disappear,
    including the one just set. *)
Theorem C03_capacity_refuted : forall d s key v key',
  hdb_ok d -> d_inplace d = false -> record_base d <= fsize (s_file s) -> fsize (s_file s) = capacity d ->
  h_status (h_set d s key v) = HOk -> primary_hash key' (d_nb d) = primary_hash key (d_nb d) ->
  h_seen (h_get d (h_st (h_set d s key v)) key') = Some None.
Proof.
  intros d s key v key' Hd Hip Hrb Hs Hok Hh.
  rewrite (get_bucket_zero_miss d (h_st (h_set d s key v)) key'); [reflexivity|].
  rewrite Hh. exact (capacity_loss d s key v Hd Hip Hs Hrb Hok).
Qed.
Print Assumptions C03_capacity_refuted.
Definition ex_full : hst :=
  let d := mkhdb (mkhcfg 3 0 0) 7 false 48 in mkhst (mkfile (fun _ => 0) (capacity d)) (mkfbp 4 []) 0 0 [].
Example C03_capacity_ex :
  let d := mkhdb (mkhcfg 3 0 0) 7 false 48 in
  record_base d <= fsize (s_file ex_full) /\ fsize (s_file ex_full) = capacity d /\ h_status (h_set d ex_full [97] [1]) = HOk /\ h_seen (h_get d (h_st (h_set d ex_full [97] [1])) [97]) = Some None.
Proof. cbv zeta. split; [vm_compute; congruence|]. split; [reflexivity|]. split; lazy; reflexivity. Qed.

(** * A concrete history: one bucket, so that all keys collide; a removal, a
    growing update and the reuse of the freed space. *)
Definition ex_db (ip : bool) : hdb := mkhdb (mkhcfg 4 3 2) 1 ip 48.
Definition ex_set (k v : bytes) : hop := mkhop k (fun _ => ASet v) false true.
Definition ex_rm (k : bytes) : hop := mkhop k (fun _ => ARemove) false true.
Definition ex_app (k v : bytes) : hop := mkhop k (fun o => match o with Some w => ASet (w ++ v) | None => ASet v end) true true.
Definition ex_ops : list hop :=
  [ex_set [97] [1]; ex_set [98] [2; 2]; ex_set [99] [3; 3; 3]; ex_rm [98]; ex_app [97] (repeat 7 30); ex_set [100] [4]; ex_rm [120]].

Example C03_ex :
  hdb_ok (ex_db true) /\ (let '(s, out) := h_run (ex_db true) (h_init (ex_db true) 4) ex_ops in
    fsize (s_file s) <= capacity (ex_db true) /\ s_num s = 3%Z /\
    map (fun k => h_seen (h_get (ex_db true) s k)) [[97]; [98]; [99]; [100]; [120]]
    = [Some (Some (1 :: repeat 7 30)); Some None; Some (Some [3; 3; 3]); Some (Some [4]); Some None] /\
    fp_data (s_fbp s) = [mkfb 16 4112]).
Proof.
  split; [split; [split; [cbn; lia|split; [cbn; lia|cbn; auto]]|split; [reflexivity|vm_compute; congruence]]|].
  vm_compute. repeat split; congruence.
Qed.
Example C04_ex :
  hdb_ok (ex_db false) /\ (let '(s, out) := h_run (ex_db false) (h_init (ex_db false) 4) ex_ops in
    fsize (s_file s) <= capacity (ex_db false) /\ s_num s = 3%Z /\
    map (fun k => h_seen (h_get (ex_db false) s k)) [[97]; [98]; [99]; [100]; [120]]
    = [Some (Some (1 :: repeat 7 30)); Some None; Some (Some [3; 3; 3]); Some (Some [4]); Some None]).
Proof.
  split; [split; [split; [cbn; lia|split; [cbn; lia|cbn; auto]]|split; [reflexivity|vm_compute; congruence]]|].
  vm_compute. repeat split; congruence.
Qed.
Example C03_ex_ops : ops_ok aempty ex_ops.
Proof.
  assert (B : forall l : list N, forallb (fun x => x <? 256) l = true -> bytes_ok l).
  { intros l H. apply Forall_forall. intros x Hx. rewrite forallb_forall in H. apply N.ltb_lt, H, Hx. }
  assert (K : forall l, forallb (fun x => x <? 256) l && (blen l <=? MAX_KEY_SIZE) = true -> key_ok l).
  { intros l H. apply andb_true_iff in H. destruct H as [H1 H2]. split; [apply B, H1|apply N.leb_le, H2]. }
  assert (V : forall l, forallb (fun x => x <? 256) l && (blen l <=? VALUE_LIMIT) = true -> value_ok l).
  { intros l H. apply andb_true_iff in H. destruct H as [H1 H2]. split; [apply B, H1|apply N.leb_le, H2]. }
  repeat split; try (apply K; reflexivity); try (apply V; reflexivity).
Qed.
