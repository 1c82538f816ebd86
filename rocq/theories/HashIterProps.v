(** Property C43: the iterator of the hash database.

    The specification is the map of MapSpec.v which the history of operations
    produces.  [it_scan] repeats Get and Next; [it_run] interleaves steps of the
    iterator with arbitrary operations on the database and collects the keys
    which the iterator passes. *)
From Coq Require Import Permutation.
From Verif Require Import Bytes BytesOrder MapSpec CodecModel CodecProofs FileModel HashUtilModel HashUtilProofs HashRecModel
  HashRecProofs FbpModel FbpProofs HashDbModel HashDbLayout HashDbAppend HashDbInPlace HashDbProofs HashDbProps
  HashIterModel HashIterProofs.
Open Scope N_scope.

(** After any history, First and then Get/Next repeated as often as Count says
    returns each record of the map exactly once with its value; the following
    Get reports that there is nothing more. *)
Theorem C43_scan : forall d cap ops, hdb_ok d -> 1 <= cap -> ops_ok aempty ops ->
  let s := fst (h_run d (h_init d cap) ops) in
  let m := fst (map_run aempty ops) in
  fsize (s_file s) <= capacity d ->
  exists kvs it', it_scan (Z.to_nat (s_num s)) d s it_first = (it', map (fun kv => (IOk, Some (fst kv, Some (snd kv)))) kvs) /\
    NoDup (map fst kvs) /\ (forall k v, In (k, v) kvs <-> m k = Some v) /\
    snd (fst (it_get d s it')) = INotFound.
Proof.
  intros d cap ops Hd Hcap Hops s m Hc.
  destruct (h_history d ops (h_init d cap) aempty Hd (h_init_inv d cap Hd Hcap) Hops Hc) as (_ & Hi & _).
  fold s in Hi. fold m in Hi. destruct (h_inv_size d s m Hi) as (ks & K1 & K2 & K3 & _).
  destruct (it_scan_ok d s m Hd Hi Hc (Z.to_nat (s_num s)) it_first ks) as (kvs & it' & A1 & A2 & A3 & A4 & A5).
  - apply it_first_ok.
  - intros k [].
  - exact K1.
  - lia.
  - intros k. rewrite K2. unfold pending, it_first, below. cbn [it_keys it_bucket]. split; [right; split; [lia|assumption]|intros [[]|[_ H]]; exact H].
  - exists kvs, it'. split; [exact A1|]. split; [apply (Permutation_NoDup (Permutation_sym A2) K1)|]. split.
    + intros k v. split; [apply A3|]. intros Hm. assert (Hin : In k (map fst kvs)).
      { apply (Permutation_in _ (Permutation_sym A2)). apply K2. congruence. }
      apply in_map_iff in Hin. destruct Hin as ((k' & v') & E & Hin). cbn [fst] in E. subst k'.
      specialize (A3 k v' Hin). assert (v' = v) by congruence. subst v'. exact Hin.
    + assert (Hlive : forall k, In k (it_keys it') -> m k <> None).
      { intros k Hk. destruct (A5 k). left; exact Hk. }
      assert (Hg := it_get_spec d s m it' Hd Hi Hc A4 Hlive).
      assert (Hsp := read_keys_spec d s m it' Hd Hi A4).
      destruct (it_get d s it') as [[it2 st] out]. cbn [fst snd]. destruct Hg as [E1 Hg].
      destruct (read_keys d (s_file s) it') as [itr str]. cbn [fst snd] in *. subst itr.
      destruct Hsp as (_ & _ & S3 & _). destruct (it_keys it2) as [|k rest] eqn:Ek; [apply Hg|].
      assert (Hk : In k (k :: rest)) by (left; reflexivity). apply S3 in Hk. destruct (A5 k). unfold pending. tauto.
Qed.
Print Assumptions C43_scan.

(** With updates between the steps of the iterator, whatever they are: no key is
    passed twice; if the iterator has reached the end then every key which was
    there at the start and was not removed by an outside operation has been
    passed; a key which was missing at the start and was not written by an
    outside operation has not been passed.  The iterator itself may update or
    remove the records it visits. *)
Theorem C43_interleaved : forall d cap ops es, hdb_ok d -> 1 <= cap -> ops_ok aempty ops -> Forall ev_ok es ->
  let s := fst (h_run d (h_init d cap) ops) in
  let m := fst (map_run aempty ops) in
  let '(s', it', vis) := it_run d s it_first es in
  fsize (s_file s') <= capacity d ->
  NoDup vis /\
  (it_bucket it' = None -> forall k, m k <> None -> Forall (ev_keeps k) es -> In k vis) /\
  (forall k, m k = None -> Forall (ev_avoids k) es -> ~ In k vis).
Proof.
  intros d cap ops es Hd Hcap Hops Hes s m.
  assert (HH := h_history d ops (h_init d cap) aempty Hd (h_init_inv d cap Hd Hcap) Hops). fold s in HH. fold m in HH.
  assert (G := it_run_grows d es s it_first).
  assert (R := fun Hi => it_run_ok d es s m it_first [] Hd Hi).
  destruct (it_run d s it_first es) as [[s' it'] vis]. cbn [fst] in G. intros Hc.
  destruct (HH ltac:(lia)) as (_ & Hi & _).
  destruct (R Hi) as (m' & H1 & (H2 & H3 & H4) & H5 & H6); [|exact Hes|exact Hc|].
  { split; [apply it_first_ok|]. split; [constructor|intros k []]. }
  cbn [app] in *. unfold all_vis in H3. destruct (nodup_app_inv _ _ H3) as (N1 & N2 & N3).
  split; [exact N1|]. split.
  - intros Hb k Hm Hk. destruct (H5 k Hk) as [[_ Hin]|[Hnb _]].
    + right. split; [unfold below, it_first; cbn [it_bucket]; lia|exact Hm].
    + unfold all_vis in Hin. unfold it_ok in H2. rewrite Hb in H2. rewrite H2, app_nil_r in Hin. exact Hin.
    + exfalso. apply Hnb. unfold below. rewrite Hb. exact I.
  - intros k Hm Hk Hin. destruct (H6 k Hk) as [Hn _].
    + split; [intros []|exact Hm].
    + apply Hn. unfold all_vis. rewrite in_app_iff. left; exact Hin.
Qed.
Print Assumptions C43_interleaved.

(** Jump finds a key exactly when it is in the map, and then the current record
    is the record of the key. *)
Theorem C43_jump : forall d cap ops key, hdb_ok d -> 1 <= cap -> ops_ok aempty ops ->
  let s := fst (h_run d (h_init d cap) ops) in
  let m := fst (map_run aempty ops) in
  fsize (s_file s) <= capacity d ->
  let '(it, st) := it_jump d (s_file s) key in
  match m key with
  | Some v => st = IOk /\ exists it', it_get d s it = (it', IOk, Some (key, Some v))
  | None => st = INotFound /\ snd (fst (it_get d s it)) = INotFound
  end.
Proof.
  intros d cap ops key Hd Hcap Hops s m Hc.
  destruct (h_history d ops (h_init d cap) aempty Hd (h_init_inv d cap Hd Hcap) Hops Hc) as (_ & Hi & _).
  fold s in Hi. fold m in Hi. unfold it_jump, next_bucket. cbn [it_bucket it_keys].
  set (b := primary_hash key (d_nb d)).
  destruct (read_next_spec d s m (S (N.to_nat (d_nb d - b))) b Hd Hi ltac:(lia)) as [[H1 H2]|(b' & ks & H1 & H2 & H3 & H4 & H5 & H6)]; rewrite H1.
  - destruct (m key) as [v|] eqn:Em.
    + exfalso. specialize (H2 key ltac:(congruence)). fold b in H2. lia.
    + split; reflexivity.
  - cbn [it_keys it_bucket]. assert (D := drop_to_spec key ks). destruct (drop_to key ks) as [r|].
    + destruct D as (l1 & l2 & El & -> & l3 & ->).
      assert (Hin : In key ks) by (rewrite El, in_app_iff; right; left; reflexivity).
      apply H5 in Hin. destruct Hin as [Hb Hm]. destruct (m key) as [v|] eqn:Em; [|congruence]. split; [reflexivity|].
      assert (Hok : it_ok d (mkhiter (Some (b' + 1)) (key :: l3))).
      { split.
        - cbn [it_keys]. clear - H4 El. subst ks. induction l1 as [|x l1 IH]; [exact H4|]. apply IH. inversion H4; assumption.
        - intros k Hk. cbn [it_keys] in Hk. assert (Hk' : In k ks) by (rewrite El, in_app_iff; right; exact Hk).
          apply H5 in Hk'. split; [lia|]. eapply live_key_ok; eauto. apply Hk'. }
      assert (Hlive : forall k, In k (it_keys (mkhiter (Some (b' + 1)) (key :: l3))) -> m k <> None).
      { intros k Hk. cbn [it_keys] in Hk. assert (Hk' : In k ks) by (rewrite El, in_app_iff; right; exact Hk). apply H5, Hk'. }
      assert (Hg := it_get_spec d s m _ Hd Hi Hc Hok Hlive).
      destruct (it_get d s _) as [[it2 st] out]. destruct Hg as [E1 Hg]. cbn [read_keys it_bucket it_keys fst] in E1.
      subst it2. cbn [it_keys] in Hg. destruct Hg as (v' & E & -> & -> & _). assert (v' = v) by congruence. subst v'. eauto.
    + destruct (m key) as [v|] eqn:Em; [|split; reflexivity]. exfalso. apply D. apply H5. split; [|congruence].
      assert (b' <= b) by (apply H6; [congruence|unfold b; lia]). fold b. lia.
Qed.
Print Assumptions C43_jump.

(** The documentation of Iterator::Process says that it fails only without a
    current record.  When a record is removed by another operation while the
    iterator stands on it, Get fails with NOT_FOUND_ERROR although other records
    follow: a loop "while Get succeeds" ends early. *)
Definition ex_it_ops : list hop := [ex_set [97] [1]; ex_set [98] [2; 2]; ex_set [99] [3; 3; 3]].
Theorem C43_removed_ends_scan_refuted :
  let s := fst (h_run (ex_db true) (h_init (ex_db true) 4) ex_it_ops) in
  let '(it1, st1, out1) := it_get (ex_db true) s it_first in
  let s' := h_st (h_remove (ex_db true) s [97]) in
  let '(it2, st2, out2) := it_get (ex_db true) s' it1 in
  let it3 := fst (it_next (ex_db true) (s_file s') it2) in
  let '(it4, st4, out4) := it_get (ex_db true) s' it3 in
  (st1, out1) = (IOk, Some ([97], Some [1])) /\ st2 = INotFound /\ (st4, out4) = (IOk, Some ([98], Some [2; 2])).
Proof. vm_compute. repeat split; reflexivity. Qed.
Print Assumptions C43_removed_ends_scan_refuted.

(** A concrete scan in appending mode, with outdated and removed records in the
    single chain. *)
Example C43_ex :
  let s := fst (h_run (ex_db false) (h_init (ex_db false) 4) ex_ops) in
  hdb_ok (ex_db false) /\ fsize (s_file s) <= capacity (ex_db false) /\
  snd (it_scan 3 (ex_db false) s it_first) =
    [(IOk, Some ([97], Some (1 :: repeat 7 30))); (IOk, Some ([99], Some [3; 3; 3])); (IOk, Some ([100], Some [4]))].
Proof.
  cbv zeta. split; [split; [split; [cbn; lia|split; [cbn; lia|cbn; auto]]|split; [reflexivity|vm_compute; congruence]]|].
  vm_compute. repeat split; congruence.
Qed.
(** Events meeting the hypotheses of [C43_interleaved], ending the iteration:
    the iterator removes the first record, another key is removed and one added. *)
Definition ex_events : list ievent :=
  [EProc (fun _ _ => ARemove) true; EOp (ex_rm [99]); EOp (ex_set [97] [9]); ENext; ENext; ENext; ENext].
Example C43_events_ex :
  let s := fst (h_run (ex_db true) (h_init (ex_db true) 4) ex_it_ops) in
  let '(s', it', vis) := it_run (ex_db true) s it_first ex_events in
  it_bucket it' = None /\ vis = [[97]; [98]; [99]] /\ Forall (ev_keeps [98]) ex_events.
Proof.
  vm_compute. split; [reflexivity|]. split; [reflexivity|]. repeat constructor; intros E; try discriminate.
Qed.
