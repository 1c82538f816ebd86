(** C17, C18 and C19: SkipDBM. *)
From Coq Require Import List NArith ZArith Bool Lia Arith Sorted.
Import ListNotations.
From Verif Require Import Bytes BytesOrder CodecModel CodecProofs StatusModel FlatModel DbmModel SkipModel SkipLayout SkipWrite SkipSearch SkipIter SkipMerge SkipSync SkipDb.
Open Scope N_scope.

(** * C17 *)
(** A database whose file was written record by record, with an empty cache of any capacity. *)
Definition opened (g : scfg) (f : bytes) (n : nat) : sdb := mkDB f n 0 n 0 false false None 0 [] so_new (cache_new (step (g_sp g)) (g_cap g) n).
(** For any parameters and any records in the order of their keys (equal keys allowed), if the file is not larger than the offset width allows and no record
    has 2^31 bytes: the writing succeeds, and any sequence of lookups by key, lookups by index and moves of any number of iterators, all through one cache of
    records, answers as positions in the list of records do. *)
Theorem C17_skip_search : forall g l cs, sp_ok (g_sp g) -> ordered l -> fits (g_sp g) l ->
  exists f past d', write_list (g_sp g) l (mkW meta0 0 (repeat 0 (maxl (g_sp g))) 0 0) = SOk (mkW f (length l) past (length l) (data_size l)) /\
    do_calls g cs (opened g f (length l)) (fun _ => it_clear) = SOk (spec_calls l cs (fun _ => None), d').
Proof.
  intros g l cs PO O F. destruct (write_list_ok (g_sp g) PO l [] meta0 (repeat 0 (maxl (g_sp g))) 0 0) as (f & past & W & ST & _); [apply stored_nil; reflexivity|apply past_0|apply F|].
  cbn [app length] in *. destruct (calls_ok g f l PO ST F (ordered_ascending l O) cs (opened g f (length l)) (fun _ => it_clear) (fun _ => None)) as (d' & E & _).
  - split; [reflexivity|]. split; [reflexivity|]. apply cache_new_ok. apply PO.
  - intros u. exact I.
  - exists f, past, d'. split; [exact W|exact E].
Qed.
(** A case: nine records with equal keys among them, skip pointers at every second and every fourth record. *)
Definition g_case : scfg := mkCfg (mkSP 2 2 3) 40 false 3.
Definition l_case : list krec := map (fun i => ([N.of_nat (i / 2)], [100 + N.of_nat i])) (seq 0 9).
Lemma b_ordered l : (fix go l := match l with a :: ((b :: _) as t) => le_b (fst a) (fst b) && go t | _ => true end) l = true -> ordered l.
Proof.
  intros H. induction l as [|a [|b l] IH]; [constructor|constructor; constructor|]. apply andb_prop in H as [H1 H2]. specialize (IH H2).
  assert (K : kle a b). { unfold kle, le_b in *. rewrite bcmp_opp. destruct (bcmp (fst a) (fst b)); cbn; congruence. }
  constructor; [exact IH|]. inversion IH as [|? ? S F]; subst. constructor; [exact K|]. eapply Forall_impl; [|exact F]. intros x X. eapply kle_trans; eassumption.
Qed.
Definition b_fits (p : sp) (l : list krec) : bool := (off_of p l (length l) <=? 256 ^ N.of_nat (ow p)) && forallb (fun i => rsize p i (nth i l ([], [])) <? 2^31) (seq 0 (length l)).
Lemma b_fits_ok p l : b_fits p l = true -> fits p l.
Proof.
  intros H. apply andb_prop in H as [H1 H2]. split; [apply N.leb_le; exact H1|]. intros i r E. rewrite forallb_forall in H2. assert (L : (i < length l)%nat) by (apply nth_error_Some; rewrite E; discriminate).
  specialize (H2 i). rewrite (nth_error_nth _ _ _ E) in H2. apply N.ltb_lt. apply H2. apply in_seq. lia.
Qed.
Example C17_case : sp_ok (g_sp g_case) /\ ordered l_case /\ fits (g_sp g_case) l_case /\
  spec_calls l_case [CGet [2]; CGet [9]; CIndex 7; CJump 0 [3]; CRead 0; CNext 0; CRead 0; CLower 1 [3] false; CRead 1; CUpper 0 [3] false; CRead 0; CNext 0; CRead 0; CPrev 1; CRead 1; CLast 0; CRead 0; CJump 0 [7]; CNext 0] (fun _ => None)
   = [OValue (Some [104]); OValue None; ORecord (Some ([3], [107])); OStatus SUCCESS; ORecord (Some ([3], [106])); OStatus SUCCESS; ORecord (Some ([3], [107]));
      OStatus SUCCESS; ORecord (Some ([2], [105])); OStatus SUCCESS; ORecord (Some ([4], [108])); OStatus SUCCESS; ORecord None; OStatus SUCCESS; ORecord (Some ([2], [104]));
      OStatus SUCCESS; ORecord (Some ([4], [108])); OStatus SUCCESS; OStatus NOT_FOUND_ERROR].
Proof. split; [repeat split; cbn; lia|]. split; [apply b_ordered; vm_compute; reflexivity|]. split; [apply b_fits_ok; vm_compute; reflexivity|vm_compute; reflexivity]. Qed.

(** JumpLower is documented to go to the last record whose key is not greater (tkrzw_dbm.h, DBM::Iterator::JumpLower); with equal keys it goes to the first
    one of them: here to the record at 2, although the one at 3 has the key as well. *)
Theorem C17_lower_refuted : exists g l k, sp_ok (g_sp g) /\ ordered l /\ fits (g_sp g) l /\
  (exists i, last_pos (fun x => le_b x k) l = Some i /\ forall m, snd (spec_call l (CLower 0 k true) m) 0%nat <> Some i).
Proof.
  exists g_case, l_case, [1]. split; [apply C17_case|]. split; [apply C17_case|]. split; [apply C17_case|]. exists 3%nat. split; [vm_compute; reflexivity|]. intros m. vm_compute. discriminate.
Qed.

(** * C18 *)
Inductive op :=
  | OInsert (k : bytes) (a : action)  (* SkipDBM::Set and Remove without old_value *)
  | OProcess (k : bytes) (h : option bytes -> action) (writable : bool)
  | OSync (red : reducer)
  | ORevert
  | OMerge (s : src)
  | OReads (cs : list call)
  | OCount.
Inductive hout := HNone | HSeen (v : option bytes) | HOuts (os : list out) | HCount (n : nat) (eff : N).
Definition watcher (h : option bytes -> action) : proc (option bytes) := mkProc (fun _ v _ => (h (Some v), Some v)) (fun _ _ => (h None, None)).
Definition do_op (g : scfg) (o : op) (d : sdb) : sres (hout * sdb) :=
  match o with
  | OInsert k a => let* d1 := insert g k a d in SOk (HNone, d1)
  | OProcess k h w => let* (d1, s) := sdb_process g k (watcher h) w None d in SOk (HSeen s, d1)
  | OSync red => let* d1 := synchronize g red d in SOk (HNone, d1)
  | ORevert => SOk (HNone, revert g d)
  | OMerge s => SOk (HNone, merge_db (s_p s) (s_f s) d)
  | OReads cs => let* (os, d1) := do_calls g cs d (fun _ => it_clear) in SOk (HOuts os, d1)
  | OCount => SOk (HCount (d_num d) (d_eff d), d)
  end.
Fixpoint do_ops (g : scfg) (os : list op) (d : sdb) : sres (list hout * sdb) :=
  match os with [] => SOk ([], d) | o :: os' => let* (x, d1) := do_op g o d in let* (xs, d2) := do_ops g os' d1 in SOk (x :: xs, d2) end.
(** The specification: the synchronized records, the events since, and the files to merge. *)
Record hst := mkH { x_old : list krec; x_pend : list event; x_srcs : list src }.
Definition all_events (x : hst) : list event := concat (map (fun s => kept (s_l s)) (x_srcs x)) ++ kept (x_old x) ++ x_pend x.
Definition add_event (x : hst) (k : bytes) (a : action) : hst := mkH (x_old x) (x_pend x ++ event_of k a) (x_srcs x).
Definition spec_op (inorder : bool) (o : op) (x : hst) : hout * hst :=
  match o with
  | OInsert k a => (HNone, add_event x k a)
  | OProcess k h w => let v := first_val k (x_old x) in (HSeen v, if w then add_event x k (h v) else x)
  | OSync red => (HNone, mkH (merged red (all_events x)) [] [])
  | ORevert => (HNone, mkH (x_old x) [] [])
  | OMerge s => (HNone, mkH (x_old x) (x_pend x) (x_srcs x ++ [s]))
  | OReads cs => (HOuts (spec_calls (x_old x) cs (fun _ => None)), x)
  | OCount => (HCount (length (x_old x) + if inorder then length (x_pend x) else 0) (data_size (x_old x) + if inorder then data_size (map ev_rec (x_pend x)) else 0), x)
  end.
Fixpoint spec_ops (inorder : bool) (os : list op) (x : hst) : list hout * hst :=
  match os with [] => ([], x) | o :: os' => let '(r, x1) := spec_op inorder o x in let '(rs, x2) := spec_ops inorder os' x1 in (r :: rs, x2) end.
(** What a call relies on.  Values: none is the 7 bytes that mark a removal, keys and values are below 2^47 bytes.  A file that Synchronize makes fits the offset
    width, with records below 2^31 bytes.  In-order insertion: the keys ascend, as documented, the records that wait for synchronization fit a file, and iterators
    are not used before synchronization; and without a reducer, an older record or a file to merge, nothing is removed. *)
Definition op_ok (g : scfg) (o : op) (x : hst) : Prop :=
  match o with
  | OInsert k a => Forall (event_ok g (length (x_pend x))) (event_of k a)
  | OProcess k h w => if w then Forall (event_ok g (length (x_pend x))) (event_of k (h (first_val k (x_old x)))) else True
  | OSync red => let R := merged red (all_events x) in fits (g_sp g) R /\ Forall plain (kept R) /\ inorder_ok g red (x_old x) (x_pend x) (x_srcs x)
  | OMerge s => src_ok s /\ Forall plain (kept (s_l s))
  | OReads _ => g_inorder g = true -> x_pend x = []
  | ORevert | OCount => True
  end.
Fixpoint ops_ok (g : scfg) (os : list op) (x : hst) : Prop :=
  match os with [] => True | o :: os' => op_ok g o x /\ ops_ok g os' (snd (spec_op (g_inorder g) o x)) end.
Lemma op_step g (PO : sp_ok (g_sp g)) o d x : holds g d (x_old x) (x_pend x) (x_srcs x) -> op_ok g o x ->
  exists d', do_op g o d = SOk (fst (spec_op (g_inorder g) o x), d') /\ let x' := snd (spec_op (g_inorder g) o x) in holds g d' (x_old x') (x_pend x') (x_srcs x').
Proof.
  intros H OK. destruct o as [k a|k h w|red| |s|cs|]; cbn [do_op spec_op op_ok fst snd] in *.
  - destruct (update_ok g PO d _ _ _ k a H OK) as (d' & E & H'). exists d'. unfold insert. rewrite E. cbn. auto.
  - unfold sdb_process. destruct (lookup_ok g PO d _ _ _ k H) as (c & E & C). rewrite E. cbn [sbind]. assert (H1 := holds_cache g d _ _ _ c H C).
    destruct w.
    + destruct (update_ok g PO _ _ _ _ k (h (first_val k (x_old x))) H1 OK) as (d' & E' & H'). exists d'.
      destruct (first_val k (x_old x)) as [v|]; cbn [watcher on_full on_empty]; rewrite E'; cbn; auto.
    + exists (set_cache d c). destruct (first_val k (x_old x)); cbn; auto.
  - destruct OK as (F & P & I). destruct (sync_ok g PO red d _ _ _ H I F P) as (d' & E & H'). exists d'. rewrite E. cbn. auto.
  - exists (revert g d). split; [reflexivity|]. cbn. eapply revert_ok; eassumption.
  - destruct OK as [S P]. exists (merge_db (s_p s) (s_f s) d). split; [reflexivity|]. cbn. apply merge_db_ok; assumption.
  - assert (NM : d_num d = length (x_old x)). { rewrite (h_num _ _ _ _ _ H). destruct (g_inorder g); [rewrite (OK eq_refl); cbn; lia|lia]. }
    destruct (calls_ok g (d_file d) (x_old x) PO (h_file _ _ _ _ _ H) (h_fits _ _ _ _ _ H) (ordered_ascending _ (h_ord _ _ _ _ _ H)) cs d (fun _ => it_clear) (fun _ => None)) as (d' & E & SY & SC).
    + repeat split; auto; apply (h_cache _ _ _ _ _ H).
    + intros u. exact I.
    + exists d'. rewrite E. cbn. split; [reflexivity|]. destruct SY as (_ & _ & C'). specialize (SC (d_cache d')).
      replace d' with (set_cache d (d_cache d')) by (rewrite <- SC; destruct d'; reflexivity). apply holds_cache; assumption.
  - exists d. split; [|exact H]. rewrite (h_num _ _ _ _ _ H), (h_eff _ _ _ _ _ H). reflexivity.
Qed.
Lemma ops_step g (PO : sp_ok (g_sp g)) os : forall d x, holds g d (x_old x) (x_pend x) (x_srcs x) -> ops_ok g os x ->
  exists d', do_ops g os d = SOk (fst (spec_ops (g_inorder g) os x), d') /\ let x' := snd (spec_ops (g_inorder g) os x) in holds g d' (x_old x') (x_pend x') (x_srcs x').
Proof.
  induction os as [|o os IH]; intros d x H OK; [exists d; cbn; auto|]. cbn [do_ops spec_ops ops_ok] in *. destruct OK as [O1 O2].
  destruct (op_step g PO o d x H O1) as (d1 & E1 & H1). rewrite E1. destruct (spec_op (g_inorder g) o x) as [r x1]. cbn [fst snd sbind] in *.
  destruct (IH d1 x1 H1 O2) as (d2 & E2 & H2). rewrite E2. destruct (spec_ops (g_inorder g) os x1) as [rs x2]. cbn in *. exists d2. auto.
Qed.
(** Any history from a new database, for any parameters, memory limit of the sorter (thus any flush points), capacity of the cache and both modes of insertion:
    every call succeeds with what the specification says.  Synchronize turns the records of the files to merge, the former records and the events into [merged]. *)
Theorem C18_skip_history_partial : forall g os, sp_ok (g_sp g) -> 128 <= 256 ^ N.of_nat (ow (g_sp g)) -> ops_ok g os (mkH [] [] []) ->
  exists d', do_ops g os (sdb_new g) = SOk (fst (spec_ops (g_inorder g) os (mkH [] [] [])), d').
Proof.
  intros g os PO W OK. destruct (ops_step g PO os (sdb_new g) (mkH [] [] []) (new_ok g PO W) OK) as (d' & E & _). exists d'. exact E.
Qed.
(** What [merged] is: in the order of the keys, and at each key the values that are left after the removals, in the order of the events, reduced if there are any. *)
Theorem C18_merged : forall red evs, StronglySorted (fun a b => bcmp (fst b) (fst a) <> Lt) (merged red evs) /\
  (forall k, map snd (filter (fun r => beqb (fst r) k) (merged red evs)) =
     match live (map snd (filter (fun e => beqb (fst e) k) evs)) with [] => [] | vs => match red with None => vs | Some h => h k vs end end) /\
  forall l, StronglySorted (fun a b => bcmp (fst b) (fst a) <> Lt) l -> (forall k, map snd (filter (fun r => beqb (fst r) k) l) = map snd (filter (fun r => beqb (fst r) k) (merged red evs))) -> l = merged red evs.
Proof.
  intros red evs. split; [apply merged_ordered|]. split; [intros k; apply merged_vals|]. intros l S V. apply ordered_ext; [exact S|apply merged_ordered|exact V].
Qed.
(** Nothing but removal takes values away: without removals and a reducer, the values of a key are all those stored, in order. *)
Theorem C18_merged_all : forall l k, map snd (filter (fun r => beqb (fst r) k) (merged None (kept l))) = map snd (filter (fun r => beqb (fst r) k) l).
Proof.
  intros l k. change (vals k (merged None (kept l)) = vals k l). rewrite merged_vals. unfold result, live. rewrite live_all.
  - cbn [app]. rewrite <- vals_raw, kept_rec. destruct (vals k l); reflexivity.
  - apply Forall_forall. intros x X. apply evals_in in X. assert (Z := kept_some l). rewrite Forall_forall in Z. apply (Z (k, x) X).
Qed.
(** Removal takes away what was stored before it and nothing else. *)
Theorem C18_removal : forall red a b k, live (evals k (a ++ [(k, None)] ++ b)) = live (evals k b) /\
  (forall x, x <> k -> result red (a ++ [(k, None)] ++ b) x = result red (a ++ b) x).
Proof.
  intros red a b k. split.
  - unfold live, evals. rewrite !filter_app, !map_app, !fold_left_app. cbn [filter fst]. rewrite beqb_refl. reflexivity.
  - intros x N. unfold result, evals. rewrite !filter_app. cbn [filter fst]. destruct (beqb k x) eqn:E; [apply beqb_eq in E; congruence|]. reflexivity.
Qed.
(** The reducers of SkipDBM on the values left. *)
Theorem C18_reducers : forall evs k, let vs := live (map snd (filter (fun e => beqb (fst e) k) evs)) in
  result (Some reduce_first) evs k = firstn 1 vs /\
  (forall v, result (Some reduce_last) evs k = [v] <-> exists us, vs = us ++ [v]) /\
  (vs <> [] -> forall delim, result (Some (reduce_concat delim)) evs k = [str_join delim vs]).
Proof.
  intros evs k vs. unfold result. change (live (evals k evs)) with vs. split; [|split].
  - destruct vs as [|v t]; reflexivity.
  - intros v. split.
    + intros H. destruct vs as [|x t] eqn:E; [discriminate|]. unfold reduce_last in H. assert (H1 : v = last (x :: t) []) by congruence. exists (removelast (x :: t)). rewrite H1. apply (app_removelast_last []). discriminate.
    + intros (us & ->). destruct us as [|u us]; [reflexivity|]. unfold reduce_last. cbn [app]. change (u :: us ++ [v]) with ((u :: us) ++ [v]). rewrite last_last. reflexivity.
  - intros N delim. destruct vs; [contradiction|reflexivity].
Qed.
(** A case of the history: several flushes of the sorter, equal keys, a removal, reducers, a revert, and lookups in between. *)
Definition h_case : list op :=
  [OInsert [5] (ASet [1]); OInsert [3] (ASet [2]); OInsert [5] (ASet [3]); OInsert [4] (ASet [4]); OInsert [3] (ASet [5]); OSync None; OCount;
   OReads [CFirst 0; CRead 0; CNext 0; CRead 0; CGet [5]; CLast 0; CRead 0];
   OInsert [3] ARemove; OInsert [3] (ASet [6]); OInsert [6] (ASet [7]); OProcess [5] (fun v => match v with Some x => ASet (x ++ x) | None => ANoop end) true; OSync (Some reduce_last); OCount;
   OReads [CGet [3]; CGet [4]; CGet [5]; CGet [6]]; OInsert [9] (ASet [9]); ORevert; OSync None; OReads [CGet [9]; CIndex 1]].
Definition b_plain (e : event) : bool := match snd e with Some v => negb (beqb v removing) | None => true end.
Lemma b_plain_ok l : forallb b_plain l = true -> Forall plain l.
Proof.
  intros H. rewrite forallb_forall in H. apply Forall_forall. intros e E. specialize (H e E). unfold b_plain, plain in *. intros X. rewrite X, beqb_refl in H. discriminate.
Qed.
(** A check of [ops_ok] for cases without merged files. *)
Definition b_event (g : scfg) (n : nat) (e : event) : bool :=
  b_plain e && (blen (fst e) <? 2^47) && (blen (raw (snd e)) <? 2^47) && (negb (g_inorder g) || (rsize (g_sp g) n (ev_rec e) <? 2^31)).
Lemma b_event_ok g n l : forallb (b_event g n) l = true -> Forall (event_ok g n) l.
Proof.
  intros H. apply Forall_forall. intros e E. rewrite forallb_forall in H. specialize (H e E). unfold b_event in H. apply andb_prop in H as [H H4]. apply andb_prop in H as [H H3]. apply andb_prop in H as [H1 H2].
  split; [|split; [split; apply N.ltb_lt; assumption|]].
  - assert (X := b_plain_ok [e]). cbn [forallb] in X. rewrite H1 in X. specialize (X eq_refl). inversion X; assumption.
  - intros G. rewrite G in H4. apply N.ltb_lt. exact H4.
Qed.
Definition b_order (l : list krec) : bool := (fix go l := match l with a :: ((b :: _) as t) => le_b (fst a) (fst b) && go t | _ => true end) l.
Definition b_op (g : scfg) (o : op) (x : hst) : bool :=
  match o with
  | OInsert k a => forallb (b_event g (length (x_pend x))) (event_of k a)
  | OProcess k h w => negb w || forallb (b_event g (length (x_pend x))) (event_of k (h (first_val k (x_old x))))
  | OSync red => b_fits (g_sp g) (merged red (all_events x)) && forallb b_plain (kept (merged red (all_events x))) &&
      (negb (g_inorder g) || (b_order (map ev_rec (x_pend x)) && b_fits (g_sp g) (map ev_rec (x_pend x)) && (match x_old x with [] => false | _ => true end || forallb (fun e => match snd e with None => false | _ => true end) (x_pend x))))
  | OMerge s => false
  | OReads _ => negb (g_inorder g) || match x_pend x with [] => true | _ => false end
  | ORevert | OCount => true
  end.
Fixpoint b_ops (g : scfg) (os : list op) (x : hst) : bool := match os with [] => true | o :: os' => b_op g o x && b_ops g os' (snd (spec_op (g_inorder g) o x)) end.
Lemma b_ops_ok g os : forall x, b_ops g os x = true -> ops_ok g os x.
Proof.
  induction os as [|o os IH]; intros x H; [exact I|]. cbn [b_ops ops_ok] in *. apply andb_prop in H as [H1 H2]. split; [|apply IH; exact H2]. clear IH H2.
  destruct o as [k a|k h w|red| |s|cs|]; cbn [b_op op_ok] in *; auto.
  - apply b_event_ok. exact H1.
  - destruct w; [apply b_event_ok; exact H1|exact I].
  - apply andb_prop in H1 as [H1 H3]. apply andb_prop in H1 as [H1 H2]. split; [apply b_fits_ok; exact H1|]. split; [apply b_plain_ok; exact H2|]. intros G. rewrite G in H3. cbn [negb orb] in H3.
    apply andb_prop in H3 as [H3 H5]. apply andb_prop in H3 as [H3 H4]. split; [apply b_ordered; exact H3|]. split; [apply b_fits_ok; exact H4|]. intros _ E _. rewrite E in H5. cbn [orb] in H5.
    apply Forall_forall. intros e X. rewrite forallb_forall in H5. specialize (H5 e X). intros Y. rewrite Y in H5. discriminate.
  - discriminate.
  - intros G. rewrite G in H1. destruct (x_pend x); [reflexivity|discriminate].
Qed.
Example C18_case : ops_ok g_case h_case (mkH [] [] []) /\ fst (spec_ops false h_case (mkH [] [] [])) =
  [HNone; HNone; HNone; HNone; HNone; HNone; HCount 5 10;
   HOuts [OStatus SUCCESS; ORecord (Some ([3], [2])); OStatus SUCCESS; ORecord (Some ([3], [5])); OValue (Some [1]); OStatus SUCCESS; ORecord (Some ([5], [3]))];
   HNone; HNone; HNone; HSeen (Some [1]); HNone; HCount 4 9;
   HOuts [OValue (Some [6]); OValue (Some [4]); OValue (Some [1; 1]); OValue (Some [7])]; HNone; HNone; HNone; HOuts [OValue None; ORecord (Some ([4], [4]))]].
Proof.
  split; [apply b_ops_ok|]; vm_compute; reflexivity.
Qed.
(** The model computes the same on the case, by itself. *)
Example C18_case_run : match do_ops g_case h_case (sdb_new g_case) with SOk (os, _) => os = fst (spec_ops false h_case (mkH [] [] [])) | _ => False end.
Proof. vm_compute. reflexivity. Qed.

(** The property asks for the removed, the former and the inserted records "in order of insertion" without the conditions of [op_ok]; without them it fails.
    (1) A value that is the 7 bytes of the mark is taken as a removal, as soon as any record has been removed: the record of key 1 is lost. *)
Definition after (g : scfg) (os : list op) (cs : list call) : option (list out) :=
  match do_ops g (os ++ [OReads cs]) (sdb_new g) with SOk (xs, _) => match last xs HNone with HOuts o => Some o | _ => None end | _ => None end.
Theorem C18_removing_value_refuted : exists k v, after g_case [OInsert k (ASet v); OSync None] [CGet k] = Some [OValue (Some v)] /\
  after g_case [OInsert k (ASet v); OInsert [99] ARemove; OSync None] [CGet k] = Some [OValue None].
Proof. exists [1], removing. split; vm_compute; reflexivity. Qed.
(** (2) With in-order insertion into an empty database, a removal is stored as a record. *)
Definition g_order : scfg := mkCfg (mkSP 2 2 3) 40 true 3.
Theorem C18_inorder_removal_refuted : after g_order [OInsert [1] (ASet [1]); OInsert [1] ARemove; OInsert [2] ARemove; OSync None] [CGet [1]; CGet [2]; CIndex 1]
  = Some [OValue (Some [1]); OValue (Some removing); ORecord (Some ([1], removing))].
Proof. vm_compute. reflexivity. Qed.
(** (3) The records of a merged file come before the former ones, so a reducer to the last value does not take the merged one. *)
Definition src_case : src := match write_list (mkSP 2 2 3) [([1], [50])] (mkW meta0 0 (repeat 0 3) 0 0) with SOk w => mkSrc (mkSP 2 2 3) (w_file w) [([1], [50])] | _ => mkSrc (mkSP 2 2 3) [] [] end.
Theorem C18_merge_order_refuted : after g_case [OInsert [1] (ASet [40]); OSync None; OMerge src_case; OSync (Some reduce_last)] [CGet [1]] = Some [OValue (Some [40])].
Proof. vm_compute. reflexivity. Qed.
(** (4) Iterators before synchronization of in-order insertions: there is a record, but Last does not find it. *)
Theorem C17_unsynchronized_refuted : after g_order [OInsert [1] (ASet [1]); OSync None; OInsert [2] (ASet [2])] [CFirst 0; CRead 0; CLast 0; CUpper 0 [1] false]
  = Some [OStatus SUCCESS; ORecord (Some ([1], [1])); OStatus NOT_FOUND_ERROR; OStatus BROKEN_DATA_ERROR].
Proof. vm_compute. reflexivity. Qed.
(** A case of in-order insertion that meets the conditions: a removal after a synchronization, with iterators after the next one. *)
Example C18_inorder_case : ops_ok g_order [OInsert [1] (ASet [1]); OInsert [2] (ASet [2]); OSync None; OInsert [2] ARemove; OInsert [3] (ASet [3]); OSync None; OReads [CLast 0; CRead 0; CGet [2]]] (mkH [] [] []).
Proof.
  apply b_ops_ok. vm_compute. reflexivity.
Qed.

(** * C19 *)
Lemma set_stores : forall g d old pend srcs k v want, sp_ok (g_sp g) -> holds g d old pend srcs -> event_ok g (length pend) (k, Some v) ->
  want = false \/ first_val k old = None -> exists d', sdb_set g k v true want d = SOk (d', (SUCCESS, [])) /\ holds g d' old (pend ++ [(k, Some v)]) srcs.
Proof.
  intros g d old pend srcs k v want PO H EO C. unfold sdb_set. destruct want; cbn [andb negb].
  - destruct C as [C|C]; [discriminate|]. unfold sdb_process. destruct (lookup_ok g PO d _ _ _ k H) as (c & E & Cc). rewrite E, C. cbn [sbind pr_set on_empty].
    destruct (update_ok g PO _ _ _ _ k (ASet v) (holds_cache g d _ _ _ c H Cc)) as (d' & E' & H'); [constructor; [exact EO|constructor]|]. exists d'. rewrite E'. cbn. auto.
  - destruct (update_ok g PO d _ _ _ k (ASet v) H) as (d' & E' & H'); [constructor; [exact EO|constructor]|]. exists d'. unfold insert. rewrite E'. cbn. auto.
Qed.
Lemma set_gives_up : forall g d old pend srcs k v u, sp_ok (g_sp g) -> holds g d old pend srcs -> first_val k old = Some u ->
  exists d', sdb_set g k v true true d = SOk (d', (DUPLICATION_ERROR, u)) /\ holds g d' old pend srcs.
Proof.
  intros g d old pend srcs k v u PO H F. unfold sdb_set. cbn [andb negb]. unfold sdb_process. destruct (lookup_ok g PO d _ _ _ k H) as (c & E & C). rewrite E, F. cbn.
  eexists. split; [reflexivity|]. apply holds_cache; assumption.
Qed.
(** After any history, SkipDBM::Set with overwriting stores the value if the old one is not asked for or the key has no record in the synchronized file: what
    follows goes as after the insertion. *)
Theorem C19_skip_set_partial : forall g os k v want, sp_ok (g_sp g) -> 128 <= 256 ^ N.of_nat (ow (g_sp g)) -> let x := snd (spec_ops (g_inorder g) os (mkH [] [] [])) in
  ops_ok g os (mkH [] [] []) -> event_ok g (length (x_pend x)) (k, Some v) -> want = false \/ first_val k (x_old x) = None ->
  exists xs d d', do_ops g os (sdb_new g) = SOk (xs, d) /\ sdb_set g k v true want d = SOk (d', (SUCCESS, [])) /\
    forall os', ops_ok g os' (add_event x k (ASet v)) -> exists d2, do_ops g os' d' = SOk (fst (spec_ops (g_inorder g) os' (add_event x k (ASet v))), d2).
Proof.
  intros g os k v want PO W x OK EO C. destruct (ops_step g PO os (sdb_new g) (mkH [] [] []) (new_ok g PO W) OK) as (d & E & H). cbv zeta in H. fold x in H.
  destruct (set_stores g d _ _ _ k v want PO H EO C) as (d' & S & H'). eexists _, d, d'. split; [exact E|]. split; [exact S|]. intros os' OK'.
  destruct (ops_step g PO os' d' (add_event x k (ASet v)) H' OK') as (d2 & E2 & _). exists d2. exact E2.
Qed.
(** In the other case it never does: after any history, for every key with a record, Set with overwriting and a place for the old value gives DUPLICATION_ERROR,
    although DBM::Set is documented to overwrite, and what follows goes as without the call. *)
Theorem C19_skip_set_refuted : forall g os k v u, sp_ok (g_sp g) -> 128 <= 256 ^ N.of_nat (ow (g_sp g)) -> let x := snd (spec_ops (g_inorder g) os (mkH [] [] [])) in
  ops_ok g os (mkH [] [] []) -> first_val k (x_old x) = Some u ->
  exists xs d d', do_ops g os (sdb_new g) = SOk (xs, d) /\ sdb_set g k v true true d = SOk (d', (DUPLICATION_ERROR, u)) /\
    forall os', ops_ok g os' x -> exists d2, do_ops g os' d' = SOk (fst (spec_ops (g_inorder g) os' x), d2).
Proof.
  intros g os k v u PO W x OK F. destruct (ops_step g PO os (sdb_new g) (mkH [] [] []) (new_ok g PO W) OK) as (d & E & H). cbv zeta in H. fold x in H.
  destruct (set_gives_up g d _ _ _ k v u PO H F) as (d' & S & H'). eexists _, d, d'. split; [exact E|]. split; [exact S|]. intros os' OK'.
  destruct (ops_step g PO os' d' x H' OK') as (d2 & E2 & _). exists d2. exact E2.
Qed.
(** A case: the record of key 5 keeps its value, after another synchronization as well. *)
Example C19_case : exists xs d0 d1 d2 xs', do_ops g_case [OInsert [5] (ASet [1]); OSync None] (sdb_new g_case) = SOk (xs, d0) /\
  sdb_set g_case [5] [2] true true d0 = SOk (d1, (DUPLICATION_ERROR, [1])) /\ do_ops g_case [OSync (Some reduce_last); OReads [CGet [5]]] d1 = SOk (xs', d2) /\ xs' = [HNone; HOuts [OValue (Some [1])]].
Proof.
  do 5 eexists. split; [vm_compute; reflexivity|]. split; [vm_compute; reflexivity|]. split; [vm_compute; reflexivity|reflexivity].
Qed.

Print Assumptions C17_skip_search.
Print Assumptions C17_lower_refuted.
Print Assumptions C17_unsynchronized_refuted.
Print Assumptions C18_skip_history_partial.
Print Assumptions C18_merged.
Print Assumptions C18_merged_all.
Print Assumptions C18_removal.
Print Assumptions C18_reducers.
Print Assumptions C18_removing_value_refuted.
Print Assumptions C18_inorder_removal_refuted.
Print Assumptions C18_merge_order_refuted.
Print Assumptions C19_skip_set_partial.
Print Assumptions C19_skip_set_refuted.
