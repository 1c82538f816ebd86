(** C15: TreeDBM as an ordered map, for every page size and branch limit; C14 for its iterators. *)
From Coq Require Import List NArith ZArith Bool Lia Arith Sorting.Sorted.
Import ListNotations.
From Verif Require Import Bytes BytesOrder CodecModel DbmModel StatusModel OmapSpec OmapHist OmapFacts BtreeModel BtreeRun BtreeHist BabyProps.
Open Scope nat_scope.

(** The size of a leaf page: two ids of PAGE_ID_WIDTH = 6 bytes, then TreeRecord::GetSerializedSize of each record,
    tkrzw_dbm_tree.cc:51, 1349-1354 and tkrzw_dbm_tree_impl.cc:32-34.  That the code's running [page_size] is this number is in TreePageProps.v. *)
Definition rec_size (r : rec) : N := (size_var (blen (fst r)) + blen (fst r) + size_var (blen (snd r)) + blen (snd r))%N.
Definition page_size (rs : list rec) : N := fold_right (fun r n => rec_size r + n)%N 12%N rs.
(** CheckLeafNodeToDivide and CheckLeafNodeToMerge, tkrzw_dbm_tree.cc:1659-1665 (the test against the root is in the model of the tree). *)
Definition tree_divide (max_page : N) (rs : list rec) : bool := (max_page <? page_size rs)%N && Nat.ltb 1 (length rs).
Definition tree_merge (max_page : N) (rs : list rec) : bool := (page_size rs <? max_page / 2)%N.
Definition tree_how (strict : bool) : leafcf := mkHow true strict.
(** A history of calls on a TreeDBM; TREE_LEVEL_MAX is 32, tkrzw_dbm_tree.cc:54. *)
Definition tree_calls (strict : bool) (max_page : N) (max_branches : nat) (cmp : bytes -> bytes -> comparison) (choose : list (id * bytes) -> nat) {S} :=
  @b_calls cmp (tree_divide max_page) (tree_merge max_page) page_size (tree_how strict) max_branches 32 choose false S.
Lemma tree_two : forall mp rs, tree_divide mp rs = true -> 2 <= length rs.
Proof. unfold tree_divide. intros mp rs H. apply andb_prop in H. destruct H as [_ H]. apply Nat.ltb_lt in H. lia. Qed.
Lemma all_fair : forall S (cs : list (ocall S)), Forall (fair false S) cs.
Proof. intros S cs. induction cs as [|c cs IH]; constructor; auto. destruct c; cbn; auto; discriminate. Qed.

(** Any history of calls, from the empty database, does what an ordered map does (the exceptions are as for BabyDBM, with 32 levels). *)
Theorem C15_history_partial : forall strict mp mb cmp choose S (cs : list (ocall S)) st, preorder cmp ->
  match tree_calls strict mp mb cmp choose cs b_init st with
  | Ok (cds, s', st') => exists o', oruns cmp S cs o_empty st cds o' st' /\ b_num s' = Z.of_nat (length (o_recs o')) /\ ascending cmp (o_recs o') /\
      (forall j, option_map fst (b_its s' j) = o_pos o' j)
  | Ub e => (e = EmptyFront /\ strict = true) \/ e = DeepTree
  end.
Proof.
  intros strict mp mb cmp choose S cs st [H1 H2].
  pose proof (calls_ok cmp (tree_divide mp) (tree_merge mp) page_size (tree_how strict) mb 32 choose false S H1 H2 (tree_two mp) cs b_init o_empty st (rel_init cmp) (all_fair _ _)) as W.
  unfold tree_calls. destruct (b_calls _ _ _ _ _ _ _ _ _ _ cs b_init st) as [[[cds s'] st']|e]; [|exact W]. destruct W as (o' & W1 & W2). exists o'. split; auto.
  split; [eapply rel_count; exact W2|]. split; [eapply rel_asc; exact W2|]. apply W2.
Qed.

(** The same from any state a history can reach. *)
Theorem C15_step_partial : forall strict mp mb cmp choose S (cs cs' : list (ocall S)) st cds s1 st1, preorder cmp ->
  tree_calls strict mp mb cmp choose cs b_init st = Ok (cds, s1, st1) ->
  exists o1, oruns cmp S cs o_empty st cds o1 st1 /\
  match tree_calls strict mp mb cmp choose cs' s1 st1 with
  | Ok (cds', s2, st2) => exists o2, oruns cmp S cs' o1 st1 cds' o2 st2 /\ b_num s2 = Z.of_nat (length (o_recs o2))
  | Ub e => (e = EmptyFront /\ strict = true) \/ e = DeepTree
  end.
Proof.
  intros strict mp mb cmp choose S cs cs' st cds s1 st1 [H1 H2] E.
  pose proof (calls_ok cmp (tree_divide mp) (tree_merge mp) page_size (tree_how strict) mb 32 choose false S H1 H2 (tree_two mp) cs b_init o_empty st (rel_init cmp) (all_fair _ _)) as W.
  unfold tree_calls in *. rewrite E in W. destruct W as (o1 & W1 & W2). exists o1. split; auto.
  pose proof (calls_ok cmp (tree_divide mp) (tree_merge mp) page_size (tree_how strict) mb 32 choose false S H1 H2 (tree_two mp) cs' s1 o1 st1 W2 (all_fair _ _)) as V.
  destruct (b_calls _ _ _ _ _ _ _ _ _ _ cs' s1 st1) as [[[cds' s2] st2]|e]; [|exact V]. destruct V as (o2 & V1 & V2). exists o2. split; auto. eapply rel_count; exact V2.
Qed.

(** Reading a record and moving an iterator never meet undefined behaviour, at any depth. *)
Theorem C15_reading : forall strict mp mb cmp choose S (cs : list (ocall S)) st cds s1 st1 c, preorder cmp ->
  tree_calls strict mp mb cmp choose cs b_init st = Ok (cds, s1, st1) -> ronly S c = true ->
  exists o1 cd s2 st2 o2, oruns cmp S cs o_empty st cds o1 st1 /\ tree_calls strict mp mb cmp choose [c] s1 st1 = Ok ([cd], s2, st2) /\ ostep cmp S c o1 st1 cd o2 st2.
Proof.
  intros strict mp mb cmp choose S cs st cds s1 st1 c [H1 H2] E Hr.
  pose proof (calls_ok cmp (tree_divide mp) (tree_merge mp) page_size (tree_how strict) mb 32 choose false S H1 H2 (tree_two mp) cs b_init o_empty st (rel_init cmp) (all_fair _ _)) as W.
  unfold tree_calls in *. rewrite E in W. destruct W as (o1 & W1 & W2).
  pose proof (read_sure cmp (tree_divide mp) (tree_merge mp) page_size (tree_how strict) mb 32 choose false S H1 H2 (tree_two mp) c s1 o1 st1 W2 Hr) as V. cbn [b_calls].
  destruct (b_call _ _ _ _ _ _ _ _ _ _ c s1 st1) as [[[cd s2] st2]|e]; [|destruct V]. destruct V as (o2 & V1 & _). exists o1, cd, s2, st2, o2. auto.
Qed.

(** For the default comparator, what a history leaves is what it leaves of a plain finite map. *)
Theorem C15_map_partial : forall strict mp mb choose S (cs : list (ocall S)) st, Forall mapcall cs ->
  match tree_calls strict mp mb bcmp choose cs b_init st with
  | Ok (cds, s', st') => st' = snd (map_run cs aempty st) /\ Forall (fun c => c = SUCCESS) cds /\
      (exists n, acount (fst (map_run cs aempty st)) n /\ b_num s' = Z.of_nat n)
  | Ub e => (e = EmptyFront /\ strict = true) \/ e = DeepTree
  end.
Proof.
  intros strict mp mb choose S cs st F.
  pose proof (C15_history_partial strict mp mb bcmp choose S cs st bcmp_preorder) as W. destruct (tree_calls strict mp mb bcmp choose cs b_init st) as [[[cds s'] st']|e]; [|exact W].
  destruct W as (o' & R & Hn & As & _). destruct bcmp_preorder as [H1 H2]. assert (H3 : forall a b, bcmp a b = Eq -> a = b) by (intros a b; apply bcmp_eq).
  destruct (map_run_ok S cs o_empty st cds o' st' aempty) as (M1 & M2 & M3); auto. - constructor. - intros k; reflexivity.
  - split; auto. split; auto. exists (length (o_recs o')). split; auto. pose proof (view_count bcmp H1 H3 (o_recs o') As) as (l & L1 & L2 & L3). exists l. split; auto. split; auto. intros k. rewrite L3. now rewrite M1.
Qed.

(** Full scans. *)
Theorem C14_tree_scan : forall strict mp mb cmp choose (cs : list (ocall (list (bytes * bytes)))) st cds s1 st1 j, preorder cmp ->
  tree_calls strict mp mb cmp choose cs b_init st = Ok (cds, s1, st1) ->
  exists o1, oruns cmp _ cs o_empty st cds o1 st1 /\ ascending cmp (o_recs o1) /\
    (exists c s2, tree_calls strict mp mb cmp choose (scan_up (length (o_recs o1)) j) s1 [] = Ok (c, s2, o_recs o1) /\ b_its s2 j = None) /\
    (exists c s2, tree_calls strict mp mb cmp choose (scan_down (length (o_recs o1)) j) s1 [] = Ok (c, s2, rev (o_recs o1)) /\ b_its s2 j = None).
Proof.
  intros strict mp mb cmp choose cs st cds s1 st1 j [H1 H2] E. set (S := list (bytes * bytes)) in *.
  pose proof (calls_ok cmp (tree_divide mp) (tree_merge mp) page_size (tree_how strict) mb 32 choose false S H1 H2 (tree_two mp) cs b_init o_empty st (rel_init cmp) (all_fair _ _)) as W.
  unfold tree_calls in *. rewrite E in W. destruct W as (o1 & W1 & W2). exists o1. split; auto. pose proof (rel_asc _ _ _ W2) as As. split; auto.
  assert (Run : forall ds s o t, rel cmp s o -> Forall (fun c => ronly S c = true) ds ->
    sure (b_calls cmp (tree_divide mp) (tree_merge mp) page_size (tree_how strict) mb 32 choose false S ds s t) (fun '(c, s', t') => exists o', oruns cmp S ds o t c o' t' /\ rel cmp s' o')).
  { intros ds. induction ds as [|d ds IH]; intros s o t R F; cbn [b_calls]. - cbn. exists o. split; [constructor|auto].
    - inversion F; subst. eapply sure_bind; [apply (read_sure cmp (tree_divide mp) (tree_merge mp) page_size (tree_how strict) mb 32 choose false S H1 H2 (tree_two mp) d s o t R); auto|].
      intros [[cd s'] t'] (o' & O1 & R1). eapply sure_bind; [apply (IH s' o' t' R1); auto|]. intros [[c2 s2] t2] (o2 & O2 & R2). cbn. exists o2. split; auto. econstructor; eauto. }
  assert (Ro : forall n m, ronly S m = true -> Forall (fun c => ronly S c = true) (concat (repeat (visit j m) n))) by (intros n m Hm; induction n; cbn; auto).
  split.
  - pose proof (Run (scan_up (length (o_recs o1)) j) s1 o1 [] W2) as V. unfold sure in V. match type of V with _ -> match ?X with _ => _ end => destruct X as [[[c s2] t2]|e] end.
    + destruct V as (o2 & O2 & R2); [constructor; auto|]. destruct (scan_up_all cmp H1 o1 [] c o2 t2 j As O2) as (-> & _ & P). cbn [app]. exists c, s2. split; auto. destruct R2 as [_ R2]. specialize (R2 j). rewrite P in R2. destruct (b_its s2 j); [discriminate|auto].
    + destruct V. constructor; auto.
  - pose proof (Run (scan_down (length (o_recs o1)) j) s1 o1 [] W2) as V. unfold sure in V. match type of V with _ -> match ?X with _ => _ end => destruct X as [[[c s2] t2]|e] end.
    + destruct V as (o2 & O2 & R2); [constructor; auto|]. destruct (scan_down_all cmp H1 o1 [] c o2 t2 j As O2) as (-> & _ & P). cbn [app]. exists c, s2. split; auto. destruct R2 as [_ R2]. specialize (R2 j). rewrite P in R2. destruct (b_its s2 j); [discriminate|auto].
    + destruct V. constructor; auto.
Qed.

(** * What is not so *)
(** With the default limits, two records of 5000 bytes are put in two leaves, and removing one reads the front of an empty vector. *)
Definition big : bytes := repeat 7%N 5000.
Theorem C15_remove_refuted : tree_calls true 8130 256 bcmp (fun _ => 0) [KProcess [97%N] (pset big) true; KProcess [98%N] (pset big) true; KProcess [98%N] pdel true] b_init tt = Ub EmptyFront.
Proof. vm_compute. reflexivity. Qed.

(** * Cases *)
(** Pages of 40 bytes and two branches: 60 records make a tree of several levels; half are removed; the neighbours are found. *)
Definition tdemo : list (ocall (list (bytes * bytes))) :=
  map (fun i => KProcess (key2 i) (pset [1%N; 2%N]) true) (seq 0 60) ++ map (fun i => KProcess (key2 (2 * i)) pdel true) (seq 0 20) ++
  [KItUpper 0 (key2 10) true; KItProcess 0 collect false; KItLower 1 (key2 10) true; KItProcess 1 collect false; KItPrev 1; KItProcess 1 collect false].
Example C15_demo : exists cds s', tree_calls false 40 2 bcmp (fun _ => 0) tdemo b_init [] = Ok (cds, s', [(key2 11, [1%N; 2%N]); (key2 9, [1%N; 2%N]); (key2 7, [1%N; 2%N])]) /\ b_num s' = 40%Z /\ 4 <= b_level s'.
Proof. eexists; eexists. split; [vm_compute; reflexivity|]. split; [reflexivity|]. cbn [b_level]. lia. Qed.

Print Assumptions C15_history_partial.
Print Assumptions C15_step_partial.
Print Assumptions C15_reading.
Print Assumptions C15_map_partial.
Print Assumptions C14_tree_scan.
Print Assumptions C15_remove_refuted.
