(** C13, C14: BabyDBM as an ordered map, and its iterators. *)
From Coq Require Import List NArith ZArith Bool Lia Arith Sorting.Sorted.
Import ListNotations.
From Verif Require Import Bytes BytesOrder DbmModel StatusModel OmapSpec OmapHist OmapFacts BtreeModel BtreeRun BtreeHist.

(** MAX_LEAF_NODE_RECORDS, tkrzw_dbm_baby.cc:32, and the two checks, 733-739. *)
Definition baby_divide (rs : list rec) : bool := Nat.ltb 256 (length rs).
Definition baby_merge (rs : list rec) : bool := Nat.ltb (length rs) 128.
Definition baby_weight (rs : list rec) : N := N.of_nat (length rs).
Definition baby_how (strict : bool) : leafcf := mkHow false strict.
(** A history of calls on a BabyDBM: MAX_INNER_NODE_BRANCHES is 256, TREE_LEVEL_MAX is 20, tkrzw_dbm_baby.cc:33-34. *)
Definition baby_calls (strict : bool) (cmp : bytes -> bytes -> comparison) (choose : list (id * bytes) -> nat) {S} :=
  @b_calls cmp baby_divide baby_merge baby_weight (baby_how strict) 256 20 choose true S.

(** The key comparator is a total preorder. *)
Definition preorder (cmp : bytes -> bytes -> comparison) : Prop :=
  (forall a b, cmp b a = CompOpp (cmp a b)) /\ (forall a b c, cmp a b <> Gt -> cmp b c <> Gt -> cmp a c <> Gt).
Lemma bcmp_preorder : preorder bcmp.
Proof.
  split. - intros a b. apply bcmp_opp.
  - intros a b c H1 H2 H3. apply bcmp_gt in H3. destruct (bcmp a b) eqn:E; [|apply H2; apply bcmp_gt; eapply blt_trans; eauto|congruence].
    apply bcmp_eq in E. subst. apply H2. apply bcmp_gt. exact H3.
Qed.
Lemma baby_two : forall rs, baby_divide rs = true -> 2 <= length rs.
Proof. unfold baby_divide. intros rs H. apply Nat.ltb_lt in H. lia. Qed.
Definition honest {S} (c : ocall S) : Prop := match c with KFirst _ w => w = true | _ => True end.
Lemma honest_fair : forall S (cs : list (ocall S)), Forall honest cs -> Forall (fair true S) cs.
Proof. intros S cs H. eapply Forall_impl; [|exact H]. intros [] W; cbn in *; auto. Qed.

(** Any history of calls, from the empty database, does what an ordered map does: statuses, everything the processors see,
    the records, the positions of the iterators, and the count.  The exception is a tree of more than 20 levels of inner
    nodes ([DeepTree]: the array of the path overflows), and, if reading the front of a just emptied vector is taken
    as undefined ([strict]), that.  ProcessFirst with writable = false is left out (see below). *)
Theorem C13_history_partial : forall strict cmp choose S (cs : list (ocall S)) st, preorder cmp -> Forall honest cs ->
  match baby_calls strict cmp choose cs b_init st with
  | Ok (cds, s', st') => exists o', oruns cmp S cs o_empty st cds o' st' /\ b_num s' = Z.of_nat (length (o_recs o')) /\ ascending cmp (o_recs o') /\
      (forall j, option_map fst (b_its s' j) = o_pos o' j)
  | Ub e => (e = EmptyFront /\ strict = true) \/ e = DeepTree
  end.
Proof.
  intros strict cmp choose S cs st [H1 H2] Hc.
  pose proof (calls_ok cmp baby_divide baby_merge baby_weight (baby_how strict) 256 20 choose true S H1 H2 baby_two cs b_init o_empty st (rel_init cmp) (honest_fair _ _ Hc)) as W.
  unfold baby_calls. destruct (b_calls _ _ _ _ _ _ _ _ _ _ cs b_init st) as [[[cds s'] st']|e]; [|exact W]. destruct W as (o' & W1 & W2). exists o'. split; auto.
  split; [eapply rel_count; exact W2|]. split; [eapply rel_asc; exact W2|]. apply W2.
Qed.

(** The same from any state a history can reach: nothing but the records and positions matters. *)
Theorem C13_step_partial : forall strict cmp choose S (cs cs' : list (ocall S)) st cds s1 st1, preorder cmp -> Forall honest cs -> Forall honest cs' ->
  baby_calls strict cmp choose cs b_init st = Ok (cds, s1, st1) ->
  exists o1, oruns cmp S cs o_empty st cds o1 st1 /\
  match baby_calls strict cmp choose cs' s1 st1 with
  | Ok (cds', s2, st2) => exists o2, oruns cmp S cs' o1 st1 cds' o2 st2 /\ b_num s2 = Z.of_nat (length (o_recs o2))
  | Ub e => (e = EmptyFront /\ strict = true) \/ e = DeepTree
  end.
Proof.
  intros strict cmp choose S cs cs' st cds s1 st1 [H1 H2] Hc Hc' E.
  pose proof (calls_ok cmp baby_divide baby_merge baby_weight (baby_how strict) 256 20 choose true S H1 H2 baby_two cs b_init o_empty st (rel_init cmp) (honest_fair _ _ Hc)) as W.
  unfold baby_calls in *. rewrite E in W. destruct W as (o1 & W1 & W2). exists o1. split; auto.
  pose proof (calls_ok cmp baby_divide baby_merge baby_weight (baby_how strict) 256 20 choose true S H1 H2 baby_two cs' s1 o1 st1 W2 (honest_fair _ _ Hc')) as V.
  destruct (b_calls _ _ _ _ _ _ _ _ _ _ cs' s1 st1) as [[[cds' s2] st2]|e]; [|exact V]. destruct V as (o2 & V1 & V2). exists o2. split; auto. eapply rel_count; exact V2.
Qed.

(** Reading a record and moving an iterator never meet undefined behaviour, at any depth. *)
Theorem C13_reading : forall strict cmp choose S (cs : list (ocall S)) st cds s1 st1 c, preorder cmp -> Forall honest cs ->
  baby_calls strict cmp choose cs b_init st = Ok (cds, s1, st1) -> ronly S c = true ->
  exists o1 cd s2 st2 o2, oruns cmp S cs o_empty st cds o1 st1 /\ baby_calls strict cmp choose [c] s1 st1 = Ok ([cd], s2, st2) /\ ostep cmp S c o1 st1 cd o2 st2.
Proof.
  intros strict cmp choose S cs st cds s1 st1 c [H1 H2] Hc E Hr.
  pose proof (calls_ok cmp baby_divide baby_merge baby_weight (baby_how strict) 256 20 choose true S H1 H2 baby_two cs b_init o_empty st (rel_init cmp) (honest_fair _ _ Hc)) as W.
  unfold baby_calls in *. rewrite E in W. destruct W as (o1 & W1 & W2).
  pose proof (read_sure cmp baby_divide baby_merge baby_weight (baby_how strict) 256 20 choose true S H1 H2 baby_two c s1 o1 st1 W2 Hr) as V. cbn [b_calls].
  destruct (b_call _ _ _ _ _ _ _ _ _ _ c s1 st1) as [[[cd s2] st2]|e]; [|destruct V]. destruct V as (o2 & V1 & _). exists o1, cd, s2, st2, o2. auto.
Qed.

(** For the default comparator, the records are a finite map from byte strings: what a history of Process, ProcessMulti and
    Clear leaves is what it leaves of a plain map, and so is what the processors see. *)
Fixpoint map_run {S} (cs : list (ocall S)) (m : amap) (st : S) : amap * S :=
  match cs with
  | [] => (m, st)
  | KProcess k p w :: r => let '(m', st') := ref_process m k p w st in map_run r m' st'
  | KMulti l w :: r => let '(m', st') := ref_multi m l w st in map_run r m' st'
  | KAppend k v d :: r => map_run r (fst (ref_process m k (append_proc unit v d) true tt)) st
  | KClear :: r => map_run r aempty st
  | _ :: r => map_run r m st
  end.
Definition mapcall {S} (c : ocall S) : Prop := match c with KProcess _ _ _ | KMulti _ _ | KAppend _ _ _ | KClear => True | _ => False end.
Lemma ref_process_eq : forall S m m' k (p : proc S) w s, same_map m m' -> same_map (fst (ref_process m k p w s)) (fst (ref_process m' k p w s)) /\ snd (ref_process m k p w s) = snd (ref_process m' k p w s).
Proof.
  intros S m m' k p w s E. unfold ref_process, call. rewrite E. destruct (m' k) as [v|]; [destruct (on_full p k v s) as [a s1]|destruct (on_empty p k s) as [a s1]]; cbn; (split; auto; intros k'; destruct w; auto; destruct a; cbn; auto; unfold adel, aset; now rewrite E).
Qed.
Lemma map_run_ok : forall S (cs : list (ocall S)) o st cds o' st' m, ascending bcmp (o_recs o) -> same_map (o_view bcmp (o_recs o)) m -> Forall mapcall cs -> oruns bcmp S cs o st cds o' st' ->
  same_map (o_view bcmp (o_recs o')) (fst (map_run cs m st)) /\ st' = snd (map_run cs m st) /\ Forall (fun c => c = SUCCESS) cds.
Proof.
  destruct bcmp_preorder as [H1 H2]. assert (H3 : forall a b, bcmp a b = Eq -> a = b) by (intros a b; apply bcmp_eq).
  intros S cs. induction cs as [|c cs IH]; intros o st cds o' st' m As E F R; inversion R as [|? ? ? ? cd o1 st1 cds1 ? ? R1 R2]; subst; [cbn; auto|].
  inversion F as [|? ? F1 F2]; subst. destruct c; cbn [mapcall] in F1; try destruct F1; cbn [ostep] in R1.
  - destruct R1 as (-> & Q1 & -> & _). destruct (process_map bcmp H1 H2 H3 S (o_recs o) k p w st As) as [P1 P2]. destruct (ref_process_eq S (o_view bcmp (o_recs o)) m k p w st E) as [P3 P4].
    cbn [map_run]. destruct (ref_process m k p w st) as [m' st1'] eqn:Em. cbn in P3, P4. rewrite P2, P4 in R2.
    destruct (IH o1 st1' cds1 o' st' m') as (I1 & I2 & I3); auto. + rewrite Q1. apply (process_asc bcmp H1 H2); auto. + rewrite Q1. intros k'. now rewrite P1.
  - destruct R1 as (-> & Q1 & -> & _). destruct (process_map bcmp H1 H2 H3 unit (o_recs o) k (append_proc unit v d) true tt As) as [P1 P2]. destruct (ref_process_eq unit (o_view bcmp (o_recs o)) m k (append_proc unit v d) true tt E) as [P3 _].
    cbn [map_run]. destruct (IH o1 st cds1 o' st' (fst (ref_process m k (append_proc unit v d) true tt))) as (I1 & I2 & I3); auto. + rewrite Q1. apply (process_asc bcmp H1 H2); auto. + rewrite Q1. intros k'. now rewrite P1.
  - destruct R1 as (-> & Q1 & -> & _). destruct (multi_map bcmp H1 H2 H3 S l (o_recs o) m w st As E) as [P1 P2].
    cbn [map_run]. destruct (ref_multi m l w st) as [m' st1'] eqn:Em. cbn in P1, P2. rewrite P2 in R2.
    destruct (IH o1 st1' cds1 o' st' m') as (I1 & I2 & I3); auto. + rewrite Q1. apply (multi_asc bcmp H1 H2); auto. + rewrite Q1. auto.
  - destruct R1 as (-> & Q1 & -> & _). cbn [map_run]. destruct (IH o1 st cds1 o' st' aempty) as (I1 & I2 & I3); auto. + rewrite Q1. constructor. + rewrite Q1. intros k'. reflexivity.
Qed.
Theorem C13_map_partial : forall strict choose S (cs : list (ocall S)) st, Forall mapcall cs ->
  match baby_calls strict bcmp choose cs b_init st with
  | Ok (cds, s', st') => st' = snd (map_run cs aempty st) /\ Forall (fun c => c = SUCCESS) cds /\
      (exists n, acount (fst (map_run cs aempty st)) n /\ b_num s' = Z.of_nat n)
  | Ub e => (e = EmptyFront /\ strict = true) \/ e = DeepTree
  end.
Proof.
  intros strict choose S cs st F. assert (Hh : Forall honest cs) by (eapply Forall_impl; [|exact F]; intros []; cbn; tauto).
  pose proof (C13_history_partial strict bcmp choose S cs st bcmp_preorder Hh) as W. destruct (baby_calls strict bcmp choose cs b_init st) as [[[cds s'] st']|e]; [|exact W].
  destruct W as (o' & R & Hn & As & _). destruct bcmp_preorder as [H1 H2]. assert (H3 : forall a b, bcmp a b = Eq -> a = b) by (intros a b; apply bcmp_eq).
  destruct (map_run_ok S cs o_empty st cds o' st' aempty) as (M1 & M2 & M3); auto. - constructor. - intros k; reflexivity.
  - split; auto. split; auto. exists (length (o_recs o')). split; auto. pose proof (view_count bcmp H1 H3 (o_recs o') As) as (l & L1 & L2 & L3). exists l. split; auto. split; auto. intros k. rewrite L3. now rewrite M1.
Qed.

(** * Iterators *)
(** The record each move of an iterator stands at is given by [ostep] (C13_history_partial, C13_reading).  Hence: scanning from
    First by Next reads every record once, in ascending order, and from Last by Previous in descending order. *)
Theorem C14_scan : forall strict cmp choose (cs : list (ocall (list (bytes * bytes)))) st cds s1 st1 j, preorder cmp -> Forall honest cs ->
  baby_calls strict cmp choose cs b_init st = Ok (cds, s1, st1) ->
  exists o1, oruns cmp _ cs o_empty st cds o1 st1 /\ ascending cmp (o_recs o1) /\
    (exists c s2, baby_calls strict cmp choose (scan_up (length (o_recs o1)) j) s1 [] = Ok (c, s2, o_recs o1) /\ b_its s2 j = None) /\
    (exists c s2, baby_calls strict cmp choose (scan_down (length (o_recs o1)) j) s1 [] = Ok (c, s2, rev (o_recs o1)) /\ b_its s2 j = None).
Proof.
  intros strict cmp choose cs st cds s1 st1 j [H1 H2] Hc E. set (S := list (bytes * bytes)) in *.
  pose proof (calls_ok cmp baby_divide baby_merge baby_weight (baby_how strict) 256 20 choose true S H1 H2 baby_two cs b_init o_empty st (rel_init cmp) (honest_fair _ _ Hc)) as W.
  unfold baby_calls in *. rewrite E in W. destruct W as (o1 & W1 & W2). exists o1. split; auto. pose proof (rel_asc _ _ _ W2) as As. split; auto.
  assert (Run : forall ds s o t, rel cmp s o -> Forall (fun c => ronly S c = true) ds ->
    sure (b_calls cmp baby_divide baby_merge baby_weight (baby_how strict) 256 20 choose true S ds s t) (fun '(c, s', t') => exists o', oruns cmp S ds o t c o' t' /\ rel cmp s' o')).
  { intros ds. induction ds as [|d ds IH]; intros s o t R F; cbn [b_calls]. - cbn. exists o. split; [constructor|auto].
    - inversion F; subst. eapply sure_bind; [apply (read_sure cmp baby_divide baby_merge baby_weight (baby_how strict) 256 20 choose true S H1 H2 baby_two d s o t R); auto|].
      intros [[cd s'] t'] (o' & O1 & R1). eapply sure_bind; [apply (IH s' o' t' R1); auto|]. intros [[c2 s2] t2] (o2 & O2 & R2). cbn. exists o2. split; auto. econstructor; eauto. }
  assert (Ro : forall n m, ronly S m = true -> Forall (fun c => ronly S c = true) (concat (repeat (visit j m) n))) by (intros n m Hm; induction n; cbn; auto).
  split.
  - pose proof (Run (scan_up (length (o_recs o1)) j) s1 o1 [] W2) as V. unfold sure in V. match type of V with _ -> match ?X with _ => _ end => destruct X as [[[c s2] t2]|e] end.
    + destruct V as (o2 & O2 & R2); [constructor; auto|]. destruct (scan_up_all cmp H1 o1 [] c o2 t2 j As O2) as (-> & _ & P). cbn [app]. exists c, s2. split; auto. destruct R2 as [_ R2]. specialize (R2 j). rewrite P in R2. destruct (b_its s2 j); [discriminate|auto].
    + destruct V. constructor; auto.
  - pose proof (Run (scan_down (length (o_recs o1)) j) s1 o1 [] W2) as V. unfold sure in V. match type of V with _ -> match ?X with _ => _ end => destruct X as [[[c s2] t2]|e] end.
    + destruct V as (o2 & O2 & R2); [constructor; auto|]. destruct (scan_down_all cmp H1 o1 [] c o2 t2 j As O2) as (-> & _ & P). cbn [app]. exists c, s2. split; auto. destruct R2 as [_ R2]. specialize (R2 j). rewrite P in R2. destruct (b_its s2 j); [discriminate|auto].
    + destruct V. constructor; auto.
Qed.

(** * What is not so *)
Definition pset {S} (v : bytes) : proc S := mkProc (fun _ _ s => (ASet v, s)) (fun _ s => (ASet v, s)).
Definition pdel {S} : proc S := mkProc (fun _ _ s => (ARemove, s)) (fun _ s => (ANoop, s)).
Definition key2 (n : nat) : bytes := [N.of_nat n / 256; N.of_nat n mod 256]%N.
Definition fill (n : nat) : ocall unit := KMulti (map (fun i => (key2 i, pset [1%N])) (seq 0 n)) true.

(** Removing every record by ProcessEach, once the tree has two leaves, reads the front of an empty vector. *)
Theorem C13_each_refuted : exists (cs : list (ocall unit)), Forall honest cs /\ baby_calls true bcmp (fun _ => 0) cs b_init tt = Ub EmptyFront.
Proof. exists [fill 257; KProcess (key2 0) (pset []) true; KEach pdel true]. split; [repeat constructor|vm_compute; reflexivity]. Qed.
(** ProcessFirst of BabyDBM ignores that it was asked not to write, tkrzw_dbm_baby.cc:500. *)
Theorem C13_first_refuted : exists cds s', baby_calls true bcmp (fun _ => 0) [KProcess [1%N] (pset [2%N]) true; KFirst pdel false] b_init tt = Ok (cds, s', tt) /\
  Forall (fun c => c = SUCCESS) cds /\ b_num s' = 0%Z.
Proof. eexists; eexists. split; [vm_compute; reflexivity|]. split; [repeat constructor|reflexivity]. Qed.
(** Previous after Jump to a key that no record has may pass over records: with 257 records in two leaves (of 128 and 129), Jump to
    a key after the last of the first leaf and Previous end at no record, though 128 records are before that key. *)
Theorem C14_previous_refuted : exists cds s', baby_calls true bcmp (fun _ => 0)
    [fill 257; KProcess (key2 256) (pset []) true; KProcess (key2 0) (pset []) true; KItJump 0 (key2 127 ++ [0%N]); KItPrev 0] b_init tt = Ok (cds, s', tt) /\
  b_num s' = 257%Z /\ b_its s' 0 = None.
Proof. eexists; eexists. split; [vm_compute; reflexivity|]. split; reflexivity. Qed.

(** * Cases *)
(** 300 records in a tree of two leaves, one removed; the iterator finds the neighbours. *)
Definition demo : list (ocall (list (bytes * bytes))) :=
  [KMulti (map (fun i => (key2 (2 * i), pset [1%N])) (seq 0 300)) true; KProcess (key2 10) pdel true; KProcess (key2 11) (pset [7%N]) true;
   KItUpper 0 (key2 10) true; KItProcess 0 collect false; KItLower 1 (key2 10) true; KItProcess 1 collect false; KItPrev 1; KItProcess 1 collect false].
Example C13_demo : exists cds s', baby_calls true bcmp (fun _ => 0) demo b_init [] = Ok (cds, s', [(key2 11, [7%N]); (key2 8, [1%N]); (key2 6, [1%N])]) /\ b_level s' = 2 /\ b_num s' = 300%Z.
Proof. eexists; eexists. split; [vm_compute; reflexivity|]. split; reflexivity. Qed.
Example C13_demo_honest : Forall honest demo. Proof. unfold demo. repeat constructor. Qed.
Example C14_demo : exists cds s', baby_calls true bcmp (fun _ => 0) (scan_down 3 5) (match baby_calls true bcmp (fun _ => 0) [KMulti (map (fun i => (key2 i, pset [3%N])) (seq 0 3)) true] b_init (@nil (bytes * bytes)) with Ok (_, s, _) => s | Ub _ => b_init end) [] =
  Ok (cds, s', [(key2 2, [3%N]); (key2 1, [3%N]); (key2 0, [3%N])]).
Proof. eexists; eexists. vm_compute. reflexivity. Qed.

Print Assumptions C13_history_partial.
Print Assumptions C13_map_partial.
Print Assumptions C14_scan.
Print Assumptions C13_each_refuted.
Print Assumptions C14_previous_refuted.
