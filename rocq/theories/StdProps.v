(** C51: StdHashDBM and StdTreeDBM in memory.  Source: /repo/tkrzw_dbm_std.cc. *)
From Coq Require Import List NArith Bool Lia Sorting.Permutation Sorting.Sorted.
Import ListNotations.
From Verif Require Import Bytes BytesOrder StatusModel DbmModel OmapSpec StdModel StdSpec StdProofs.

(** What can be seen of a database: the records, where the iterators stand, the log. *)
Definition seen_as (db : sdb) (st : pst) : Prop :=
  p_recs st = map (fun e => (e_key e, e_val e)) (s_map db) /\ p_log st = s_log db /\
  forall j, match s_its db j with
            | None => p_pos st j = None
            | Some i => exists e, In e (s_map db) /\ e_id e = i /\ p_pos st j = Some (e_key e)
            end.
Lemma seen_abs kd db : inv kd db -> seen_as db (abs db).
Proof.
  intros I. split; [reflexivity|]. split; [reflexivity|]. intros j. cbn [p_pos abs]. destruct (s_its db j) as [i|] eqn:J; [|reflexivity].
  apply (i_its _ _ I) in J. apply find_id_in in J. destruct J as (e & F & H1 & H2). exists e. cbn [key_at]. rewrite F. auto.
Qed.
(** std::map, and std::unordered_map with any order of its elements. *)
Definition std_kind (kd : kind) : Prop := kd = tree_kind \/ exists place rehash, kd = hash_kind place rehash /\ forall l, Permutation (rehash l) l.
Lemma std_kind_ok kd : std_kind kd -> kind_ok kd.
Proof. intros [->|(p & r & -> & H)]; split; cbn; try discriminate; auto. Qed.
Definition p_empty : pst := mkP [] (fun _ => None) [].

(** * Every history *)
(** Any calls of the database and of any number of iterators, one after the other: none is
    undefined, the statuses, the counts and what the processors see are those of the
    specification. *)
Theorem C51_history S kd noop (cs : list (scall S)) s : std_kind kd ->
  exists out db s' st, std_run kd noop s_new cs s = Some (out, db, s') /\
    p_runs (k_tree kd) noop p_empty cs s out st s' /\ seen_as db st.
Proof.
  intros HK. destruct (run_ok kd (std_kind_ok kd HK) noop cs s_new s (new_inv kd)) as (out & db & s' & E & I & P).
  exists out, db, s', (abs db). split; [exact E|]. split; [exact P|]. apply (seen_abs kd), I.
Qed.
Print Assumptions C51_history.
(** The records have different keys, and those of StdTreeDBM ascend. *)
Theorem C51_order S kd noop (cs : list (scall S)) s out db s' : std_kind kd ->
  std_run kd noop s_new cs s = Some (out, db, s') ->
  NoDup (map e_key (s_map db)) /\ (k_tree kd = true -> StronglySorted blt (map e_key (s_map db))).
Proof.
  intros HK H. destruct (run_ok kd (std_kind_ok kd HK) noop cs s_new s (new_inv kd)) as (out' & db' & s2 & E & I & P).
  rewrite E in H. injection H as <- <- <-. split; apply I.
Qed.
Print Assumptions C51_order.
(** No iterator ever stands on an element that is not in the container. *)
Theorem C51_no_dangling S kd noop (cs : list (scall S)) s out db s' j i : std_kind kd ->
  std_run kd noop s_new cs s = Some (out, db, s') -> s_its db j = Some i -> exists e, In e (s_map db) /\ e_id e = i.
Proof.
  intros HK H HJ. destruct (run_ok kd (std_kind_ok kd HK) noop cs s_new s (new_inv kd)) as (out' & db' & s2 & E & I & P).
  rewrite E in H. injection H as <- <- <-. apply (i_its _ _ I) in HJ. apply find_id_in in HJ. destruct HJ as (e & _ & H1 & H2). eauto.
Qed.
Print Assumptions C51_no_dangling.

(** * The log *)
Definition replay (m : amap) (w : logged) : amap := match w with WSet k v => aset m k v | WRemove k => adel m k | WClear => aempty end.
Definition replays (st : pst) : Prop := forall k, fold_left replay (p_log st) aempty k = lookup k (p_recs st).
Lemma lookup_without k k' l : lookup k' (without k l) = if beqb k k' then None else lookup k' l.
Proof.
  unfold lookup, without. induction l as [|[x v] l IH]; cbn; [destruct (beqb k k'); reflexivity|].
  destruct (beqb_spec x k) as [->|Hx]; cbn.
  - rewrite IH. destruct (beqb_spec k k'); reflexivity.
  - destruct (beqb_spec x k') as [->|]; [|exact IH]. destruct (beqb_spec k k'); [congruence|reflexivity].
Qed.
Lemma lookup_with k v k' l : In k (map fst l) -> lookup k' (with_value k v l) = if beqb k k' then Some v else lookup k' l.
Proof.
  unfold lookup, with_value. induction l as [|[x w] l IH]; cbn; [intros []|]. intros H.
  destruct (beqb_spec x k) as [->|Hx]; cbn.
  - destruct (beqb_spec k k') as [->|Hk]; [reflexivity|]. clear IH H. induction l as [|[y z] l IH]; cbn; [reflexivity|].
    destruct (beqb_spec y k) as [->|]; cbn; [destruct (beqb_spec k k'); [congruence|exact IH]|]. destruct (beqb y k'); [reflexivity|exact IH].
  - destruct H as [H|H]; [congruence|]. destruct (beqb_spec x k') as [->|]; [|apply IH, H]. destruct (beqb_spec k k'); [congruence|reflexivity].
Qed.
Lemma lookup_app k a b : lookup k (a ++ b) = match lookup k a with Some v => Some v | None => lookup k b end.
Proof. unfold lookup. induction a as [|[x v] a IH]; cbn; [reflexivity|]. destruct (beqb x k); [reflexivity|exact IH]. Qed.
Lemma lookup_none k l : lookup k l = None <-> ~ In k (map fst l).
Proof.
  unfold lookup. induction l as [|[x v] l IH]; cbn; [tauto|]. destruct (beqb_spec x k); cbn; [split; [discriminate|tauto]|]. rewrite IH. tauto.
Qed.
Lemma lookup_in k l v : lookup k l = Some v -> In k (map fst l).
Proof. intros H. destruct (in_dec (list_eq_dec N.eq_dec) k (map fst l)) as [|X]; [assumption|]. apply lookup_none in X. congruence. Qed.
Lemma lookup_perm k l l' : Permutation l l' -> NoDup (map fst l) -> lookup k l = lookup k l'.
Proof.
  induction 1 as [|[x v] l l' H IH|[x v] [y w] l|l1 l2 l3 H1 IH1 H2 IH2]; intros N; cbn in *.
  - reflexivity.
  - inversion N; subst. unfold lookup in *. cbn. destruct (beqb x k); [reflexivity|apply IH; auto].
  - inversion N as [|? ? N1 N2]; subst. unfold lookup. cbn. destruct (beqb_spec y k) as [->|]; [|reflexivity]. destruct (beqb_spec x k) as [->|]; [exfalso; apply N1; left; reflexivity|reflexivity].
  - rewrite IH1 by exact N. apply IH2. eapply Permutation_NoDup; [apply Permutation_map; exact H1|exact N].
Qed.
Definition wf (st : pst) : Prop := NoDup (map fst (p_recs st)).
Lemma without_in x k l : In x (map fst (without k l)) <-> In x (map fst l) /\ x <> k.
Proof.
  unfold without. rewrite !in_map_iff. split.
  - intros (r & <- & H). apply filter_In in H. destruct H as [H1 H2]. destruct (beqb_spec (fst r) k); [discriminate|]. split; [eauto|assumption].
  - intros [(r & <- & H) HN]. exists r. split; [reflexivity|]. apply filter_In. split; [exact H|]. destruct (beqb_spec (fst r) k); [contradiction|reflexivity].
Qed.
Lemma without_nodup k l : NoDup (map fst l) -> NoDup (map fst (without k l)).
Proof.
  induction l as [|r l IH]; cbn; intros H; [constructor|]. inversion H; subst. destruct (negb (beqb (fst r) k)); cbn; [|auto]. constructor; [|auto].
  fold (without k l). rewrite without_in. tauto.
Qed.
Lemma with_keys k v l : map fst (with_value k v l) = map fst l.
Proof. unfold with_value. rewrite map_map. apply map_ext. intros r. destruct (beqb (fst r) k); reflexivity. Qed.
Lemma act_wf st k a st' : p_act st k a st' -> wf st -> wf st'.
Proof.
  unfold wf. destruct a; cbn; intros H W.
  - destruct H as (-> & _). exact W.
  - destruct H as (-> & _). apply without_nodup, W.
  - destruct H as (-> & _). rewrite with_keys. exact W.
Qed.
Lemma placed_wf t l k v l' : placed t l k v l' -> ~ In k (map fst l) -> NoDup (map fst l) -> NoDup (map fst l').
Proof. intros (a & b & -> & -> & _) H N. apply (NoDup_mid fst (k, v) a b). auto. Qed.
Section Runs.
  Variables (tree : bool) (noop : bytes).
  Context {S : Type}.
  Lemma process_wf st k (p : proc S) w s st' s' : p_process tree st k p w s st' s' -> wf st -> wf st'.
  Proof.
    unfold p_process. destruct (lookup k (p_recs st)) as [v|] eqn:L; intros [_ H] W; [eapply act_wf; eauto|].
    apply lookup_none in L. destruct (fst (on_empty p k s)), w; try exact (act_wf _ _ _ _ H W). destruct H as (H & _). eapply placed_wf; eauto.
  Qed.
  Lemma multi_wf (l : list (bytes * proc S)) w : forall st s st' s', p_multi tree st l w s st' s' -> wf st -> wf st'.
  Proof.
    induction l as [|[k p] l IH]; cbn; intros st s st' s' H W; [destruct H as [(E & _) _]; unfold wf; rewrite E; exact W|].
    destruct H as (st1 & s1 & H1 & H2). eapply IH; [exact H2|]. eapply process_wf; eauto.
  Qed.
  Lemma each_wf (p : proc S) w l : forall st s st' s', p_each st l p w s st' s' -> wf st -> wf st'.
  Proof.
    induction l as [|[k v] l IH]; cbn; intros st s st' s' H W; [destruct H as [(E & _) _]; unfold wf; rewrite E; exact W|].
    destruct H as (st1 & H1 & H2). eapply IH; [exact H2|]. eapply act_wf; eauto.
  Qed.
  Lemma act_replays st k a st' : p_act st k a st' -> In k (map fst (p_recs st)) \/ a = ANoop -> replays st -> replays st'.
  Proof.
    unfold replays. intros H HI R x. destruct a; cbn in H.
    - destruct H as (-> & _ & ->). apply R.
    - destruct H as (-> & -> & _). rewrite fold_left_app. cbn. unfold adel. rewrite lookup_without, R. reflexivity.
    - destruct H as (-> & _ & ->). rewrite fold_left_app. cbn. unfold aset. destruct HI as [HI|]; [|discriminate]. rewrite lookup_with by exact HI. rewrite R. reflexivity.
  Qed.
  Lemma process_replays st k (p : proc S) w s st' s' : p_process tree st k p w s st' s' -> replays st -> replays st'.
  Proof.
    unfold p_process. destruct (lookup k (p_recs st)) as [v|] eqn:L; intros [_ H] R.
    - eapply act_replays; [exact H| |exact R]. left. eapply lookup_in, L.
    - destruct (fst (on_empty p k s)) as [| |v], w; try exact (act_replays _ _ _ _ H (or_intror eq_refl) R).
      destruct H as ((a & b & E1 & E2 & _) & _ & E3). unfold replays in *. intros x. rewrite E3, E2, fold_left_app. cbn. unfold aset. rewrite R, E1, lookup_app, (lookup_app x a).
      rewrite E1 in L. rewrite lookup_app in L. unfold lookup at 4. cbn. destruct (beqb_spec k x) as [->|]; [|reflexivity]. destruct (lookup x a); [discriminate|reflexivity].
  Qed.
  Lemma multi_replays (l : list (bytes * proc S)) w : forall st s st' s', p_multi tree st l w s st' s' -> replays st -> replays st'.
  Proof.
    induction l as [|[k p] l IH]; cbn; intros st s st' s' H R; [destruct H as [H _]; exact (act_replays st [] ANoop st' H (or_intror eq_refl) R)|].
    destruct H as (st1 & s1 & H1 & H2). eapply IH; [exact H2|]. eapply process_replays; eauto.
  Qed.
  Lemma act_keys st k a st' x : p_act st k a st' -> x <> k -> In x (map fst (p_recs st)) -> In x (map fst (p_recs st')).
  Proof.
    destruct a; cbn; intros H HN HI; destruct H as (-> & _); [exact HI|apply without_in; auto|rewrite with_keys; exact HI].
  Qed.
  Lemma each_replays (p : proc S) w l : forall st s st' s', p_each st l p w s st' s' -> NoDup (map fst l) -> incl (map fst l) (map fst (p_recs st)) -> replays st -> replays st'.
  Proof.
    induction l as [|[k v] l IH]; cbn; intros st s st' s' H N HI R; [destruct H as [H _]; exact (act_replays st [] ANoop st' H (or_intror eq_refl) R)|].
    destruct H as (st1 & H1 & H2). inversion N as [|? ? N1 N2]; subst. eapply IH; [exact H2|exact N2| |].
    - intros x Hx. eapply act_keys; [exact H1|intros ->; contradiction|]. apply HI. right. exact Hx.
    - eapply act_replays; [exact H1| |exact R]. left. apply HI. left. reflexivity.
  Qed.
  Lemma move_wf st j x st' : p_move st j x st' -> (wf st -> wf st') /\ (replays st -> replays st').
  Proof. intros (E1 & E2 & _). unfold wf, replays. rewrite E1, E2. auto. Qed.
  Lemma same_wf st st' : p_same st st' -> (wf st -> wf st') /\ (replays st -> replays st').
  Proof. intros (E1 & _ & E2). unfold wf, replays. rewrite E1, E2. auto. Qed.
  Lemma step_wf st (c : scall S) s cd n st' s' : p_step tree noop st c s cd n st' s' -> wf st -> replays st -> wf st' /\ replays st'.
  Proof.
    intros [_ H] W R. destruct c.
    - destruct H as [_ H]. split; [eapply process_wf; eauto|eapply process_replays; eauto].
    - destruct H as [_ H]. split; [eapply multi_wf; eauto|eapply multi_replays; eauto].
    - destruct (p_recs st) as [|[k v] l] eqn:E; destruct H as (_ & H & _); [apply same_wf in H; tauto|]. split; [eapply act_wf; eauto|]. eapply act_replays; [exact H| |exact R]. left. rewrite E. left. reflexivity.
    - destruct H as (_ & s2 & H & _). split; [eapply each_wf; eauto|eapply each_replays; eauto]. apply incl_refl.
    - destruct H as (_ & H & _). apply same_wf in H. tauto.
    - destruct H as (_ & E1 & _ & E2 & _). unfold wf, replays. rewrite E1, E2. split; [constructor|]. intros k. rewrite fold_left_app. reflexivity.
    - destruct H as (_ & H & _ & E & _). unfold wf, replays in *. rewrite E. destruct tree; [rewrite H; auto|]. split.
      + eapply Permutation_NoDup; [apply Permutation_map; symmetry; exact H|exact W].
      + intros k. rewrite R. apply lookup_perm; [symmetry; exact H|exact W].
    - destruct H as (_ & H & _). apply move_wf in H. tauto.
    - destruct H as (_ & H). destruct tree; destruct H as (_ & H); [apply move_wf in H|apply same_wf in H]; tauto.
    - destruct H as (_ & H). destruct tree; [|destruct (lookup k (p_recs st))]; destruct H as (_ & H); apply move_wf in H; tauto.
    - destruct H as (_ & H). destruct tree; destruct H as (_ & H); [apply move_wf in H|apply same_wf in H]; tauto.
    - destruct H as (_ & H). destruct tree; destruct H as (_ & H); [apply move_wf in H|apply same_wf in H]; tauto.
    - destruct H as (_ & H). destruct (p_pos st j); destruct H as (_ & H); [apply move_wf in H|apply same_wf in H]; tauto.
    - destruct H as (_ & H). destruct tree; [destruct (p_pos st j)|]; destruct H as (_ & H); [apply move_wf in H|apply same_wf in H|apply same_wf in H]; tauto.
    - destruct (p_pos st j) as [k|]; [|destruct H as (_ & H & _); apply same_wf in H; tauto].
      destruct H as (_ & v & L & H & _). split; [eapply act_wf; eauto|]. eapply act_replays; [exact H| |exact R]. left. eapply lookup_in, L.
  Qed.
  Lemma runs_wf st cs s out st' s' : p_runs (S := S) tree noop st cs s out st' s' -> wf st -> replays st -> wf st' /\ replays st'.
  Proof. induction 1 as [|st c s cd n st1 s1 cs out st2 s2 H1 H2 IH]; intros W R; [auto|]. destruct (step_wf _ _ _ _ _ _ _ H1 W R). auto. Qed.
End Runs.
(** The update log, replayed on an empty map, gives the records of the database. *)
Theorem C51_log S kd noop (cs : list (scall S)) s out db s' : std_kind kd ->
  std_run kd noop s_new cs s = Some (out, db, s') ->
  forall k, fold_left replay (s_log db) aempty k = option_map e_val (find (fun e => beqb (e_key e) k) (s_map db)).
Proof.
  intros HK H k. destruct (run_ok kd (std_kind_ok kd HK) noop cs s_new s (new_inv kd)) as (out' & db' & s2 & E & I & P).
  rewrite E in H. injection H as <- <- <-. destruct (runs_wf _ _ _ _ _ _ _ _ P) as [_ R]; [constructor|intros x; reflexivity|].
  specialize (R k). cbn in R. fold (rs (s_map db')) in R. rewrite R. apply lookup_rs.
Qed.
Print Assumptions C51_log.

(** * A whole iteration *)
(** A run with the state before each call. *)
Inductive std_path {S} (kd : kind) (noop : bytes) : sdb -> S -> list (sdb * scall S) -> sdb -> S -> Prop :=
| path_nil db s : std_path kd noop db s [] db s
| path_cons db s c cd n db1 s1 tr db2 s2 : std_step kd noop db c s = Some (cd, n, db1, s1) -> std_path kd noop db1 s1 tr db2 s2 ->
    std_path kd noop db s ((db, c) :: tr) db2 s2.
Definition has_key (db : sdb) (k : bytes) : Prop := exists e, In e (s_map db) /\ e_key e = k.
(** The key of the record where iterator [j] stands. *)
Definition stands_on (db : sdb) (j : nat) : option bytes :=
  match s_its db j with None => None | Some i => option_map e_key (find (fun e => Nat.eqb (e_id e) i) (s_map db)) end.
(** How often iterator [j] goes on from the record of [k]. *)
Fixpoint times_left {S} (j : nat) (k : bytes) (tr : list (sdb * scall S)) : nat :=
  match tr with
  | [] => O
  | (db, INext i) :: r => (if Nat.eqb i j then match stands_on db j with Some x => if beqb x k then 1 else 0 | None => 0 end else 0) + times_left j k r
  | _ :: r => times_left j k r
  end.
(** Calls that do not put iterator [j] elsewhere: not Clear, not Rebuild, no jump or step back of
    [j]; and no ProcessMulti on the key [k] (which may remove it and set it again). *)
Definition leaves {S} (j : nat) (k : bytes) (c : scall S) : Prop :=
  match c with
  | SClear | SRebuild => False
  | IFirst i | ILast i | IJump i _ | IJumpLower i _ _ | IJumpUpper i _ _ | IPrev i => i <> j
  | SMulti l _ => ~ In k (map fst l)
  | _ => True
  end.

(** The records before and from the iterator on. *)
Definition split_at (st : pst) (j : nat) (pre rest : recs) : Prop := p_recs st = pre ++ rest /\ p_pos st j = head_key rest.
Definition keeps (k : bytes) (j : nat) (st st' : pst) : Prop :=
  forall pre rest, split_at st j pre rest -> exists pre' rest', split_at st' j pre' rest' /\
    (In k (map fst pre) -> In k (map fst pre')) /\ (In k (map fst rest) -> In k (map fst rest')).
Lemma keeps_trans k j a b c : keeps k j a b -> keeps k j b c -> keeps k j a c.
Proof. intros H1 H2 pre rest H. destruct (H1 _ _ H) as (p1 & r1 & S1 & A1 & B1). destruct (H2 _ _ S1) as (p2 & r2 & S2 & A2 & B2). exists p2, r2. split; [exact S2|]. auto. Qed.
Lemma keeps_same k j st st' : p_recs st' = p_recs st -> p_pos st' j = p_pos st j -> keeps k j st st'.
Proof. intros E1 E2 pre rest [H1 H2]. exists pre, rest. unfold split_at. rewrite E1, E2. auto. Qed.
Lemma act_keeps k j st x a st' : wf st -> p_act st x a st' -> In k (map fst (p_recs st')) -> keeps k j st st'.
Proof.
  intros W H HI. destruct a; cbn in H.
  - destruct H as (E1 & E2 & _). apply keeps_same; auto.
  - destruct H as (E1 & _ & E2). rewrite E1 in HI. apply without_in in HI. destruct HI as [HI HN]. intros pre rest [H1 H2].
    exists (without x pre), (without x rest). split; [|split; intros Hk; apply without_in; auto]. split; [rewrite E1, H1; unfold without; apply filter_app|].
    rewrite E2, H2. destruct rest as [|[y v] rest]; cbn; [reflexivity|]. destruct (beqb_spec y x) as [->|]; cbn; [|reflexivity].
    unfold wf in W. rewrite H1 in W. apply (NoDup_mid fst (x, v) pre rest) in W. destruct W as [W _]. cbn in W. rewrite map_app, in_app_iff in W.
    rewrite H1, following_mid by (try reflexivity; tauto). replace (filter (fun r => negb (beqb (fst r) x)) rest) with rest; [reflexivity|].
    symmetry. clear - W. induction rest as [|r l IH]; cbn in *; [reflexivity|]. destruct (beqb_spec (fst r) x); cbn; [tauto|]. rewrite IH by tauto. reflexivity.
  - destruct H as (E1 & E2 & _). intros pre rest [H1 H2]. exists (with_value x v pre), (with_value x v rest). split; [|rewrite !with_keys; auto].
    split; [rewrite E1, H1; unfold with_value; apply map_app|]. rewrite E2, H2. destruct rest as [|r rest]; cbn; [reflexivity|]. destruct (beqb (fst r) x); reflexivity.
Qed.
Lemma placed_keeps t k j st x v st' : placed t (p_recs st) x v (p_recs st') -> p_pos st' j = p_pos st j -> keeps k j st st'.
Proof.
  intros (a & b & E1 & E2 & _) E3 pre rest [H1 H2]. rewrite E1 in H1.
  assert (C : (exists p2, pre = a ++ p2 /\ b = p2 ++ rest) \/ (exists y q, rest = y :: q ++ b /\ a = pre ++ y :: q)).
  { clear - H1. revert pre H1. induction a as [|z a IH]; intros pre H1; [left; exists pre; auto|]. destruct pre as [|z' pre].
    - cbn in H1. right. exists z, a. auto.
    - cbn in H1. injection H1 as <- H1. destruct (IH _ H1) as [(p2 & -> & ->)|(y & q & -> & ->)]; [left; exists p2; auto|right; exists y, q; auto]. }
  destruct C as [(p2 & -> & ->)|(y & q & -> & ->)].
  - exists (a ++ (x, v) :: p2), rest. split; [|split; [|auto]]. { split; [rewrite E2, <- app_assoc; reflexivity|rewrite E3; exact H2]. }
    rewrite !map_app, !in_app_iff. cbn. tauto.
  - exists pre, (y :: q ++ (x, v) :: b). split; [|split; [auto|]]. { split; [rewrite E2, <- app_assoc; reflexivity|rewrite E3, H2; reflexivity]. }
    cbn. rewrite !map_app, !in_app_iff. cbn. tauto.
Qed.
Section Keeps.
  Variables (tree : bool) (noop : bytes).
  Context {S : Type}.
  Lemma process_keeps k j st x (p : proc S) w s st' s' : wf st -> p_process tree st x p w s st' s' -> In k (map fst (p_recs st')) -> keeps k j st st'.
  Proof.
    unfold p_process. intros W. destruct (lookup x (p_recs st)) as [v|] eqn:L; intros [_ H] HI; [eapply act_keeps; eauto|].
    destruct (fst (on_empty p x s)) as [| |v], w; try exact (act_keeps _ _ _ _ _ _ W H HI). destruct H as (H & E & _). eapply placed_keeps; eauto.
  Qed.
  Lemma process_other k x st (p : proc S) w s st' s' : p_process tree st x p w s st' s' -> k <> x -> In k (map fst (p_recs st)) -> In k (map fst (p_recs st')).
  Proof.
    unfold p_process. destruct (lookup x (p_recs st)) as [v|] eqn:L; intros [_ H] HN HI; [eapply act_keys; eauto|].
    destruct (fst (on_empty p x s)) as [| |v], w; try (destruct H as (E & _); rewrite E; exact HI).
    destruct H as ((a & b & E1 & E2 & _) & _). rewrite E1 in HI. rewrite E2. rewrite map_app, in_app_iff in *. cbn. tauto.
  Qed.
  Lemma multi_keeps k j (l : list (bytes * proc S)) w : ~ In k (map fst l) -> forall st s st' s', wf st -> p_multi tree st l w s st' s' -> In k (map fst (p_recs st)) -> keeps k j st st'.
  Proof.
    induction l as [|[x p] l IH]; cbn; intros HN st s st' s' W H HI; [destruct H as [(E1 & E2 & _) _]; apply keeps_same; auto|].
    destruct H as (st1 & s1 & H1 & H2). assert (HI1 : In k (map fst (p_recs st1))) by (eapply process_other; [exact H1|intros ->; auto|exact HI]).
    eapply keeps_trans; [eapply process_keeps; eauto|]. eapply IH; eauto. eapply process_wf; eauto.
  Qed.
  Lemma act_back k st x a st' : p_act st x a st' -> In k (map fst (p_recs st')) -> In k (map fst (p_recs st)).
  Proof. destruct a; cbn; intros (E & _); rewrite E; [auto|intros H; apply without_in in H; tauto|rewrite with_keys; auto]. Qed.
  Lemma each_back k (p : proc S) w l : forall st s st' s', p_each st l p w s st' s' -> In k (map fst (p_recs st')) -> In k (map fst (p_recs st)).
  Proof.
    induction l as [|[x v] l IH]; cbn; intros st s st' s' H HI; [destruct H as [(E & _) _]; rewrite <- E; exact HI|].
    destruct H as (st1 & H1 & H2). eapply act_back; [exact H1|]. eapply IH; eauto.
  Qed.
  Lemma each_keeps k j (p : proc S) w l : forall st s st' s', wf st -> p_each st l p w s st' s' -> In k (map fst (p_recs st')) -> keeps k j st st'.
  Proof.
    induction l as [|[x v] l IH]; cbn; intros st s st' s' W H HI; [destruct H as [(E1 & E2 & _) _]; apply keeps_same; auto|].
    destruct H as (st1 & H1 & H2). assert (HI1 := each_back _ _ _ _ _ _ _ _ H2 HI). eapply keeps_trans; [eapply act_keeps; eauto|]. eapply IH; eauto. eapply act_wf; eauto.
  Qed.
  (** A step: the records before the iterator stay there, those from it on too, but the one it leaves. *)
  Lemma step_keeps k j st (c : scall S) s cd n st' s' pre rest : wf st -> p_step tree noop st c s cd n st' s' -> leaves j k c ->
    In k (map fst (p_recs st)) -> In k (map fst (p_recs st')) -> split_at st j pre rest ->
    (c = INext j /\ exists r q, rest = r :: q /\ split_at st' j (pre ++ [r]) q) \/
    ((c <> INext j \/ rest = []) /\ exists pre' rest', split_at st' j pre' rest' /\ (In k (map fst pre) -> In k (map fst pre')) /\ (In k (map fst rest) -> In k (map fst rest'))).
  Proof.
    intros W [_ H] HL HI HI' HS.
    assert (MV : forall i x, i <> j -> p_move st i x st' -> keeps k j st st').
    { intros i x Hi (E1 & _ & E2). apply keeps_same; [exact E1|]. rewrite E2. destruct (Nat.eqb_spec j i); [congruence|reflexivity]. }
    assert (SM : p_same st st' -> keeps k j st st') by (intros (E1 & E2 & _); apply keeps_same; auto).
    destruct c; cbn in HL; try contradiction;
      try (right; split; [left; discriminate|]).
    - destruct H as [_ H]. eapply process_keeps; eauto.
    - destruct H as [_ H]. eapply multi_keeps; eauto.
    - destruct (p_recs st) as [|[x v] l] eqn:E; destruct H as (_ & H & _); [apply SM; auto|]. eapply act_keeps; eauto.
    - destruct H as (_ & s2 & H & _). eapply each_keeps; eauto.
    - destruct H as (_ & H & _). apply SM; auto.
    - destruct H as (_ & H & _). eapply MV; eauto.
    - destruct H as (_ & H). destruct tree; destruct H as (_ & H); [eapply MV; eauto|apply SM; auto].
    - destruct H as (_ & H). destruct tree; [|destruct (lookup _ (p_recs st))]; destruct H as (_ & H); eapply MV; eauto.
    - destruct H as (_ & H). destruct tree; destruct H as (_ & H); [eapply MV; eauto|apply SM; auto].
    - destruct H as (_ & H). destruct tree; destruct H as (_ & H); [eapply MV; eauto|apply SM; auto].
    - destruct H as (_ & H). destruct (Nat.eq_dec j0 j) as [->|HJ].
      + destruct HS as [H1 H2]. rewrite H2 in H. destruct rest as [|[x v] q]; cbn in H.
        * right. split; [right; reflexivity|]. destruct H as (_ & H). apply (SM H). split; auto.
        * left. split; [reflexivity|]. exists (x, v), q. split; [reflexivity|]. destruct H as (_ & E1 & _ & E2). split; [rewrite E1, H1, <- app_assoc; reflexivity|].
          rewrite E2, Nat.eqb_refl, H1. apply following_mid; [reflexivity|]. unfold wf in W. rewrite H1 in W. apply (NoDup_mid fst (x, v) pre q) in W. rewrite map_app, in_app_iff in W. tauto.
      + right. split; [left; congruence|]. destruct (p_pos st j0); destruct H as (_ & H); [eapply MV; eauto|apply SM; auto].
    - destruct H as (_ & H). destruct tree; [destruct (p_pos st j0)|]; destruct H as (_ & H); [eapply MV; eauto|apply SM; auto|apply SM; auto].
    - destruct (p_pos st j0) as [x|]; [|destruct H as (_ & H & _); apply SM; auto]. destruct H as (_ & v & L & H & _). eapply act_keeps; eauto.
  Qed.
End Keeps.
Lemma has_abs db k : has_key db k <-> In k (map fst (p_recs (abs db))).
Proof. unfold has_key. cbn. rewrite rs_keys, in_map_iff. split; intros (e & H); exists e; tauto. Qed.
Lemma path_count S kd noop j k : kind_ok kd -> forall db s (tr : list (sdb * scall S)) db' s', std_path kd noop db s tr db' s' -> inv kd db ->
  Forall (fun x => leaves j k (snd x) /\ has_key (fst x) k) tr -> has_key db' k -> stands_on db' j = None ->
  forall pre rest, split_at (abs db) j pre rest -> (In k (map fst pre) -> times_left j k tr = 0) /\ (In k (map fst rest) -> times_left j k tr = 1).
Proof.
  intros HK db s tr db' s' P. induction P as [db s|db s c cd n db1 s1 tr db2 s2 E P IH]; intros I F HE HN pre rest HS.
  - split; [reflexivity|]. intros Hk. exfalso. destruct HS as [_ H2]. cbn in H2. unfold stands_on in HN. destruct rest as [|r rest]; [exact Hk|].
    cbn in H2. unfold key_at, find_id in H2. rewrite HN in H2. discriminate.
  - inversion F as [|? ? [F1 F2] F3]; subst. cbn [fst snd] in F1, F2. destruct (step_ok kd HK noop db c s I) as (cd' & n' & db1' & s1' & E' & I1 & PS).
    rewrite E in E'. injection E' as <- <- <- <-.
    assert (HI1 : has_key db1 k). { destruct P; [exact HE|inversion F3 as [|? ? [_ X] _]; exact X]. }
    assert (W : wf (abs db)). { unfold wf. cbn. rewrite rs_keys. apply I. }
    specialize (IH I1 F3 HE HN). apply has_abs in F2, HI1.
    destruct (step_keeps _ _ k j _ _ _ _ _ _ _ _ _ W PS F1 F2 HI1 HS) as [(-> & r & q & -> & S1)|(HC & pre' & rest' & S1 & A & B)].
    + specialize (IH _ _ S1). cbn [times_left]. rewrite Nat.eqb_refl. destruct HS as [H1 H2]. assert (ST : stands_on db j = Some (fst r)) by exact H2. rewrite ST.
      unfold wf in W. rewrite H1 in W. apply NoDup_mid in W. rewrite map_app, in_app_iff in W. rewrite map_app, in_app_iff in IH. cbn in IH. cbn [map In]. destruct IH as [A B]. destruct (beqb_spec (fst r) k) as [Hr|Hr].
      * split; [intros X; exfalso; rewrite Hr in W; tauto|]. intros _. rewrite A by tauto. reflexivity.
      * cbn. split; [intros X; apply A; tauto|intros [X|X]; [congruence|apply B, X]].
    + destruct (IH _ _ S1) as [A1 B1]. assert (TL : times_left j k ((db, c) :: tr) = times_left j k tr).
      { destruct c; try reflexivity. cbn. destruct (Nat.eqb_spec j0 j) as [->|]; [|reflexivity]. destruct HC as [HC|HC]; [congruence|subst rest]. destruct HS as [_ H2]. cbn in H2. change (stands_on db j = None) in H2. rewrite H2. reflexivity. }
      rewrite TL. auto.
Qed.
(** From the first record to the end, among any other calls: a record that is there all the
    time is stood on, and left, exactly once, in StdTreeDBM and in StdHashDBM. *)
Theorem C51_iteration S kd noop j k s0 tr0 db0 s1 db1 s2 (tr : list (sdb * scall S)) db2 s3 : std_kind kd ->
  std_path kd noop s_new s0 tr0 db0 s1 -> std_step kd noop db0 (IFirst j) s1 = Some (SUCCESS, O, db1, s2) ->
  std_path kd noop db1 s2 tr db2 s3 -> stands_on db2 j = None ->
  Forall (fun x => leaves j k (snd x) /\ has_key (fst x) k) tr -> has_key db2 k ->
  times_left j k tr = 1.
Proof.
  intros HK P0 E P HE F HK2. assert (HO := std_kind_ok kd HK).
  assert (I0 : inv kd db0). { assert (I := new_inv kd). clear - P0 I HO. induction P0 as [|db s c cd n db1 s1 tr db2 s2 E P IH]; [exact I|]. apply IH. destruct (step_ok kd HO noop db c s I) as (cd' & n' & db1' & s1' & E' & I1 & _). rewrite E in E'. injection E' as <- <- <- <-. exact I1. }
  destruct (step_ok kd HO noop db0 (IFirst j) s1 I0) as (cd' & n' & db1' & s1' & E' & I1 & PS). rewrite E in E'. injection E' as <- <- <- <-.
  destruct PS as [_ (_ & (E1 & _ & E2) & _)]. assert (HS : split_at (abs db1) j [] (p_recs (abs db1))). { split; [reflexivity|]. rewrite E1, E2, Nat.eqb_refl. reflexivity. }
  assert (H1 : has_key db1 k). { destruct P; [exact HK2|inversion F as [|? ? [_ X] _]; exact X]. }
  eapply (path_count S kd noop j k HO _ _ _ _ _ P I1 F HK2 HE _ _ HS). apply has_abs, H1.
Qed.
Print Assumptions C51_iteration.

(** * The DBM interface *)
(** All that C09 and C10 say of databases applies. *)
Definition std_view (db : sdb) : amap := fun k => option_map e_val (find (fun e => beqb (e_key e) k) (s_map db)).
Lemma view_rs db k : std_view db k = lookup k (p_recs (abs db)).
Proof. symmetry. apply lookup_rs. Qed.
Lemma act_view st k a st' v : lookup k (p_recs st) = Some v -> p_act st k a st' -> forall x, lookup x (p_recs st') = act (fun y => lookup y (p_recs st)) k a x.
Proof.
  intros L H x. destruct a; cbn in *; destruct H as (-> & _); [reflexivity|apply lookup_without|]. unfold aset. rewrite lookup_with by (eapply lookup_in, L). reflexivity.
Qed.
Lemma process_view tree {S} st k (p : proc S) w s st' s' : p_process tree st k p w s st' s' ->
  (forall x, lookup x (p_recs st') = fst (ref_process (fun y => lookup y (p_recs st)) k p w s) x) /\ s' = snd (ref_process (fun y => lookup y (p_recs st)) k p w s).
Proof.
  unfold p_process, ref_process, call. destruct (lookup k (p_recs st)) as [v|] eqn:L.
  - intros [-> H]. destruct (on_full p k v s) as [a s1]. cbn in *. split; [|reflexivity]. intros x. rewrite (act_view _ _ _ _ _ L H). destruct w; reflexivity.
  - intros [-> H]. destruct (on_empty p k s) as [a s1]. cbn in *. split; [|reflexivity]. intros x. destruct a as [| |v], w; cbn in *; try (destruct H as (E & _); rewrite E; reflexivity).
    + destruct H as (E & _). rewrite E. unfold adel. destruct (beqb_spec k x) as [<-|]; [exact L|reflexivity].
    + destruct H as ((a & b & E1 & E2 & _) & _). rewrite E2, E1. unfold aset. rewrite !lookup_app. unfold lookup at 2. cbn. rewrite E1, lookup_app in L. destruct (beqb_spec k x) as [<-|]; [|reflexivity]. destruct (lookup k a); [discriminate|reflexivity].
Qed.
Lemma ref_process_ext {S} m m' k (p : proc S) w s : same_map m m' -> same_map (fst (ref_process m k p w s)) (fst (ref_process m' k p w s)) /\ snd (ref_process m k p w s) = snd (ref_process m' k p w s).
Proof.
  intros H. unfold ref_process, call. rewrite <- (H k). destruct (match m k with Some v => _ | None => _ end) as [a s1]. cbn. split; [|reflexivity].
  intros x. destruct w; [|apply H]. destruct a; cbn; unfold adel, aset; rewrite <- ?(H x); reflexivity.
Qed.
Lemma ref_multi_same {S} (l : list (bytes * proc S)) w : forall m m' s, same_map m m' -> same_map (fst (ref_multi m l w s)) (fst (ref_multi m' l w s)) /\ snd (ref_multi m l w s) = snd (ref_multi m' l w s).
Proof.
  induction l as [|[k p] l IH]; intros m m' s H; cbn [ref_multi]; [split; [exact H|reflexivity]|]. destruct (ref_process_ext m m' k p w s H) as [A B].
  destruct (ref_process m k p w s) as [m1 s1], (ref_process m' k p w s) as [m2 s2]. cbn in *. subst s2. apply IH, A.
Qed.
Lemma multi_view tree {S} (l : list (bytes * proc S)) w : forall st s st' s', p_multi tree st l w s st' s' ->
  (forall x, lookup x (p_recs st') = fst (ref_multi (fun y => lookup y (p_recs st)) l w s) x) /\ s' = snd (ref_multi (fun y => lookup y (p_recs st)) l w s).
Proof.
  induction l as [|[k p] l IH]; cbn [p_multi ref_multi]; intros st s st' s' H.
  - destruct H as [(E & _) ->]. rewrite E. auto.
  - destruct H as (st1 & s1 & H1 & H2). destruct (process_view _ _ _ _ _ _ _ _ H1) as [A B]. destruct (IH _ _ _ _ H2) as [C D].
    destruct (ref_process (fun y => lookup y (p_recs st)) k p w s) as [m1 s1']. cbn in *. subst s1'.
    destruct (ref_multi_same l w (fun y => lookup y (p_recs st1)) m1 s1 A) as [E F]. split; [intros x; rewrite C; apply E|rewrite D; exact F].
Qed.
Definition std_dbm (kd : kind) (HK : std_kind kd) : dbm.
Proof.
  refine (mkDbm sdb (inv kd) std_view (fun S => @std_process kd S) (fun S => @std_multi kd S) (fun S => @std_first S) _ _ _).
  - intros S d k p w s d' s' I E. destruct (process_ok kd (std_kind_ok kd HK) d k p w s I) as (d2 & s2 & E2 & I2 & P). rewrite E in E2. injection E2 as <- <-.
    destruct (process_view _ _ _ _ _ _ _ _ P) as [A B]. split; [exact I2|]. assert (X : same_map (fun y => lookup y (p_recs (abs d))) (std_view d)) by (intros x; symmetry; apply view_rs).
    destruct (ref_process_ext _ _ k p w s X) as [C D]. split; [intros x; rewrite view_rs, A; apply C|rewrite B; exact D].
  - intros S d l w s d' s' I E. destruct (multi_ok kd (std_kind_ok kd HK) l w d s I) as (d2 & s2 & E2 & I2 & P). rewrite E in E2. injection E2 as <- <-.
    destruct (multi_view _ _ _ _ _ _ _ P) as [A B]. split; [exact I2|]. assert (X : same_map (fun y => lookup y (p_recs (abs d))) (std_view d)) by (intros x; symmetry; apply view_rs).
    destruct (ref_multi_same l w _ _ s X) as [C D]. split; [intros x; rewrite view_rs, A; apply C|rewrite B; exact D].
  - intros S d p w s c d' s' I E. unfold std_first in E. destruct (s_map d) as [|e r] eqn:M; cbn in E.
    + injection E as <- <- <-. split; [discriminate|]. intros _. split; [discriminate|auto].
    + destruct (on_full p (e_key e) (e_val e) s) as [a s1] eqn:O. injection E as <- <- <-. assert (He : In e (s_map d)) by (rewrite M; left; reflexivity).
      assert (V : std_view d (e_key e) = Some (e_val e)) by (unfold std_view; rewrite M; cbn; rewrite beqb_refl; reflexivity). split.
      * intros _. destruct (act_ok kd d e a I He) as [A1 A2]. split; [destruct w; auto|]. exists (e_key e), (e_val e). rewrite O. cbn [fst snd]. split; [exact V|]. split; [|reflexivity].
        destruct w; [|intros x; reflexivity]. intros x. rewrite view_rs. rewrite view_rs in V. rewrite (act_view _ _ _ _ _ V A2). destruct a; cbn; unfold adel, aset; rewrite ?view_rs; reflexivity.
      * intros Hn. rewrite Hn in V. discriminate.
Defined.
(** After any history, Process and ProcessMulti do to the map of the records what they are
    documented to do; by [std_dbm], all of C09 and C10 holds of the two classes. *)
Theorem C51_interface S kd noop (cs : list (scall S)) s out db s' : std_kind kd -> std_run kd noop s_new cs s = Some (out, db, s') ->
  (forall k (p : proc S) w t, exists db' t', std_process kd db k p w t = (SUCCESS, db', t') /\
     same_map (std_view db') (fst (ref_process (std_view db) k p w t)) /\ t' = snd (ref_process (std_view db) k p w t)) /\
  (forall (l : list (bytes * proc S)) w t, exists db' t', std_multi kd db l w t = (SUCCESS, db', t') /\
     same_map (std_view db') (fst (ref_multi (std_view db) l w t)) /\ t' = snd (ref_multi (std_view db) l w t)).
Proof.
  intros HK H. destruct (run_ok kd (std_kind_ok kd HK) noop cs s_new s (new_inv kd)) as (out' & db' & s2 & E & I & P).
  rewrite E in H. injection H as <- <- <-. split.
  - intros k p w t. destruct (process_ok kd (std_kind_ok kd HK) db' k p w t I) as (d2 & t2 & E2 & _). exists d2, t2. split; [exact E2|].
    apply (d_process_ok (std_dbm kd HK) S db' k p w t d2 t2 I E2).
  - intros l w t. destruct (multi_ok kd (std_kind_ok kd HK) l w db' t I) as (d2 & t2 & E2 & _). exists d2, t2. split; [exact E2|].
    apply (d_multi_ok (std_dbm kd HK) S db' l w t d2 t2 I E2).
Qed.
Print Assumptions C51_interface.

(** * Cases *)
Local Open Scope N_scope.
Definition ex_set (v : bytes) : proc (list bytes) := mkProc (fun _ _ s => (ASet v, s)) (fun _ s => (ASet v, s)).
Definition ex_del : proc (list bytes) := mkProc (fun _ v s => (ARemove, s ++ [v])) (fun _ s => (ANoop, s)).
Definition ex_get : proc (list bytes) := mkProc (fun k v s => (ANoop, s ++ [k; v])) (fun _ s => (ANoop, s ++ [[0]])).
Definition ex_calls : list (scall (list bytes)) :=
  [SProcess [2] (ex_set [20]) true; SProcess [1] (ex_set [10]) true; SProcess [3] (ex_set [30]) true;
   IFirst 0; IFirst 1; INext 0; IProcess 0 ex_del true; IProcess 0 ex_get false; SProcess [1] ex_del true;
   IProcess 1 ex_get false; SCount; IJump 1 [2]; IJumpLower 1 [3] false; INext 0; INext 0].
(** In the tree both iterators end up on the record 3; [hash_kind] here puts new elements in front. *)
Example C51_tree_ex : match std_run tree_kind [] s_new ex_calls [] with
  | Some (out, db, s) => map fst (skipn 9 out) = [SUCCESS; SUCCESS; SUCCESS; SUCCESS; SUCCESS; NOT_FOUND_ERROR] /\ nth 10 (map snd out) O = 1%nat /\
      map kv (s_map db) = [([3], [30])] /\ s = [[20]; [3]; [30]; [10]; [3]; [30]] /\
      s_log db = [WSet [2] [20]; WSet [1] [10]; WSet [3] [30]; WRemove [2]; WRemove [1]]
  | None => False end.
Proof. vm_compute. auto 8. Qed.
Definition ex_kind : kind := hash_kind (fun _ _ => O) (@rev elem).
Example C51_hash_kind : std_kind ex_kind.
Proof. right. exists (fun _ _ => O), (@rev elem). split; [reflexivity|]. intros l. symmetry. apply Permutation_rev. Qed.
Example C51_hash_ex : match std_run ex_kind [] s_new ex_calls [] with
  | Some (out, db, s) => map fst (skipn 9 out) = [SUCCESS; SUCCESS; SUCCESS; NOT_IMPLEMENTED_ERROR; SUCCESS; NOT_FOUND_ERROR] /\
      map kv (s_map db) = [([3], [30]); ([2], [20])] /\ s = [[10]; [2]; [20]; [3]; [30]]
  | None => False end.
Proof. vm_compute. auto. Qed.
(** An iteration of the hash database with a removal, an insertion and another iterator in between:
    the record 2 is left once, and so is 3. *)
Fixpoint trace_of {S} (kd : kind) (db : sdb) (cs : list (scall S)) (s : S) : option (list (sdb * scall S) * sdb * S) :=
  match cs with
  | [] => Some ([], db, s)
  | c :: r => match std_step kd [] db c s with
              | Some (_, _, db', s') => match trace_of kd db' r s' with Some (tr, d, t) => Some ((db, c) :: tr, d, t) | None => None end
              | None => None
              end
  end.
Lemma trace_path S kd (cs : list (scall S)) : forall db s tr d t, trace_of kd db cs s = Some (tr, d, t) -> std_path kd [] db s tr d t.
Proof.
  induction cs as [|c cs IH]; intros db s tr d t H; cbn in H; [injection H as <- <- <-; constructor|].
  destruct (std_step kd [] db c s) as [[[[cd n] db'] s']|] eqn:E; [|discriminate]. destruct (trace_of kd db' cs s') as [[[tr' d'] t']|] eqn:T; [|discriminate].
  injection H as <- <- <-. econstructor; eauto.
Qed.
Definition ex_walk : list (scall (list bytes)) :=
  [IFirst 1; SProcess [4] (ex_set [40]) true; INext 0; SProcess [1] ex_del true; INext 1; SProcess [2] (ex_set [21]) true; INext 0].
Example C51_iteration_ex : match std_run ex_kind [] s_new (firstn 3 ex_calls) [] with
  | Some (_, db, s) => match trace_of ex_kind (snd (std_it_first db 0)) ex_walk s with
      | Some (tr, d, _) => stands_on d 0 = None /\ times_left 0 [2] tr = 1%nat /\ times_left 0 [3] tr = 1%nat /\
          Forall (fun x => leaves 0%nat [3] (snd x) /\ exists e, In e (s_map (fst x)) /\ e_key e = [3]) tr
      | None => False end
  | None => False end.
Proof.
  vm_compute. do 3 (split; [reflexivity|]).
  repeat match goal with
  | |- Forall _ [] => constructor
  | |- Forall _ (_ :: _) => constructor; [split; [first [exact I|discriminate]|
      first [eexists; split; [left; reflexivity|reflexivity]|eexists; split; [right; left; reflexivity|reflexivity]|eexists; split; [right; right; left; reflexivity|reflexivity]]]|]
  end.
Qed.
