(** The databases on standard containers do what StdSpec says. *)
From Coq Require Import List NArith Bool Lia Sorting.Permutation Sorting.Sorted.
Import ListNotations.
From Verif Require Import Bytes BytesOrder StatusModel DbmModel OmapSpec StdModel StdSpec.

Definition kv (e : elem) : bytes * bytes := (e_key e, e_val e).
Definition rs (l : list elem) : recs := map kv l.
Definition key_at (l : list elem) (it : option nat) : option bytes :=
  match it with None => None | Some i => option_map e_key (find_id i l) end.
Definition abs (db : sdb) : pst := mkP (rs (s_map db)) (fun j => key_at (s_map db) (s_its db j)) (s_log db).
Definition kind_ok (kd : kind) : Prop :=
  (k_tree kd = true -> forall l k, k_place kd l k = lower_index l k) /\ (k_tree kd = false -> forall l, Permutation (k_rehash kd l) l).
Record inv (kd : kind) (db : sdb) : Prop := mkInv {
  i_ids : NoDup (map e_id (s_map db));
  i_keys : NoDup (map e_key (s_map db));
  i_next : forall i, In i (map e_id (s_map db)) -> i < s_next db;
  i_its : forall j i, s_its db j = Some i -> In i (map e_id (s_map db));
  i_sorted : k_tree kd = true -> StronglySorted blt (map e_key (s_map db)) }.

(** * Lists of elements *)
Lemma in_split e l : NoDup (map e_id l) -> NoDup (map e_key l) -> In e l ->
  exists a b, l = a ++ e :: b /\ ~ In (e_id e) (map e_id (a ++ b)) /\ ~ In (e_key e) (map e_key (a ++ b)).
Proof.
  intros N1 N2 H. apply in_split in H. destruct H as (a & b & ->). exists a, b. split; [reflexivity|].
  rewrite !map_app in *. cbn [map] in *. apply NoDup_remove_2 in N1. apply NoDup_remove_2 in N2. auto.
Qed.
Lemma find_id_app i a b : find_id i (a ++ b) = match find_id i a with Some e => Some e | None => find_id i b end.
Proof. unfold find_id. induction a as [|x a IH]; cbn; [reflexivity|]. destruct (Nat.eqb (e_id x) i); auto. Qed.
Lemma find_id_none i l : ~ In i (map e_id l) -> find_id i l = None.
Proof.
  unfold find_id. induction l as [|x l IH]; cbn; intros H; [reflexivity|]. destruct (Nat.eqb_spec (e_id x) i); [exfalso; auto|apply IH; auto].
Qed.
Lemma find_id_mid e a b : ~ In (e_id e) (map e_id (a ++ b)) -> find_id (e_id e) (a ++ e :: b) = Some e.
Proof.
  intros H. rewrite find_id_app, find_id_none by (rewrite map_app, in_app_iff in H; tauto). unfold find_id. cbn. rewrite Nat.eqb_refl. reflexivity.
Qed.
Lemma find_id_some i l e : find_id i l = Some e -> In e l /\ e_id e = i.
Proof. intros H. apply find_some in H. destruct H as [H1 H2]. apply Nat.eqb_eq in H2. auto. Qed.
Lemma find_id_in i l : In i (map e_id l) -> exists e, find_id i l = Some e /\ In e l /\ e_id e = i.
Proof.
  intros H. destruct (find_id i l) as [e|] eqn:E; [exists e; split; [reflexivity|apply find_id_some, E]|].
  apply in_map_iff in H. destruct H as (e & E1 & H). apply (find_none _ _ E) in H. cbn in H. rewrite E1, Nat.eqb_refl in H. discriminate.
Qed.
Lemma find_id_other e a b i : i <> e_id e -> find_id i (a ++ e :: b) = find_id i (a ++ b).
Proof. intros H. rewrite !find_id_app. unfold find_id at 2. cbn. destruct (Nat.eqb_spec (e_id e) i); [congruence|reflexivity]. Qed.
Lemma c_next_mid e a b : ~ In (e_id e) (map e_id a) -> c_next (e_id e) (a ++ e :: b) = Some (head_id b).
Proof.
  induction a as [|x a IH]; cbn; intros H; [rewrite Nat.eqb_refl; reflexivity|].
  destruct (Nat.eqb_spec (e_id x) (e_id e)); [exfalso; auto|apply IH; auto].
Qed.
Lemma c_prev_mid e x a b : ~ In (e_id e) (map e_id (a ++ [x])) -> c_prev (e_id e) ((a ++ [x]) ++ e :: b) = Some (Some (e_id x)).
Proof.
  induction a as [|y a IH]; cbn; intros H; [rewrite Nat.eqb_refl; reflexivity|].
  destruct ((a ++ [x]) ++ e :: b) as [|z r] eqn:E; [destruct a; discriminate|].
  destruct (Nat.eqb_spec (e_id z) (e_id e)); [|apply IH; auto].
  destruct a as [|y' a]; cbn in E; injection E as <- <-; exfalso; cbn in H; auto.
Qed.
Lemma erase_mid e a b : ~ In (e_id e) (map e_id (a ++ b)) -> erase_id (e_id e) (a ++ e :: b) = a ++ b.
Proof.
  intros H. unfold erase_id. rewrite filter_app. cbn. rewrite Nat.eqb_refl. cbn. rewrite <- filter_app.
  induction (a ++ b) as [|x l IH]; cbn in *; [reflexivity|]. destruct (Nat.eqb_spec (e_id x) (e_id e)); cbn; [exfalso; auto|]. rewrite IH by auto. reflexivity.
Qed.
Lemma assign_other i v l : ~ In i (map e_id l) -> assign_id i v l = l.
Proof.
  unfold assign_id. induction l as [|x l IH]; cbn; intros H; [reflexivity|]. destruct (Nat.eqb_spec (e_id x) i); [exfalso; auto|]. rewrite IH by auto. reflexivity.
Qed.
Lemma assign_mid e v a b : ~ In (e_id e) (map e_id (a ++ b)) -> assign_id (e_id e) v (a ++ e :: b) = a ++ mkE (e_id e) (e_key e) v :: b.
Proof.
  intros H. rewrite map_app, in_app_iff in H. unfold assign_id. rewrite map_app. cbn. rewrite Nat.eqb_refl.
  fold (assign_id (e_id e) v a). fold (assign_id (e_id e) v b). rewrite !assign_other by tauto. reflexivity.
Qed.
Lemma find_key_some k l e : find_key k l = Some e -> In e l /\ e_key e = k.
Proof. intros H. apply find_some in H. destruct H as [H1 H2]. destruct (beqb_spec (e_key e) k); [auto|discriminate]. Qed.
Lemma find_key_none k l : find_key k l = None -> ~ In k (map e_key l).
Proof. intros H HI. apply in_map_iff in HI. destruct HI as (e & <- & HI). apply (find_none _ _ H) in HI. cbn in HI. rewrite beqb_refl in HI. discriminate. Qed.
Lemma find_key_mid e a b : ~ In (e_key e) (map e_key (a ++ b)) -> find_key (e_key e) (a ++ e :: b) = Some e.
Proof.
  rewrite map_app, in_app_iff. unfold find_key. induction a as [|x a IH]; cbn; intros H; [rewrite beqb_refl; reflexivity|].
  destruct (beqb_spec (e_key x) (e_key e)); [exfalso; auto|apply IH; tauto].
Qed.
Lemma lookup_rs k l : lookup k (rs l) = option_map e_val (find_key k l).
Proof. unfold lookup, find_key, rs. induction l as [|x l IH]; cbn; [reflexivity|]. destruct (beqb (e_key x) k); [reflexivity|exact IH]. Qed.
Lemma rs_keys l : map fst (rs l) = map e_key l.
Proof. unfold rs. rewrite map_map. reflexivity. Qed.
Lemma without_mid e a b : ~ In (e_key e) (map e_key (a ++ b)) -> without (e_key e) (rs (a ++ e :: b)) = rs (a ++ b).
Proof.
  intros H. unfold without, rs. rewrite !map_app. cbn [map]. rewrite filter_app. cbn [filter kv fst]. rewrite beqb_refl. cbn [negb].
  rewrite <- filter_app, <- map_app. induction (a ++ b) as [|x l IH]; cbn in *; [reflexivity|].
  destruct (beqb_spec (e_key x) (e_key e)); cbn; [exfalso; auto|]. rewrite IH by auto. reflexivity.
Qed.
Lemma with_other k v l : ~ In k (map fst l) -> with_value k v l = l.
Proof.
  unfold with_value. induction l as [|x l IH]; cbn; intros H; [reflexivity|]. destruct (beqb_spec (fst x) k); [exfalso; auto|]. rewrite IH by auto. reflexivity.
Qed.
Lemma with_mid e v a b : ~ In (e_key e) (map e_key (a ++ b)) -> with_value (e_key e) v (rs (a ++ e :: b)) = rs (a ++ mkE (e_id e) (e_key e) v :: b).
Proof.
  intros H. rewrite map_app, in_app_iff in H. unfold rs. rewrite !map_app. cbn [map]. unfold with_value. rewrite map_app. cbn [map kv fst e_key e_val].
  rewrite beqb_refl. fold (with_value (e_key e) v (map kv a)). fold (with_value (e_key e) v (map kv b)).
  rewrite !with_other; [reflexivity| |]; rewrite rs_keys; tauto.
Qed.
Lemma head_key_rs l : head_key (rs l) = option_map e_key (hd_error l).
Proof. destruct l; reflexivity. Qed.
Lemma following_mid k x a b : fst x = k -> ~ In k (map fst a) -> following k (a ++ x :: b) = head_key b.
Proof.
  intros <-. induction a as [|y a IH]; cbn; intros H; [rewrite beqb_refl; reflexivity|].
  destruct (beqb_spec (fst y) (fst x)); [exfalso; auto|apply IH; auto].
Qed.
Lemma key_at_head l b : NoDup (map e_id l) -> (exists a, l = a ++ b) -> key_at l (head_id b) = option_map e_key (hd_error b).
Proof.
  intros N (a & ->). destruct b as [|x b]; cbn; [reflexivity|]. rewrite find_id_mid; [reflexivity|].
  rewrite map_app in *. cbn in N. apply NoDup_remove_2 in N. exact N.
Qed.
Lemma NoDup_mid {A B} (f : A -> B) x a b : NoDup (map f (a ++ x :: b)) <-> ~ In (f x) (map f (a ++ b)) /\ NoDup (map f (a ++ b)).
Proof.
  rewrite !map_app. cbn [map]. split.
  - intros H. split; [apply NoDup_remove_2, H|apply NoDup_remove_1 in H; exact H].
  - intros [H1 H2]. apply (Permutation_NoDup (l := f x :: map f a ++ map f b)); [apply Permutation_middle|constructor; auto].
Qed.
Lemma sorted_mid (x : bytes) a b : StronglySorted blt (a ++ x :: b) <->
  StronglySorted blt (a ++ b) /\ Forall (fun y => blt y x) a /\ Forall (blt x) b.
Proof.
  induction a as [|y a IH]; cbn.
  - split; [intros H; inversion H; auto|intros (H1 & _ & H2); constructor; auto].
  - split.
    + intros H. inversion H as [|? ? H1 H2]; subst. apply IH in H1. destruct H1 as (H1 & H3 & H4). rewrite Forall_app in H2. destruct H2 as [H2 H5]. inversion H5; subst.
      split; [constructor; [exact H1|apply Forall_app; auto]|]. split; [constructor; auto|exact H4].
    + intros (H1 & H2 & H3). inversion H1 as [|? ? H4 H5]; subst. inversion H2; subst. constructor; [apply IH; auto|].
      rewrite Forall_app in *. destruct H5. split; [auto|constructor; auto].
Qed.

Lemma skipn_plus {A} (l : list A) : forall n q, skipn q (skipn n l) = skipn (q + n) l.
Proof. induction l as [|x l IH]; intros n q; [destruct n, q; reflexivity|]. destruct n; [rewrite Nat.add_0_r; reflexivity|]. rewrite Nat.add_succ_r. cbn. apply IH. Qed.
Lemma sorted_skipn n l : StronglySorted blt (map e_key l) -> StronglySorted blt (map e_key (skipn n l)).
Proof. revert n. induction l as [|x l IH]; intros [|n] H; try exact H. cbn in *. apply IH. inversion H; auto. Qed.
Lemma lower_le l k : lower_index l k <= length l.
Proof. induction l as [|x l IH]; cbn; [lia|]. destruct (blt_b (e_key x) k); lia. Qed.

(** * Updates of records *)
Section Kind.
  Variable kd : kind.
  Hypothesis HK : kind_ok kd.
  Lemma del_ok db e : inv kd db -> In e (s_map db) -> inv kd (del_rec db e) /\ p_act (abs db) (e_key e) ARemove (abs (del_rec db e)).
  Proof.
    intros I He. destruct I as [N1 N2 N3 N4 N5]. destruct (in_split _ _ N1 N2 He) as (a & b & E & X1 & X2).
    assert (Hn : c_next (e_id e) (s_map db) = Some (head_id b)). { rewrite E. apply c_next_mid. rewrite map_app, in_app_iff in X1. tauto. }
    assert (HE : erase_id (e_id e) (s_map db) = a ++ b) by (rewrite E; apply erase_mid, X1).
    assert (Hb : forall j, bump (e_id e) (s_map db) (s_its db) j = match s_its db j with Some x => if Nat.eqb x (e_id e) then head_id b else Some x | None => None end).
    { intros j. unfold bump. destruct (s_its db j) as [x|]; [|reflexivity]. destruct (Nat.eqb x (e_id e)); [rewrite Hn|]; reflexivity. }
    assert (ND := N1). rewrite E in ND. apply NoDup_mid in ND. destruct ND as [_ ND].
    split.
    - unfold del_rec. constructor; cbn [s_map s_next s_its]; rewrite ?HE.
      + exact ND.
      + rewrite E in N2. apply NoDup_mid in N2. tauto.
      + intros i Hi. apply N3. rewrite E, !map_app in *. cbn. rewrite in_app_iff in *. cbn. tauto.
      + intros j i. rewrite Hb. destruct (s_its db j) as [x|] eqn:J; [|discriminate]. destruct (Nat.eqb_spec x (e_id e)) as [->|Hx].
        * intros Hh. destruct b as [|y b]; cbn in Hh; [discriminate|]. injection Hh as <-. rewrite map_app, in_app_iff. right. left. reflexivity.
        * intros Hi. injection Hi as <-. apply N4 in J. rewrite E, !map_app in *. cbn in J. rewrite in_app_iff in *. cbn in J. intuition congruence.
      + intros T. specialize (N5 T). rewrite E in N5. rewrite map_app in *. cbn in N5. apply sorted_mid in N5. tauto.
    - cbn. rewrite HE. split; [rewrite E; symmetry; apply without_mid, X2|]. split; [reflexivity|]. intros j. rewrite Hb. rewrite E.
      destruct (s_its db j) as [x|] eqn:J; [|reflexivity]. assert (Hx := N4 _ _ J). rewrite E in Hx. apply find_id_in in Hx. destruct Hx as (y & F & Hy & Hi). cbn [key_at]. rewrite F. cbn [option_map].
      destruct (Nat.eqb_spec x (e_id e)) as [->|Hne].
      + rewrite find_id_mid in F by exact X1. injection F as <-. rewrite beqb_refl. unfold rs. rewrite map_app. cbn [map]. rewrite following_mid by (try reflexivity; rewrite rs_keys; rewrite map_app, in_app_iff in X2; tauto).
        rewrite key_at_head by (try exact ND; eauto). fold (rs b). rewrite head_key_rs. reflexivity.
      + rewrite find_id_other in F by exact Hne. cbn. rewrite F. cbn. destruct (beqb_spec (e_key y) (e_key e)) as [Hk|]; [|reflexivity].
        exfalso. apply X2. rewrite <- Hk. apply in_map. apply find_id_some in F. tauto.
  Qed.
  Lemma key_at_ids l l' it : map e_id l' = map e_id l -> map e_key l' = map e_key l -> key_at l' it = key_at l it.
  Proof.
    intros E1 E2. destruct it as [i|]; [|reflexivity]. cbn. revert l' E1 E2. induction l as [|x l IH]; intros [|x' l'] E1 E2; try discriminate; [reflexivity|].
    cbn in *. injection E1 as E1 E1'. injection E2 as E2 E2'. rewrite E1. destruct (Nat.eqb (e_id x) i); [cbn; congruence|apply IH; auto].
  Qed.
  Lemma assign_ids i v l : map e_id (assign_id i v l) = map e_id l /\ map e_key (assign_id i v l) = map e_key l.
  Proof. unfold assign_id. rewrite !map_map. split; apply map_ext; intros e; destruct (Nat.eqb (e_id e) i); reflexivity. Qed.
  Lemma set_ok db e v : inv kd db -> In e (s_map db) -> inv kd (set_rec db e v) /\ p_act (abs db) (e_key e) (ASet v) (abs (set_rec db e v)).
  Proof.
    intros I He. destruct I as [N1 N2 N3 N4 N5]. destruct (in_split _ _ N1 N2 He) as (a & b & E & X1 & X2). destruct (assign_ids (e_id e) v (s_map db)) as [A1 A2].
    split; [constructor; cbn; rewrite ?A1, ?A2; auto|]. cbn. split; [|split; [|reflexivity]].
    - rewrite E, assign_mid by auto. symmetry. apply (with_mid e v a b X2).
    - intros j. apply key_at_ids; auto.
  Qed.
  Lemma act_ok db e a : inv kd db -> In e (s_map db) -> inv kd (act_full db e a) /\ p_act (abs db) (e_key e) a (abs (act_full db e a)).
  Proof.
    intros I He. destruct a; [|apply del_ok; auto|apply set_ok; auto]. split; [exact I|]. cbn. auto.
  Qed.
  Lemma same_abs db : p_same (abs db) (abs db).
  Proof. cbn. auto. Qed.

  Lemma lower_split l k : Forall (fun e => blt (e_key e) k) (firstn (lower_index l k) l) /\
    match skipn (lower_index l k) l with [] => True | e :: _ => ~ blt (e_key e) k end.
  Proof.
    induction l as [|x l IH]; cbn; [auto|]. unfold blt_b, blt in *. destruct (bcmp (e_key x) k) eqn:E; cbn; [split; [constructor|congruence]| |split; [constructor|congruence]].
    destruct IH as [I1 I2]. split; [constructor; auto|exact I2].
  Qed.
  Lemma lower_rest l k : StronglySorted blt (map e_key l) -> Forall (fun e => ~ blt (e_key e) k) (skipn (lower_index l k) l).
  Proof.
    intros H. destruct (lower_split l k) as [_ H2]. assert (H3 : StronglySorted blt (map e_key (skipn (lower_index l k) l))).
    { apply sorted_skipn, H. }
    destruct (skipn (lower_index l k) l) as [|e r]; [constructor|]. constructor; [exact H2|]. cbn in H3. inversion H3 as [|? ? _ F]; subst. rewrite Forall_map in F.
    eapply Forall_impl; [|exact F]. cbn. intros y Hy Hyk. exact (H2 (blt_trans _ _ _ Hy Hyk)).
  Qed.
  Lemma add_ok db k v : inv kd db -> ~ In k (map e_key (s_map db)) ->
    inv kd (emplace kd db k v) /\ placed (k_tree kd) (p_recs (abs db)) k v (p_recs (abs (emplace kd db k v))) /\
    (forall j, p_pos (abs (emplace kd db k v)) j = p_pos (abs db) j).
  Proof.
    intros I HN. destruct I as [N1 N2 N3 N4 N5]. cbn. unfold emplace, insert_at. set (n := k_place kd (s_map db) k). set (e := mkE (s_next db) k v).
    assert (E : firstn n (s_map db) ++ skipn n (s_map db) = s_map db) by apply firstn_skipn.
    assert (X1 : ~ In (e_id e) (map e_id (s_map db))). { intros H. apply N3 in H. cbn in H. lia. }
    assert (HT : k_tree kd = true -> Forall (fun x => blt (e_key x) k) (firstn n (s_map db)) /\ Forall (fun x => blt k (e_key x)) (skipn n (s_map db))).
    { intros T. assert (En : n = lower_index (s_map db) k) by apply (proj1 HK T). clearbody n. subst n. split; [apply lower_split|]. assert (F := lower_rest _ k (N5 T)). rewrite Forall_forall in *. intros x Hx. specialize (F x Hx).
      destruct (blt_total k (e_key x)) as [H|[H|H]]; [exact H| |contradiction]. exfalso. apply HN. rewrite H. apply in_map. rewrite <- E. apply in_or_app. auto. }
    split; [|split].
    - constructor; cbn.
      + apply NoDup_mid. rewrite E. auto.
      + apply NoDup_mid. rewrite E. auto.
      + intros i. rewrite map_app. cbn. rewrite in_app_iff. cbn. intros H. assert (J : i = s_next db \/ In i (map e_id (s_map db))). { rewrite <- E, map_app, in_app_iff. intuition. }
        destruct J as [->|J]; [lia|apply N3 in J; lia].
      + intros j i J. apply N4 in J. rewrite <- E in J. rewrite map_app in *. cbn. rewrite in_app_iff in *. cbn. tauto.
      + intros T. specialize (N5 T). destruct (HT T) as [H1 H2]. rewrite map_app. cbn. apply sorted_mid. rewrite <- map_app, E, !Forall_map. auto.
    - exists (rs (firstn n (s_map db))), (rs (skipn n (s_map db))). unfold rs. rewrite <- map_app, E, map_app. split; [reflexivity|]. split; [reflexivity|].
      intros T. destruct (HT T). rewrite !Forall_map. auto.
    - intros j. destruct (s_its db j) as [i|] eqn:J; [|reflexivity]. cbn. rewrite find_id_other by (cbn; intros ->; apply N4 in J; auto). rewrite E. reflexivity.
  Qed.
  Context {S : Type}.
  Variable noop : bytes.
  Lemma process_ok db k (p : proc S) w s : inv kd db -> exists db' s', std_process kd db k p w s = (SUCCESS, db', s') /\
    inv kd db' /\ p_process (k_tree kd) (abs db) k p w s (abs db') s'.
  Proof.
    intros I. unfold std_process, p_process. cbn [p_recs abs]. rewrite lookup_rs. destruct (find_key k (s_map db)) as [e|] eqn:F; cbn [option_map].
    - apply find_key_some in F. destruct F as [He <-]. destruct (on_full p (e_key e) (e_val e) s) as [a s']. eexists _, _. split; [reflexivity|].
      cbn [fst snd]. destruct w; [destruct (act_ok db e a I He); auto|]. split; [exact I|]. split; [reflexivity|apply same_abs].
    - apply find_key_none in F. destruct (on_empty p k s) as [a s']. eexists _, _. split; [reflexivity|]. cbn [fst snd]. destruct w; [|split; [exact I|split; [reflexivity|destruct a; apply same_abs]]].
      destruct a as [| |v]; try (split; [exact I|split; [reflexivity|apply same_abs]]).
      assert (I' : inv kd (log_add db (WSet k v))) by (destruct I; constructor; auto). destruct (add_ok (log_add db (WSet k v)) k v I' F) as (A1 & A2 & A3). split; [exact A1|]. split; [reflexivity|]. cbn in *. auto.
  Qed.
  Lemma multi_ok (l : list (bytes * proc S)) w : forall db s, inv kd db -> exists db' s', std_multi kd db l w s = (SUCCESS, db', s') /\
    inv kd db' /\ p_multi (k_tree kd) (abs db) l w s (abs db') s'.
  Proof.
    induction l as [|[k p] l IH]; intros db s I; cbn [std_multi p_multi].
    - exists db, s. split; [reflexivity|]. split; [exact I|split; [apply same_abs|reflexivity]].
    - destruct (process_ok db k p w s I) as (db1 & s1 & E & I1 & P1). rewrite E. destruct (IH db1 s1 I1) as (db2 & s2 & E2 & I2 & P2).
      exists db2, s2. split; [exact E2|]. split; [exact I2|]. exists (abs db1), s1. auto.
  Qed.
  (** The rest of the loop works on the elements after the done ones. *)
  Lemma each_ok (p : proc S) w : forall todo done db s fuel, inv kd db -> s_map db = done ++ todo -> length todo <= fuel ->
    exists db' s', each_loop fuel db (head_id todo) p w s = Some (db', s') /\ inv kd db' /\ p_each (abs db) (rs todo) p w s (abs db') s'.
  Proof.
    induction todo as [|e todo IH]; intros done db s fuel I E HF.
    - exists db, s. destruct fuel; (split; [reflexivity|]; split; [exact I|]; split; [apply same_abs|reflexivity]).
    - destruct fuel as [|fuel]; [cbn in HF; lia|]. cbn [head_id hd_error option_map each_loop rs map p_each]. fold (rs todo).
      assert (He : In e (s_map db)) by (rewrite E; apply in_or_app; right; left; reflexivity).
      assert (X := i_ids _ _ I). rewrite E in X. apply NoDup_mid in X. destruct X as [X1 X2].
      assert (F1 : find_id (e_id e) (s_map db) = Some e) by (rewrite E; apply find_id_mid, X1).
      assert (F2 : c_next (e_id e) (s_map db) = Some (head_id todo)) by (rewrite E; apply c_next_mid; rewrite map_app, in_app_iff in X1; tauto).
      rewrite F1, F2. cbn [kv fst snd]. destruct (on_full p (e_key e) (e_val e) s) as [a s1]. cbn [fst snd].
      assert (HA : inv kd (if w then act_full db e a else db) /\ p_act (abs db) (e_key e) (if w then a else ANoop) (abs (if w then act_full db e a else db)) /\
                   exists done', s_map (if w then act_full db e a else db) = done' ++ todo).
      { destruct w; [|split; [exact I|split; [apply same_abs|exists (done ++ [e]); rewrite <- app_assoc; exact E]]].
        destruct (act_ok db e a I He) as [A1 A2]. split; [exact A1|]. split; [exact A2|]. destruct a; cbn.
        - exists (done ++ [e]). rewrite <- app_assoc. exact E.
        - exists done. rewrite E. apply erase_mid. exact X1.
        - exists (done ++ [mkE (e_id e) (e_key e) v]). rewrite <- app_assoc, E. apply assign_mid. exact X1. }
      destruct HA as (A1 & A2 & done' & A3). destruct (IH done' _ s1 fuel A1 A3) as (db' & s' & E' & I' & P'); [cbn in HF; lia|].
      exists db', s'. split; [exact E'|]. split; [exact I'|]. exists (abs (if w then act_full db e a else db)). auto.
  Qed.

  (** * Iterators *)
  Lemma move_ok db j it : inv kd db -> (forall i, it = Some i -> In i (map e_id (s_map db))) ->
    inv kd (set_it db j it) /\ p_move (abs db) j (key_at (s_map db) it) (abs (set_it db j it)).
  Proof.
    intros I H. split.
    - destruct I as [N1 N2 N3 N4 N5]. constructor; cbn; auto. intros x i. destruct (Nat.eqb x j); auto. apply N4.
    - cbn. split; [reflexivity|]. split; [reflexivity|]. intros i. cbn. destruct (Nat.eqb i j); reflexivity.
  Qed.
  Lemma head_in l b : (exists a, l = a ++ b) -> forall i, head_id b = Some i -> In i (map e_id l).
  Proof. intros (a & ->) i. destruct b as [|x b]; cbn; [discriminate|]. intros [= <-]. rewrite map_app, in_app_iff. cbn. auto. Qed.
  Lemma at_ok db j n : inv kd db -> inv kd (set_it db j (c_at (s_map db) n)) /\
    p_move (abs db) j (option_map e_key (hd_error (skipn n (s_map db)))) (abs (set_it db j (c_at (s_map db) n))).
  Proof.
    intros I. assert (X : exists a, s_map db = a ++ skipn n (s_map db)) by (exists (firstn n (s_map db)); symmetry; apply firstn_skipn).
    unfold c_at. destruct (move_ok db j (head_id (skipn n (s_map db))) I (head_in _ _ X)) as [M1 M2]. split; [exact M1|].
    rewrite key_at_head in M2; auto. apply I.
  Qed.
  Lemma skipn_lower l k : option_map e_key (hd_error (skipn (lower_index l k) l)) = key_of (o_ge bcmp k (rs l)).
  Proof.
    unfold o_ge, key_of. induction l as [|x l IH]; cbn; [reflexivity|]. unfold less, blt_b in *. cbn in *. destruct (bcmp (e_key x) k); cbn; first [exact IH|reflexivity].
  Qed.
  Lemma skipn_upper l k : option_map e_key (hd_error (skipn (upper_index l k) l)) = key_of (o_gt bcmp k (rs l)).
  Proof.
    unfold o_gt, key_of. induction l as [|x l IH]; cbn; [reflexivity|]. unfold less, blt_b in *. cbn in *. destruct (bcmp k (e_key x)); cbn; first [exact IH|reflexivity].
  Qed.
  (** The last element, among the first n + 1, that is low enough. *)
  Lemma lower_loop_ok (l : list elem) k inc : forall n, n < length l -> exists it, lower_loop l n k inc = Some it /\
    it = option_map e_id (find (fun e => if inc then negb (blt_b k (e_key e)) else blt_b (e_key e) k) (rev (firstn (Datatypes.S n) l))).
  Proof.
    induction n as [|n IH]; intros HL.
    - destruct l as [|x l]; [cbn in HL; lia|]. cbn [lower_loop nth_error firstn rev app find].
      match goal with |- context [if ?b then Some (Some (e_id x)) else _] => destruct b end; eexists; (split; reflexivity).
    - cbn [lower_loop]. destruct (nth_error l (Datatypes.S n)) as [e|] eqn:F; [|apply nth_error_None in F; lia].
      assert (HF : firstn (Datatypes.S (Datatypes.S n)) l = firstn (Datatypes.S n) l ++ [e]).
      { clear - F. revert l F. induction (Datatypes.S n) as [|m IHm]; intros [|x l] F; try discriminate; [cbn in F; injection F as ->; reflexivity|]. cbn in F. cbn [firstn]. cbn [firstn] in IHm. rewrite IHm by exact F. reflexivity. }
      rewrite HF, rev_app_distr. cbn [rev app find]. match goal with |- context [if ?b then Some (Some (e_id e)) else _] => destruct b end; [eexists; split; reflexivity|]. apply IH. lia.
  Qed.
  Lemma find_rev_firstn (f : elem -> bool) n l : Forall (fun e => f e = false) (skipn n l) -> find f (rev (firstn n l)) = find f (rev l).
  Proof.
    intros H. rewrite <- (firstn_skipn n l) at 2. rewrite rev_app_distr. assert (H' : Forall (fun e => f e = false) (rev (skipn n l))) by (apply Forall_rev, H).
    induction (rev (skipn n l)) as [|x r IH]; cbn; [reflexivity|]. inversion H' as [|? ? Hx Hr]; subst. rewrite Hx. apply IH, Hr.
  Qed.
  Lemma find_rs (g : bytes * bytes -> bool) l : find g (rs l) = option_map kv (find (fun e => g (kv e)) l).
  Proof. induction l as [|x l IH]; cbn; [reflexivity|]. destruct (g (kv x)); [reflexivity|exact IH]. Qed.
  Lemma rs_rev l : rev (rs l) = rs (rev l).
  Proof. unfold rs. rewrite map_rev. reflexivity. Qed.
  Lemma jump_lower_ok db j k inc : inv kd db -> k_tree kd = true -> exists db', std_it_jump_lower kd db j k inc = Some (SUCCESS, db') /\ inv kd db' /\
    p_move (abs db) j (key_of (if inc then o_le bcmp k (rs (s_map db)) else o_lt bcmp k (rs (s_map db)))) (abs db').
  Proof.
    intros I T. unfold std_it_jump_lower. rewrite T. set (l := s_map db). set (n := lower_index l k).
    set (f := fun e : elem => if inc then negb (blt_b k (e_key e)) else blt_b (e_key e) k).
    assert (HS : key_of (if inc then o_le bcmp k (rs l) else o_lt bcmp k (rs l)) = option_map e_key (find f (rev l))).
    { unfold o_le, o_lt, key_of. rewrite !rs_rev, !find_rs. unfold f. destruct inc; match goal with |- context [find ?g (rev l)] => destruct (find g (rev l)) as [e|] eqn:F end; cbn in *.
      all: unfold less, blt_b in *; cbn in *; rewrite F; reflexivity. }
    rewrite HS. assert (HN : n <= length l). { apply lower_le. }
    (* the elements after the one at the lower bound are all above k *)
    assert (HA : forall m, n < m -> Forall (fun e => f e = false) (skipn m l)).
    { intros m Hm. assert (SS := i_sorted _ _ I T). fold l in SS. assert (R := lower_rest l k SS). fold n in R.
      assert (Es : skipn n l = firstn (m - n) (skipn n l) ++ skipn m l). { rewrite <- (firstn_skipn (m - n) (skipn n l)) at 1. f_equal. rewrite skipn_plus. f_equal. lia. }
      assert (S2 : StronglySorted blt (map e_key (skipn n l))). { apply sorted_skipn, SS. }
      destruct (skipn n l) as [|e r] eqn:Er.
      - symmetry in Es. apply app_eq_nil in Es. destruct Es as [_ ->]. constructor.
      - inversion R as [|? ? R1 R2]; subst. cbn in S2. inversion S2 as [|? ? _ S3]; subst. rewrite Forall_map in S3.
        assert (HI : forall y, In y (skipn m l) -> In y r). { intros y Hy. destruct (m - n) as [|q] eqn:Q; [lia|]. cbn in Es. injection Es as Es. rewrite Es. apply in_or_app. auto. }
        apply Forall_forall. intros y Hy. apply HI in Hy. rewrite Forall_forall in S3. specialize (S3 y Hy).
        assert (K : blt k (e_key y)). { destruct (blt_total k (e_key e)) as [H|[H|H]]; [exact (blt_trans _ _ _ H S3)|congruence|contradiction]. }
        unfold f, blt_b. unfold blt in K. destruct inc; [rewrite K; reflexivity|]. rewrite bcmp_opp, K. reflexivity. }
    assert (FIN : forall m, m < length l -> (m = n \/ (n = length l /\ m = n - 1)) -> exists it db', lower_loop l m k inc = Some it /\ db' = set_it db j it /\ inv kd db' /\ p_move (abs db) j (option_map e_key (find f (rev l))) (abs db')).
    { intros m Hm HC. destruct (lower_loop_ok l k inc m Hm) as (it & E1 & E2). fold f in E2.
      assert (E3 : find f (rev (firstn (Datatypes.S m) l)) = find f (rev l)). { apply find_rev_firstn. destruct HC as [->|[H1 H2]]; [apply HA; lia|]. rewrite skipn_all2 by lia. constructor. }
      rewrite E3 in E2. exists it, (set_it db j it). split; [exact E1|]. split; [reflexivity|].
      assert (HI : forall i, it = Some i -> In i (map e_id (s_map db))). { intros i ->. destruct (find f (rev l)) as [e|] eqn:Fe; [|discriminate]. cbn in E2. injection E2 as ->. apply find_some in Fe. destruct Fe as [Fe _]. apply in_rev in Fe. apply in_map. exact Fe. }
      destruct (move_ok db j it I HI) as [M1 M2]. split; [exact M1|].
      replace (option_map e_key (find f (rev l))) with (key_at (s_map db) it); [exact M2|]. rewrite E2. destruct (find f (rev l)) as [e|] eqn:Fe; [|reflexivity]. cbn.
      apply find_some in Fe. destruct Fe as [Fe _]. apply in_rev in Fe. destruct (in_split e l (i_ids _ _ I) (i_keys _ _ I) Fe) as (a & b & El & X1 & X2). fold l. rewrite El, find_id_mid by exact X1. reflexivity. }
    destruct (Nat.eqb_spec n (length l)) as [Hn|Hn].
    - destruct l as [|x l'] eqn:El.
      + eexists. split; [reflexivity|]. destruct (move_ok db j None I) as [M1 M2]; [discriminate|]. split; [exact M1|exact M2].
      + destruct (FIN (n - 1)) as (it & db' & E1 & -> & M1 & M2); [rewrite Hn; cbn; lia|right; split; [exact Hn|reflexivity]|]. rewrite E1. eexists. split; [reflexivity|]. auto.
    - destruct (FIN n) as (it & db' & E1 & -> & M1 & M2); [lia|auto|]. rewrite E1. eexists. split; [reflexivity|]. auto.
  Qed.
  Lemma it_elem db j : inv kd db -> match s_its db j with
    | None => p_pos (abs db) j = None
    | Some i => exists e a b, s_map db = a ++ e :: b /\ e_id e = i /\ p_pos (abs db) j = Some (e_key e) /\
                  ~ In (e_id e) (map e_id (a ++ b)) /\ ~ In (e_key e) (map e_key (a ++ b)) end.
  Proof.
    intros I. cbn. destruct (s_its db j) as [i|] eqn:J; [|reflexivity]. apply (i_its _ _ I) in J. apply find_id_in in J. destruct J as (e & F & He & Hi).
    destruct (in_split e _ (i_ids _ _ I) (i_keys _ _ I) He) as (a & b & E & X1 & X2). exists e, a, b. cbn. rewrite F. auto.
  Qed.
  Lemma next_ok db j : inv kd db -> exists cd db', std_it_next db j = Some (cd, db') /\ inv kd db' /\
    match p_pos (abs db) j with None => cd = NOT_FOUND_ERROR /\ p_same (abs db) (abs db') | Some x => cd = SUCCESS /\ p_move (abs db) j (following x (rs (s_map db))) (abs db') end.
  Proof.
    intros I. assert (X := it_elem db j I). unfold std_it_next. destruct (s_its db j) as [i|]; [|rewrite X; eexists _, _; split; [reflexivity|]; split; [exact I|split; [reflexivity|apply same_abs]]].
    destruct X as (e & a & b & E & <- & P & X1 & X2). rewrite P. assert (C : c_next (e_id e) (s_map db) = Some (head_id b)) by (rewrite E; apply c_next_mid; rewrite map_app, in_app_iff in X1; tauto).
    rewrite C. assert (EX : exists a', s_map db = a' ++ b) by (exists (a ++ [e]); rewrite <- app_assoc; exact E).
    destruct (move_ok db j (head_id b) I (head_in _ _ EX)) as [M1 M2]. eexists _, _. split; [reflexivity|]. split; [exact M1|]. split; [reflexivity|].
    rewrite key_at_head in M2 by (try exact EX; apply I). rewrite E. unfold rs. rewrite map_app. cbn [map]. rewrite following_mid by (try reflexivity; rewrite rs_keys; rewrite map_app, in_app_iff in X2; tauto). fold (rs b). rewrite head_key_rs. exact M2.
  Qed.
  Lemma prev_ok db j : inv kd db -> k_tree kd = true -> exists cd db', std_it_prev kd db j = Some (cd, db') /\ inv kd db' /\
    match p_pos (abs db) j with None => cd = NOT_FOUND_ERROR /\ p_same (abs db) (abs db') | Some x => cd = SUCCESS /\ p_move (abs db) j (preceding x (rs (s_map db))) (abs db') end.
  Proof.
    intros I T. assert (X := it_elem db j I). unfold std_it_prev. rewrite T. destruct (s_its db j) as [i|]; [|rewrite X; eexists _, _; split; [reflexivity|]; split; [exact I|split; [reflexivity|apply same_abs]]].
    destruct X as (e & a & b & E & <- & P & X1 & X2). rewrite P.
    assert (HP : preceding (e_key e) (rs (s_map db)) = head_key (rs (rev a))).
    { unfold preceding. rewrite rs_rev, E, rev_app_distr. cbn [rev]. rewrite <- app_assoc. cbn [app]. unfold rs. rewrite map_app. cbn [map]. apply following_mid; [reflexivity|].
      rewrite rs_keys, map_rev, <- in_rev. rewrite map_app, in_app_iff in X2. tauto. }
    rewrite HP. destruct (rev a) as [|x ra] eqn:Ra.
    - assert (a = []) by (rewrite <- (rev_involutive a), Ra; reflexivity). subst a. rewrite E. cbn [app c_begin head_id hd_error option_map]. rewrite Nat.eqb_refl.
      destruct (move_ok db j None I) as [M1 M2]; [discriminate|]. eexists _, _. split; [reflexivity|]. split; [exact M1|]. split; [reflexivity|]. exact M2.
    - assert (Ea : a = rev ra ++ [x]) by (rewrite <- (rev_involutive a), Ra; reflexivity).
      assert (B : match c_begin (s_map db) with Some b0 => Nat.eqb b0 (e_id e) | None => false end = false).
      { rewrite E, Ea. destruct (rev ra) as [|y q] eqn:Rq; cbn; rewrite Ea in X1; try rewrite Rq in X1; cbn in X1; apply Nat.eqb_neq; intros H; apply X1; auto. }
      rewrite B. assert (C : c_prev (e_id e) (s_map db) = Some (Some (e_id x))). { rewrite E, Ea. apply c_prev_mid. rewrite <- Ea. rewrite map_app, in_app_iff in X1. tauto. }
      rewrite C. assert (Hx : In x (s_map db)) by (rewrite E, Ea; rewrite !in_app_iff; cbn; auto).
      destruct (move_ok db j (Some (e_id x)) I) as [M1 M2]; [intros i [= <-]; apply in_map; exact Hx|]. eexists _, _. split; [reflexivity|]. split; [exact M1|]. split; [reflexivity|].
      replace (head_key (rs (x :: ra))) with (key_at (s_map db) (Some (e_id x))); [exact M2|]. cbn.
      destruct (in_split x _ (i_ids _ _ I) (i_keys _ _ I) Hx) as (a' & b' & E' & Y1 & _). rewrite E', find_id_mid by exact Y1. reflexivity.
  Qed.
  Lemma inv_ext db db' : s_map db' = s_map db -> s_next db' = s_next db -> (forall j, s_its db' j = s_its db j) -> inv kd db -> inv kd db'.
  Proof. intros E1 E2 E3 [N1 N2 N3 N4 N5]. constructor; rewrite ?E1, ?E2; auto. intros j i. rewrite E3. apply N4. Qed.
  Lemma it_process_ok db j (p : proc S) w s : inv kd db -> exists cd db' s', std_it_process db j p w s = Some (cd, db', s') /\ inv kd db' /\
    match p_pos (abs db) j with
    | None => cd = NOT_FOUND_ERROR /\ p_same (abs db) (abs db') /\ s' = s
    | Some k => cd = SUCCESS /\ exists v, lookup k (rs (s_map db)) = Some v /\ p_act (abs db) k (if w then fst (on_full p k v s) else ANoop) (abs db') /\ s' = snd (on_full p k v s)
    end.
  Proof.
    intros I. assert (X := it_elem db j I). unfold std_it_process, it_at. destruct (s_its db j) as [i|] eqn:J; [|rewrite X; eexists _, _, _; split; [reflexivity|]; split; [exact I|split; [reflexivity|split; [apply same_abs|reflexivity]]]].
    destruct X as (e & a & b & E & <- & P & X1 & X2). rewrite P. assert (He : In e (s_map db)) by (rewrite E; apply in_or_app; right; left; reflexivity).
    assert (F : find_id (e_id e) (s_map db) = Some e) by (rewrite E; apply find_id_mid, X1). rewrite F.
    assert (FK : find_key (e_key e) (s_map db) = Some e) by (rewrite E; apply find_key_mid, X2).
    destruct (on_full p (e_key e) (e_val e) s) as [act s'] eqn:O. destruct w.
    2: { eexists _, _, _. split; [reflexivity|]. split; [exact I|]. split; [reflexivity|]. exists (e_val e). rewrite lookup_rs, FK, O. split; [reflexivity|]. split; [apply same_abs|reflexivity]. }
    assert (C : c_next (e_id e) (s_map db) = Some (head_id b)) by (rewrite E; apply c_next_mid; rewrite map_app, in_app_iff in X1; tauto).
    destruct (act_ok db e act I He) as [A1 A2]. destruct act as [| |v].
    - eexists _, _, _. split; [reflexivity|]. split; [exact I|]. split; [reflexivity|]. exists (e_val e). rewrite lookup_rs, FK, O. split; [reflexivity|]. split; [exact A2|reflexivity].
    - rewrite C. eexists _, _, _. split; [reflexivity|].
      set (db' := set_it _ j (head_id b)). assert (EI : forall x, s_its db' x = s_its (del_rec db e) x).
      { intros x. cbn. unfold bump_others. destruct (Nat.eqb_spec x j) as [->|]; [|reflexivity]. unfold bump. rewrite J, Nat.eqb_refl, C. reflexivity. }
      split; [apply (inv_ext (del_rec db e)); auto|]. split; [reflexivity|]. exists (e_val e). rewrite lookup_rs, FK, O. split; [reflexivity|]. split; [|reflexivity].
      cbn [fst]. cbn in A2 |- *. destruct A2 as (B1 & B2 & B3). split; [exact B1|]. split; [exact B2|]. intros x. rewrite <- B3. cbn in EI. rewrite EI. reflexivity.
    - rewrite FK. eexists _, _, _. split; [reflexivity|]. split; [exact A1|]. split; [reflexivity|]. exists (e_val e). rewrite lookup_rs, FK, O. split; [reflexivity|]. split; [exact A2|reflexivity].
  Qed.

  Lemma renumber_rs n l : rs (renumber n l) = rs l /\ map e_key (renumber n l) = map e_key l /\ map e_id (renumber n l) = seq n (length l).
  Proof. revert n. induction l as [|x l IH]; intros n; cbn; [auto|]. destruct (IH (Datatypes.S n)) as (E1 & E2 & E3). unfold rs in *. cbn. rewrite E1, E2, E3. auto. Qed.
  Lemma rebuild_ok db : inv kd db -> inv kd (std_rebuild kd db) /\
    (if k_tree kd then p_recs (abs (std_rebuild kd db)) = p_recs (abs db) else Permutation (p_recs (abs (std_rebuild kd db))) (p_recs (abs db))).
  Proof.
    intros I. destruct I as [N1 N2 N3 N4 N5]. unfold std_rebuild. destruct (k_tree kd) eqn:T.
    - split; [constructor; cbn; auto; discriminate|reflexivity].
    - assert (HP := proj2 HK T (s_map db)). destruct (renumber_rs (s_next db) (k_rehash kd (s_map db))) as (R1 & R2 & R3). split.
      + constructor; cbn; try rewrite R3; try rewrite R2.
        * apply seq_NoDup.
        * eapply Permutation_NoDup; [|exact N2]. apply Permutation_map. symmetry. exact HP.
        * intros i Hi. apply in_seq in Hi. lia.
        * discriminate.
        * congruence.
      + cbn [abs p_recs cancel s_map]. rewrite R1. unfold rs. apply Permutation_map. exact HP.
  Qed.
  Lemma last_ok db j : inv kd db -> inv kd (set_it db j (c_last (s_map db))) /\
    p_move (abs db) j (key_of (o_last (rs (s_map db)))) (abs (set_it db j (c_last (s_map db)))).
  Proof.
    intros I. unfold c_last, o_last. rewrite rs_rev. destruct (rev (s_map db)) as [|x r] eqn:R.
    - destruct (move_ok db j None I) as [M1 M2]; [discriminate|]. split; [exact M1|exact M2].
    - assert (Hx : In x (s_map db)) by (apply in_rev; rewrite R; left; reflexivity). cbn [head_id hd_error option_map].
      destruct (move_ok db j (Some (e_id x)) I) as [M1 M2]; [intros i [= <-]; apply in_map; exact Hx|]. split; [exact M1|].
      replace (key_of (hd_error (rs (x :: r)))) with (key_at (s_map db) (Some (e_id x))); [exact M2|]. cbn.
      destruct (in_split x _ (i_ids _ _ I) (i_keys _ _ I) Hx) as (a' & b' & E' & Y1 & _). rewrite E', find_id_mid by exact Y1. reflexivity.
  Qed.

  Theorem step_ok db (c : scall S) s : inv kd db -> exists cd n db' s', std_step kd noop db c s = Some (cd, n, db', s') /\ inv kd db' /\
    p_step (k_tree kd) noop (abs db) c s cd n (abs db') s'.
  Proof.
    intros I. unfold p_step. destruct c; cbn [std_step].
    - destruct (process_ok db k p w s I) as (db' & s' & E & I' & P). rewrite E. eexists _, _, _, _. split; [reflexivity|]. split; [exact I'|]. split; [reflexivity|]. split; [reflexivity|exact P].
    - destruct (multi_ok l w db s I) as (db' & s' & E & I' & P). rewrite E. eexists _, _, _, _. split; [reflexivity|]. split; [exact I'|]. split; [reflexivity|]. split; [reflexivity|exact P].
    - unfold std_first. change (p_recs (abs db)) with (rs (s_map db)). destruct (s_map db) as [|e r] eqn:M; cbn [hd_error rs map].
      + eexists _, _, _, _. split; [reflexivity|]. split; [exact I|]. split; [reflexivity|]. split; [reflexivity|]. split; [apply same_abs|reflexivity].
      + assert (He : In e (s_map db)) by (rewrite M; left; reflexivity). cbn [kv fst snd]. destruct (on_full p (e_key e) (e_val e) s) as [a s'].
        eexists _, _, _, _. split; [reflexivity|]. cbn [fst snd]. destruct w; [destruct (act_ok db e a I He) as [A1 A2]; split; [exact A1|]|split; [exact I|]]; (split; [reflexivity|]; split; [reflexivity|]; split; [auto|reflexivity]). apply same_abs.
    - unfold std_each. destruct (each_ok p w (s_map db) [] db (snd (on_empty p noop s)) (length (s_map db)) I eq_refl (le_n _)) as (db' & s2 & E & I' & P). unfold c_begin. rewrite E.
      eexists _, _, _, _. split; [reflexivity|]. split; [exact I'|]. split; [reflexivity|]. split; [reflexivity|]. exists s2. split; [exact P|reflexivity].
    - eexists _, _, _, _. split; [reflexivity|]. split; [exact I|]. split; [cbn; unfold rs; rewrite map_length; reflexivity|]. split; [reflexivity|]. split; [apply same_abs|reflexivity].
    - eexists _, _, _, _. split; [reflexivity|]. split; [constructor; cbn; try constructor; try discriminate; contradiction|]. cbn. auto 6.
    - destruct (rebuild_ok db I) as [I' R]. eexists _, _, _, _. split; [reflexivity|]. split; [exact I'|]. split; [reflexivity|]. split; [reflexivity|]. split; [exact R|].
      unfold std_rebuild. destruct (k_tree kd); cbn; auto.
    - destruct (at_ok db j 0 I) as [I' M]. eexists _, _, _, _. split; [reflexivity|]. split; [exact I'|]. split; [reflexivity|]. split; [reflexivity|]. split; [|reflexivity]. cbn [p_recs abs]. rewrite head_key_rs. exact M.
    - unfold std_it_last. destruct (k_tree kd) eqn:T.
      + destruct (last_ok db j I) as [I' M]. eexists _, _, _, _. split; [reflexivity|]. split; [exact I'|]. split; [reflexivity|]. split; [reflexivity|]. split; [reflexivity|exact M].
      + eexists _, _, _, _. split; [reflexivity|]. split; [exact I|]. split; [reflexivity|]. split; [reflexivity|]. split; [reflexivity|apply same_abs].
    - unfold std_it_jump. destruct (k_tree kd) eqn:T.
      + destruct (at_ok db j (lower_index (s_map db) k) I) as [I' M]. eexists _, _, _, _. split; [reflexivity|]. split; [exact I'|]. split; [reflexivity|]. split; [reflexivity|]. split; [reflexivity|]. cbn [p_recs abs]. rewrite <- skipn_lower. exact M.
      + cbn [p_recs abs]. rewrite lookup_rs. destruct (find_key k (s_map db)) as [e|] eqn:F; cbn [option_map].
        * apply find_key_some in F. destruct F as [He <-]. destruct (move_ok db j (Some (e_id e)) I) as [M1 M2]; [intros i [= <-]; apply in_map, He|].
          eexists _, _, _, _. split; [reflexivity|]. split; [exact M1|]. split; [reflexivity|]. split; [reflexivity|]. split; [reflexivity|].
          cbn [key_at] in M2. destruct (in_split e _ (i_ids _ _ I) (i_keys _ _ I) He) as (a & b & E & Y1 & _). rewrite E in M2 at 1. rewrite find_id_mid in M2 by exact Y1. exact M2.
        * destruct (move_ok db j None I) as [M1 M2]; [discriminate|]. eexists _, _, _, _. split; [reflexivity|]. split; [exact M1|]. split; [reflexivity|]. split; [reflexivity|]. split; [reflexivity|exact M2].
    - destruct (k_tree kd) eqn:T.
      + destruct (jump_lower_ok db j k inc I T) as (db' & E & I' & M). rewrite E. eexists _, _, _, _. split; [reflexivity|]. split; [exact I'|]. split; [reflexivity|]. split; [reflexivity|]. split; [reflexivity|exact M].
      + unfold std_it_jump_lower. rewrite T. eexists _, _, _, _. split; [reflexivity|]. split; [exact I|]. split; [reflexivity|]. split; [reflexivity|]. split; [reflexivity|apply same_abs].
    - unfold std_it_jump_upper. destruct (k_tree kd) eqn:T.
      + destruct (at_ok db j (if inc then lower_index (s_map db) k else upper_index (s_map db) k) I) as [I' M]. eexists _, _, _, _. split; [reflexivity|]. split; [exact I'|]. split; [reflexivity|]. split; [reflexivity|]. split; [reflexivity|].
        cbn [p_recs abs]. destruct inc; [rewrite <- skipn_lower|rewrite <- skipn_upper]; exact M.
      + eexists _, _, _, _. split; [reflexivity|]. split; [exact I|]. split; [reflexivity|]. split; [reflexivity|]. split; [reflexivity|apply same_abs].
    - destruct (next_ok db j I) as (cd & db' & E & I' & P). rewrite E. eexists _, _, _, _. split; [reflexivity|]. split; [exact I'|]. split; [reflexivity|]. split; [reflexivity|]. exact P.
    - destruct (k_tree kd) eqn:T.
      + destruct (prev_ok db j I T) as (cd & db' & E & I' & P). rewrite E. eexists _, _, _, _. split; [reflexivity|]. split; [exact I'|]. split; [reflexivity|]. split; [reflexivity|]. exact P.
      + unfold std_it_prev. rewrite T. eexists _, _, _, _. split; [reflexivity|]. split; [exact I|]. split; [reflexivity|]. split; [reflexivity|]. split; [reflexivity|apply same_abs].
    - destruct (it_process_ok db j p w s I) as (cd & db' & s' & E & I' & P). rewrite E. eexists _, _, _, _. split; [reflexivity|]. split; [exact I'|]. split; [reflexivity|]. exact P.
  Qed.
  Theorem run_ok (cs : list (scall S)) : forall db s, inv kd db -> exists out db' s', std_run kd noop db cs s = Some (out, db', s') /\ inv kd db' /\
    p_runs (k_tree kd) noop (abs db) cs s out (abs db') s'.
  Proof.
    induction cs as [|c cs IH]; intros db s I; cbn [std_run].
    - eexists _, _, _. split; [reflexivity|]. split; [exact I|constructor].
    - destruct (step_ok db c s I) as (cd & n & db1 & s1 & E & I1 & P1). rewrite E. destruct (IH db1 s1 I1) as (out & db2 & s2 & E2 & I2 & P2). rewrite E2.
      eexists _, _, _. split; [reflexivity|]. split; [exact I2|]. econstructor; eauto.
  Qed.
End Kind.
Lemma new_inv kd : inv kd s_new.
Proof. constructor; cbn; try constructor; try discriminate; contradiction. Qed.
