(** TinyDBM: the operations on whole databases. *)
From Coq Require Import List NArith ZArith Bool Lia Arith.
Import ListNotations.
From Verif Require Import Bytes CodecModel DbmModel StatusModel TinyModel TinyProofs.
Local Open Scope N_scope.

(** * The reference operations respect pointwise equality *)
Lemma call_same {S} m m' k (p : proc S) s : same_map m m' -> call m k p s = call m' k p s.
Proof. intros H. unfold call. rewrite (H k). reflexivity. Qed.
Lemma act_same m m' k a : same_map m m' -> same_map (act m k a) (act m' k a).
Proof. intros H x. destruct a; cbn; unfold adel, aset; try destruct (beqb k x); auto. Qed.
Lemma ref_process_same {S} m m' k (p : proc S) w s : same_map m m' ->
  same_map (fst (ref_process m k p w s)) (fst (ref_process m' k p w s)) /\ snd (ref_process m k p w s) = snd (ref_process m' k p w s).
Proof.
  intros H. unfold ref_process. rewrite (call_same _ _ k p s H). destruct (call m' k p s) as [a s']. cbn. split; [|reflexivity].
  destruct w; [apply act_same, H|exact H].
Qed.
Lemma ref_multi_same {S} (l : list (bytes * proc S)) w : forall m m' s, same_map m m' ->
  same_map (fst (ref_multi m l w s)) (fst (ref_multi m' l w s)) /\ snd (ref_multi m l w s) = snd (ref_multi m' l w s).
Proof.
  induction l as [|[k p] l IH]; intros m m' s H; cbn; [auto|]. destruct (ref_process_same m m' k p w s H) as [A B].
  destruct (ref_process m k p w s) as [m1 s1], (ref_process m' k p w s) as [m2 s2]. cbn in A, B. subst s2. apply IH, A.
Qed.
Lemma ref_multi_app {S} (l l' : list (bytes * proc S)) w : forall m s, ref_multi m (l ++ l') w s =
  ref_multi (fst (ref_multi m l w s)) l' w (snd (ref_multi m l w s)).
Proof. induction l as [|[k p] l IH]; intros m s; cbn; [reflexivity|]. destruct (ref_process m k p w s). apply IH. Qed.

(** The records that come to be along ref_multi fit into int32_t. *)
Fixpoint ok_multi {S} (m : amap) (l : list (bytes * proc S)) (w : bool) (s : S) : Prop :=
  match l with
  | [] => True
  | (k, p) :: l' => (w = true -> ok_act k (fst (call m k p s))) /\ ok_multi (fst (ref_process m k p w s)) l' w (snd (ref_process m k p w s))
  end.
Lemma ok_multi_same {S} (l : list (bytes * proc S)) w : forall m m' s, same_map m m' -> ok_multi m l w s -> ok_multi m' l w s.
Proof.
  induction l as [|[k p] l IH]; intros m m' s H; cbn; [auto|]. intros [A B]. rewrite <- (call_same _ _ k p s H). split; [exact A|].
  destruct (ref_process_same m m' k p w s H) as [C E]. rewrite <- E. eapply IH; eauto.
Qed.
Lemma ok_multi_app {S} (l l' : list (bytes * proc S)) w : forall m s, ok_multi m (l ++ l') w s <->
  ok_multi m l w s /\ ok_multi (fst (ref_multi m l w s)) l' w (snd (ref_multi m l w s)).
Proof. induction l as [|[k p] l IH]; intros m s; cbn; [tauto|]. destruct (ref_process m k p w s) as [m1 s1]. cbn. rewrite IH. tauto. Qed.

(** * All records *)
Fixpoint flat (L : N -> list node) (n : nat) (i : N) : list node := match n with O => [] | S m => L i ++ flat L m (i + 1) end.
Lemma flat_in L n : forall i x, In x (flat L n i) <-> exists j, i <= j < i + N.of_nat n /\ In x (L j).
Proof.
  induction n as [|n IH]; intros i x; cbn [flat].
  - split; [easy|]. intros (j & H & _). lia.
  - rewrite in_app_iff, IH. split.
    + intros [H|(j & H & I)]; [exists i|exists j]; (split; [lia|assumption]).
    + intros (j & H & I). destruct (N.eq_dec j i) as [->|]; [auto|]. right. exists j. split; [lia|assumption].
Qed.
Lemma flat_snoc L n : forall i, flat L (S n) i = flat L n i ++ L (i + N.of_nat n).
Proof.
  induction n as [|n IH]; intros i; [cbn; rewrite app_nil_r, N.add_0_r; reflexivity|].
  change (flat L (S (S n)) i) with (L i ++ flat L (S n) (i + 1)). rewrite IH. cbn [flat]. rewrite <- app_assoc. do 3 f_equal. lia.
Qed.
Lemma flat_total L n : length (flat L n 0) = total L n.
Proof. induction n as [|n IH]; [reflexivity|]. rewrite flat_snoc, app_length, IH. reflexivity. Qed.
Lemma flat_ext L L' n : forall i, (forall j, i <= j < i + N.of_nat n -> L j = L' j) -> flat L n i = flat L' n i.
Proof. induction n as [|n IH]; intros i H; [reflexivity|]. cbn. rewrite H by lia. f_equal. apply IH. intros. apply H. lia. Qed.

Lemma nodup_app {A} (a b : list A) : NoDup a -> NoDup b -> (forall x, In x a -> In x b -> False) -> NoDup (a ++ b).
Proof.
  induction a as [|x a IH]; intros HA HB D; [exact HB|]. cbn. inversion HA as [|? ? X Y]; subst. constructor.
  - intros I. apply in_app_or in I. destruct I as [I|I]; [contradiction|]. apply (D x); [left; reflexivity|exact I].
  - apply IH; auto. intros y I J. apply (D y); [right; exact I|exact J].
Qed.

Section Ops.
  Variable hash : bytes -> N -> N.
  Variable bucket_size : N -> N.
  Hypothesis hash_lt : forall k nb, 0 < nb -> hash k nb < nb.
  Hypothesis size_pos : forall n, 0 < bucket_size n.
  Notation tinv := (tinv hash).
  Notation view := (view hash).

  Lemma in_key i (L : N -> list node) k : In k (keys (L i)) -> exists q v, In (q, (k, v)) (L i).
  Proof. intros H. apply in_map_iff in H. destruct H as ([q [k' v]] & <- & H). eauto. Qed.

  Lemma flat_nodup t L : tinv t L -> forall n i, i + N.of_nat n <= t_nb t -> NoDup (keys (flat L n i)) /\ NoDup (locs (flat L n i)).
  Proof.
    intros I0. assert (I1 := I0). destruct I1 as [S O K ND D N]. induction n as [|n IH]; intros i Hi; [split; constructor|]. cbn [flat].
    destruct (IH (i + 1) ltac:(lia)) as [A B]. rewrite keys_app, locs_app. split; apply nodup_app; try apply ND; auto.
    - intros k X Y. apply in_map_iff in Y. destruct Y as ([q [k' v]] & <- & Y). cbn in X. apply flat_in in Y. destruct Y as (j & Hj & Y).
      destruct (in_key _ _ _ X) as (q' & v' & X'). apply K in X'. apply K in Y. lia.
    - intros q X Y. apply in_map_iff in Y. destruct Y as (n0 & <- & Y). apply flat_in in Y. destruct Y as (j & Hj & Y).
      assert (i = j); [|lia]. eapply D; eauto. apply (in_map fst) in Y. exact Y.
  Qed.

  Definition items (t : tiny) (L : N -> list node) : list (bytes * bytes) := map snd (flat L (N.to_nat (t_nb t)) 0).

  Lemma view_in t L k v : 0 < t_nb t -> tinv t L -> (view (t_nb t) L k = Some v <-> In (k, v) (items t L)).
  Proof.
    intros H0 I0. assert (I1 := I0). destruct I1 as [S O K ND D N]. unfold TinyProofs.view. rewrite find_some by apply ND. unfold items. rewrite in_map_iff. split.
    - intros (q & I). exists (q, (k, v)). split; [reflexivity|]. apply flat_in. exists (hash k (t_nb t)). split; [|exact I]. specialize (hash_lt k _ H0). lia.
    - intros ([q [k' v']] & E & I). cbn in E. injection E as -> ->. apply flat_in in I. destruct I as (j & Hj & I). exists q.
      destruct (K _ _ _ _ I) as [-> _]. exact I.
  Qed.
  Lemma keys_items l : keys l = map fst (map snd l).
  Proof. unfold keys. rewrite map_map. reflexivity. Qed.
  Lemma items_nodup t L : tinv t L -> NoDup (map fst (items t L)).
  Proof. intros I. unfold items. rewrite <- keys_items. apply (flat_nodup t L I (N.to_nat (t_nb t)) 0). lia. Qed.
  Lemma items_count t L : tinv t L -> t_num t = Z.of_nat (length (items t L)).
  Proof. intros I. unfold items. rewrite map_length, flat_total. apply (v_num _ _ _ I). Qed.

  (** * Multi *)
  Lemma read_only {S} t L key i (pr : proc S) moved s : i = hash key (t_nb t) -> tinv t L -> i < t_nb t ->
    t_impl t key i pr false moved s = Some (t, snd (call (view (t_nb t) L) key pr s)).
  Proof.
    intros -> I0 Hi. unfold t_impl, call. change (view (t_nb t) L key) with (find key (L (hash key (t_nb t)))).
    destruct (walk_ok key (L (hash key (t_nb t))) (fuel_of (t_h t)) (t_h t) (t_b t (hash key (t_nb t))) None (v_seg _ _ _ I0 _ Hi) (fuel_enough hash t L _ I0))
      as [(W1 & W2)|(l1 & q & v & l2 & c & W1 & W2 & W3 & W4 & W5)].
    - rewrite W2, (find_none _ _ W1). destruct (on_empty pr key s) as [a s']. reflexivity.
    - rewrite W5. rewrite W1, find_app, find_none by exact W2. cbn. rewrite beqb_refl. destruct (on_full pr key v s). reflexivity.
  Qed.

  Lemma process_ok {S} t L key (pr : proc S) w moved s : 0 < t_nb t -> tinv t L ->
    (w = true -> ok_act key (fst (call (view (t_nb t) L) key pr s))) ->
    exists t' L', t_process hash t key pr w moved s = Some (t', snd (ref_process (view (t_nb t) L) key pr w s)) /\ t_nb t' = t_nb t /\ tinv t' L' /\
        same_map (view (t_nb t) L') (fst (ref_process (view (t_nb t) L) key pr w s)) /\
        (forall j, j <> hash key (t_nb t) -> L' j = L j) /\
        (forall l1 q v l2, L (hash key (t_nb t)) = l1 ++ (q, (key, v)) :: l2 -> exists l1', L' (hash key (t_nb t)) = l1' ++ l2).
  Proof.
    intros H0 I0 OK. unfold t_process. specialize (hash_lt key _ H0).
    assert (SN : snd (ref_process (view (t_nb t) L) key pr w s) = snd (call (view (t_nb t) L) key pr s)).
    { unfold ref_process. destruct (call (view (t_nb t) L) key pr s). reflexivity. }
    rewrite SN. destruct w.
    - destruct (impl_ok hash t L key I0 hash_lt pr true moved s (OK eq_refl)) as (t' & L' & A1 & A2 & A3 & A4 & A5 & A6). exists t', L'. auto 10.
    - exists t, L. split; [apply read_only; auto|]. split; [reflexivity|]. split; [exact I0|]. split; [|split; [auto|]].
      + unfold ref_process. destruct (call (view (t_nb t) L) key pr s). intros x. reflexivity.
      + intros l1 q v l2 E. exists (l1 ++ [(q, (key, v))]). rewrite <- app_assoc. exact E.
  Qed.

  Lemma multi_ok {S} (l : list (bytes * proc S)) w moved : forall t L s, 0 < t_nb t -> tinv t L -> ok_multi (view (t_nb t) L) l w s ->
    exists t' L', t_multi hash t l w moved s = Some (t', snd (ref_multi (view (t_nb t) L) l w s)) /\ t_nb t' = t_nb t /\ tinv t' L' /\
      same_map (view (t_nb t) L') (fst (ref_multi (view (t_nb t) L) l w s)).
  Proof.
    induction l as [|[k p] l IH]; intros t L s H0 I0 OK; cbn [t_multi ref_multi].
    - exists t, L. split; [reflexivity|]. split; [reflexivity|]. split; [exact I0|]. intros x. reflexivity.
    - cbn [ok_multi] in OK. destruct OK as [O1 O2]. destruct (process_ok t L k p w moved s H0 I0 O1) as (t1 & L1 & A1 & A2 & A3 & A4 & _ & _).
      rewrite A1. destruct (ref_process (view (t_nb t) L) k p w s) as [m1 s1]. cbn [fst snd] in *.
      assert (SM : same_map m1 (view (t_nb t) L1)) by (intros x; symmetry; apply A4).
      destruct (IH t1 L1 s1) as (t2 & L2 & B1 & B2 & B3 & B4); rewrite ?A2; auto.
      { eapply ok_multi_same; eauto. }
      rewrite A2 in *. destruct (ref_multi_same l w m1 (view (t_nb t) L1) s1 SM) as [C1 C2].
      exists t2, L2. rewrite C2. split; [exact B1|]. split; [congruence|]. split; [exact B3|]. intros x. rewrite C1. apply B4.
  Qed.

  (** * Append *)
  Lemma append_db_ok t L key value delim moved : 0 < t_nb t -> tinv t L ->
    ok_act key (fst (call (view (t_nb t) L) key (pr_append value delim) tt)) ->
    exists t' L', t_append hash t key value delim moved = Some t' /\ t_nb t' = t_nb t /\ tinv t' L' /\
        same_map (view (t_nb t) L') (fst (ref_process (view (t_nb t) L) key (pr_append value delim) true tt)).
  Proof.
    intros H0 I0 OK. assert (Hi := hash_lt key _ H0). unfold t_append, ref_process, call in *. cbv zeta.
    change (view (t_nb t) L key) with (find key (L (hash key (t_nb t)))) in *. set (i := hash key (t_nb t)) in *.
    destruct (walk_ok key (L i) (fuel_of (t_h t)) (t_h t) (t_b t i) None (v_seg _ _ _ I0 _ Hi) (fuel_enough hash t L _ I0))
      as [(W1 & W2)|(l1 & q & v & l2 & c & W1 & W2 & W3 & W4 & W5)].
    - rewrite W2. rewrite (find_none _ _ W1) in *. cbn [on_empty pr_append fst] in *.
      destruct (push_ok hash t L key I0 Hi value W1 OK) as (t' & P1 & P2 & q & P3). fold i in P1, P3.
      exists t', (updL L i ((q, (key, value)) :: L i)). split; [exact P1|]. split; [exact P2|]. split; [exact P3|].
      intros x. cbn [act]. unfold aset. apply (view_upd hash (t_nb t) L i _ key (Some value)); auto.
      + intros y Hy. cbn. destruct (beqb_spec y key) as [X|_]; [congruence|reflexivity].
      + cbn. rewrite beqb_refl. reflexivity.
    - rewrite W5.
      assert (find key (L i) = Some v) as FK by (rewrite W1, find_app, find_none by exact W2; cbn; rewrite beqb_refl; reflexivity).
      rewrite FK in *. cbn [on_full pr_append fst] in *.
      match type of OK with ok_act _ (ASet ?x) => assert (EV : x = v ++ delim ++ value) by (destruct delim; reflexivity);
        set (nv := x) in *; clearbody nv; subst nv end.
      assert (q < hnext (t_h t))%nat as Hq by (eapply (v_key _ _ _ I0); rewrite W1; apply in_or_app; right; left; reflexivity).
      destruct (append_ok _ _ _ _ _ value delim moved W3 Hq OK) as (h' & q' & R1 & R2 & R3). rewrite R1.
      destruct (replace_ok hash t L key I0 Hi l1 q v l2 c h' q' (v ++ delim ++ value) _ W1 W4 R2 R3 eq_refl W2) as (t' & P1 & P2 & P3 & P4).
      fold i in P1, P3, P4.
      exists t', (updL L i (l1 ++ (q', (key, v ++ delim ++ value)) :: l2)). split; [exact P1|]. split; [exact P2|]. split; [exact P3|].
      intros x. cbn [act]. unfold aset. apply (view_upd hash (t_nb t) L i _ key (Some (v ++ delim ++ value))); auto.
      + intros y Hy. rewrite P4. destruct (beqb_spec key y); [congruence|reflexivity].
      + rewrite P4, beqb_refl. reflexivity.
  Qed.

  (** * First and each *)
  Lemma seg_head h p l e : seg h p l e -> e = None -> match l with [] => p = None | (q, _) :: _ => p = Some q end.
  Proof. destruct l as [|[q [k v]] l]; cbn; intros H ->; [exact H|tauto]. Qed.
  Lemma seg_inj h h' p p' l : seg h p l None -> seg h' p' l None -> p = p'.
  Proof. intros A B. apply seg_head in A; [|reflexivity]. apply seg_head in B; [|reflexivity]. destruct l as [|[q x] l]; congruence. Qed.

  Lemma each_chain_ok {S} (pr : proc S) w moved i : forall l2 fuel t L l1 p s, 0 < t_nb t -> tinv t L -> i < t_nb t -> L i = l1 ++ l2 ->
    seg (t_h t) p l2 None -> (length l2 < fuel)%nat -> ok_multi (view (t_nb t) L) (map (fun k => (k, pr)) (keys l2)) w s ->
    exists t' L', each_chain fuel t i p pr w moved s = Some (t', snd (ref_multi (view (t_nb t) L) (map (fun k => (k, pr)) (keys l2)) w s)) /\
      t_nb t' = t_nb t /\ tinv t' L' /\ same_map (view (t_nb t) L') (fst (ref_multi (view (t_nb t) L) (map (fun k => (k, pr)) (keys l2)) w s)) /\
      (forall j, j <> i -> L' j = L j).
  Proof.
    induction l2 as [|[q [k v]] l2 IH]; intros fuel t L l1 p s H0 I0 Hi EL SG Hf OK; (destruct fuel as [|fu]; [cbn in Hf; lia|]).
    - cbn in SG. subst p. cbn. exists t, L. split; [reflexivity|]. split; [reflexivity|]. split; [exact I0|]. split; [intros x; reflexivity|auto].
    - cbn in SG. destruct SG as (-> & c & HQ & SG). cbn [each_chain]. rewrite (des_ok _ _ _ _ _ HQ).
      assert (HK : hash k (t_nb t) = i) by (eapply (v_key _ _ _ I0 i q k v); rewrite EL; apply in_or_app; right; left; reflexivity).
      cbn [keys map ok_multi ref_multi fst snd] in *. destruct OK as [O1 O2].
      assert (FV : view (t_nb t) L k = Some v).
      { unfold TinyProofs.view. rewrite HK. apply find_some; [apply (v_nodup _ _ _ I0)|]. exists q. rewrite EL. apply in_or_app. right. left. reflexivity. }
      destruct w.
      + destruct (process_ok t L k pr true moved s H0 I0 O1) as (t1 & L1 & A1 & A2 & A3 & A4 & A5 & A6).
        unfold t_process in A1. rewrite HK in *.
        destruct (A6 _ _ _ _ EL) as (l1' & EL').
        assert (SG1 : seg (t_h t1) c l2 None).
        { pose proof (v_seg _ _ _ A3 i ltac:(rewrite A2; exact Hi)) as X. rewrite EL' in X. apply seg_app in X. destruct X as (m & _ & X).
          rewrite (seg_inj _ _ _ _ _ SG X). exact X. }
        assert (SM : same_map (fst (ref_process (view (t_nb t) L) k pr true s)) (view (t_nb t) L1)) by (intros x; symmetry; apply A4).
        destruct (ref_process (view (t_nb t) L) k pr true s) as [m1 s1]. cbn [fst snd] in *.
        rewrite A1. destruct (IH fu t1 L1 l1' c s1) as (t2 & L2 & B1 & B2 & B3 & B4 & B5); rewrite ?A2; auto; try (cbn in Hf; lia).
        { eapply ok_multi_same; eauto. }
        rewrite A2 in *. destruct (ref_multi_same (map (fun k => (k, pr)) (keys l2)) true m1 (view (t_nb t) L1) s1 SM) as [C1 C2].
        exists t2, L2. unfold keys in C1, C2, B1, B4. rewrite C2. split; [exact B1|]. split; [congruence|]. split; [exact B3|]. split.
        * intros x. rewrite C1. apply B4.
        * intros j Hj. rewrite B5, A5 by exact Hj. reflexivity.
      + assert (RP : ref_process (view (t_nb t) L) k pr false s = (view (t_nb t) L, snd (on_full pr k v s))).
        { unfold ref_process, call. rewrite FV. destruct (on_full pr k v s). reflexivity. }
        rewrite RP in *. cbn [fst snd] in *.
        apply (IH fu t L (l1 ++ [(q, (k, v))]) c); auto; [rewrite <- app_assoc; exact EL|cbn in Hf; lia].
  Qed.

  Lemma each_from_ok {S} (pr : proc S) w moved : forall n i t L s, 0 < t_nb t -> tinv t L -> i + N.of_nat n <= t_nb t ->
    ok_multi (view (t_nb t) L) (map (fun k => (k, pr)) (keys (flat L n i))) w s ->
    exists t' L', each_from n t i pr w moved s = Some (t', snd (ref_multi (view (t_nb t) L) (map (fun k => (k, pr)) (keys (flat L n i))) w s)) /\
      t_nb t' = t_nb t /\ tinv t' L' /\ same_map (view (t_nb t) L') (fst (ref_multi (view (t_nb t) L) (map (fun k => (k, pr)) (keys (flat L n i))) w s)).
  Proof.
    induction n as [|n IH]; intros i t L s H0 I0 Hi OK; cbn [each_from flat].
    - exists t, L. split; [reflexivity|]. split; [reflexivity|]. split; [exact I0|]. intros x. reflexivity.
    - cbn [flat] in OK. rewrite keys_app, map_app in *. apply ok_multi_app in OK. destruct OK as [O1 O2]. rewrite ref_multi_app.
      destruct (each_chain_ok pr w moved i (L i) (fuel_of (t_h t)) t L [] (t_b t i) s H0 I0 ltac:(lia) eq_refl
        (v_seg _ _ _ I0 i ltac:(lia)) (fuel_enough hash t L i I0) O1) as (t1 & L1 & A1 & A2 & A3 & A4 & A5).
      rewrite A1. set (R := ref_multi (view (t_nb t) L) (map (fun k => (k, pr)) (keys (L i))) w s) in *.
      assert (EF : flat L n (i + 1) = flat L1 n (i + 1)) by (apply flat_ext; intros j Hj; symmetry; apply A5; lia).
      rewrite EF in *.
      assert (SM : same_map (fst R) (view (t_nb t) L1)) by (intros x; symmetry; apply A4).
      destruct (IH (i + 1) t1 L1 (snd R)) as (t2 & L2 & B1 & B2 & B3 & B4); rewrite ?A2; auto; try lia.
      { eapply ok_multi_same; eauto. }
      rewrite A2 in *. destruct (ref_multi_same (map (fun k => (k, pr)) (keys (flat L1 n (i + 1)))) w (fst R) (view (t_nb t) L1) (snd R) SM) as [C1 C2].
      exists t2, L2. rewrite C2. split; [exact B1|]. split; [congruence|]. split; [exact B3|]. intros x. rewrite C1. apply B4.
  Qed.

  Lemma first_ok {S} (pr : proc S) w moved : forall n i t L s, 0 < t_nb t -> tinv t L -> i + N.of_nat n <= t_nb t ->
    match flat L n i with
    | [] => first_from n t i pr w moved s = Some (false, t, s)
    | (_, (k, v)) :: _ => (w = true -> ok_act k (fst (on_full pr k v s))) -> view (t_nb t) L k = Some v /\
        exists t' L', first_from n t i pr w moved s = Some (true, t', snd (on_full pr k v s)) /\
          t_nb t' = t_nb t /\ tinv t' L' /\ same_map (view (t_nb t) L') (fst (ref_process (view (t_nb t) L) k pr w s))
    end.
  Proof.
    induction n as [|n IH]; intros i t L s H0 I0 Hi; cbn [first_from flat]; [reflexivity|].
    pose proof (v_seg _ _ _ I0 i ltac:(lia)) as SG. destruct (L i) as [|[q [k v]] l] eqn:EL; cbn in SG.
    - rewrite SG. cbn [app]. apply IH; auto; lia.
    - destruct SG as (EB & c & HQ & SG). rewrite EB. cbn [app]. intros OK. rewrite (des_ok _ _ _ _ _ HQ).
      assert (HK : hash k (t_nb t) = i) by (eapply (v_key _ _ _ I0 i q k v); rewrite EL; left; reflexivity).
      assert (FV : view (t_nb t) L k = Some v).
      { unfold TinyProofs.view. rewrite HK, EL. cbn. rewrite beqb_refl. reflexivity. }
      split; [exact FV|]. assert (CL : call (view (t_nb t) L) k pr s = on_full pr k v s) by (unfold call; rewrite FV; reflexivity).
      destruct (process_ok t L k pr w moved s H0 I0) as (t1 & L1 & A1 & A2 & A3 & A4 & _); [rewrite CL; exact OK|].
      assert (SN : snd (ref_process (view (t_nb t) L) k pr w s) = snd (on_full pr k v s)).
      { unfold ref_process. rewrite CL. destruct (on_full pr k v s). reflexivity. }
      rewrite SN in A1. destruct w.
      + unfold t_process in A1. rewrite HK in A1. rewrite A1. exists t1, L1. auto.
      + exists t, L. split; [reflexivity|]. split; [reflexivity|]. split; [exact I0|]. unfold ref_process. rewrite CL. destruct (on_full pr k v s). intros x. reflexivity.
  Qed.

  (** * Clear *)
  Lemma free_chain_ok : forall l fuel h p, seg h p l None -> NoDup (locs l) -> (length l < fuel)%nat ->
    exists h', free_chain fuel h p = Some h' /\ hnext h' = hnext h /\ (forall q, ~ In q (locs l) -> cell h' q = cell h q).
  Proof.
    induction l as [|[q [k v]] l IH]; intros fuel h p SG ND Hf; (destruct fuel as [|fu]; [cbn in Hf; lia|]); cbn in SG.
    - subst p. cbn. exists h. auto.
    - destruct SG as (-> & c & (sl & E & F) & SG). cbn [free_chain]. rewrite E. unfold h_free. rewrite E. cbn in ND. inversion ND as [|? ? X Y]; subst.
      match goal with |- context [free_chain fu ?h1 c] => destruct (IH fu h1 c) as (h' & A1 & A2 & A3) end; auto; try (cbn in Hf; lia).
      + eapply seg_frame; [|exact SG]. intros x Hx. cbn [cell]. apply updc_other. intros ->. contradiction.
      + exists h'. split; [exact A1|]. split; [exact A2|]. intros x Hx. cbn in Hx. rewrite A3 by tauto. cbn [cell]. apply updc_other. intros ->. tauto.
  Qed.
  Lemma free_from_ok L b : (forall i, NoDup (locs (L i))) -> (forall i j q, In q (locs (L i)) -> In q (locs (L j)) -> i = j) ->
    forall n i h, (forall j, (length (L j) < fuel_of h)%nat) -> (forall j, i <= j < i + N.of_nat n -> seg h (b j) (L j) None) ->
    exists h', free_from n h b i = Some h' /\ hnext h' = hnext h.
  Proof.
    intros ND D. induction n as [|n IH]; intros i h HF SG; cbn [free_from]; [eauto|].
    destruct (free_chain_ok (L i) (fuel_of h) h (b i) (SG i ltac:(lia)) (ND i) (HF i)) as (h1 & A1 & A2 & A3). rewrite A1.
    destruct (IH (i + 1) h1) as (h2 & B1 & B2).
    - intros j. unfold fuel_of. rewrite A2. apply HF.
    - intros j Hj. eapply seg_frame; [|apply SG; lia]. intros q Hq. apply A3. intros X. assert (i = j) by (eapply D; eauto). lia.
    - exists h2. split; [exact B1|congruence].
  Qed.
  Lemma total_nil n : total (fun _ => []) n = O.
  Proof. induction n as [|n IH]; cbn [total]; [reflexivity|]. rewrite IH. reflexivity. Qed.
  Lemma tinv_empty h nb : tinv (mkTiny h (fun _ => None) nb 0) (fun _ => []).
  Proof.
    constructor; cbn; try easy; intros.
    - split; constructor.
    - rewrite total_nil. reflexivity.
  Qed.
  Lemma view_empty nb : same_map (view nb (fun _ => [])) aempty.
  Proof. intros x. reflexivity. Qed.
  Lemma clear_ok t L : tinv t L -> exists t', t_clear t = Some t' /\ t_nb t' = t_nb t /\ tinv t' (fun _ => []).
  Proof.
    intros I0. unfold t_clear. destruct (free_from_ok L (t_b t)) with (n := N.to_nat (t_nb t)) (i := 0) (h := t_h t) as (h1 & A1 & A2).
    - intros i. apply (v_nodup _ _ _ I0).
    - apply (v_disj _ _ _ I0).
    - intros j. apply (fuel_enough hash t L j I0).
    - intros j Hj. apply (v_seg _ _ _ I0). lia.
    - rewrite A1. eexists. split; [reflexivity|]. split; [reflexivity|]. apply tinv_empty.
  Qed.

  (** * Rebuild *)
  Definition hk (nb : N) (n : node) : N := hash (fst (snd n)) nb.
  Fixpoint pushall (nb : N) (M : N -> list node) (l : list node) : N -> list node :=
    match l with [] => M | n :: r => pushall nb (updL M (hk nb n) (n :: M (hk nb n))) r end.
  Lemma pushall_app nb l r : forall M, pushall nb M (l ++ r) = pushall nb (pushall nb M l) r.
  Proof. induction l; intros; cbn; auto. Qed.
  Lemma pushall_val nb l : forall M j, pushall nb M l j = rev (filter (fun n => hk nb n =? j) l) ++ M j.
  Proof.
    induction l as [|n l IH]; intros M j; cbn [pushall filter]; [reflexivity|]. rewrite IH. unfold updL.
    rewrite (N.eqb_sym (hk nb n) j). destruct (N.eqb_spec j (hk nb n)) as [->|]; [|reflexivity]. cbn. rewrite <- app_assoc. reflexivity.
  Qed.
  Lemma pushall_total nb : 0 < nb -> forall l M, total (pushall nb M l) (N.to_nat nb) = (total M (N.to_nat nb) + length l)%nat.
  Proof.
    intros H0. induction l as [|n l IH]; intros M; cbn [pushall length]; [lia|]. rewrite IH.
    pose proof (total_upd hash M (hk nb n) (n :: M (hk nb n)) (N.to_nat nb)) as X. assert (hk nb n < nb) by (apply hash_lt, H0).
    cbn [length] in X. lia.
  Qed.

  Lemma move_chain_ok nb : 0 < nb -> forall l fuel h B M p,
    (forall j, j < nb -> seg h (B j) (M j) None) -> (forall j q, In q (locs (M j)) -> In q (locs l) -> False) ->
    seg h p l None -> NoDup (locs l) -> (length l < fuel)%nat ->
    exists h' B', move_chain hash fuel h nb B p = Some (h', B') /\ hnext h' = hnext h /\
      (forall j, j < nb -> seg h' (B' j) (pushall nb M l j) None) /\
      (forall q, ~ In q (locs l) -> (forall j, ~ In q (locs (M j))) -> cell h' q = cell h q).
  Proof.
    intros H0. induction l as [|[q [k v]] l IH]; intros fuel h B M p SM DJ SG ND Hf; (destruct fuel as [|fu]; [cbn in Hf; lia|]); cbn in SG.
    - subst p. cbn. exists h, B. auto.
    - destruct SG as (-> & c & HQ & SG). cbn [move_chain]. rewrite (des_ok _ _ _ _ _ HQ). cbn in ND. inversion ND as [|? ? X Y]; subst.
      destruct (link_ok h q c (B (hash k nb)) k v HQ) as (h1 & L1 & L2 & L3 & L4). rewrite L1.
      set (i := hash k nb) in *. assert (i < nb) as Hi by (apply hash_lt, H0).
      assert (NM : forall j, ~ In q (locs (M j))) by (intros j I; apply (DJ j q I); left; reflexivity).
      destruct (IH fu h1 (updb B i (Some q)) (updL M i ((q, (k, v)) :: M i)) c) as (h' & B' & A1 & A2 & A3 & A4).
      + intros j Hj. unfold updb, updL. destruct (N.eqb_spec j i) as [->|].
        * cbn. split; [reflexivity|]. exists (B i). split; [exact L2|]. eapply seg_frame; [|apply SM, Hi]. intros x Hx. apply L3. intros ->. exact (NM i Hx).
        * eapply seg_frame; [|apply SM, Hj]. intros x Hx. apply L3. intros ->. exact (NM j Hx).
      + intros j x I J. unfold updL in I. destruct (N.eqb_spec j i) as [->|].
        * cbn in I. destruct I as [<-|I]; [contradiction|]. apply (DJ i x I). right. exact J.
        * apply (DJ j x I). right. exact J.
      + eapply seg_frame; [|exact SG]. intros x Hx. apply L3. intros ->. contradiction.
      + exact Y.
      + cbn in Hf. lia.
      + exists h', B'. split; [exact A1|]. split; [congruence|]. split; [exact A3|].
        intros x Hx HM. cbn in Hx. rewrite A4.
        * apply L3. intros ->. tauto.
        * tauto.
        * intros j I. unfold updL in I. destruct (j =? i); [|exact (HM j I)]. cbn in I. destruct I as [I|I]; [apply Hx; left; exact I|exact (HM i I)].
  Qed.

  Lemma locs_pushall nb l M j q : In q (locs (pushall nb M l j)) -> In q (locs l) \/ In q (locs (M j)).
  Proof.
    rewrite pushall_val, locs_app, in_app_iff. intros [I|I]; [|auto]. left. apply in_map_iff in I. destruct I as (n & <- & I).
    rewrite <- in_rev in I. apply filter_In in I. apply in_map. tauto.
  Qed.

  Lemma move_from_ok L old nb : 0 < nb -> (forall i, NoDup (locs (L i))) -> (forall i j q, In q (locs (L i)) -> In q (locs (L j)) -> i = j) ->
    forall n i h B M, (forall j, (length (L j) < fuel_of h)%nat) -> (forall j, i <= j < i + N.of_nat n -> seg h (old j) (L j) None) ->
    (forall j, j < nb -> seg h (B j) (M j) None) -> (forall j j' q, i <= j' < i + N.of_nat n -> In q (locs (M j)) -> In q (locs (L j')) -> False) ->
    exists h' B', move_from hash n h old nb B i = Some (h', B') /\ hnext h' = hnext h /\ (forall j, j < nb -> seg h' (B' j) (pushall nb M (flat L n i) j) None).
  Proof.
    intros H0 ND D. induction n as [|n IH]; intros i h B M HF SG SM DJ; cbn [move_from flat]; [eauto|].
    destruct (move_chain_ok nb H0 (L i) (fuel_of h) h B M (old i) SM) as (h1 & B1 & A1 & A2 & A3 & A4); auto.
    { intros j q I J. apply (DJ j i q); auto. lia. }
    { apply SG. lia. }
    rewrite A1. destruct (IH (i + 1) h1 B1 (pushall nb M (L i))) as (h2 & B2 & C1 & C2 & C3).
    - intros j. unfold fuel_of. rewrite A2. apply HF.
    - intros j Hj. eapply seg_frame; [|apply SG; lia]. intros q Hq. apply A4.
      + intros X. assert (i = j) by (eapply D; eauto). lia.
      + intros j' I. apply (DJ j' j q); auto. lia.
    - exact A3.
    - intros j j' q Hj I J. apply locs_pushall in I. destruct I as [I|I].
      + assert (i = j') by (eapply D; eauto). lia.
      + apply (DJ j j' q); auto. lia.
    - exists h2, B2. split; [exact C1|]. split; [congruence|]. rewrite pushall_app. exact C3.
  Qed.

  Lemma nodup_map_filter {A B} (f : A -> B) (p : A -> bool) l : NoDup (map f l) -> NoDup (map f (filter p l)).
  Proof.
    induction l as [|x l IH]; cbn; intros H; [constructor|]. inversion H as [|? ? X Y]; subst. destruct (p x); [|auto]. cbn. constructor; [|auto].
    intros I. apply X. apply in_map_iff in I. destruct I as (y & E & I). apply filter_In in I. apply in_map_iff. exists y. tauto.
  Qed.

  Lemma rebuild_ok t L nbk : 0 < t_nb t -> tinv t L -> exists t' L', t_rebuild hash bucket_size t nbk = Some t' /\ 0 < t_nb t' /\ tinv t' L' /\
    t_num t' = t_num t /\ same_map (view (t_nb t') L') (view (t_nb t) L).
  Proof.
    intros H0 I0. unfold t_rebuild. cbv zeta. set (nb := bucket_size _). assert (0 < nb) as Hnb by apply size_pos.
    destruct (move_from_ok L (t_b t) nb Hnb) with (n := N.to_nat (t_nb t)) (i := 0) (h := t_h t) (B := fun _ : N => @None ptr) (M := fun _ : N => @nil node) as (h1 & B1 & A1 & A2 & A3).
    - intros i. apply (v_nodup _ _ _ I0).
    - apply (v_disj _ _ _ I0).
    - intros j. apply (fuel_enough hash t L j I0).
    - intros j Hj. apply (v_seg _ _ _ I0). lia.
    - intros j _. reflexivity.
    - cbn. tauto.
    - rewrite A1. set (F := flat L (N.to_nat (t_nb t)) 0) in *. set (L' := pushall nb (fun _ => []) F) in *.
      destruct (flat_nodup t L I0 (N.to_nat (t_nb t)) 0 ltac:(lia)) as [NK NL]. fold F in NK, NL.
      assert (VAL : forall j, L' j = rev (filter (fun n => hk nb n =? j) F)) by (intros j; unfold L'; rewrite pushall_val, app_nil_r; reflexivity).
      assert (MEM : forall j n, In n (L' j) <-> In n F /\ hk nb n = j).
      { intros j n. rewrite VAL, <- in_rev, filter_In, N.eqb_eq. tauto. }
      assert (I1 : tinv (mkTiny h1 B1 nb (t_num t)) L').
      { constructor; cbn [t_h t_b t_nb t_num].
        - exact A3.
        - intros i Hi. destruct (L' i) as [|n l] eqn:E; [reflexivity|]. exfalso. assert (In n (L' i)) as I by (rewrite E; left; reflexivity).
          apply MEM in I. destruct I as [_ <-]. pose proof (hash_lt (fst (snd n)) nb Hnb). unfold hk in Hi. lia.
        - intros i q k v I. apply MEM in I. destruct I as [I E]. split; [exact E|]. apply flat_in in I. destruct I as (j & _ & I).
          rewrite A2. apply (v_key _ _ _ I0 _ _ _ _ I).
        - intros i. rewrite VAL. unfold keys, locs. rewrite !map_rev. split; apply NoDup_rev, nodup_map_filter; [exact NK|exact NL].
        - intros i j q I J. apply in_map_iff in I. destruct I as (n & <- & I). apply in_map_iff in J. destruct J as (n' & E & J).
          apply MEM in I. apply MEM in J. destruct I as [I <-], J as [J <-]. f_equal.
          clear - NL I J E. induction F as [|x F IH]; [easy|]. cbn in NL. inversion NL as [|? ? X Y]; subst.
          destruct I as [->|I], J as [->|J]; auto.
          + exfalso. apply X. rewrite <- E. apply in_map, J.
          + exfalso. apply X. rewrite E. apply in_map, I.
        - rewrite (v_num _ _ _ I0). unfold L'. rewrite pushall_total by exact Hnb. rewrite total_nil. unfold F. rewrite flat_total. reflexivity. }
      exists (mkTiny h1 B1 nb (t_num t)), L'. split; [reflexivity|]. split; [exact Hnb|]. split; [exact I1|]. split; [reflexivity|]. cbn [t_nb].
      assert (VV : forall k v, view nb L' k = Some v <-> view (t_nb t) L k = Some v).
      { intros k v. rewrite (view_in t L k v H0 I0). unfold TinyProofs.view. rewrite find_some by apply (v_nodup _ _ _ I1). unfold items. fold F. rewrite in_map_iff. split.
        - intros (q & I). apply MEM in I. exists (q, (k, v)). tauto.
        - intros ([q [k' v']] & E & I). cbn in E. injection E as -> ->. exists q. apply MEM. split; [exact I|reflexivity]. }
      intros x. destruct (view (t_nb t) L x) as [v|] eqn:E; [apply VV, E|]. destruct (view nb L' x) as [v|] eqn:E'; [|reflexivity].
      apply VV in E'. congruence.
  Qed.

  (** * Iterators *)
  Lemma chain_keys_ok : forall l fuel h p, seg h p l None -> (length l < fuel)%nat -> chain_keys fuel h p = Some (keys l).
  Proof.
    induction l as [|[q [k v]] l IH]; intros fuel h p SG Hf; (destruct fuel as [|fu]; [cbn in Hf; lia|]); cbn in SG.
    - subst p. reflexivity.
    - destruct SG as (-> & c & HQ & SG). cbn [chain_keys]. rewrite (des_ok _ _ _ _ _ HQ), (IH fu h c SG) by (cbn in Hf; lia). reflexivity.
  Qed.
  (** The keys an iterator has still to visit. *)
  Definition todo (t : tiny) (L : N -> list node) (it : titer) : list bytes :=
    match it_b it with None => [] | Some i => it_keys it ++ keys (flat L (N.to_nat (t_nb t - i)) i) end.

  Lemma read_next_ok t L : tinv t L -> forall fuel i, (N.to_nat (t_nb t - i) < fuel)%nat ->
    exists c it', read_next fuel t (mkIter (Some i) []) = Some (c, it') /\ 
      match keys (flat L (N.to_nat (t_nb t - i)) i) with
      | [] => c = NOT_FOUND_ERROR /\ it' = mkIter None []
      | k :: r => c = SUCCESS /\ exists j l, it' = mkIter (Some j) (k :: l) /\ todo t L it' = k :: r
      end /\
      (forall i' l', L i = i' :: l' -> it' = mkIter (Some (i + 1)) (keys (L i))).
  Proof.
    intros I0. induction fuel as [|fu IH]; intros i Hf; [lia|]. cbn [read_next it_b it_keys].
    destruct (N.leb_spec (t_nb t) i) as [Hi|Hi].
    - eexists. eexists. split; [reflexivity|]. replace (N.to_nat (t_nb t - i)) with O by lia. cbn. split; [auto|].
      intros x l E. rewrite (v_out _ _ _ I0 i Hi) in E. discriminate.
    - rewrite (chain_keys_ok (L i) _ _ _ (v_seg _ _ _ I0 i Hi) (fuel_enough hash t L i I0)). cbn [app].
      replace (N.to_nat (t_nb t - i)) with (S (N.to_nat (t_nb t - (i + 1)))) by lia. cbn [flat]. rewrite keys_app.
      destruct (L i) as [|[q [k v]] l] eqn:EL.
      + cbn [keys map app]. destruct (IH (i + 1) ltac:(lia)) as (c & it' & A1 & A2 & A3). exists c, it'. split; [exact A1|]. split; [exact A2|]. easy.
      + cbn [keys map app fst snd]. eexists. eexists. split; [reflexivity|]. split.
        * split; [reflexivity|]. eexists. eexists. split; [reflexivity|]. unfold todo. cbn [it_b it_keys]. reflexivity.
        * intros. reflexivity.
  Qed.
  Lemma read_keys_ok t L it : tinv t L -> exists c it', read_keys t it = Some (c, it') /\
    match todo t L it with
    | [] => c = NOT_FOUND_ERROR /\ todo t L it' = []
    | k :: r => c = SUCCESS /\ todo t L it' = k :: r /\ exists j l, it' = mkIter (Some j) (k :: l)
    end.
  Proof.
    intros I0. unfold read_keys. destruct it as [[i|] ks]; cbn [it_b it_keys]; [|eexists; eexists; split; [reflexivity|]; cbn; auto].
    destruct ks as [|k ks].
    - destruct (read_next_ok t L I0 (it_fuel t) i ltac:(unfold it_fuel; lia)) as (c & it' & A1 & A2 & _). rewrite A1. unfold todo at 1. cbn [it_b it_keys app].
      destruct (keys (flat L (N.to_nat (t_nb t - i)) i)) as [|k r].
      + destruct A2 as [-> ->]. eexists. eexists. split; [reflexivity|]. auto.
      + destruct A2 as (-> & j & l & -> & A2). eexists. eexists. split; [reflexivity|]. eauto 6.
    - eexists. eexists. split; [reflexivity|]. unfold todo. cbn. eauto 6.
  Qed.
End Ops.
