(** C33: LinkedHashMap is an ordered dictionary.  Source: /repo/tkrzw_containers.h. *)
From Coq Require Import List NArith Bool Lia PeanoNat Permutation.
Import ListNotations.
From Verif Require Import LinkedModel LinkedProofs.
Local Open Scope N_scope.

Section C33.
  Variables K V : Type.
  Variable keq : K -> K -> bool.
  Variable hash : K -> N.
  Hypothesis keq_spec : forall a b, reflect (a = b) (keq a b).

  (** Operations on one of two maps; Migrate goes to the other one. *)
  Inductive lop :=
  | LGet (k : K) (md : mode) | LSet (k : K) (v : V) (overwrite : bool) (md : mode) | LInsert (k : K) (v : V)
  | LRemove (k : K) | LMigrate (k : K) (md : mode) | LClear | LRehash (nb : N).
  (** What an operation returns. *)
  Inductive lres := RRec (r : option (K * V)) | RBool (b : bool) | RNone.

  (** Execution by the code. *)
  Record lst := mkSt { st_h : heap K V; st_1 : lmap; st_2 : lmap }.
  Definition pick (w : bool) (a b : lmap) : lmap := if w then a else b.
  Definition back (w : bool) (s : lst) (h : heap K V) (m : lmap) : lst := if w then mkSt h m (st_2 s) else mkSt h (st_1 s) m.
  Definition l_exec (s : lst) (w : bool) (o : lop) : option (lres * lst) :=
    let m := pick w (st_1 s) (st_2 s) in
    match o with
    | LGet k md => r <- lm_get keq hash (st_h s) m k md ;; Some (RRec (fst (fst r)), back w s (snd (fst r)) (snd r))
    | LSet k v ow md => r <- lm_set keq hash (st_h s) m k v ow md ;; Some (RRec (Some (fst (fst r))), back w s (snd (fst r)) (snd r))
    | LInsert k v => r <- lm_insert keq hash (st_h s) m k v ;; Some (RBool (snd (fst (fst r))), back w s (snd (fst r)) (snd r))
    | LRemove k => r <- lm_remove keq hash (st_h s) m k ;; Some (RBool (fst (fst r)), back w s (snd (fst r)) (snd r))
    | LMigrate k md =>
        r <- lm_migrate keq hash (st_h s) m (pick (negb w) (st_1 s) (st_2 s)) k md ;;
        let '(kv, h', m', d') := r in Some (RRec kv, if w then mkSt h' m' d' else mkSt h' d' m')
    | LClear => r <- lm_clear (st_h s) m ;; Some (RNone, back w s (fst r) (snd r))
    | LRehash nb => r <- lm_rehash hash (st_h s) m nb ;; Some (RNone, back w s (fst r) (snd r))
    end.
  Fixpoint l_run (s : lst) (ops : list (bool * lop)) : option (list lres * lst) :=
    match ops with
    | [] => Some ([], s)
    | (w, o) :: ops => r <- l_exec s w o ;; q <- l_run (snd r) ops ;; Some (fst r :: fst q, snd q)
    end.

  (** Specification: two lists of records. *)
  Definition look (k : K) (l : list (K * V)) : option (K * V) := find (fun kv => keq (fst kv) k) l.
  Definition drop (k : K) (l : list (K * V)) : list (K * V) := filter (fun kv => negb (keq (fst kv) k)) l.
  (** A record goes to its place: where its key is, to the first or to the last. *)
  Definition put (md : mode) (kv : K * V) (l : list (K * V)) : list (K * V) :=
    match md, look (fst kv) l with
    | MOVE_CURRENT, Some _ => map (fun x => if keq (fst x) (fst kv) then kv else x) l
    | MOVE_FIRST, _ => kv :: drop (fst kv) l
    | _, _ => drop (fst kv) l ++ [kv]
    end.
  Definition l_spec (l other : list (K * V)) (o : lop) : lres * list (K * V) * list (K * V) :=
    match o with
    | LGet k md => (RRec (look k l), match look k l with Some kv => put md kv l | None => l end, other)
    | LSet k v ow md =>
        match look k l with
        | Some kv => if ow then (RRec (Some (k, v)), put md (k, v) l, other) else (RRec (Some kv), l, other)
        | None => (RRec (Some (k, v)), put md (k, v) l, other)
        end
    | LInsert k v => match look k l with Some _ => (RBool false, l, other) | None => (RBool true, l ++ [(k, v)], other) end
    | LRemove k => (RBool (match look k l with Some _ => true | None => false end), drop k l, other)
    | LMigrate k md => (RRec (look k l), drop k l, match look k l with Some kv => put md kv other | None => other end)
    | LClear => (RNone, [], other)
    | LRehash _ => (RNone, l, other)
    end.
  Fixpoint l_spec_run (l1 l2 : list (K * V)) (ops : list (bool * lop)) : list lres * list (K * V) * list (K * V) :=
    match ops with
    | [] => ([], l1, l2)
    | (w, o) :: ops =>
        let '(r, a, b) := if w : bool then l_spec l1 l2 o else l_spec l2 l1 o in
        let '(rs, x, y) := if w then l_spec_run a b ops else l_spec_run b a ops in (r :: rs, x, y)
    end.
  (** A bucket count of zero would divide by zero. *)
  Definition op_ok (o : lop) : Prop := match o with LRehash nb => nb <> 0 | _ => True end.

  Lemma put_found md kv l : look (fst kv) l <> None -> put md kv l = s_move _ _ keq md kv l.
  Proof. unfold put, s_move. destruct md; try reflexivity. destruct (look (fst kv) l); [reflexivity|congruence]. Qed.
  Lemma look_none k l : look k l = None -> ~ In k (map fst l).
  Proof. intros H X. apply in_map_iff in X. destruct X as (kv & E & I). apply (find_none _ _ H) in I. rewrite E in I. destruct (keq_spec k k); congruence. Qed.
  Lemma put_new md kv l : look (fst kv) l = None -> put md kv l = linked md l kv.
  Proof.
    intros H. unfold put. rewrite H. assert (E : drop (fst kv) l = l) by (apply (s_del_none _ _ _ keq_spec), look_none, H). rewrite E. destruct md; reflexivity.
  Qed.
  Lemma look_key k l kv : look k l = Some kv -> fst kv = k.
  Proof. intros H. apply find_some in H. destruct H as [_ H]. destruct (keq_spec (fst kv) k); congruence. Qed.

  Lemma step_ok (h : heap K V) (m d : lmap) (L L2 : list ptr) (l l2 : list (K * V)) (o : lop) : rep _ _ hash h m L l -> rep _ _ hash h d L2 l2 -> disjoint L L2 -> op_ok o ->
    forall (w : bool) s, s = (if w then mkSt h m d else mkSt h d m) ->
    exists h' m' d' L' L2', l_exec s w o = Some (fst (fst (l_spec l l2 o)), if w then mkSt h' m' d' else mkSt h' d' m') /\
      rep _ _ hash h' m' L' (snd (fst (l_spec l l2 o))) /\ rep _ _ hash h' d' L2' (snd (l_spec l l2 o)) /\ disjoint L' L2'.
  Proof.
    intros R R2 DJ OK w s Es.
    assert (Em : pick w (st_1 s) (st_2 s) = m) by (subst s; destruct w; reflexivity). assert (Eh : st_h s = h) by (subst s; destruct w; reflexivity).
    assert (Eb : forall h' m', back w s h' m' = if w then mkSt h' m' d else mkSt h' d m') by (intros; subst s; destruct w; reflexivity).
    assert (NF : ~ In (hfresh h) L2) by (eapply rep_not_in; eauto).
    assert (KEEP : forall h' L', frame _ _ h h' L -> (forall p, In p L' -> In p L \/ p = hfresh h) -> rep _ _ hash h' d L2 l2 /\ disjoint L' L2).
    { intros h' L' F I. split; [eapply rep_frame; [exact R2|exact F|]; intros p Hp X; apply (DJ p X Hp)|]. intros p Hp X. destruct (I p Hp) as [Y| ->]; [apply (DJ p Y X)|auto]. }
    destruct o as [k md|k v ow md|k v|k|k md| |nb]; cbn [l_exec l_spec]; rewrite Em, Eh.
    - destruct (get_ok _ _ keq hash keq_spec h m L l k md R) as (h' & m' & L' & E & R' & F & P). rewrite E. cbn [obind fst snd]. rewrite Eb.
      destruct (KEEP h' L' F) as [R2' DJ']; [intros p Hp; left; eapply Permutation_in; [symmetry; exact P|exact Hp]|]. exists h', m', d, L', L2. split; [reflexivity|]. split; [|auto].
      change (s_find _ _ keq k l) with (look k l) in R'. destruct (look k l) as [kv|] eqn:EL; [|exact R']. rewrite put_found; [exact R'|]. rewrite (look_key _ _ _ EL), EL. discriminate.
    - destruct (set_ok _ _ keq hash keq_spec h m L l k v ow md R) as (h' & m' & L' & E & R' & F & P). rewrite E. cbn [obind fst snd]. rewrite Eb.
      destruct (KEEP h' L' F P) as [R2' DJ']. exists h', m', d, L', L2. change (s_find _ _ keq k l) with (look k l) in *. destruct (look k l) as [kv|] eqn:EL; [destruct ow|]; cbn [fst snd]; (split; [reflexivity|]); (split; [|auto]).
      + rewrite put_found; [exact R'|]. cbn [fst]. rewrite EL. discriminate.
      + exact R'.
      + rewrite put_new; [exact R'|exact EL].
    - destruct (insert_ok _ _ keq hash keq_spec h m L l k v R) as (h' & m' & L' & E & R' & F & P). rewrite E. cbn [obind fst snd]. rewrite Eb.
      destruct (KEEP h' L' F P) as [R2' DJ']. exists h', m', d, L', L2. change (s_find _ _ keq k l) with (look k l) in *. destruct (look k l) as [kv|] eqn:EL; cbn [fst snd]; (split; [reflexivity|]); auto.
    - destruct (remove_ok _ _ keq hash keq_spec h m L l k R) as (h' & m' & L' & E & R' & F & P & _). rewrite E. cbn [obind fst snd]. rewrite Eb.
      destruct (KEEP h' L' F) as [R2' DJ']; [intros p Hp; left; auto|]. exists h', m', d, L', L2. split; [reflexivity|]. auto.
    - assert (Ed : pick (negb w) (st_1 s) (st_2 s) = d) by (subst s; destruct w; reflexivity). rewrite Ed.
      destruct (migrate_ok _ _ keq hash keq_spec h m d L L2 l l2 k md R R2 DJ) as (h' & m' & d' & L' & L2' & E & R' & R2' & DJ' & _). rewrite E. cbn [obind fst snd].
      exists h', m', d', L', L2'. split; [reflexivity|]. split; [exact R'|]. split; [|exact DJ']. change (s_find _ _ keq k l) with (look k l) in *. destruct (look k l) as [kv|] eqn:EL; [|exact R2'].
      change (s_find _ _ keq k l2) with (look k l2) in R2'. assert (Ek := look_key _ _ _ EL). destruct (look k l2) eqn:EL2; [rewrite put_found; [exact R2'|rewrite Ek, EL2; discriminate]|]. rewrite put_new; [exact R2'|]. rewrite Ek. exact EL2.
    - destruct (clear_ok _ _ hash h m L l R) as (h' & m' & E & R' & F & _ & _). rewrite E. cbn [obind fst snd]. rewrite Eb.
      destruct (KEEP h' [] F) as [R2' DJ']; [intros p []|]. exists h', m', d, [], L2. split; [reflexivity|]. auto.
    - destruct (rehash_ok _ _ hash h m L l nb OK R) as (h' & m' & E & R' & F & _ & _). rewrite E. cbn [obind fst snd]. rewrite Eb.
      destruct (KEEP h' L F) as [R2' DJ']; [auto|]. exists h', m', d, L, L2. split; [reflexivity|]. auto.
  Qed.
  Lemma disj_sym L L' : disjoint L L' -> disjoint L' L.
  Proof. intros H p X Y. apply (H p Y X). Qed.
  Lemma run_ok ops : Forall (fun o => op_ok (snd o)) ops -> forall h m1 m2 L1 L2 l1 l2, rep _ _ hash h m1 L1 l1 -> rep _ _ hash h m2 L2 l2 -> disjoint L1 L2 ->
    exists h' m1' m2' L1' L2', l_run (mkSt h m1 m2) ops = Some (fst (fst (l_spec_run l1 l2 ops)), mkSt h' m1' m2') /\
      rep _ _ hash h' m1' L1' (snd (fst (l_spec_run l1 l2 ops))) /\ rep _ _ hash h' m2' L2' (snd (l_spec_run l1 l2 ops)).
  Proof.
    induction 1 as [|[w o] ops OK _ IH]; intros h m1 m2 L1 L2 l1 l2 R1 R2 DJ; cbn [l_run l_spec_run].
    - exists h, m1, m2, L1, L2. auto.
    - cbn [snd] in OK. destruct w.
      + destruct (step_ok _ _ _ _ _ _ _ _ R1 R2 DJ OK true _ eq_refl) as (h' & m' & d' & L' & L2' & E & R1' & R2' & DJ'). rewrite E. cbn [obind fst snd].
        destruct (l_spec l1 l2 o) as [[r a] b]. cbn [fst snd] in *. destruct (IH _ _ _ _ _ _ _ R1' R2' DJ') as (h2 & x & y & L3 & L4 & E2 & R3 & R4). rewrite E2. cbn [obind fst snd]. destruct (l_spec_run a b ops) as [[rs p] q]. cbn [fst snd] in *. exists h2, x, y, L3, L4. auto.
      + destruct (step_ok _ _ _ _ _ _ _ _ R2 R1 (disj_sym _ _ DJ) OK false _ eq_refl) as (h' & m' & d' & L' & L2' & E & R1' & R2' & DJ'). rewrite E. cbn [obind fst snd].
        destruct (l_spec l2 l1 o) as [[r a] b]. cbn [fst snd] in *. destruct (IH _ _ _ _ _ _ _ R2' R1' (disj_sym _ _ DJ')) as (h2 & x & y & L3 & L4 & E2 & R3 & R4). rewrite E2. cbn [obind fst snd]. destruct (l_spec_run b a ops) as [[rs p] q]. cbn [fst snd] in *. exists h2, x, y, L3, L4. auto.
  Qed.

  (** Whatever the hash function (all keys in one bucket, say), the bucket counts and the
      history: no null or freed record is ever touched, every operation returns what the
      specification says, and iterating forward or backward, size(), front(), back() and
      find() all show the specified list. *)
  Theorem C33_history nb1 nb2 ops : Forall (fun o => op_ok (snd o)) ops ->
    let '(rs, l1, l2) := l_spec_run [] [] ops in
    exists s, l_run (mkSt heap0 (lm_new nb1) (lm_new nb2)) ops = Some (rs, s) /\
      forall m l, (m, l) = (st_1 s, l1) \/ (m, l) = (st_2 s, l2) ->
        lm_items (st_h s) m = Some l /\ lm_items_back (st_h s) m = Some (rev l) /\ lm_size m = N.of_nat (length l) /\
        lm_front (st_h s) m = hd_error l /\ lm_back (st_h s) m = hd_error (rev l) /\
        (forall k, lm_find keq hash (st_h s) m k = Some (look k l)) /\ NoDup (map fst l).
  Proof.
    intros H. destruct (run_ok ops H heap0 (lm_new nb1) (lm_new nb2) [] [] [] [] (new_ok _ _ hash _ _) (new_ok _ _ hash _ _) ltac:(intros p [])) as (h' & m1' & m2' & L1' & L2' & E & R1 & R2).
    destruct (l_spec_run [] [] ops) as [[rs l1] l2]. cbn [fst snd] in *. eexists. split; [exact E|]. cbn [st_1 st_2 st_h].
    intros m l [X|X]; injection X as -> ->.
    - destruct (items_ok _ _ keq hash keq_spec _ _ _ _ R1) as (A1 & A2 & A3 & A4 & A5 & A6). repeat split; auto. apply (r_keys _ _ _ _ _ _ _ R1).
    - destruct (items_ok _ _ keq hash keq_spec _ _ _ _ R2) as (A1 & A2 & A3 & A4 & A5 & A6). repeat split; auto. apply (r_keys _ _ _ _ _ _ _ R2).
  Qed.

  (** The order only changes as the mode says: reading keeps the records, and reading
      without a mode changes nothing. *)
  Theorem C33_get_order md k l : NoDup (map fst l) ->
    let '(r, l', _) := l_spec l [] (LGet k md) in
    Permutation l l' /\ (md = MOVE_CURRENT \/ look k l = None -> l' = l) /\
    (forall v, look k l = Some (k, v) -> md = MOVE_FIRST -> hd_error l' = Some (k, v)) /\
    (forall v, look k l = Some (k, v) -> md = MOVE_LAST -> exists q, l' = q ++ [(k, v)]).
  Proof.
    intros ND. cbn [l_spec]. destruct (look k l) as [kv|] eqn:E; [|repeat split; auto; discriminate].
    assert (Ek := look_key _ _ _ E). destruct (find_some _ _ E) as [I _]. apply in_split in I. destruct I as (la & lb & ->).
    assert (NK : forall x, In x (la ++ lb) -> fst x <> fst kv). { intros x Hx X. rewrite map_app in ND. cbn [map] in ND. apply NoDup_remove_2 in ND. apply ND. rewrite <- map_app, <- X. apply in_map, Hx. }
    rewrite put_found by (rewrite Ek, E; discriminate).
    destruct (s_split _ _ _ keq_spec la lb kv NK (snd kv) md) as (_ & _ & S3). rewrite <- surjective_pairing in S3. rewrite S3. split; [apply placed_perm|]. split; [intros [->|X]; [reflexivity|discriminate]|].
    split; intros v X ->; injection X as ->; [reflexivity|]. eexists. reflexivity.
  Qed.

  (** operator[] is documented to refer to the record and to create one only if there is
      none; it overwrites the existing value with the default one. *)
  Theorem C33_subscript_refuted (dflt : V) (nb : N) (k : K) (v : V) : v <> dflt ->
    exists h m h' m', (r <- lm_set keq hash heap0 (lm_new nb) k v true MOVE_CURRENT ;; Some (snd (fst r), snd r)) = Some (h, m) /\
      lm_find keq hash h m k = Some (Some (k, v)) /\
      lm_subscript keq hash dflt h m k = Some (dflt, h', m') /\ lm_find keq hash h' m' k = Some (Some (k, dflt)).
  Proof.
    intros NV. destruct (set_ok _ _ keq hash keq_spec heap0 (lm_new nb) [] [] k v true MOVE_CURRENT (new_ok _ _ hash _ _)) as (h & m & L & E & R & _). cbn [s_find find linked app] in E, R.
    destruct (set_ok _ _ keq hash keq_spec h m L _ k dflt true MOVE_CURRENT R) as (h2 & m2 & L2 & E2 & R2 & _).
    assert (X : keq k k = true) by (destruct (keq_spec k k); congruence). cbn [s_find find fst s_move map] in E2, R2. rewrite X in E2, R2.
    destruct (items_ok _ _ keq hash keq_spec _ _ _ _ R) as (_ & _ & _ & _ & _ & F1). destruct (items_ok _ _ keq hash keq_spec _ _ _ _ R2) as (_ & _ & _ & _ & _ & F2).
    exists h, m, h2, m2. rewrite E. split; [reflexivity|]. split; [|split].
    - rewrite F1. unfold s_find. cbn [find fst]. rewrite X. reflexivity.
    - unfold lm_subscript. rewrite E2. reflexivity.
    - rewrite F2. unfold s_find. cbn [find fst]. rewrite X. reflexivity.
  Qed.
  (** rehash(0) leaves a map on which every lookup divides by zero. *)
  Theorem C33_rehash_zero (h : heap K V) m k m' h' : lm_rehash hash h m 0 = Some (h', m') -> lm_find keq hash h' m' k = None.
  Proof.
    unfold lm_rehash. generalize (S (hfresh h)). intros fuel. set (m0 := mkM (fun _ => None) 0 (mfirst m) (mlast m) (mnum m)). assert (Z : mnb m0 = 0) by reflexivity.
    intros E. assert (X : mnb m' = 0).
    { revert E. generalize (mfirst m). generalize dependent m0. revert h. induction fuel as [|fu IH]; intros h m0 Z x; cbn; [discriminate|]. destruct x as [p|]; [|intros Y; injection Y as <- <-; exact Z].
      unfold get_kv, bucket_of. destruct (hk h p); cbn; [|discriminate]. rewrite Z. discriminate. }
    unfold lm_find, bucket_of. rewrite X. reflexivity.
  Qed.
End C33.
Print Assumptions C33_history.
Print Assumptions C33_get_order.
Print Assumptions C33_subscript_refuted.
Print Assumptions C33_rehash_zero.

(** A history with collisions, a rehash and a migration. *)
Example C33_ex : let ops := [(true, LSet _ _ 1 10 true MOVE_CURRENT); (true, LSet _ _ 2 20 true MOVE_LAST); (true, LSet _ _ 3 30 true MOVE_FIRST); (false, LSet _ _ 2 99 true MOVE_LAST);
    (true, LGet _ _ 1 MOVE_LAST); (true, LRehash _ _ 7); (true, LMigrate _ _ 2 MOVE_FIRST); (true, LGet _ _ 2 MOVE_CURRENT); (false, LInsert _ _ 5 50); (true, LRemove _ _ 3)] in
  option_map fst (l_run _ _ N.eqb (fun _ => 0) (mkSt _ _ heap0 (lm_new 1) (lm_new 0)) ops) =
    Some [RRec _ _ (Some (1, 10)); RRec _ _ (Some (2, 20)); RRec _ _ (Some (3, 30)); RRec _ _ (Some (2, 99)); RRec _ _ (Some (1, 10)); RNone _ _; RRec _ _ (Some (2, 20)); RRec _ _ None; RBool _ _ true; RBool _ _ true] /\
  snd (fst (l_spec_run _ _ N.eqb [] [] ops)) = [(1, 10)] /\ snd (l_spec_run _ _ N.eqb [] [] ops) = [(2, 20); (5, 50)].
Proof. vm_compute. auto. Qed.
