(** C11: TinyDBM.  Source: /repo/tkrzw_dbm_tiny.cc. *)
From Coq Require Import List NArith ZArith Bool Lia Arith.
Import ListNotations.
From Verif Require Import Bytes CodecModel HashUtilModel HashDbLayout DbmModel StatusModel PrimeModel PrimeProps TinyModel TinyProofs TinyOps.
Local Open Scope N_scope.

(** * Specification *)
(** The keys of a map, each once, in some order. *)
Definition enumerates (ks : list bytes) (m : amap) : Prop := NoDup ks /\ forall k, In k ks <-> m k <> None.

Section Spec.
  Variable S : Type.
  (** The calls on a database.  The processors may keep any state [S], so whatever they are shown can be recorded in it. *)
  Inductive op :=
  | OProcess (k : bytes) (p : proc S) (w : bool)
  | OMulti (l : list (bytes * proc S)) (w : bool)
  | OAppend (k v delim : bytes)
  | OFirst (p : proc S) (w : bool)
  | OEach (p : proc S) (w : bool)
  | OClear
  | ORebuild (nb : N).
  (** What each call may do to the map and to the processors' state. *)
  Inductive sstep (m : amap) (s : S) : op -> amap -> S -> Prop :=
  | SProcess k p w m' : same_map m' (fst (ref_process m k p w s)) -> sstep m s (OProcess k p w) m' (snd (ref_process m k p w s))
  | SMulti l w m' : same_map m' (fst (ref_multi m l w s)) -> sstep m s (OMulti l w) m' (snd (ref_multi m l w s))
  | SAppend k v d m' : same_map m' (aset m k (match m k with Some old => old ++ d ++ v | None => v end)) -> sstep m s (OAppend k v d) m' s
  | SFirstNone p w m' : (forall k, m k = None) -> same_map m' m -> sstep m s (OFirst p w) m' s
  | SFirst p w k v m' : m k = Some v -> same_map m' (fst (ref_process m k p w s)) -> sstep m s (OFirst p w) m' (snd (ref_process m k p w s))
  | SEach p w ks m' : enumerates ks m -> same_map m' (fst (ref_multi m (map (fun k => (k, p)) ks) w s)) ->
      sstep m s (OEach p w) m' (snd (ref_multi m (map (fun k => (k, p)) ks) w s))
  | SClear m' : same_map m' aempty -> sstep m s OClear m' s
  | SRebuild nb m' : same_map m' m -> sstep m s (ORebuild nb) m' s.
  Inductive ssteps : amap -> S -> list op -> amap -> S -> Prop :=
  | SNil m s : ssteps m s [] m s
  | SCons m s o r m1 s1 m2 s2 : sstep m s o m1 s1 -> ssteps m1 s1 r m2 s2 -> ssteps m s (o :: r) m2 s2.
  (** No record comes to be whose block would have 2^31 bytes or more; such a record overflows int32_t in TinyRecord. *)
  Definition small (m : amap) (s : S) (o : op) : Prop :=
    match o with
    | OProcess k p w => ok_multi m [(k, p)] w s
    | OMulti l w => ok_multi m l w s
    | OAppend k v d => fits (blen k) (blen (match m k with Some old => old ++ d ++ v | None => v end)) = true
    | OFirst p w => forall k, m k <> None -> ok_multi m [(k, p)] w s
    | OEach p w => forall ks, enumerates ks m -> ok_multi m (map (fun k => (k, p)) ks) w s
    | OClear | ORebuild _ => True
    end.
  Fixpoint all_small (m : amap) (s : S) (l : list op) : Prop :=
    match l with [] => True | o :: r => small m s o /\ forall m' s', sstep m s o m' s' -> all_small m' s' r end.
End Spec.
Arguments OProcess {S}. Arguments OMulti {S}. Arguments OAppend {S}. Arguments OFirst {S}. Arguments OEach {S}. Arguments OClear {S}. Arguments ORebuild {S}.
Arguments ssteps {S}. Arguments sstep {S}. Arguments all_small {S}. Arguments small {S}.

Section C11.
  Variable hash : bytes -> N -> N.
  Variable bucket_size : N -> N.
  Hypothesis hash_lt : forall k nb, 0 < nb -> hash k nb < nb.
  Hypothesis size_pos : forall n, 0 < bucket_size n.

  (** The calls of the model; the flag says whether realloc moves blocks. *)
  Definition t_call {S} (t : tiny) (s : S) (om : op S * bool) : option (tiny * S) :=
    let moved := snd om in
    match fst om with
    | OProcess k p w => t_process hash t k p w moved s
    | OMulti l w => t_multi hash t l w moved s
    | OAppend k v d => match t_append hash t k v d moved with Some t' => Some (t', s) | None => None end
    | OFirst p w => match t_first t p w moved s with Some (_, t', s') => Some (t', s') | None => None end
    | OEach p w => t_each t p w moved s
    | OClear => match t_clear t with Some t' => Some (t', s) | None => None end
    | ORebuild n => match t_rebuild hash bucket_size t n with Some t' => Some (t', s) | None => None end
    end.
  Fixpoint t_run {S} (t : tiny) (s : S) (l : list (op S * bool)) : option (tiny * S) :=
    match l with [] => Some (t, s) | o :: r => match t_call t s o with Some (t', s') => t_run t' s' r | None => None end end.

  Definition reps (t : tiny) (m : amap) : Prop := exists L, 0 < t_nb t /\ tinv hash t L /\ same_map m (view hash (t_nb t) L).

  Lemma reps_new n : reps (t_new bucket_size n) aempty.
  Proof.
    exists (fun _ => []). unfold t_new. cbn [t_nb]. split; [destruct (0 <? n); [apply size_pos|lia]|]. split; [apply (tinv_empty hash)|]. intros x. reflexivity.
  Qed.
  Lemma same_sym (a b : amap) : same_map a b -> same_map b a.
  Proof. intros H x. symmetry. apply H. Qed.
  Lemma same_trans (a b c : amap) : same_map a b -> same_map b c -> same_map a c.
  Proof. intros H G x. rewrite H. apply G. Qed.
  Lemma enum_items t L m : 0 < t_nb t -> tinv hash t L -> same_map m (view hash (t_nb t) L) ->
    enumerates (keys (flat L (N.to_nat (t_nb t)) 0)) m.
  Proof.
    intros H0 I0 SM. split; [apply (flat_nodup hash bucket_size hash_lt size_pos t L I0); lia|]. intros k. rewrite SM, keys_items. fold (items t L). split.
    - intros I. apply in_map_iff in I. destruct I as ([k' v] & <- & I). apply (view_in hash hash_lt) in I; auto. cbn. congruence.
    - intros X. destruct (view hash (t_nb t) L k) as [v|] eqn:E; [|congruence]. apply (view_in hash hash_lt) in E; auto.
      apply (in_map fst) in E. exact E.
  Qed.

  Lemma call_ok {S} t m (s : S) o b : reps t m -> small m s o -> exists t' s' m', t_call t s (o, b) = Some (t', s') /\ reps t' m' /\ sstep m s o m' s'.
  Proof.
    intros (L & H0 & I0 & SM) OK. assert (SM' := same_sym _ _ SM). unfold t_call. cbn [fst snd]. destruct o as [k p w|l w|k v d|p w|p w| |n]; cbn [small] in OK.
    - destruct OK as [OK _]. rewrite (call_same _ _ k p s SM) in OK.
      destruct (process_ok hash hash_lt t L k p w b s H0 I0 OK) as (t' & L' & A1 & A2 & A3 & A4 & _).
      destruct (ref_process_same _ _ k p w s SM) as [B1 B2]. rewrite <- B2 in A1. do 2 eexists. exists (view hash (t_nb t) L'). split; [exact A1|]. split.
      + exists L'. rewrite A2. split; [exact H0|]. split; [exact A3|]. intros x. reflexivity.
      + constructor. eapply same_trans; [exact A4|]. apply same_sym, B1.
    - apply (ok_multi_same l w _ _ s SM) in OK. destruct (multi_ok hash hash_lt l w b t L s H0 I0 OK) as (t' & L' & A1 & A2 & A3 & A4).
      destruct (ref_multi_same l w _ _ s SM) as [B1 B2]. rewrite <- B2 in A1. do 2 eexists. exists (view hash (t_nb t) L'). split; [exact A1|]. split.
      + exists L'. rewrite A2. split; [exact H0|]. split; [exact A3|]. intros x. reflexivity.
      + constructor. eapply same_trans; [exact A4|]. apply same_sym, B1.
    - destruct (append_db_ok hash hash_lt t L k v d b H0 I0) as (t' & L' & A1 & A2 & A3 & A4).
      { unfold call. rewrite <- SM. destruct (m k) as [old|]; cbn; [destruct d; exact OK|exact OK]. }
      rewrite A1. do 2 eexists. exists (view hash (t_nb t) L'). split; [reflexivity|]. split.
      + exists L'. rewrite A2. split; [exact H0|]. split; [exact A3|]. intros x. reflexivity.
      + constructor. eapply same_trans; [exact A4|]. unfold ref_process, call. rewrite <- SM. intros x. destruct (m k) as [old|]; cbn.
        * unfold aset. destruct (beqb k x); [destruct d; reflexivity|apply SM'].
        * unfold aset. destruct (beqb k x); [reflexivity|apply SM'].
    - pose proof (first_ok hash bucket_size hash_lt size_pos p w b (N.to_nat (t_nb t)) 0 t L s H0 I0 ltac:(lia)) as F. unfold t_first.
      destruct (flat L (N.to_nat (t_nb t)) 0) as [|[q [k v]] l] eqn:EF.
      + rewrite F. do 2 eexists. exists m. split; [reflexivity|]. split; [exists L; auto|]. apply SFirstNone; [|intros x; reflexivity].
        intros k. rewrite SM. destruct (view hash (t_nb t) L k) as [v|] eqn:E; [|reflexivity]. apply (view_in hash hash_lt) in E; auto.
        unfold items in E. rewrite EF in E. easy.
      + assert (MK : m k = Some v).
        { rewrite SM. apply (view_in hash hash_lt); auto. unfold items. rewrite EF. left. reflexivity. }
        assert (CL : call m k p s = on_full p k v s) by (unfold call; rewrite MK; reflexivity).
        destruct (OK k ltac:(congruence)) as [OK' _]. rewrite CL in OK'. destruct (F OK') as (_ & t' & L' & A1 & A2 & A3 & A4). rewrite A1.
        do 2 eexists. exists (view hash (t_nb t) L'). split; [reflexivity|]. split.
        * exists L'. rewrite A2. split; [exact H0|]. split; [exact A3|]. intros x. reflexivity.
        * destruct (ref_process_same _ _ k p w s SM) as [B1 B2].
          replace (snd (on_full p k v s)) with (snd (ref_process m k p w s)) by (unfold ref_process; rewrite CL; destruct (on_full p k v s); reflexivity).
          eapply SFirst; [exact MK|]. eapply same_trans; [exact A4|]. apply same_sym, B1.
    - pose proof (enum_items t L m H0 I0 SM) as EN. pose proof (ok_multi_same _ w _ _ s SM (OK _ EN)) as OK'.
      destruct (each_from_ok hash bucket_size hash_lt size_pos p w b (N.to_nat (t_nb t)) 0 t L s H0 I0 ltac:(lia) OK') as (t' & L' & A1 & A2 & A3 & A4). unfold t_each.
      destruct (ref_multi_same (map (fun k => (k, p)) (keys (flat L (N.to_nat (t_nb t)) 0))) w _ _ s SM) as [B1 B2]. rewrite <- B2 in A1.
      do 2 eexists. exists (view hash (t_nb t) L'). split; [exact A1|]. split.
      + exists L'. rewrite A2. split; [exact H0|]. split; [exact A3|]. intros x. reflexivity.
      + apply SEach; [exact EN|]. eapply same_trans; [exact A4|]. apply same_sym, B1.
    - destruct (clear_ok hash bucket_size hash_lt size_pos t L I0) as (t' & A1 & A2 & A3). rewrite A1. do 2 eexists. exists aempty. split; [reflexivity|]. split.
      + exists (fun _ => []). rewrite A2. split; [exact H0|]. split; [exact A3|]. intros x. reflexivity.
      + constructor. intros x. reflexivity.
    - destruct (rebuild_ok hash bucket_size hash_lt size_pos t L n H0 I0) as (t' & L' & A1 & A2 & A3 & A4 & A5). rewrite A1.
      do 2 eexists. exists m. split; [reflexivity|]. split.
      + exists L'. split; [exact A2|]. split; [exact A3|]. eapply same_trans; [exact SM|]. apply same_sym, A5.
      + constructor. intros x. reflexivity.
  Qed.

  (** Any history of calls, from a new database with any number of buckets: no undefined behaviour, every processor sees exactly the
      record the map specification gives it, and the final database represents the final map. *)
  Theorem C11_history {S} n (ops : list (op S * bool)) (s : S) : all_small aempty s (map fst ops) ->
    exists t' s' m', t_run (t_new bucket_size n) s ops = Some (t', s') /\ ssteps aempty s (map fst ops) m' s' /\ reps t' m'.
  Proof.
    assert (G : forall t m, reps t m -> all_small m s (map fst ops) ->
      exists t' s' m', t_run t s ops = Some (t', s') /\ ssteps m s (map fst ops) m' s' /\ reps t' m').
    { revert s. induction ops as [|[o b] ops IH]; intros s t m R OK.
      - exists t, s, m. split; [reflexivity|]. split; [constructor|exact R].
      - cbn [map fst all_small] in OK. destruct OK as [O1 O2]. destruct (call_ok t m s o b R O1) as (t1 & s1 & m1 & A1 & A2 & A3).
        destruct (IH s1 t1 m1 A2 (O2 _ _ A3)) as (t2 & s2 & m2 & B1 & B2 & B3). exists t2, s2, m2. cbn [t_run]. rewrite A1. split; [exact B1|]. split; [|exact B3].
        cbn. econstructor; eauto. }
    intros OK. apply (G _ aempty (reps_new n) OK).
  Qed.

  (** Count is exact. *)
  Theorem C11_count t m : reps t m -> (0 <= t_num t)%Z /\ acount m (Z.to_nat (t_num t)).
  Proof.
    intros (L & H0 & I0 & SM). pose proof (items_count hash t L I0) as E. rewrite E, Nat2Z.id. split; [lia|].
    destruct (enum_items t L m H0 I0 SM) as [A B]. exists (keys (flat L (N.to_nat (t_nb t)) 0)). split; [exact A|]. split; [|exact B].
    unfold items, keys. rewrite !map_length. reflexivity.
  Qed.

  (** Looking up a key shows exactly the record of the map and changes nothing. *)
  Definition look : proc (option bytes) := mkProc (fun _ v _ => (ANoop, Some v)) (fun _ _ => (ANoop, None)).
  Theorem C11_get t m k b s : reps t m -> t_process hash t k look false b s = Some (t, m k).
  Proof.
    intros (L & H0 & I0 & SM). unfold t_process.
    rewrite (read_only hash t L k _ look b s eq_refl I0 (hash_lt k _ H0)). do 2 f_equal. unfold call. rewrite <- SM. destruct (m k); reflexivity.
  Qed.

  (** ProcessFirst reports false exactly if the database is empty. *)
  Theorem C11_first_found {S} t m (p : proc S) w b s : reps t m -> small m s (OFirst p w) ->
    exists f t' s', t_first t p w b s = Some (f, t', s') /\ (f = false <-> forall k, m k = None).
  Proof.
    intros (L & H0 & I0 & SM) OK. pose proof (first_ok hash bucket_size hash_lt size_pos p w b (N.to_nat (t_nb t)) 0 t L s H0 I0 ltac:(lia)) as F. unfold t_first.
    destruct (flat L (N.to_nat (t_nb t)) 0) as [|[q [k v]] l] eqn:EF.
    - rewrite F. do 3 eexists. split; [reflexivity|]. split; [intros _ k|reflexivity]. rewrite SM.
      destruct (view hash (t_nb t) L k) as [v|] eqn:E; [|reflexivity]. apply (view_in hash hash_lt) in E; auto. unfold items in E. rewrite EF in E. easy.
    - assert (MK : m k = Some v) by (rewrite SM; apply (view_in hash hash_lt); auto; unfold items; rewrite EF; left; reflexivity).
      destruct (OK k ltac:(congruence)) as [OK' _]. unfold call in OK'. rewrite MK in OK'. destruct (F OK') as (_ & t' & L' & A1 & _).
      rewrite A1. do 3 eexists. split; [reflexivity|]. split; [discriminate|]. intros X. rewrite X in MK. discriminate.
  Qed.

  (** * Iterators *)
  (** A loop over an iterator: Process, then Next unless the processor has asked to remove the record. *)
  Definition tag {S} (p : proc S) : proc (action * S) :=
    mkProc (fun k v '(_, s) => let '(a, s') := on_full p k v s in (a, (a, s'))) (fun k '(_, s) => let '(a, s') := on_empty p k s in (a, (a, s'))).
  Fixpoint sweep {S} (fuel : nat) (t : tiny) (it : titer) (p : proc S) (w b : bool) (s : S) : option (tiny * S) :=
    match fuel with
    | O => None
    | Datatypes.S fu =>
        match it_process hash t it (tag p) w b (ANoop, s) with
        | Some (SUCCESS, t1, it1, (a, s1)) =>
            match a with
            | ARemove => sweep fu t1 it1 p w b s1
            | _ => match it_next t1 it1 with Some (SUCCESS, it2) => sweep fu t1 it2 p w b s1 | _ => None end
            end
        | Some (NOT_FOUND_ERROR, t1, _, _) => Some (t1, s)
        | _ => None
        end
    end.

  Lemma todo_frame t t' L L' it i : t_nb t' = t_nb t -> (forall j, j <> i -> L' j = L j) -> (forall j, it_b it = Some j -> i < j) ->
    todo t' L' it = todo t L it.
  Proof.
    intros E F H. unfold todo. destruct (it_b it) as [j|]; [|reflexivity]. rewrite E. do 2 f_equal. apply flat_ext. intros x Hx. apply F.
    specialize (H j eq_refl). lia.
  Qed.

  Lemma process_at {S} t L it (p : proc S) w b s k r : 0 < t_nb t -> tinv hash t L -> todo t L it = k :: r ->
    NoDup (k :: r) -> view hash (t_nb t) L k <> None -> ok_multi (view hash (t_nb t) L) [(k, p)] w s ->
    exists v t' L' it', view hash (t_nb t) L k = Some v /\
      it_process hash t it p w b s = Some (SUCCESS, t', it', snd (on_full p k v s)) /\
      t_nb t' = t_nb t /\ tinv hash t' L' /\
      same_map (view hash (t_nb t) L') (fst (ref_process (view hash (t_nb t) L) k p w s)) /\
      todo t' L' it' = match fst (on_full p k v s) with ARemove => r | _ => k :: r end.
  Proof.
    intros H0 I0 ET ND PR [OK _]. destruct (read_keys_ok hash bucket_size hash_lt size_pos t L it I0) as (c & it1 & A1 & A2). rewrite ET in A2.
    destruct A2 as (-> & A2 & j & l & ->). unfold it_process. rewrite A1. cbn [it_keys it_b].
    destruct (view hash (t_nb t) L k) as [v|] eqn:FV; [|congruence]. exists v. unfold call in OK. rewrite FV in OK.
    assert (CW : call (view hash (t_nb t) L) k (wrapped p) (None, s) = (fst (on_full p k v s), (Some (fst (on_full p k v s)), snd (on_full p k v s)))).
    { unfold call. rewrite FV. cbn. destruct (on_full p k v s). reflexivity. }
    destruct (process_ok hash hash_lt t L k (wrapped p) w b (None, s) H0 I0) as (t' & L' & B1 & B2 & B3 & B4 & B5 & _).
    { rewrite CW. exact OK. }
    unfold ref_process in B1. rewrite CW in B1. cbn [snd] in B1. rewrite B1. cbn [fst snd].
    assert (SM : same_map (view hash (t_nb t) L') (fst (ref_process (view hash (t_nb t) L) k p w s))).
    { unfold ref_process in *. rewrite CW in B4. cbn [fst] in B4. unfold call. rewrite FV. destruct (on_full p k v s). exact B4. }
    unfold todo in A2. cbn [it_b it_keys] in A2.
    assert (HJ : hash k (t_nb t) < j).
    { destruct (N.ltb_spec (hash k (t_nb t)) j) as [X|X]; [exact X|]. exfalso. inversion ND as [|? ? NI _]; subst. apply NI.
      assert (r = l ++ keys (flat L (N.to_nat (t_nb t - j)) j)) as -> by (cbn [app] in A2; congruence). apply in_or_app. right.
      unfold view in FV. apply find_some in FV; [|apply (v_nodup _ _ _ I0)]. destruct FV as (q & FV).
      apply (in_map (fun n : node => fst (snd n)) _ (q, (k, v))). apply flat_in. exists (hash k (t_nb t)). split; [|exact FV]. specialize (hash_lt k _ H0). lia. }
    assert (TD : forall ks, todo t' L' (mkIter (Some j) ks) = ks ++ keys (flat L (N.to_nat (t_nb t - j)) j)).
    { intros ks. rewrite (todo_frame t t' L L' _ (hash k (t_nb t)) B2 B5); [reflexivity|]. cbn. intros j' E. injection E as <-. exact HJ. }
    assert (ER : r = l ++ keys (flat L (N.to_nat (t_nb t - j)) j)) by (cbn [app] in A2; congruence).
    destruct (fst (on_full p k v s)); exists t', L'; eexists; (split; [reflexivity|]); (split; [reflexivity|]); (split; [exact B2|]); (split; [exact B3|]); (split; [exact SM|]);
      rewrite TD, ER; reflexivity.
  Qed.
  Lemma next_at t L it k r : tinv hash t L -> todo t L it = k :: r -> exists it', it_next t it = Some (SUCCESS, it') /\ todo t L it' = r.
  Proof.
    intros I0 ET. destruct (read_keys_ok hash bucket_size hash_lt size_pos t L it I0) as (c & it1 & A1 & A2). rewrite ET in A2.
    destruct A2 as (-> & A2 & j & l & ->). unfold it_next. rewrite A1. eexists. split; [reflexivity|]. unfold todo in *. cbn [it_b it_keys tl app] in *. congruence.
  Qed.
  Lemma end_at {S} t L it (p : proc S) w b s : tinv hash t L -> todo t L it = [] ->
    exists it', it_process hash t it p w b s = Some (NOT_FOUND_ERROR, t, it', s) /\ todo t L it' = [].
  Proof.
    intros I0 ET. destruct (read_keys_ok hash bucket_size hash_lt size_pos t L it I0) as (c & it1 & A1 & A2). rewrite ET in A2.
    destruct A2 as (-> & A2). unfold it_process. rewrite A1. eauto.
  Qed.

  Lemma sweep_ok {S} (p : proc S) w b : forall r fuel t L it s, 0 < t_nb t -> tinv hash t L -> todo t L it = r -> NoDup r ->
    (forall k, In k r -> view hash (t_nb t) L k <> None) -> (length r < fuel)%nat -> ok_multi (view hash (t_nb t) L) (map (fun k => (k, p)) r) w s ->
    exists t' L', sweep fuel t it p w b s = Some (t', snd (ref_multi (view hash (t_nb t) L) (map (fun k => (k, p)) r) w s)) /\
      t_nb t' = t_nb t /\ tinv hash t' L' /\ same_map (view hash (t_nb t) L') (fst (ref_multi (view hash (t_nb t) L) (map (fun k => (k, p)) r) w s)).
  Proof.
    induction r as [|k r IH]; intros fuel t L it s H0 I0 ET ND PR Hf OK; (destruct fuel as [|fu]; [cbn in Hf; lia|]); cbn [sweep].
    - destruct (end_at t L it (tag p) w b (ANoop, s) I0 ET) as (it' & A1 & _). rewrite A1. exists t, L. cbn. split; [reflexivity|]. split; [reflexivity|]. split; [exact I0|]. intros x. reflexivity.
    - cbn [map ok_multi ref_multi] in *. destruct OK as [O1 O2].
      assert (PK : view hash (t_nb t) L k <> None) by (apply PR; left; reflexivity).
      destruct (view hash (t_nb t) L k) as [v0|] eqn:FV; [|congruence].
      assert (CT : call (view hash (t_nb t) L) k (tag p) (ANoop, s) = (fst (on_full p k v0 s), (fst (on_full p k v0 s), snd (on_full p k v0 s)))).
      { unfold call. rewrite FV. cbn. destruct (on_full p k v0 s). reflexivity. }
      assert (CP : call (view hash (t_nb t) L) k p s = on_full p k v0 s) by (unfold call; rewrite FV; reflexivity).
      destruct (process_at t L it (tag p) w b (ANoop, s) k r H0 I0 ET ND) as (v & t1 & L1 & it1 & A0 & A1 & A2 & A3 & A4 & A5).
      { congruence. }
      { cbn. rewrite CT. cbn. rewrite CP in O1. auto. }
      assert (v = v0) as -> by congruence.
      assert (ON : on_full (tag p) k v0 (ANoop, s) = (fst (on_full p k v0 s), (fst (on_full p k v0 s), snd (on_full p k v0 s)))).
      { cbn. destruct (on_full p k v0 s). reflexivity. }
      rewrite ON in A1, A5. cbn [fst snd] in A1, A5. rewrite A1.
      assert (SM : same_map (fst (ref_process (view hash (t_nb t) L) k p w s)) (view hash (t_nb t) L1)).
      { apply same_sym. eapply same_trans; [exact A4|]. unfold ref_process. rewrite CT, CP. destruct (on_full p k v0 s). intros x. reflexivity. }
      assert (SN : snd (ref_process (view hash (t_nb t) L) k p w s) = snd (on_full p k v0 s)).
      { unfold ref_process. rewrite CP. destruct (on_full p k v0 s). reflexivity. }
      inversion ND as [|? ? NI ND']; subst.
      assert (PR' : forall x, In x r -> view hash (t_nb t1) L1 x <> None).
      { intros x Hx. rewrite A2, <- SM. unfold ref_process. rewrite CP. destruct (on_full p k v0 s) as [a s']. cbn [fst].
        assert (NX : beqb k x = false) by (destruct (beqb_spec k x); [subst; contradiction|reflexivity]).
        assert (view hash (t_nb t) L x <> None) as PX by (apply PR; right; exact Hx).
        destruct w; [|exact PX]. destruct a; cbn; unfold adel, aset; rewrite ?NX; exact PX. }
      assert (GO : forall it2, todo t1 L1 it2 = r -> exists t' L',
        sweep fu t1 it2 p w b (snd (on_full p k v0 s)) = Some (t', snd (let '(m', s') := ref_process (view hash (t_nb t) L) k p w s in ref_multi m' (map (fun k => (k, p)) r) w s')) /\
        t_nb t' = t_nb t /\ tinv hash t' L' /\ same_map (view hash (t_nb t) L') (fst (let '(m', s') := ref_process (view hash (t_nb t) L) k p w s in ref_multi m' (map (fun k => (k, p)) r) w s'))).
      { intros it2 E2. rewrite <- SN. destruct (ref_process (view hash (t_nb t) L) k p w s) as [m1 s1]. cbn [fst snd] in *.
        rewrite A2 in PR'. destruct (IH fu t1 L1 it2 s1) as (t2 & L2 & B1 & B2 & B3 & B4); rewrite ?A2; auto; try (cbn in Hf; lia).
        { eapply ok_multi_same; [exact SM|exact O2]. }
        rewrite A2 in B1, B2, B4. destruct (ref_multi_same (map (fun k => (k, p)) r) w m1 (view hash (t_nb t) L1) s1 SM) as [C1 C2].
        exists t2, L2. rewrite C2. split; [exact B1|]. split; [congruence|]. split; [exact B3|]. intros x. rewrite C1. apply B4. }
      destruct (fst (on_full p k v0 s)); try (destruct (next_at t1 L1 it1 k r A3 A5) as (it2 & N1 & N2); rewrite N1); apply GO; assumption.
  Qed.

  Lemma todo_first t L : todo t L it_first = keys (flat L (N.to_nat (t_nb t)) 0).
  Proof. unfold todo, it_first. cbn. rewrite N.sub_0_r. reflexivity. Qed.

  (** A loop from First over a database visits every record exactly once, whatever the processor writes or removes on the way. *)
  Theorem C11_iterate {S} t m (p : proc S) w b s fuel n : reps t m -> acount m n -> (n < fuel)%nat -> small m s (OEach p w) ->
    exists t' s' m', sweep fuel t it_first p w b s = Some (t', s') /\ reps t' m' /\ sstep m s (OEach p w) m' s'.
  Proof.
    intros R AC Hf OK. destruct R as (L & H0 & I0 & SM). pose proof (enum_items t L m H0 I0 SM) as EN. pose proof (ok_multi_same _ w _ _ s SM (OK _ EN)) as OK'.
    set (ks := keys (flat L (N.to_nat (t_nb t)) 0)) in *.
    assert (acount m (length ks)) as AC' by (exists ks; split; [apply EN|]; split; [reflexivity|apply EN]).
    destruct (sweep_ok p w b ks fuel t L it_first s H0 I0 (todo_first t L)) as (t' & L' & A1 & A2 & A3 & A4).
    - apply EN.
    - intros k Hk. rewrite <- SM. apply EN, Hk.
    - rewrite (acount_unique _ _ _ AC AC') in Hf. exact Hf.
    - exact OK'.
    - destruct (ref_multi_same (map (fun k => (k, p)) ks) w _ _ s SM) as [B1 B2]. rewrite <- B2 in A1.
      do 2 eexists. exists (view hash (t_nb t) L'). split; [exact A1|]. split.
      + exists L'. rewrite A2. split; [exact H0|]. split; [exact A3|]. intros x. reflexivity.
      + apply SEach; [exact EN|]. eapply same_trans; [exact A4|]. apply same_sym, B1.
  Qed.

  (** Jump finds exactly the existing keys, and leaves the iterator at the record. *)
  Theorem C11_jump t m k : reps t m -> exists c it, it_jump hash t k = Some (c, it) /\
    match m k with
    | None => c = NOT_FOUND_ERROR
    | Some v => c = SUCCESS /\ forall b, exists it', it_process hash t it (mkProc (fun k v (_ : option (bytes * bytes)) => (ANoop, Some (k, v))) (fun _ _ => (ANoop, None))) false b None =
        Some (SUCCESS, t, it', Some (k, v))
    end.
  Proof.
    intros (L & H0 & I0 & SM). unfold it_jump. set (i := hash k (t_nb t)). assert (Hi : i < t_nb t) by apply hash_lt, H0.
    destruct (read_next_ok hash bucket_size hash_lt size_pos t L I0 (it_fuel t) i ltac:(unfold it_fuel; lia)) as (c & it & A1 & A2 & A3). rewrite A1.
    assert (DU : forall l, In k l -> exists r, drop_until k l = Some (k :: r)).
    { induction l as [|x l IH]; [easy|]. cbn. intros I. destruct (beqb_spec x k) as [->|]; [eauto|]. apply IH. destruct I as [->|I]; [congruence|exact I]. }
    assert (DN : forall l r, drop_until k l = Some r -> In k l).
    { induction l as [|x l IH]; [easy|]. cbn. intros r. destruct (beqb_spec x k) as [->|]; [auto|]. intros E. right. eapply IH, E. }
    assert (DS : forall l r, drop_until k l = Some r -> exists a, l = a ++ r).
    { induction l as [|x l IH]; [easy|]. cbn. intros r. destruct (beqb_spec x k) as [->|]; [intros E; injection E as <-; exists []; reflexivity|].
      intros E. destruct (IH r E) as (a & ->). exists (x :: a). reflexivity. }
    rewrite SM. destruct (view hash (t_nb t) L k) as [v|] eqn:FV.
    - assert (FV' := FV). unfold view in FV. fold i in FV. apply find_some in FV; [|apply (v_nodup _ _ _ I0)]. destruct FV as (q & FV).
      destruct (L i) as [|n l] eqn:EL; [easy|]. specialize (A3 n l eq_refl). subst it. cbn [it_keys it_b].
      assert (IK : In k (keys (n :: l))) by (apply (in_map (fun n : node => fst (snd n)) _ (q, (k, v))), FV).
      destruct (keys (flat L (N.to_nat (t_nb t - i)) i)) as [|k0 r0] eqn:EF.
      { destruct A2 as [_ A2]. discriminate A2. }
      destruct A2 as [-> A2]. destruct (DU _ IK) as (r & ED). rewrite ED. do 2 eexists. split; [reflexivity|]. split; [reflexivity|].
      intros b. unfold it_process, read_keys. cbn [it_b it_keys].
      unfold t_process. rewrite (read_only hash t L k _ _ b _ eq_refl I0 Hi). unfold call. rewrite FV'. cbn. eauto.
    - destruct c; try (eexists; eexists; split; [reflexivity|]; destruct (keys (flat L (N.to_nat (t_nb t - i)) i)); destruct A2 as [A2 _]; discriminate A2 || exact A2).
      destruct (keys (flat L (N.to_nat (t_nb t - i)) i)) as [|k0 r0] eqn:EF; [destruct A2; discriminate|]. destruct A2 as (_ & j & l & -> & A2). cbn [it_keys it_b].
      destruct (drop_until k (k0 :: l)) as [rest|] eqn:ED; [|do 2 eexists; split; reflexivity]. exfalso.
      apply DN in ED. unfold todo in A2. cbn [it_b it_keys] in A2.
      assert (In k (keys (flat L (N.to_nat (t_nb t - i)) i))) as IK by (rewrite EF, <- A2; apply in_or_app; left; exact ED).
      apply in_map_iff in IK. destruct IK as ([q [k' v]] & E & IK). cbn in E. subst k'. apply flat_in in IK. destruct IK as (j' & _ & IK).
      destruct (v_key _ _ _ I0 _ _ _ _ IK) as [HK _]. assert (In (k, v) (items t L)) as X.
      { unfold items. apply (in_map snd _ (q, (k, v))). apply flat_in. exists j'. split; [|exact IK]. subst j'. lia. }
      apply (view_in hash hash_lt) in X; auto. congruence.
  Qed.
End C11.

(** The hash function and the bucket counts of the library meet the hypotheses. *)
Theorem C11_library {S} fsqrt (F : forall n, 2 < n -> N.sqrt n <= fsqrt n < n) n (ops : list (op S * bool)) (s : S) : all_small aempty s (map fst ops) ->
  exists t' s' m', t_run primary_hash (hash_bucket_size fsqrt) (t_new (hash_bucket_size fsqrt) n) s ops = Some (t', s') /\
    ssteps aempty s (map fst ops) m' s' /\ reps primary_hash t' m' /\ acount m' (Z.to_nat (t_num t')).
Proof.
  intros H. assert (P : forall n, 0 < hash_bucket_size fsqrt n) by (intros x; destruct (C30_bucket_size fsqrt F x) as [X _]; exact X).
  destruct (C11_history primary_hash (hash_bucket_size fsqrt) primary_hash_lt P n ops s H) as (t' & s' & m' & A & B & C).
  exists t', s', m'. split; [exact A|]. split; [exact B|]. split; [exact C|].
  exact (proj2 (C11_count primary_hash (hash_bucket_size fsqrt) primary_hash_lt P t' m' C)).
Qed.

(** A chain of colliding keys: three records in one bucket, one replaced by a longer value, the middle one removed, an append, and a rebuild
    to three buckets; the processors note what they are shown. *)
Definition note : proc (list (bytes * bytes)) := mkProc (fun k v l => (ANoop, l ++ [(k, v)])) (fun _ l => (ANoop, l)).
Definition ex_set (v : bytes) : proc (list (bytes * bytes)) := mkProc (fun _ _ l => (ASet v, l)) (fun _ l => (ASet v, l)).
Definition ex_del : proc (list (bytes * bytes)) := mkProc (fun _ _ l => (ARemove, l)) (fun _ l => (ANoop, l)).
Definition ex_ops : list (op (list (bytes * bytes)) * bool) :=
  [(OProcess [1] (ex_set [10]) true, false); (OProcess [2] (ex_set [20]) true, false); (OProcess [3] (ex_set []) true, false);
   (OProcess [1] (ex_set [10; 11; 12]) true, true); (OProcess [2] ex_del true, false); (OAppend [3] [7] [44], true); (OAppend [3] [8] [44], false);
   (ORebuild 3, false); (OEach note false, false)].
Example C11_ex : match t_run primary_hash (fun n => N.max 1 n) (t_new (fun n => N.max 1 n) 1) [] ex_ops with
  | Some (t, l) => t_num t = 2%Z /\ t_nb t = 3 /\ (l = [([1], [10; 11; 12]); ([3], [44; 7; 44; 8])] \/ l = [([3], [44; 7; 44; 8]); ([1], [10; 11; 12])])
  | None => False
  end.
Proof. vm_compute. intuition. Qed.
(** The hypothesis of C11_history holds of such a history, for short keys and values at least: removals, look-ups and short values are always small. *)
Example C11_small_ex : all_small (S := unit) aempty tt
  [OProcess [1] (mkProc (fun _ _ s => (ASet [10], s)) (fun _ s => (ASet [10], s))) true; OProcess [1] (mkProc (fun _ _ s => (ARemove, s)) (fun _ s => (ANoop, s))) true; ORebuild 7; OClear].
Proof.
  cbn. split; [split; [intros _; reflexivity|exact I]|]. intros m1 s1 H1. split.
  - split; [|exact I]. intros _. unfold call. destruct (m1 [1]); exact I.
  - intros m2 s2 H2. split; [exact I|]. intros. split; [exact I|]. intros. exact I.
Qed.
Print Assumptions C11_history.
Print Assumptions C11_count.
Print Assumptions C11_get.
Print Assumptions C11_first_found.
Print Assumptions C11_iterate.
Print Assumptions C11_jump.
Print Assumptions C11_library.
