(** C12: CacheDBM.  Source: /repo/tkrzw_dbm_cache.cc. *)
From Coq Require Import List NArith ZArith Bool Lia PeanoNat Permutation Sorted.
Import ListNotations.
From Verif Require Import Bytes CodecModel StatusModel HashUtilModel DbmModel LinkedModel LinkedProofs Stamps CacheModel CacheProofs.
Local Open Scope N_scope.

Section C12.
  Variable hash : bytes -> N.
  Variable buckets : N -> N.
  Hypothesis buckets_pos : forall c, buckets c <> 0.
  Variable S : Type.
  Notation grp := (slot_of hash).

  (** * Specification *)
  (** Every record with its value and the time of the last call that met it. *)
  Notation ents := (bytes -> option (bytes * N)).
  Definition put (E : ents) k v t : ents := fun x => if beqb x k then Some (v, t) else E x.
  Definition del (E : ents) k : ents := fun x => if beqb x k then None else E x.
  (** The records of a slot. *)
  Definition in_slot (E : ents) (g : N) (l : list (bytes * bytes)) : Prop :=
    NoDup (map fst l) /\ forall k v, In (k, v) l <-> grp k = g /\ exists t, E k = Some (v, t).
  Fixpoint sizes (l : list (bytes * bytes)) : Z := match l with [] => 0%Z | (k, v) :: l' => (Z.of_N (blen k + blen v) + sizes l')%Z end.
  (** A slot holds more records than a 32nd of the capacity plus one, or more memory than a 32nd of that capacity plus one. *)
  Definition overfull (cap : N) (mcap : Z) (E : ents) (g : N) : Prop :=
    exists l, in_slot E g l /\
      (cap / 32 + 1 < N.of_nat (length l) \/ (mcap / 32 + 1 < 8 * Z.of_N (buckets (cap / 32 + 1)) + 34 * Z.of_nat (length l) + sizes l)%Z).
  (** The least recently used record of a slot. *)
  Definition lru_of (E : ents) (g : N) (k v : bytes) : Prop :=
    grp k = g /\ exists t, E k = Some (v, t) /\ forall k' v' t', E k' = Some (v', t') -> grp k' = g -> k' <> k -> t < t'.
  (** All keys: slot by slot, the least recently used first. *)
  Definition in_order (E : ents) (keys : list bytes) : Prop :=
    NoDup keys /\ (forall k, In k keys <-> E k <> None) /\
    forall a k b k' x x', keys = a ++ k :: b -> In k' b -> E k = Some x -> E k' = Some x' -> grp k < grp k' \/ (grp k = grp k' /\ snd x < snd x').

  (** The state of the specification: the capacities, the records, what was last written for each key
      (without any eviction), the clock and the state of the processors. *)
  Record spec := mkSp { sp_cap : N; sp_mcap : Z; sp_E : ents; sp_M : amap; sp_t : N; sp_st : S }.
  Definition look (E : ents) (k : bytes) : option bytes := option_map fst (E k).
  Definition answer (E : ents) k (p : proc S) st : action * S := match look E k with Some v => on_full p k v st | None => on_empty p k st end.
  (** One call of a processor for a key. *)
  Definition s_call (sp : spec) (k : bytes) (p : proc S) (writable : bool) (sp' : spec) : Prop :=
    let E := sp_E sp in let t := sp_t sp in
    let a := if writable then fst (answer E k p (sp_st sp)) else ANoop in
    sp_cap sp' = sp_cap sp /\ sp_mcap sp' = sp_mcap sp /\ sp_t sp' = t + 1 /\ sp_st sp' = snd (answer E k p (sp_st sp)) /\ same_map (sp_M sp') (act (sp_M sp) k a) /\
    match look E k, a with
    | Some v, ANoop => forall x, sp_E sp' x = put E k v t x
    | Some _, ASet v' => forall x, sp_E sp' x = put E k v' t x
    | Some _, ARemove => forall x, sp_E sp' x = del E k x
    | None, ASet v' =>
        let E1 := put E k v' t in
        (~ overfull (sp_cap sp) (sp_mcap sp) E1 (grp k) /\ forall x, sp_E sp' x = E1 x) \/
        (overfull (sp_cap sp) (sp_mcap sp) E1 (grp k) /\ exists k0 v0, lru_of E1 (grp k) k0 v0 /\ forall x, sp_E sp' x = del E1 k0 x)
    | None, _ => forall x, sp_E sp' x = E x
    end.
  Inductive s_calls (w : bool) : spec -> list (bytes * proc S) -> spec -> Prop :=
  | sc_nil sp : s_calls w sp [] sp
  | sc_cons sp k p sp1 l sp2 : s_call sp k p w sp1 -> s_calls w sp1 l sp2 -> s_calls w sp ((k, p) :: l) sp2.
  Definition with_st (sp : spec) (st : S) : spec := mkSp (sp_cap sp) (sp_mcap sp) (sp_E sp) (sp_M sp) (sp_t sp) st.
  Definition visit (E : ents) (p : proc S) (st : S) (k : bytes) : S := match look E k with Some v => snd (on_full p k v st) | None => st end.
  (** The operations; [mv]: where realloc moves the block it is given. *)
  Inductive op := OProcess (k : bytes) (p : proc S) (w : bool) (mv : bool) | OMulti (l : list (bytes * proc S)) (w : bool) (mv : bytes -> bool)
    | OFirst (p : proc S) (w mv : bool) | OEach (p : proc S) (w : bool) (mv : bytes -> bool) | OClear | ORebuild (cap : N) (mcap : Z).
  Definition NOKEY : bytes := [].
  Definition s_op (sp : spec) (o : op) (r : bool) (sp' : spec) : Prop :=
    match o with
    | OProcess k p w _ => r = true /\ s_call sp k p w sp'
    | OMulti l w _ => r = true /\ s_calls w sp l sp'
    | OFirst p w _ =>
        (r = false /\ (forall k, sp_E sp k = None) /\ sp' = sp) \/
        (r = true /\ exists k keys, in_order (sp_E sp) (k :: keys) /\ if w then s_call sp k p true sp' else sp' = with_st sp (visit (sp_E sp) p (sp_st sp) k))
    | OEach p w _ => r = true /\ exists keys st, in_order (sp_E sp) keys /\ sp_st sp' = snd (on_empty p NOKEY st) /\
        if w then s_calls true (with_st sp (snd (on_empty p NOKEY (sp_st sp)))) (map (fun k => (k, p)) keys) (with_st sp' st)
        else st = fold_left (visit (sp_E sp) p) keys (snd (on_empty p NOKEY (sp_st sp))) /\ sp' = with_st sp (sp_st sp')
    | OClear => r = true /\ sp' = mkSp (sp_cap sp) (sp_mcap sp) (fun _ => None) aempty (sp_t sp) (sp_st sp)
    | ORebuild cap mcap => r = true /\
        sp_cap sp' = (if 0 <? cap then cap else sp_cap sp) /\ sp_mcap sp' = (if (0 <? mcap)%Z then mcap else sp_mcap sp) /\ sp_t sp' = sp_t sp /\ sp_st sp' = sp_st sp /\ sp_M sp' = sp_M sp /\
        (forall k, sp_E sp' k = sp_E sp k \/ sp_E sp' k = None) /\
        (forall k, ~ overfull (sp_cap sp') (sp_mcap sp') (sp_E sp) (grp k) -> sp_E sp' k = sp_E sp k) /\
        (** what is left out is what was used most recently *)
        (forall k k' x x', grp k = grp k' -> sp_E sp k = Some x -> sp_E sp' k = None -> sp_E sp' k' = Some x' -> snd x' < snd x)
    end.
  Inductive s_ops : spec -> list op -> list bool -> spec -> Prop :=
  | so_nil sp : s_ops sp [] [] sp
  | so_cons sp o r sp1 os rs sp2 : s_op sp o r sp1 -> s_ops sp1 os rs sp2 -> s_ops sp (o :: os) (r :: rs) sp2.

  (** * Execution *)
  Definition exec (c : cache) (o : op) (st : S) : option (bool * cache * S) :=
    match o with
    | OProcess k p w mv => r <- cache_process hash c k p w mv st ;; Some (true, fst r, snd r)
    | OMulti l w mv => r <- cache_multi hash c l w mv st ;; Some (true, fst r, snd r)
    | OFirst p w mv => cache_first hash c p w mv st
    | OEach p w mv => r <- cache_each hash c p w mv NOKEY st ;; Some (true, fst r, snd r)
    | OClear => c' <- cache_clear buckets c ;; Some (true, c', st)
    | ORebuild cap mcap => c' <- cache_rebuild hash buckets c cap mcap ;; Some (true, c', st)
    end.
  Fixpoint run (c : cache) (os : list op) (st : S) : option (list bool * cache * S) :=
    match os with
    | [] => Some ([], c, st)
    | o :: os' => r <- exec c o st ;; q <- run (snd (fst r)) os' (snd r) ;; Some (fst (fst r) :: fst (fst q), snd (fst q), snd q)
    end.

  (** * Proof *)
  Notation srep := (srep hash).
  Notation sfind := (s_find bytes bytes beqb). Notation sdel := (s_del bytes bytes beqb).
  Notation trip := (trip bytes bytes beqb).
  Definition rest (E : ents) (g : N) : ents := fun k => if grp k =? g then E k else None.
  Definition at_slot (cap : N) (mcap : Z) (E : ents) (t : N) (g : N) (s : slot) : Prop :=
    exists l, srep s l /\ trip l (rest E g) t /\ cs_cap s = slot_cap cap /\ cs_mcap s = slot_mcap mcap /\ mnb (cs_m s) = buckets (slot_cap cap) /\ (length l <= N.to_nat (slot_cap cap))%nat.
  Definition crel (c : cache) (sp : spec) : Prop :=
    c_cap c = sp_cap sp /\ c_mcap c = sp_mcap sp /\ (forall g, g < 32 -> at_slot (sp_cap sp) (sp_mcap sp) (sp_E sp) (sp_t sp) g (c_slots c g)) /\
    forall k v t, sp_E sp k = Some (v, t) -> sp_M sp k = Some v.
  Lemma grp_lt k : grp k < 32.
  Proof. unfold slot_of, NUM_CACHE_SLOTS. apply N.mod_lt. discriminate. Qed.
  Lemma sizes_lens l : sizes l = lens l.
  Proof. induction l as [|[k v] l IH]; [reflexivity|]. rewrite lens_cons. cbn [sizes fst snd]. rewrite IH. reflexivity. Qed.
  Lemma trip_in l E t k v : trip l E t -> In (k, v) l <-> exists t0, E k = Some (v, t0).
  Proof.
    intros T. assert (X := trip_find bytes bytes beqb _ _ _ k T). assert (ND : NoDup (map fst l)) by (destruct T as (tl & _ & _ & _ & D & _); exact D). split.
    - intros I. destruct (sfind k l) as [kv|] eqn:G.
      + cbn in X. destruct (E k) as [[v0 t0]|]; [|discriminate]. injection X as X. apply (find_in bytes bytes beqb beqb_spec) in G. destruct G as [G1 G2]. assert (kv = (k, v)).
        { clear - ND I G1 G2. induction l as [|y l IH]; [destruct I|]. cbn in ND. inversion ND as [|? ? N1 N2]; subst. destruct I as [->|I], G2 as [->|G2]; auto; exfalso; apply N1; [cbn; apply in_map, G2|apply (in_map fst) in I; exact I]. }
        subst kv. cbn in X. subst v0. eauto.
      + exfalso. unfold s_find in G. apply (find_none _ _ G) in I. cbn in I. rewrite beqb_refl in I. discriminate.
    - intros [t0 E0]. rewrite E0 in X. cbn in X. destruct (sfind k l) as [kv|] eqn:G; [|discriminate]. apply (find_in bytes bytes beqb beqb_spec) in G. destruct G as [G1 G2]. destruct kv as [k1 v1]. cbn in *. injection X as ->. subst. exact G2.
  Qed.
  Lemma trip_slot l E t g : trip l (rest E g) t -> in_slot E g l.
  Proof.
    intros T. split; [destruct T as (tl & _ & _ & _ & D & _); exact D|]. intros k v. rewrite (trip_in _ _ _ _ _ T). unfold rest. destruct (N.eqb_spec (grp k) g) as [X|X]; split.
    - intros H. auto.
    - intros [_ H]. exact H.
    - intros [t0 H]. discriminate.
    - intros [H _]. contradiction.
  Qed.
  Lemma lens_perm l l' : Permutation l l' -> lens l = lens l'.
  Proof. induction 1; rewrite ?lens_cons; lia. Qed.
  Lemma over_iff cap mcap E g l : in_slot E g l -> over (slot_cap cap) (slot_mcap mcap) (buckets (slot_cap cap)) l = true <-> overfull cap mcap E g.
  Proof.
    intros I. assert (X : forall l', in_slot E g l' -> over (slot_cap cap) (slot_mcap mcap) (buckets (slot_cap cap)) l = true <-> (cap / 32 + 1 < N.of_nat (length l') \/ (mcap / 32 + 1 < 8 * Z.of_N (buckets (cap / 32 + 1)) + 34 * Z.of_nat (length l') + sizes l')%Z)).
    { intros l' I'. assert (P : Permutation l l'). { apply NoDup_Permutation; [apply (NoDup_map_inv fst), I|apply (NoDup_map_inv fst), I'|]. intros [k v]. rewrite (proj2 I), (proj2 I'). reflexivity. }
      rewrite sizes_lens, <- (lens_perm _ _ P), <- (Permutation_length P). unfold over, slot_cap, slot_mcap, memory_usage. change NUM_CACHE_SLOTS with 32. rewrite orb_true_iff, N.ltb_lt, Z.ltb_lt.
      replace (Z.of_N 32) with 32%Z by reflexivity. generalize (cap / 32 + 1), (mcap / 32 + 1)%Z. intros a b. split; (intros [Y|Y]; [left; exact Y|right; lia]). }
    split; [intros H; exists l; split; [exact I|apply (X l I), H]|]. intros (l' & I' & H). apply (X l' I'), H.
  Qed.
  Lemma trip_sub l E t : forall l1 l2, l = l1 ++ l2 -> trip l E t -> trip l1 (fun k => if sfind k l1 then E k else None) t /\
    forall k v k' v' x x', In (k, v) l1 -> In (k', v') l2 -> E k = Some x -> E k' = Some x' -> snd x < snd x'.
  Proof.
    intros l1 l2 -> T. assert (T0 := T). destruct T as (tl & A & B & C & D & F). assert (A' := A). apply eq_sym, map_eq_app in A. destruct A as (t1 & t2 & -> & E1 & E2). assert (SS : StronglySorted (fun a b : bytes * bytes * N => snd a < snd b) t1 /\ forall a b, In a t1 -> In b t2 -> snd a < snd b).
    { clear - B. induction t1 as [|y t1 IH]; [split; [constructor|intros ? ? []]|]. cbn in B. inversion B as [|? ? S F]; subst. destruct (IH S) as [I1 I2]. split; [constructor; [exact I1|apply Forall_app in F; apply F]|]. intros a b [<-|Ha] Hb; [rewrite Forall_forall in F; apply F, in_or_app; auto|auto]. }
    split.
    - exists t1. split; [auto|]. split; [apply SS|]. split; [apply Forall_app in C; apply C|]. split; [rewrite map_app in D; clear - D; induction l1 as [|y l1 IH]; cbn in *; [constructor|]; inversion D; subst; constructor; [intros X; apply H1, in_or_app; auto|auto]|].
      intros k. rewrite F. unfold e_of, s_find. rewrite <- E1. clear. induction t1 as [|y t1 IH]; cbn [app map find]; [reflexivity|]. destruct (beqb (fst (fst y)) k); [reflexivity|exact IH].
    - intros k v k' v' x x' I1 I2 X1 X2.
      assert (ST : forall tt k v x, In tt (t1 ++ t2) -> fst tt = (k, v) -> E k = Some x -> x = (v, snd tt)).
      { clear - D A' F. rewrite A' in D. clear A'. intros tt k v x I Ef EE. rewrite F in EE. unfold e_of in EE. destruct (find _ (t1 ++ t2)) as [y|] eqn:G; [|discriminate]. injection EE as <-. apply find_some in G. destruct G as [G1 G2]. destruct (beqb_spec (fst (fst y)) k) as [G3|]; [|discriminate].
        assert (y = tt). { clear G2 F. induction (t1 ++ t2) as [|z t IH]; [destruct I|]. cbn in D. inversion D as [|? ? N1 N2]; subst. destruct I as [->|I], G1 as [->|G1]; auto; exfalso; apply N1; [rewrite Ef; cbn; apply (in_map fst), (in_map fst) in G1; exact G1|apply (in_map fst), (in_map fst) in I; rewrite Ef in I; exact I]. }
        subst y. rewrite Ef. reflexivity. }
      rewrite <- E1 in I1. rewrite <- E2 in I2. apply in_map_iff in I1, I2. destruct I1 as (a & Ea & Ia), I2 as (b & Eb & Ib).
      rewrite (ST a k v x (in_or_app _ _ _ (or_introl Ia)) Ea X1), (ST b k' v' x' (in_or_app _ _ _ (or_intror Ib)) Eb X2). cbn. apply SS; assumption.
  Qed.

  (** One call in a slot. *)
  Lemma list_step cap mcap E t g l k a : trip l (rest E g) t -> grp k = g ->
    exists E', trip (l_step (slot_cap cap) (slot_mcap mcap) (buckets (slot_cap cap)) k (val_of k l) a l) (rest E' g) (t + 1) /\ (forall x, grp x <> g -> E' x = E x) /\
      match look E k, a with
      | Some v, ANoop => forall x, E' x = put E k v t x
      | Some _, ASet v' => forall x, E' x = put E k v' t x
      | Some _, ARemove => forall x, E' x = del E k x
      | None, ASet v' => let E1 := put E k v' t in (~ overfull cap mcap E1 g /\ forall x, E' x = E1 x) \/ (overfull cap mcap E1 g /\ exists k0 v0, lru_of E1 g k0 v0 /\ forall x, E' x = del E1 k0 x)
      | None, _ => forall x, E' x = E x
      end.
  Proof.
    intros T G. assert (VL : val_of k l = look E k). { unfold val_of, look. rewrite (trip_find bytes bytes beqb _ _ _ k T). unfold rest. rewrite G, N.eqb_refl. reflexivity. }
    rewrite VL. assert (T1 : trip l (rest E g) (t + 1)) by (eapply trip_mono; [|exact T]; lia).
    assert (RP : forall v x, rest (put E k v t) g x = e_put bytes bytes beqb (rest E g) k v t x). { intros v x. unfold rest, put, e_put. destruct (beqb_spec x k) as [->|]; [rewrite G, N.eqb_refl; reflexivity|reflexivity]. }
    assert (RD : forall x, rest (del E k) g x = e_del bytes bytes beqb (rest E g) k x). { intros x. unfold rest, del, e_del. destruct (beqb_spec x k) as [->|]; [destruct (grp k =? g); reflexivity|reflexivity]. }
    assert (OP : forall v x, grp x <> g -> put E k v t x = E x) by (intros v x Hx; unfold put; destruct (beqb_spec x k) as [->|]; [contradiction|reflexivity]).
    assert (OD : forall x, grp x <> g -> del E k x = E x) by (intros x Hx; unfold del; destruct (beqb_spec x k) as [->|]; [contradiction|reflexivity]).
    assert (TC : forall v w t0, rest E g k = Some (w, t0) -> trip (sdel k l ++ [(k, v)]) (e_put bytes bytes beqb (rest E g) k v t) (t + 1)).
    { intros v w t0 H. assert (X := trip_push bytes bytes beqb beqb_spec _ _ _ k v (trip_del bytes bytes beqb beqb_spec _ _ _ k T)). eapply trip_ext; [apply X; unfold e_del; rewrite beqb_refl; reflexivity|]. intros x. unfold e_put, e_del. destruct (beqb x k); reflexivity. }
    assert (RK : rest E g k = E k) by (unfold rest; rewrite G, N.eqb_refl; reflexivity).
    unfold look in *. destruct (E k) as [[v t0]|] eqn:EK; cbn [option_map fst] in *.
    - destruct a as [| |v']; cbn [l_step].
      + exists (put E k v t). split; [eapply trip_ext; [eapply TC; exact RK|intros x; apply RP]|auto].
      + exists (del E k). split; [eapply trip_ext; [|intros x; apply RD]; eapply trip_mono; [|apply trip_del; [exact beqb_spec|exact T]]; lia|auto].
      + exists (put E k v' t). split; [eapply trip_ext; [eapply TC; exact RK|intros x; apply RP]|auto].
    - destruct a as [| |v']; cbn [l_step].
      + exists E. split; [exact T1|]. auto.
      + exists E. split; [exact T1|]. auto.
      + unfold l_insert. cbv zeta. assert (TP := trip_push bytes bytes beqb beqb_spec _ _ _ k v' T RK).
        assert (TR : trip (l ++ [(k, v')]) (rest (put E k v' t) g) (t + 1)) by (eapply trip_ext; [exact TP|intros x; apply RP]).
        assert (OV := over_iff cap mcap _ _ _ (trip_slot _ _ _ _ TR)).
        destruct (over (slot_cap cap) (slot_mcap mcap) (buckets (slot_cap cap)) (l ++ [(k, v')])).
        * assert (XX : exists kv0 lb, l ++ [(k, v')] = kv0 :: lb) by (destruct l; cbn [app]; eauto). destruct XX as ([k0 v0] & lb & E3). rewrite E3 in *. cbn [tl].
          assert (ND : NoDup (map fst ((k0, v0) :: lb))) by (destruct TR as (tl & _ & _ & _ & D & _); exact D). cbn in ND. inversion ND as [|? ? N1 N2]; subst.
          assert (SD : sdel k0 ((k0, v0) :: lb) = lb). { unfold s_del. cbn [filter fst]. rewrite beqb_refl. cbn [negb]. apply (s_del_none bytes bytes beqb beqb_spec). exact N1. }
          assert (OLD := trip_front bytes bytes beqb beqb_spec _ _ _ k0 v0 TR eq_refl). destruct OLD as (t1 & O1 & O2).
          assert (G0 : grp k0 = grp k) by (unfold rest in O1; destruct (N.eqb_spec (grp k0) (grp k)); [assumption|discriminate]).
          exists (del (put E k v' t) k0). split; [|split].
          -- rewrite <- SD. eapply trip_ext; [apply (trip_del bytes bytes beqb beqb_spec); exact TR|]. intros x. unfold rest, del, e_del. destruct (beqb x k0); [destruct (grp x =? grp k)|]; reflexivity.
          -- intros x Hx. unfold del. destruct (beqb_spec x k0) as [->|]; [congruence|]. apply OP, Hx.
          -- right. split; [apply OV; reflexivity|]. exists k0, v0. split; [|auto]. split; [exact G0|]. exists t1. unfold rest in O1. rewrite G0, N.eqb_refl in O1. split; [exact O1|]. intros k' v1 t' E' G' NE. apply (O2 k' v1 t'); [|exact NE]. unfold rest. rewrite G', N.eqb_refl. exact E'.
        * exists (put E k v' t). split; [exact TR|]. split; [apply OP|]. left. split; [intros X; apply OV in X; discriminate|auto].
  Qed.
  Lemma step_len cap mcap nb k old a l : (length l <= N.to_nat cap)%nat -> val_of k l = old -> NoDup (map fst l) -> (length (l_step cap mcap nb k old a l) <= N.to_nat cap)%nat.
  Proof.
    intros H <- ND. unfold val_of. destruct (sfind k l) as [kv|] eqn:F; cbn [option_map].
    - assert (X : (length (sdel k l) < length l)%nat). { apply (find_in bytes bytes beqb beqb_spec) in F. destruct F as [F1 F2]. clear - F1 F2. unfold s_del. induction l as [|y l IH]; [destruct F2|]. cbn [filter]. assert (Y : (length (filter (fun kv0 => negb (beqb (fst kv0) k)) l) <= length l)%nat) by (clear; induction l as [|z l IH]; cbn; [lia|]; destruct (negb _); cbn; lia). destruct F2 as [->|F2].
        - rewrite F1, beqb_refl. cbn. lia.
        - destruct (negb _); cbn; [specialize (IH F2)|]; lia. }
      destruct a; cbn [l_step]; rewrite ?app_length; cbn [length]; lia.
    - destruct a; cbn [l_step]; [exact H|exact H|]. unfold l_insert. cbv zeta. unfold over. destruct (N.ltb_spec cap (N.of_nat (length (l ++ [(k, v)])))) as [X|X]; cbn [orb].
      + rewrite app_length in X. cbn [length] in X. destruct l; cbn [app tl length] in *; [lia|]. rewrite app_length. cbn. lia.
      + destruct (_ <? _)%Z; [destruct l; cbn [app tl length] in *; rewrite ?app_length in *; cbn [length] in *; lia|lia].
  Qed.
  Lemma at_slot_same cap mcap E E' t t' g s : at_slot cap mcap E t g s -> (forall k, grp k = g -> E' k = E k) -> t <= t' -> at_slot cap mcap E' t' g s.
  Proof.
    intros (l & A & B & C) H Ht. exists l. split; [exact A|]. split; [|exact C]. eapply trip_ext; [eapply trip_mono; [exact Ht|exact B]|]. intros k. unfold rest. destruct (N.eqb_spec (grp k) g) as [X|]; [apply H, X|reflexivity].
  Qed.
  Lemma adel_at (m : amap) k x : adel m k x = if beqb x k then None else m x.
  Proof. unfold adel. rewrite (keq_sym _ beqb beqb_spec k x). reflexivity. Qed.
  Lemma aset_at (m : amap) k v x : aset m k v x = if beqb x k then Some v else m x.
  Proof. unfold aset. rewrite (keq_sym _ beqb beqb_spec k x). reflexivity. Qed.
  Lemma call_ok c sp k p w mv : crel c sp -> exists s' sp', slot_process hash (c_slots c (grp k)) k p w mv (sp_st sp) = Some (s', sp_st sp') /\ s_call sp k p w sp' /\ crel (with_slot c (grp k) s') sp'.
  Proof.
    intros (C1 & C2 & C3 & C4). destruct (C3 (grp k) (grp_lt k)) as (l & R & T & Q1 & Q2 & Q3 & Q4).
    assert (VL : val_of k l = look (sp_E sp) k). { unfold val_of, look. rewrite (trip_find bytes bytes beqb _ _ _ k T). unfold rest. rewrite N.eqb_refl. reflexivity. }
    destruct (step_ok hash buckets buckets_pos (c_slots c (grp k)) l k p w mv (sp_st sp) R) as (s' & E1 & R' & Q1' & Q2' & Q3').
    set (a := if w then fst (answer (sp_E sp) k p (sp_st sp)) else ANoop).
    destruct (list_step (sp_cap sp) (sp_mcap sp) (sp_E sp) (sp_t sp) (grp k) l k a T eq_refl) as (E' & T' & FO & ST).
    exists s', (mkSp (sp_cap sp) (sp_mcap sp) E' (act (sp_M sp) k a) (sp_t sp + 1) (snd (answer (sp_E sp) k p (sp_st sp)))). cbn [sp_st].
    split; [|split].
    - rewrite E1. unfold answer. rewrite VL. reflexivity.
    - unfold s_call. cbn [sp_cap sp_mcap sp_E sp_M sp_t sp_st]. fold a. repeat split; auto.
    - unfold crel. cbn [sp_cap sp_mcap sp_E sp_M sp_t sp_st with_slot c_cap c_mcap c_slots]. split; [exact C1|]. split; [exact C2|]. split.
      + intros g Hg. destruct (N.eq_dec g (grp k)) as [->|NE].
        * rewrite updN_eq. exists (l_step (slot_cap (sp_cap sp)) (slot_mcap (sp_mcap sp)) (buckets (slot_cap (sp_cap sp))) k (val_of k l) a l).
          split; [unfold a, answer; rewrite <- VL; rewrite Q1, Q2, Q3 in R'; exact R'|]. split; [exact T'|]. split; [congruence|]. split; [congruence|]. split; [congruence|]. apply step_len; auto. eapply srep_nodup; exact R.
        * rewrite updN_neq by exact NE. eapply at_slot_same; [apply C3, Hg| |lia]. intros x Hx. apply FO. congruence.
      + intros x v t H. destruct (look (sp_E sp) k) as [v0|] eqn:LK.
        * destruct a as [| |v']; rewrite ST in H; unfold put, del in H; cbn [act]; rewrite ?adel_at, ?aset_at; destruct (beqb_spec x k) as [->|]; try discriminate; try (injection H as <- <-); auto; try (eapply C4; exact H).
          unfold look in LK. destruct (sp_E sp k) as [[v1 t1]|] eqn:EK; [|discriminate]. injection LK as <-. eapply C4; exact EK.
        * assert (NK : sp_E sp k = None) by (unfold look in LK; destruct (sp_E sp k); [discriminate|reflexivity]).
          destruct a as [| |v']; cbn [act]; [rewrite ST in H; eapply C4; exact H|rewrite ST in H; rewrite adel_at; destruct (beqb_spec x k) as [->|]; [congruence|eapply C4; exact H]|].
          assert (H' : put (sp_E sp) k v' (sp_t sp) x = Some (v, t)). { cbv zeta in ST. destruct ST as [[_ ST]|[_ (k0 & v0 & _ & ST)]]; rewrite ST in H; [exact H|]. unfold del in H. destruct (beqb x k0); [discriminate|exact H]. }
          unfold put in H'. rewrite aset_at. destruct (beqb x k); [injection H' as <- <-; reflexivity|eapply C4; exact H'].
  Qed.

  Lemma crel_ext c c' sp : crel c sp -> c_cap c' = c_cap c -> c_mcap c' = c_mcap c -> (forall g, g < 32 -> c_slots c' g = c_slots c g) -> crel c' sp.
  Proof. intros (C1 & C2 & C3 & C4) H1 H2 H3. split; [congruence|]. split; [congruence|]. split; [|exact C4]. intros g Hg. rewrite (H3 g Hg). apply C3, Hg. Qed.
  Lemma crel_st c sp st : crel c sp -> crel c (with_st sp st).
  Proof. intros H. exact H. Qed.
  Lemma with_slot_same c g : forall x, c_slots (with_slot c g (c_slots c g)) x = c_slots c x.
  Proof. intros x. unfold with_slot, updN. cbn. destruct (N.eqb_spec x g) as [->|]; reflexivity. Qed.
  Lemma process_ok c sp k p w mv : crel c sp -> exists c' sp', cache_process hash c k p w mv (sp_st sp) = Some (c', sp_st sp') /\ s_call sp k p w sp' /\ crel c' sp'.
  Proof. intros R. destruct (call_ok c sp k p w mv R) as (s' & sp' & E & C & R'). unfold cache_process. rewrite E. cbn [obind fst snd]. eauto. Qed.
  Lemma multi_ok w mv l : forall c sp, crel c sp -> exists c' sp', cache_multi hash c l w mv (sp_st sp) = Some (c', sp_st sp') /\ s_calls w sp l sp' /\ crel c' sp'.
  Proof.
    induction l as [|[k p] l IH]; intros c sp R; cbn [cache_multi]; [exists c, sp; split; [reflexivity|split; [constructor|exact R]]|].
    destruct (process_ok c sp k p w (mv k) R) as (c1 & sp1 & E1 & S1 & R1). rewrite E1. cbn [obind fst snd]. destruct (IH c1 sp1 R1) as (c2 & sp2 & E2 & S2 & R2). exists c2, sp2. split; [exact E2|]. split; [econstructor; eauto|exact R2].
  Qed.
  Lemma s_calls_app w sp a sp1 b sp2 : s_calls w sp a sp1 -> s_calls w sp1 b sp2 -> s_calls w sp (a ++ b) sp2.
  Proof. induction 1; intros Y; cbn; [exact Y|]. econstructor; eauto. Qed.
  Lemma call_other sp k p w sp' x : s_call sp k p w sp' -> grp x <> grp k -> sp_E sp' x = sp_E sp x.
  Proof.
    intros (_ & _ & _ & _ & _ & H) N. assert (NX : x <> k) by congruence. destruct (look (sp_E sp) k); destruct (if w then _ else _) as [| |v']; try (rewrite H; unfold put, del; destruct (beqb_spec x k); [contradiction|reflexivity]); try (apply H).
    cbv zeta in H. destruct H as [[_ H]|[_ (k0 & v0 & (G & _) & H)]]; rewrite H; unfold put, del; destruct (beqb_spec x k); try contradiction; [reflexivity|]. destruct (beqb_spec x k0) as [->|]; [congruence|reflexivity].
  Qed.
  (** The calls for the keys of one slot. *)
  Lemma each_keys_ok g p mv keys : forall c sp, crel c sp -> (forall k, In k keys -> grp k = g) -> g < 32 ->
    exists s' sp', slot_each_keys hash (c_slots c g) keys p mv (sp_st sp) = Some (s', sp_st sp') /\ s_calls true sp (map (fun k => (k, p)) keys) sp' /\ crel (with_slot c g s') sp' /\ forall x, grp x <> g -> sp_E sp' x = sp_E sp x.
  Proof.
    induction keys as [|k keys IH]; intros c sp R G Hg; cbn [slot_each_keys map].
    - exists (c_slots c g), sp. split; [reflexivity|]. split; [constructor|]. split; [|auto]. eapply crel_ext; [exact R|reflexivity|reflexivity|]. intros x _. apply with_slot_same.
    - destruct (call_ok c sp k p true (mv k) R) as (s1 & sp1 & E1 & S1 & R1). rewrite (G k (or_introl eq_refl)) in *. rewrite E1. cbn [obind fst snd].
      destruct (IH (with_slot c g s1) sp1 R1 ltac:(intros x Hx; apply G; right; exact Hx) Hg) as (s2 & sp2 & E2 & S2 & R2 & O2).
      cbn [with_slot c_slots] in E2. rewrite updN_eq in E2. exists s2, sp2. split; [exact E2|]. split; [econstructor; eauto|]. split.
      + eapply crel_ext; [exact R2|reflexivity|reflexivity|]. intros x _. cbn. unfold updN. destruct (x =? g); reflexivity.
      + intros x Hx. rewrite O2 by exact Hx. eapply call_other; [exact S1|]. rewrite (G k (or_introl eq_refl)). exact Hx.
  Qed.
  (** All records from a slot on. *)
  Definition items_at (c : cache) (g : N) : list (bytes * bytes) := match slot_items (c_slots c g) with Some l => l | None => [] end.
  Fixpoint all_from (c : cache) (n : nat) (i : N) : list (bytes * bytes) := match n with O => [] | Datatypes.S n' => items_at c i ++ all_from c n' (i + 1) end.
  Lemma items_at_ok c sp g : crel c sp -> g < 32 -> srep (c_slots c g) (items_at c g) /\ trip (items_at c g) (rest (sp_E sp) g) (sp_t sp) /\ slot_items (c_slots c g) = Some (items_at c g) /\ (length (items_at c g) <= N.to_nat (slot_cap (sp_cap sp)))%nat.
  Proof. intros (_ & _ & C3 & _) Hg. destruct (C3 g Hg) as (l & R & T & _ & _ & _ & Q). unfold items_at. rewrite (srep_items _ _ _ R). auto. Qed.
  Lemma in_items c sp g k v : crel c sp -> g < 32 -> In (k, v) (items_at c g) <-> grp k = g /\ exists t, sp_E sp k = Some (v, t).
  Proof. intros R Hg. destruct (items_at_ok c sp g R Hg) as (_ & T & _). apply (trip_slot _ _ _ _ T). Qed.
  Lemma in_all c sp k v n : forall i, crel c sp -> i + N.of_nat n = 32 -> In (k, v) (all_from c n i) <-> i <= grp k /\ exists t, sp_E sp k = Some (v, t).
  Proof.
    induction n as [|n IH]; intros i R Hi; cbn [all_from].
    - assert (X := grp_lt k). split; [intros []|]. intros [Y _]. lia.
    - rewrite in_app_iff, (in_items _ _ _ _ _ R) by lia. rewrite (IH (i + 1) R) by lia. split.
      + intros [[X Y]|[X Y]]; (split; [lia|exact Y]).
      + intros [X Y]. destruct (N.eq_dec (grp k) i) as [Z|Z]; [left; auto|right; split; [lia|exact Y]].
  Qed.
  Lemma order_from c sp n : forall i, crel c sp -> i + N.of_nat n = 32 -> NoDup (map fst (all_from c n i)) /\
    forall a k b k' x x', map fst (all_from c n i) = a ++ k :: b -> In k' b -> sp_E sp k = Some x -> sp_E sp k' = Some x' -> grp k < grp k' \/ (grp k = grp k' /\ snd x < snd x').
  Proof.
    induction n as [|n IH]; intros i R Hi; cbn [all_from map]; [split; [constructor|]; intros [|] ? ? ? ? ? H; discriminate|].
    destruct (IH (i + 1) R ltac:(lia)) as [N1 O1]. destruct (items_at_ok c sp i R ltac:(lia)) as (_ & T & _). rewrite map_app.
    assert (GI : forall k, In k (map fst (items_at c i)) -> grp k = i) by (intros k Hk; apply in_map_iff in Hk; destruct Hk as ([k1 v1] & <- & Hk); apply (in_items _ _ _ _ _ R) in Hk; [apply Hk|lia]).
    assert (GA : forall k, In k (map fst (all_from c n (i + 1))) -> i < grp k) by (intros k Hk; apply in_map_iff in Hk; destruct Hk as ([k1 v1] & <- & Hk); apply (in_all _ _ _ _ _ _ R) in Hk; [cbn; lia|lia]).
    split.
    - apply NoDup_app_intro; [destruct T as (tl & _ & _ & _ & D & _); exact D|exact N1|]. intros k X Y. apply GI in X. apply GA in Y. lia.
    - intros a k b k' x x' E Hb X X'. destruct (Nat.ltb_spec (length a) (length (items_at c i))) as [L|L].
      + assert (EE : exists b1, map fst (items_at c i) = a ++ k :: b1 /\ b = b1 ++ map fst (all_from c n (i + 1))).
        { clear - E L. rewrite <- (map_length fst (items_at c i)) in L. revert a E L. induction (map fst (items_at c i)) as [|z m IH]; intros a E L; cbn in L; [lia|]. destruct a as [|y a]; cbn in *; injection E as <- E.
          - exists m. auto.
          - destruct (IH a E ltac:(lia)) as (b1 & -> & ->). eauto. }
        destruct EE as (b1 & E1 & ->). assert (GK : grp k = i) by (apply GI; rewrite E1; apply in_or_app; cbn; auto).
        apply in_app_or in Hb. destruct Hb as [Hb|Hb]; [|apply GA in Hb; left; lia]. assert (GK' : grp k' = i) by (apply GI; rewrite E1; apply in_or_app; cbn; auto). right. split; [congruence|].
        apply map_eq_app in E1. destruct E1 as (l1 & l2 & E1 & Ea & Eb). destruct l2 as [|[k2 v2] l2]; [discriminate|]. cbn in Eb. injection Eb as -> Eb. rewrite <- Eb in Hb. apply in_map_iff in Hb. destruct Hb as ([k3 v3] & E3 & Hb). cbn in E3. subst k3.
        destruct (trip_sub _ _ _ (l1 ++ [(k, v2)]) l2 ltac:(rewrite <- app_assoc; exact E1) T) as [_ O]. apply (O k v2 k' v3 x x'); [apply in_or_app; cbn; auto|exact Hb| |]; unfold rest; rewrite ?GK, ?GK', N.eqb_refl; assumption.
      + assert (EE : exists a1, map fst (all_from c n (i + 1)) = a1 ++ k :: b).
        { clear - E L. rewrite <- (map_length fst (items_at c i)) in L. revert a E L. induction (map fst (items_at c i)) as [|z m IH]; intros a E L; [exists a; exact E|]. destruct a as [|y a]; cbn in *; [lia|]. injection E as <- E. destruct (IH a E ltac:(lia)) as (a1 & E'). eauto. }
        destruct EE as (a1 & E1). eapply O1; eauto.
  Qed.
  Definition all_items (c : cache) : list (bytes * bytes) := all_from c (N.to_nat NUM_CACHE_SLOTS) 0.
  Lemma all_order c sp : crel c sp -> in_order (sp_E sp) (map fst (all_items c)).
  Proof.
    intros R. destruct (order_from c sp (N.to_nat NUM_CACHE_SLOTS) 0 R eq_refl) as [N1 O1]. split; [exact N1|]. split; [|exact O1]. intros k. split.
    - intros H. apply in_map_iff in H. destruct H as ([k1 v1] & <- & H). apply (in_all _ _ _ _ _ _ R) in H; [|reflexivity]. destruct H as [_ [t H]]. cbn. congruence.
    - intros H. destruct (sp_E sp k) as [[v t]|] eqn:E; [|congruence]. apply in_map_iff. exists (k, v). split; [reflexivity|]. apply (in_all _ _ _ _ _ _ R); [reflexivity|]. split; [lia|eauto].
  Qed.
  Lemma items_ok c sp : crel c sp -> cache_items c = Some (all_items c).
  Proof.
    intros R. unfold cache_items, all_items. assert (X : forall n i, i + N.of_nat n = 32 -> cache_items_from n i c = Some (all_from c n i)).
    { induction n as [|n IH]; intros i Hi; cbn [cache_items_from all_from]; [reflexivity|]. destruct (items_at_ok c sp i R ltac:(lia)) as (_ & _ & E & _). rewrite E. cbn [obind]. rewrite IH by lia. reflexivity. }
    apply X. reflexivity.
  Qed.
  Lemma count_ok c sp : crel c sp -> cache_count c = N.of_nat (length (all_items c)) /\ cache_eff c = sizes (all_items c).
  Proof.
    intros R. unfold cache_count, cache_eff, all_items. assert (X : forall n i, i + N.of_nat n = 32 -> sum_from N.add 0 (fun i => mnum (cs_m (c_slots c i))) n i = N.of_nat (length (all_from c n i)) /\ sum_from Z.add 0%Z (fun i => cs_eff (c_slots c i)) n i = sizes (all_from c n i)).
    { induction n as [|n IH]; intros i Hi; cbn [sum_from all_from]; [split; reflexivity|]. destruct (items_at_ok c sp i R ltac:(lia)) as (SR & _). destruct (IH (i + 1) ltac:(lia)) as [-> ->]. rewrite (srep_num _ _ _ SR), app_length. split; [lia|]. rewrite !sizes_lens, lens_app. destruct SR as [_ ->]. reflexivity. }
    apply X. reflexivity.
  Qed.
  Lemma items_slot_eq c c' g : c_slots c g = c_slots c' g -> items_at c g = items_at c' g.
  Proof. unfold items_at. intros ->. reflexivity. Qed.
  Lemma all_eq c c' n : forall i, (forall g, i <= g -> c_slots c g = c_slots c' g) -> all_from c n i = all_from c' n i.
  Proof. induction n as [|n IH]; intros i H; cbn [all_from]; [reflexivity|]. rewrite (items_slot_eq c c' i), (IH (i + 1)); [reflexivity|intros g Hg; apply H; lia|apply H; lia]. Qed.
  Lemma each_w_ok p mv n : forall i c sp, crel c sp -> i + N.of_nat n = 32 ->
    exists c' sp', cache_each_from hash n i c p true mv (sp_st sp) = Some (c', sp_st sp') /\ s_calls true sp (map (fun k => (k, p)) (map fst (all_from c n i))) sp' /\ crel c' sp'.
  Proof.
    induction n as [|n IH]; intros i c sp R Hi; cbn [cache_each_from all_from]; [exists c, sp; split; [reflexivity|split; [constructor|exact R]]|].
    destruct (items_at_ok c sp i R ltac:(lia)) as (_ & _ & E & _). unfold slot_each. rewrite E. cbn [obind].
    destruct (each_keys_ok i p mv (map fst (items_at c i)) c sp R) as (s1 & sp1 & E1 & S1 & R1 & O1).
    - intros k Hk. apply in_map_iff in Hk. destruct Hk as ([k1 v1] & <- & Hk). apply (in_items _ _ _ _ _ R) in Hk; [apply Hk|lia].
    - lia.
    - rewrite E1. cbn [obind fst snd]. destruct (IH (i + 1) (with_slot c i s1) sp1 R1 ltac:(lia)) as (c2 & sp2 & E2 & S2 & R2). exists c2, sp2. split; [exact E2|]. split; [|exact R2]. rewrite !map_app. eapply s_calls_app; [exact S1|].
      rewrite (all_eq c (with_slot c i s1) n (i + 1)); [exact S2|]. intros g Hg. cbn. rewrite updN_neq by lia. reflexivity.
  Qed.
  Lemma visit_fold sp c p n : crel c sp -> forall i st, i + N.of_nat n = 32 ->
    fold_left (fun x kv => snd (on_full p (fst kv) (snd kv) x)) (all_from c n i) st = fold_left (visit (sp_E sp) p) (map fst (all_from c n i)) st.
  Proof.
    intros R i st Hi. assert (H : forall k v, In (k, v) (all_from c n i) -> look (sp_E sp) k = Some v) by (intros k v Hk; apply (in_all _ _ _ _ _ _ R Hi) in Hk; destruct Hk as [_ [t Hk]]; unfold look; rewrite Hk; reflexivity).
    revert st H. induction (all_from c n i) as [|[k v] l IH]; intros st H; cbn [map fold_left fst snd]; [reflexivity|]. unfold visit at 2. rewrite (H k v (or_introl eq_refl)). apply IH. intros k' v' Hk. apply H. right. exact Hk.
  Qed.
  Lemma each_r_ok p mv n : forall i c sp, crel c sp -> i + N.of_nat n = 32 ->
    exists c', cache_each_from hash n i c p false mv (sp_st sp) = Some (c', fold_left (fun x kv => snd (on_full p (fst kv) (snd kv) x)) (all_from c n i) (sp_st sp)) /\ crel c' sp.
  Proof.
    induction n as [|n IH]; intros i c sp R Hi; cbn [cache_each_from all_from]; [exists c; split; [reflexivity|exact R]|].
    destruct (items_at_ok c sp i R ltac:(lia)) as (_ & _ & E & _). unfold slot_each. rewrite E. cbn [obind fst snd].
    assert (R1 : crel (with_slot c i (c_slots c i)) sp) by (eapply crel_ext; [exact R|reflexivity|reflexivity|intros g _; apply with_slot_same]).
    destruct (IH (i + 1) _ (with_st sp (fold_left (fun x kv => snd (on_full p (fst kv) (snd kv) x)) (items_at c i) (sp_st sp))) (crel_st _ _ _ R1) ltac:(lia)) as (c2 & E2 & R2). cbn [with_st sp_st] in E2.
    exists c2. split; [|exact R2]. rewrite E2, fold_left_app. rewrite (all_eq (with_slot c i (c_slots c i)) c n (i + 1)); [reflexivity|]. intros g _. apply with_slot_same.
  Qed.
  Lemma first_ok p w mv n : forall i c sp, crel c sp -> i + N.of_nat n = 32 ->
    exists r c' sp', cache_first_from hash n i c p w mv (sp_st sp) = Some (r, c', sp_st sp') /\ crel c' sp' /\
      ((r = false /\ all_from c n i = [] /\ sp' = sp) \/
       (r = true /\ exists k keys, map fst (all_from c n i) = k :: keys /\ if w then s_call sp k p true sp' else sp' = with_st sp (visit (sp_E sp) p (sp_st sp) k))).
  Proof.
    induction n as [|n IH]; intros i c sp R Hi; cbn [cache_first_from all_from]; [exists false, c, sp; split; [reflexivity|split; [exact R|auto]]|].
    destruct (items_at_ok c sp i R ltac:(lia)) as (SR & _ & E & _). unfold slot_first. destruct SR as [[L RR] EF]. rewrite (rep_first _ _ _ _ _ RR).
    assert (EK := r_kv _ _ _ _ _ _ _ RR). destruct L as [|f L].
    - destruct (items_at c i) as [|? ?] eqn:EI; [|discriminate]. cbn [hd_error obind fst snd app]. apply (IH (i + 1) c sp R). lia.
    - destruct (items_at c i) as [|[k v] l] eqn:EI; [discriminate|]. cbn [map] in EK. injection EK as EK _. cbn [hd_error obind]. unfold get_kv. rewrite EK. cbn [obind fst snd].
      assert (IN : In (k, v) (items_at c i)) by (rewrite EI; left; reflexivity). apply (in_items _ _ _ _ _ R) in IN; [|lia]. destruct IN as [GK [t EE]].
      destruct w.
      + destruct (call_ok c sp k p true mv R) as (s' & sp' & E1 & S1 & R1). rewrite GK in *. rewrite E1. cbn [obind fst snd]. exists true, (with_slot c i s'), sp'. split; [reflexivity|]. split; [exact R1|]. right. split; [reflexivity|]. exists k, (map fst (l ++ all_from c n (i + 1))). split; [reflexivity|exact S1].
      + cbn [obind fst snd]. eexists true, _, (with_st sp (visit (sp_E sp) p (sp_st sp) k)). split; [cbn [with_st sp_st]; unfold visit, look; rewrite EE; reflexivity|]. split; [apply crel_st; eapply crel_ext; [exact R|reflexivity|reflexivity|intros g _; apply with_slot_same]|]. right. split; [reflexivity|]. exists k, (map fst (l ++ all_from c n (i + 1))). split; reflexivity.
  Qed.
  Lemma all_slots_ok f n : forall i c, (forall g, i <= g -> g < i + N.of_nat n -> exists s, f (c_slots c g) = Some s) ->
    exists c', all_slots f n i c = Some c' /\ c_cap c' = c_cap c /\ c_mcap c' = c_mcap c /\ (forall g, i <= g -> g < i + N.of_nat n -> f (c_slots c g) = Some (c_slots c' g)) /\ (forall g, g < i -> c_slots c' g = c_slots c g).
  Proof.
    induction n as [|n IH]; intros i c H; cbn [all_slots]; [exists c; repeat split; auto; intros; lia|].
    destruct (H i ltac:(lia) ltac:(lia)) as (s & E). rewrite E. cbn [obind]. destruct (IH (i + 1) (with_slot c i s)) as (c' & E' & X1 & X2 & X3 & X4).
    - intros g Hg Hg'. cbn. rewrite updN_neq by lia. apply H; lia.
    - exists c'. split; [exact E'|]. split; [exact X1|]. split; [exact X2|]. cbn [with_slot c_slots] in X3, X4. split.
      + intros g Hg Hg'. destruct (N.eq_dec g i) as [->|NE]; [rewrite X4 by lia; rewrite updN_eq; exact E|]. rewrite <- X3 by lia. rewrite updN_neq by lia. reflexivity.
      + intros g Hg. rewrite X4 by lia. apply updN_neq. lia.
  Qed.
  Lemma fits_not_over cap mcap nb l : over cap mcap nb l = false -> forall a b, l = a ++ b -> b <> [] -> fits cap mcap nb a = true.
  Proof.
    unfold over, fits, memory_usage. intros H a b -> Hb. apply orb_false_iff in H. destruct H as [H1 H2]. apply N.ltb_ge in H1. apply Z.ltb_ge in H2. rewrite app_length in H1, H2. rewrite lens_app in H2. assert (L : (0 <= lens b)%Z) by (clear; induction b as [|x b IH]; [rewrite lens_nil|rewrite lens_cons]; lia).
    destruct b as [|x b]; [congruence|]. cbn [length] in *. apply andb_true_iff. split; [apply N.ltb_lt; lia|apply Z.ltb_lt; lia].
  Qed.
  Lemma rebuild_slots c sp cap mcap : crel c sp -> exists c' sp', cache_rebuild hash buckets c cap mcap = Some c' /\ crel c' sp' /\ s_op sp (ORebuild cap mcap) true sp' /\ sp_st sp' = sp_st sp.
  Proof.
    intros R. assert (R0 := R). destruct R as (C1 & C2 & C3 & C4). unfold cache_rebuild. cbv zeta. rewrite C1, C2. set (cap' := if 0 <? cap then cap else sp_cap sp). set (mcap' := if (0 <? mcap)%Z then mcap else sp_mcap sp).
    destruct (all_slots_ok (fun s => slot_rebuild hash buckets s (slot_cap cap') (slot_mcap mcap')) (N.to_nat NUM_CACHE_SLOTS) 0 (mkCache (c_slots c) cap' mcap')) as (c' & E & X1 & X2 & X3 & _).
    { intros g _ Hg. cbn [c_slots]. destruct (items_at_ok c sp g R0 Hg) as (SR & _). destruct (rebuild_ok hash buckets buckets_pos _ _ (slot_cap cap') (slot_mcap mcap') SR) as (s' & E & _). eauto. }
    assert (K : forall g, g < 32 -> srep (c_slots c' g) (keep (slot_cap cap') (slot_mcap mcap') (buckets (slot_cap cap')) [] (items_at c g)) /\ items_at c' g = keep (slot_cap cap') (slot_mcap mcap') (buckets (slot_cap cap')) [] (items_at c g) /\ cs_cap (c_slots c' g) = slot_cap cap' /\ cs_mcap (c_slots c' g) = slot_mcap mcap' /\ mnb (cs_m (c_slots c' g)) = buckets (slot_cap cap')).
    { intros g Hg. destruct (items_at_ok c sp g R0 Hg) as (SR & _). destruct (rebuild_ok hash buckets buckets_pos _ _ (slot_cap cap') (slot_mcap mcap') SR) as (s' & E1 & R1 & Q1 & Q2 & Q3). assert (Y := X3 g ltac:(lia) Hg). cbn [c_slots] in Y. rewrite E1 in Y. injection Y as ->. unfold items_at at 2. rewrite (srep_items _ _ _ R1). auto. }
    set (E' := fun k => if sfind k (items_at c' (grp k)) then sp_E sp k else None).
    assert (P : forall g, g < 32 -> exists l2, items_at c g = items_at c' g ++ l2). { intros g Hg. destruct (K g Hg) as (_ & -> & _). destruct (keep_prefix (slot_cap cap') (slot_mcap mcap') (buckets (slot_cap cap')) (items_at c g) []) as (l1 & l2 & -> & ->). cbn [app]. eauto. }
    exists c', (mkSp cap' mcap' E' (sp_M sp) (sp_t sp) (sp_st sp)). split; [exact E|]. split; [|split; [|reflexivity]].
    - split; [exact X1|]. split; [exact X2|]. cbn [sp_cap sp_mcap sp_E sp_M sp_t]. split.
      + intros g Hg. destruct (K g Hg) as (K1 & K2 & K3 & K4 & K5). exists (items_at c' g). rewrite K2 at 1. split; [exact K1|]. split; [|split; [exact K3|split; [exact K4|split; [exact K5|rewrite K2; apply (keep_len buckets buckets_pos); cbn; lia]]]].
        destruct (P g Hg) as [l2 EP]. destruct (items_at_ok c sp g R0 Hg) as (_ & T & _). destruct (trip_sub _ _ _ _ _ EP T) as [T1 _]. eapply trip_ext; [exact T1|]. intros k. unfold rest, E'. destruct (N.eqb_spec (grp k) g) as [->|]; [reflexivity|]. destruct (sfind k (items_at c' g)); reflexivity.
      + intros k v t H. unfold E' in H. destruct (sfind _ _); [|discriminate]. eapply C4; exact H.
    - cbn [s_op sp_cap sp_mcap sp_E sp_M sp_t sp_st]. split; [reflexivity|]. split; [reflexivity|]. split; [reflexivity|]. split; [reflexivity|]. split; [reflexivity|]. split; [reflexivity|]. split; [|split].
      + intros k. unfold E'. destruct (sfind _ _); auto.
      + intros k NO. unfold E'. destruct (items_at_ok c sp (grp k) R0 (grp_lt k)) as (_ & T & _). destruct (K (grp k) (grp_lt k)) as (_ & K2 & _).
        assert (OV := over_iff cap' mcap' _ _ _ (trip_slot _ _ _ _ T)). assert (KA : items_at c' (grp k) = items_at c (grp k)). { rewrite K2. rewrite keep_all; [reflexivity|]. cbn [app]. apply fits_not_over. destruct (over _ _ _ _); [exfalso; apply NO, OV; reflexivity|reflexivity]. }
        rewrite KA. assert (Y := trip_find bytes bytes beqb _ _ _ k T). unfold rest in Y. rewrite N.eqb_refl in Y. destruct (sfind k (items_at c (grp k))); [reflexivity|]. destruct (sp_E sp k); [discriminate|reflexivity].
      + intros k k' x x' G H1 H2 H3. unfold E' in H2, H3. destruct (P (grp k) (grp_lt k)) as [l2 EP]. destruct (items_at_ok c sp (grp k) R0 (grp_lt k)) as (_ & T & _). destruct (trip_sub _ _ _ _ _ EP T) as [_ O]. rewrite <- G in H3.
        destruct (sfind k' (items_at c' (grp k))) as [kv'|] eqn:F'; [|discriminate]. destruct (sfind k (items_at c' (grp k))) as [kv|] eqn:F; [congruence|]. apply (find_in bytes bytes beqb beqb_spec) in F'. destruct F' as [F1 F2]. destruct kv' as [k1 v']. cbn in F1. subst k1.
        destruct x as [v t]. assert (IN : In (k, v) (items_at c (grp k))) by (apply (in_items _ _ _ _ _ R0 (grp_lt k)); split; [reflexivity|eauto]). rewrite EP in IN. apply in_app_or in IN. destruct IN as [IN|IN]; [exfalso; unfold s_find in F; apply (find_none _ _ F) in IN; cbn in IN; rewrite beqb_refl in IN; discriminate|].
        apply (O k' v' k v x' (v, t) F2 IN); unfold rest; rewrite <- ?G, N.eqb_refl; assumption.
  Qed.
  Lemma exec_ok c sp o : crel c sp -> exists r c' sp', exec c o (sp_st sp) = Some (r, c', sp_st sp') /\ s_op sp o r sp' /\ crel c' sp'.
  Proof.
    intros R. destruct o as [k p w mv|l w mv|p w mv|p w mv| |cap mcap]; cbn [exec].
    - destruct (process_ok c sp k p w mv R) as (c' & sp' & E & S1 & R'). rewrite E. cbn [obind fst snd]. exists true, c', sp'. split; [reflexivity|]. split; [split; [reflexivity|exact S1]|exact R'].
    - destruct (multi_ok w mv l c sp R) as (c' & sp' & E & S1 & R'). rewrite E. cbn [obind fst snd]. exists true, c', sp'. split; [reflexivity|]. split; [split; [reflexivity|exact S1]|exact R'].
    - destruct (first_ok p w mv (N.to_nat NUM_CACHE_SLOTS) 0 c sp R eq_refl) as (r & c' & sp' & E & R' & H). unfold cache_first. rewrite E. exists r, c', sp'. split; [reflexivity|]. split; [|exact R']. cbn [s_op]. assert (O := all_order c sp R). unfold all_items in O. destruct H as [(-> & H & ->)|(-> & k & keys & H & H')].
      + left. rewrite H in O. split; [reflexivity|]. split; [|reflexivity]. intros k. destruct (sp_E sp k) eqn:EE; [|reflexivity]. exfalso. apply (proj1 (proj2 O) k). congruence.
      + right. split; [reflexivity|]. exists k, keys. rewrite H in O. split; [exact O|exact H'].
    - unfold cache_each. destruct w.
      + destruct (each_w_ok p mv (N.to_nat NUM_CACHE_SLOTS) 0 c (with_st sp (snd (on_empty p NOKEY (sp_st sp)))) (crel_st _ _ _ R) eq_refl) as (c' & sp' & E & S1 & R'). cbn [with_st sp_st] in E. rewrite E. cbn [obind fst snd].
        exists true, c', (with_st sp' (snd (on_empty p NOKEY (sp_st sp')))). split; [reflexivity|]. split; [|exact R']. split; [reflexivity|]. exists (map fst (all_items c)), (sp_st sp'). split; [apply all_order, R|]. split; [reflexivity|]. assert (X : with_st (with_st sp' (snd (on_empty p NOKEY (sp_st sp')))) (sp_st sp') = sp') by (destruct sp'; reflexivity). rewrite X. exact S1.
      + destruct (each_r_ok p mv (N.to_nat NUM_CACHE_SLOTS) 0 c (with_st sp (snd (on_empty p NOKEY (sp_st sp)))) (crel_st _ _ _ R) eq_refl) as (c' & E & R'). cbn [with_st sp_st] in E. rewrite E. cbn [obind fst snd].
        set (st := fold_left _ _ _). exists true, c', (with_st sp (snd (on_empty p NOKEY st))). split; [reflexivity|]. split; [|exact R']. split; [reflexivity|]. exists (map fst (all_items c)), st. split; [apply all_order, R|]. split; [reflexivity|]. split; [|reflexivity]. unfold st, all_items. apply visit_fold; [exact R|reflexivity].
    - unfold cache_clear. destruct (all_slots_ok (fun s => h <- slot_clean s ;; Some (slot_init buckets h (slot_cap (c_cap c)) (slot_mcap (c_mcap c)))) (N.to_nat NUM_CACHE_SLOTS) 0 c) as (c' & E & X1 & X2 & X3 & _).
      { intros g _ Hg. destruct (items_at_ok c sp g R Hg) as (SR & _). destruct (clean_ok _ _ _ SR) as (h & E). rewrite E. cbn [obind]. eauto. }
      rewrite E. cbn [obind]. exists true, c', (mkSp (sp_cap sp) (sp_mcap sp) (fun _ => None) aempty (sp_t sp) (sp_st sp)). split; [reflexivity|]. split; [split; reflexivity|]. destruct R as (C1 & C2 & C3 & C4). split; [cbn; congruence|]. split; [cbn; congruence|]. cbn [sp_cap sp_mcap sp_E sp_M sp_t]. split; [|intros k v t H; discriminate].
      intros g Hg. assert (Y := X3 g ltac:(lia) Hg). destruct (slot_clean (c_slots c g)) as [h|]; [|discriminate]. cbn [obind] in Y. injection Y as <-. exists []. split; [apply init_ok, buckets_pos|]. split; [apply trip_nil; [intros k; unfold rest; destruct (_ =? _); reflexivity]|]. cbn. rewrite C1, C2. repeat split; lia.
    - destruct (rebuild_slots c sp cap mcap R) as (c' & sp' & E & R' & H & HS). rewrite E. cbn [obind]. exists true, c', sp'. rewrite HS. auto.
  Qed.
  Lemma run_ok os : forall c sp, crel c sp -> exists rs c' sp', run c os (sp_st sp) = Some (rs, c', sp_st sp') /\ s_ops sp os rs sp' /\ crel c' sp'.
  Proof.
    induction os as [|o os IH]; intros c sp R; cbn [run]; [exists [], c, sp; split; [reflexivity|split; [constructor|exact R]]|].
    destruct (exec_ok c sp o R) as (r & c1 & sp1 & E1 & S1 & R1). rewrite E1. cbn [obind fst snd]. destruct (IH c1 sp1 R1) as (rs & c2 & sp2 & E2 & S2 & R2). rewrite E2. cbn [obind fst snd]. exists (r :: rs), c2, sp2. split; [reflexivity|]. split; [econstructor; eauto|exact R2].
  Qed.
  Definition sp_new (cap : N) (mcap : Z) (st : S) : spec := mkSp (if 0 <? cap then cap else 1000000) (if (0 <? mcap)%Z then mcap else (2^63 - 1)%Z) (fun _ => None) aempty 0 st.
  Lemma new_rel cap mcap st : crel (cache_new buckets cap mcap) (sp_new cap mcap st).
  Proof.
    split; [reflexivity|]. split; [reflexivity|]. cbn [sp_new sp_cap sp_mcap sp_E sp_M sp_t]. split; [|intros; discriminate]. intros g Hg. exists []. split; [apply init_ok, buckets_pos|]. split; [apply trip_nil; intros k; unfold rest; destruct (_ =? _); reflexivity|].
    cbn. repeat split; lia.
  Qed.

  (** Every history of any processors from an empty database: no undefined behaviour, every call sees the record
      of its key, a call moves its record to the most recently used end, the only record that an insertion evicts is
      the least recently used one of its slot and only if the slot is overfull; no slot ever holds more than its
      capacity of records; iteration, Count and GetEffectiveDataSize are exact; and every record holds the value
      last written for its key. *)
  Theorem C12_lru cap mcap os st :
    exists rs c sp l, run (cache_new buckets cap mcap) os st = Some (rs, c, sp_st sp) /\ s_ops (sp_new cap mcap st) os rs sp /\
      (forall g l', in_slot (sp_E sp) g l' -> N.of_nat (length l') <= sp_cap sp / 32 + 1) /\
      cache_items c = Some l /\ in_order (sp_E sp) (map fst l) /\ (forall k v, In (k, v) l <-> exists t, sp_E sp k = Some (v, t)) /\
      cache_count c = N.of_nat (length l) /\ cache_eff c = sizes l /\
      forall k v, In (k, v) l -> sp_M sp k = Some v.
  Proof.
    destruct (run_ok os _ _ (new_rel cap mcap st)) as (rs & c & sp & E & SO & R). exists rs, c, sp, (all_items c). split; [exact E|]. split; [exact SO|]. split; [|split; [eapply items_ok; exact R|split; [apply all_order, R|split; [|destruct (count_ok c sp R) as [X1 X2]; split; [exact X1|split; [exact X2|]]]]]].
    - intros g l' I'. destruct l' as [|[k v] l1]; [cbn; lia|]. assert (Hg : g < 32) by (destruct I' as [_ I']; assert (Y := proj1 (I' k v) (or_introl eq_refl)); destruct Y as [<- _]; apply grp_lt).
      destruct (items_at_ok c sp g R Hg) as (_ & T & _ & LE). assert (I := trip_slot _ _ _ _ T). assert (P : Permutation (items_at c g) ((k, v) :: l1)). { apply NoDup_Permutation; [apply (NoDup_map_inv fst), I|apply (NoDup_map_inv fst), I'|]. intros [k1 v1]. rewrite (proj2 I), (proj2 I'). reflexivity. }
      rewrite <- (Permutation_length P). unfold slot_cap in LE. change NUM_CACHE_SLOTS with 32 in LE. generalize dependent (sp_cap sp / 32 + 1). intros; lia.
    - intros k v. unfold all_items. rewrite (in_all c sp k v (N.to_nat NUM_CACHE_SLOTS) 0 R eq_refl). split; [intros [_ X]; exact X|intros X; split; [lia|exact X]].
    - intros k v H. unfold all_items in H. apply (in_all c sp k v (N.to_nat NUM_CACHE_SLOTS) 0 R eq_refl) in H. destruct H as [_ [t H]]. destruct R as (_ & _ & _ & C4). eapply C4; exact H.
  Qed.
End C12.

(** * The latest value *)
Section Latest.
  Variable hash : bytes -> N.
  Variable buckets : N -> N.
  Hypothesis buckets_pos : forall c, buckets c <> 0.
  (** Set with overwriting, Get, Remove, Clear and Rebuild. *)
  Inductive uop := USet (k v : bytes) (mv : bool) | UGet (k : bytes) | URemove (k : bytes) | UClear | URebuild (cap : N) (mcap : Z).
  Definition to_op (o : uop) : op (code * bytes) :=
    match o with
    | USet k v mv => OProcess _ k (pr_set v true) true mv
    | UGet k => OProcess _ k pr_get false false
    | URemove k => OProcess _ k pr_remove true false
    | UClear => OClear _
    | URebuild cap mcap => ORebuild _ cap mcap
    end.
  (** What was last set for a key and not removed since. *)
  Fixpoint latest (os : list uop) (m : amap) : amap :=
    match os with
    | [] => m
    | USet k v _ :: os' => latest os' (aset m k v)
    | URemove k :: os' => latest os' (adel m k)
    | UClear :: os' => latest os' aempty
    | _ :: os' => latest os' m
    end.
  Lemma latest_step os : forall sp rs sp' m, s_ops hash buckets _ sp (map to_op os) rs sp' -> (forall k v t, sp_E _ sp k = Some (v, t) -> m k = Some v) ->
    forall k v t, sp_E _ sp' k = Some (v, t) -> latest os m k = Some v.
  Proof.
    induction os as [|o os IH]; intros sp rs sp' m H I; inversion H as [|? ? ? sp1 ? ? ? H1 H2]; subst; cbn [latest]; [exact I|].
    destruct o as [k0 v0 mv|k0|k0| |cap mcap]; cbn [to_op s_op] in H1; apply (IH _ _ _ _ H2); clear IH H H2; intros k v t HE.
    - destruct H1 as [_ (_ & _ & _ & _ & _ & H1)]. rewrite aset_at. unfold answer in H1. destruct (look (sp_E _ sp) k0) as [w|]; cbn [pr_set on_full on_empty] in H1; destruct (sp_st _ sp) as [c o]; cbn [fst] in H1.
      + rewrite H1 in HE. unfold put in HE. destruct (beqb k k0); [congruence|eapply I; exact HE].
      + cbv zeta in H1. assert (HE' : put (sp_E _ sp) k0 v0 (sp_t _ sp) k = Some (v, t)). { destruct H1 as [[_ H1]|[_ (k1 & v1 & _ & H1)]]; rewrite H1 in HE; [exact HE|]. unfold del in HE. destruct (beqb k k1); [discriminate|exact HE]. }
        unfold put in HE'. destruct (beqb k k0); [congruence|eapply I; exact HE'].
    - destruct H1 as [_ (_ & _ & _ & _ & _ & H1)]. unfold look in H1. destruct (sp_E _ sp k0) as [[w t0]|] eqn:E0; cbn [option_map fst] in H1; rewrite H1 in HE; [|eapply I; exact HE]. unfold put in HE. destruct (beqb_spec k k0) as [->|]; [injection HE as <- <-|]; eapply I; eassumption.
    - destruct H1 as [_ (_ & _ & _ & _ & _ & H1)]. rewrite adel_at. unfold answer in H1. assert (L := eq_refl (look (sp_E _ sp) k0)). unfold look at 2 in L. destruct (look (sp_E _ sp) k0) as [w|]; cbn [pr_remove on_full on_empty] in H1; destruct (sp_st _ sp) as [c o]; cbn [fst] in H1; rewrite H1 in HE.
      + unfold del in HE. destruct (beqb k k0); [discriminate|eapply I; exact HE].
      + destruct (beqb_spec k k0) as [->|]; [rewrite HE in L; discriminate|eapply I; exact HE].
    - destruct H1 as [_ ->]. discriminate.
    - destruct H1 as (_ & _ & _ & _ & _ & _ & H1 & _). destruct (H1 k) as [X|X]; rewrite X in HE; [|discriminate]. eapply I; exact HE.
  Qed.
  (** Get after any history returns the value of the latest Set of the key that no Remove or Clear followed, or NOT_FOUND_ERROR. *)
  Theorem C12_latest cap mcap os k old st : exists rs c st' c' r,
    run hash buckets _ (cache_new buckets cap mcap) (map to_op os) st = Some (rs, c, st') /\
    cache_process hash c k pr_get false false (SUCCESS, old) = Some (c', r) /\
    ((exists v, r = (SUCCESS, v) /\ latest os aempty k = Some v) \/ r = (NOT_FOUND_ERROR, old)).
  Proof.
    destruct (run_ok hash buckets buckets_pos _ (map to_op os) _ _ (new_rel hash buckets buckets_pos _ cap mcap st)) as (rs & c & sp & E & SO & R). cbn [sp_new sp_st] in E.
    destruct (process_ok hash buckets buckets_pos _ c (with_st _ sp (SUCCESS, old)) k pr_get false false (crel_st _ _ _ _ _ _ R)) as (c' & sp' & E' & (_ & _ & _ & EA & _) & _). cbn [with_st sp_st sp_E] in *.
    exists rs, c, (sp_st _ sp), c', (sp_st _ sp'). split; [exact E|]. split; [exact E'|]. rewrite EA. unfold answer, look. destruct (sp_E _ sp k) as [[v t]|] eqn:EK; cbn; [left|right; reflexivity].
    exists v. split; [reflexivity|]. eapply latest_step; [exact SO| |exact EK]. cbn. discriminate.
  Qed.
End Latest.
Print Assumptions C12_lru.
Print Assumptions C12_latest.

(** * Concrete cases: the hash function of the code; for a small capacity the number of buckets is the capacity times 1.2 *)
Definition ch (k : bytes) : N := primary_hash k (2^64 - 1).
Definition cb (cap : N) : N := N.max 1 (cap * 12 / 10).
Lemma cb_pos c : cb c <> 0.
Proof. unfold cb. lia. Qed.
Definition urun (cap : N) (mcap : Z) (os : list uop) := run ch cb _ (cache_new cb cap mcap) (map to_op os) (SUCCESS, []).
Definition uitems (cap : N) (mcap : Z) (os : list uop) : option (list (bytes * bytes)) := r <- urun cap mcap os ;; cache_items (snd (fst r)).
(** Keys 2, 19 and 21 share a slot, whose capacity is 33/32+1 = 2: the Get saves record 2, and 19 is evicted. *)
Example C12_lru_ex : slot_of ch [2] = 9 /\ slot_of ch [19] = 9 /\ slot_of ch [21] = 9 /\
  uitems 33 0 [USet [2] [7] false; USet [19] [8] false; UGet [2]; USet [21] [9;9] true] = Some [([2], [7]); ([21], [9;9])].
Proof. vm_compute. repeat split. Qed.
Example C12_latest_ex : uitems 33 0 [USet [2] [7] false; USet [19] [8] false; USet [2] [1;2;3] true; URemove [19]; USet [5] [] false] = Some [([5], []); ([2], [1;2;3])].
Proof. vm_compute. reflexivity. Qed.

(** Not so for Rebuild: of a slot that is over its new capacity, it keeps the records least recently used. *)
Theorem C12_rebuild_refuted : ~ (forall cap mcap os cap' mcap' rs c st rs' c' st' l l' g a b,
  urun cap mcap os = Some (rs, c, st) -> urun cap mcap (os ++ [URebuild cap' mcap']) = Some (rs', c', st') ->
  slot_items (c_slots c g) = Some l -> slot_items (c_slots c' g) = Some l' -> l = a ++ [b] -> l' <> [] -> In b l').
Proof.
  intros H. assert (X := H 33 0%Z [USet [2] [7] false; USet [19] [8] false] 1 0%Z).
  destruct (urun 33 0 [USet [2] [7] false; USet [19] [8] false]) as [[[rs c] st]|] eqn:E1; [|vm_compute in E1; discriminate].
  destruct (urun 33 0 ([USet [2] [7] false; USet [19] [8] false] ++ [URebuild 1 0])) as [[[rs' c'] st']|] eqn:E2; [|vm_compute in E2; discriminate].
  assert (I1 : slot_items (c_slots c 9) = Some [([2], [7]); ([19], [8])]). { assert (Y : option_map (fun r => slot_items (c_slots (snd (fst r)) 9)) (urun 33 0 [USet [2] [7] false; USet [19] [8] false]) = Some (Some [([2], [7]); ([19], [8])])) by (vm_compute; reflexivity). rewrite E1 in Y. cbn [option_map fst snd] in Y. injection Y as Y. exact Y. }
  assert (I2 : slot_items (c_slots c' 9) = Some [([2], [7])]). { assert (Y : option_map (fun r => slot_items (c_slots (snd (fst r)) 9)) (urun 33 0 ([USet [2] [7] false; USet [19] [8] false] ++ [URebuild 1 0])) = Some (Some [([2], [7])])) by (vm_compute; reflexivity). rewrite E2 in Y. cbn [option_map fst snd] in Y. injection Y as Y. exact Y. }
  specialize (X rs c st rs' c' st' _ _ 9 [([2], [7])] ([19], [8]) eq_refl eq_refl I1 I2 eq_refl ltac:(discriminate)). cbn in X. destruct X as [X|[]]. discriminate.
Qed.
(** Nor does the memory capacity bound a slot: overwriting never evicts. *)
Theorem C12_memory_refuted : ~ (forall cap mcap os rs c st g, urun cap mcap os = Some (rs, c, st) -> (slot_usage (c_slots c g) <= slot_mcap (c_mcap c))%Z).
Proof.
  intros H. assert (X := H 33 3200%Z [USet [2] [7] false; USet [2] (repeat 1 100) false]).
  destruct (urun 33 3200 [USet [2] [7] false; USet [2] (repeat 1 100) false]) as [[[rs c] st]|] eqn:E1; [|vm_compute in E1; discriminate].
  specialize (X rs c st 9 eq_refl). assert (Y : option_map (fun r => (slot_usage (c_slots (snd (fst r)) 9), slot_mcap (c_mcap (snd (fst r))))) (urun 33 3200 [USet [2] [7] false; USet [2] (repeat 1 100) false]) = Some (151%Z, 101%Z)) by (vm_compute; reflexivity).
  rewrite E1 in Y. cbn [option_map fst snd] in Y. injection Y as Y1 Y2. rewrite Y1, Y2 in X. lia.
Qed.
(** A record that alone exceeds the memory capacity of its slot is evicted by the very Set that stores it. *)
Example C12_lone_ex : uitems 33 3200 [USet [2] (repeat 1 100) false] = Some [].
Proof. vm_compute. reflexivity. Qed.
